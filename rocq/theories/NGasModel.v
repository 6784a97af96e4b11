(** Model of mdp/nodes/neural_gas_nodes.py: GrowingNeuralGasNode and NeuralGasNode, on top of the model of graphs (GraphModel).

    Positions are vectors of rationals, exact arithmetic; the data slots of nodes and edges are functions of their numbers.  argsort, argmax, the square
    root, the decay factors of NeuralGasNode, random positions and the permutation of the data are parameters (argsort does not say how it orders
    equal distances).  The state after an exception is kept. *)
From Coq Require Import List Arith QArith Qcanon Bool.
From Verif Require Import GraphModel CovModel.
Import ListNotations.
Open Scope nat_scope.

Definition upd {T} (f : nat -> T) (n : nat) (v : T) : nat -> T := fun m => if m =? n then v else f m.

Section Gas.
  Variable dim : nat.
  Variable argsort : list Qc -> list nat.
  Variable argmax : list Qc -> nat.
  Variable sqrtq : Qc -> Qc.

  (** graph, positions and cumulative errors of the nodes, ages of the edges *)
  Record gas := mkN { gg : graph; ps : nat -> row; er : nat -> Qc; ag : nat -> nat }.
  Definition set_g (s : gas) (g : graph) := mkN g (ps s) (er s) (ag s).
  Definition set_p (s : gas) (p : nat -> row) := mkN (gg s) p (er s) (ag s).
  Definition set_e (s : gas) (e : nat -> Qc) := mkN (gg s) (ps s) e (ag s).
  Definition set_a (s : gas) (a : nat -> nat) := mkN (gg s) (ps s) (er s) a.
  Definition no_gas : gas := mkN empty (fun _ => zero_row) (fun _ => 0%Qc) (fun _ => 0).

  (** _add_node :147-149 *)
  Definition add_n (s : gas) (p : row) : gas * nat :=
    let (g, n) := add_node (gg s) in (mkN g (upd (ps s) n p) (upd (er s) n 0%Qc) (ag s), n).
  (** _add_edge :151-152 *)
  Definition add_e (s : gas) (a b : nat) : gas :=
    let (g, e) := add_edge (gg s) a b in mkN g (ps s) (er s) (upd (ag s) e 0).
  (** squared distance :166-169, 533-535 *)
  Definition dist (p x : row) : Qc := qsum (map (fun i => (p i - x i) * (p i - x i))%Qc (seq 0 dim)).
  Definition distances (s : gas) (x : row) : list Qc := map (fun n => dist (ps s n) x) (g_nodes (gg s)).
  (** _get_nearest_nodes :154-176: the two nodes and the smallest squared distance *)
  Definition nearest (s : gas) (x : row) : gres (nat * nat * Qc) :=
    match argsort (distances s x) with
    | i :: j :: _ => match nth_error (g_nodes (gg s)) i, nth_error (g_nodes (gg s)) j with
                     | Some n0, Some n1 => GOk (n0, n1, nth i (distances s x) 0%Qc)
                     | _, _ => GErr GIndexError
                     end
    | _ => GErr GIndexError
    end.
  (** inc_age :41-43 *)
  Definition inc_ages (es : list nat) (a : nat -> nat) : nat -> nat := fold_left (fun a e => upd a e (a e + 1)) es a.
  (** _move_node :178-191 *)
  Definition move (eps : Qc) (x : row) (p : nat -> row) (n : nat) : nat -> row := upd p n (fun i => p n i + eps * (x i - p n i))%Qc.
  (** step 6 of _train :273-279, step 4 :502-511 *)
  Definition refresh (s : gas) (n0 n1 : nat) : gas * gres unit :=
    if mem n1 (neighbors (gg s) n0) then
      match get_edges (gg s) n0 (Some n1) with
      | e :: _ => (set_a s (upd (ag s) e 0), GOk tt)
      | [] => (s, GErr GIndexError)
      end
    else (add_e s n0 n1, GOk tt).

  (** ** GrowingNeuralGasNode *)
  (** degree() == 0: remove_node :203-206 *)
  Definition drop_if_isolated (g : graph) (n : nat) : graph * gres unit := if degree g n =? 0 then remove_node g n else (g, GOk tt).
  (** _remove_old_edges :193-206 *)
  Fixpoint remove_old (max_age : nat) (ages : nat -> nat) (es : list nat) (g : graph) : graph * gres unit :=
    match es with
    | [] => (g, GOk tt)
    | e :: es =>
        if max_age <? ages e then
          match remove_edge g e with
          | (g1, GErr x) => (g1, GErr x)
          | (g1, GOk _) =>
              match drop_if_isolated g1 (head_of g1 e) with
              | (g2, GErr x) => (g2, GErr x)
              | (g2, GOk _) =>
                  match drop_if_isolated g2 (tail_of g2 e) with
                  | (g3, GErr x) => (g3, GErr x)
                  | (g3, GOk _) => remove_old max_age ages es g3
                  end
              end
          end
        else remove_old max_age ages es g
    end.
  Variables eps_b eps_n alpha d : Qc.
  Variables max_age lambda max_nodes : nat.
  Definition half : Qc := Q2Qc (1 # 2).
  (** _insert_new_node :208-232 *)
  Definition insert (s : gas) : gas * gres unit :=
    let g := gg s in
    match nth_error (g_nodes g) (argmax (map (er s) (g_nodes g))) with
    | None => (s, GErr GValueError)
    | Some q =>
        let nb := neighbors g q in
        match nb with
        | [] => (s, GErr GValueError)
        | _ =>
            match nth_error nb (argmax (map (er s) nb)) with
            | None => (s, GErr GIndexError)
            | Some f =>
                let (s1, n) := add_n s (fun i => half * (ps s q i + ps s f i))%Qc in
                match get_edges (gg s1) q (Some f) with
                | [] => (s1, GErr GIndexError)
                | e :: _ =>
                    match remove_edge (gg s1) e with
                    | (g2, GErr x) => (set_g s1 g2, GErr x)
                    | (g2, GOk _) =>
                        let s3 := add_e (add_e (set_g s1 g2) q n) f n in
                        let e1 := upd (er s3) q (er s3 q * alpha)%Qc in
                        let e2 := upd e1 f (e1 f * alpha)%Qc in
                        (set_e s3 (upd e2 n (half * (e2 q + e2 f))%Qc), GOk tt)
                    end
                end
            end
        end
    end.
  (** the body of the loop of _train :252-290; [t] is tlen after the increment *)
  Definition adapt (t : nat) (x : row) (s : gas) : gas * gres unit :=
    match nearest s x with
    | GErr e => (s, GErr e)
    | GOk (n0, n1, d0) =>
        let s := set_a s (inc_ages (get_edges (gg s) n0 None) (ag s)) in
        let s := set_e s (upd (er s) n0 (er s n0 + sqrtq d0)%Qc) in
        let s := set_p s (fold_left (move eps_n x) (neighbors (gg s) n0) (move eps_b x (ps s) n0)) in
        match refresh s n0 n1 with
        | (s, GErr e) => (s, GErr e)
        | (s, GOk _) =>
            let (g, r) := remove_old max_age (ag s) (get_edges (gg s) n0 None) (gg s) in
            let s := set_g s g in
            match r with
            | GErr e => (s, GErr e)
            | GOk _ =>
                let (s, r) := if (t mod lambda =? 0) && (length (g_nodes (gg s)) <? max_nodes) then insert s else (s, GOk tt) in
                match r with
                | GErr e => (s, GErr e)
                | GOk _ => (set_e s (fold_left (fun er n => upd er n (er n * d)%Qc) (g_nodes (gg s)) (er s)), GOk tt)
                end
            end
        end
    end.
  Fixpoint adapts (t : nat) (xs : list row) (s : gas) : gas * nat * gres unit :=
    match xs with
    | [] => (s, t, GOk tt)
    | x :: xs => match adapt (t + 1) x s with (s, GErr e) => (s, t + 1, GErr e) | (s, GOk _) => adapts (t + 1) xs s end
    end.
  (** __init__ :135-141: two nodes and an edge *)
  Definition start (p q : row) : gas := let (s, a) := add_n no_gas p in let (s, b) := add_n s q in add_e s a b.
  (** _train :238-290; r, r' random positions *)
  Definition gng_train (r r' : row) (t : nat) (xs : list row) (s : gas) : gas * nat * gres unit :=
    adapts t xs (match g_nodes (gg s) with [] => fst (add_n (fst (add_n s r)) r') | _ => s end).
  (** calls of train *)
  Fixpoint gng_trains (rs : list (row * row * list row)) (t : nat) (s : gas) : gas * nat * gres unit :=
    match rs with
    | [] => (s, t, GOk tt)
    | (r, r', xs) :: rs => match gng_train r r' t xs s with (s, t, GOk _) => gng_trains rs t s | e => e end
    end.

  (** ** NeuralGasNode *)
  (** _remove_old_edges :547-556: a loop over the list from which the edges are removed; [i] is the position of the iterator *)
  Fixpoint sweep (fuel i : nat) (T : nat) (ages : nat -> nat) (g : graph) : graph * gres unit :=
    match fuel with
    | 0 => (g, GErr GFuel)
    | S fuel =>
        match nth_error (g_edges g) i with
        | None => (g, GOk tt)
        | Some e => if T <? ages e then match remove_edge g e with (g, GErr x) => (g, GErr x) | (g, GOk _) => sweep fuel (i + 1) T ages g end
                    else sweep fuel (i + 1) T ages g
        end
    end.
  (** positions of [ids] in the list of nodes *)
  Fixpoint pick (ns ids : list nat) : gres (list nat) :=
    match ids with
    | [] => GOk []
    | i :: ids => match nth_error ns i, pick ns ids with Some n, GOk l => GOk (n :: l) | None, _ => GErr GIndexError | _, r => r end
    end.
  (** the loop of _train :486-514; [h] k: epsilon * exp(-k / lambda); ages larger than T: larger than the integral part of T *)
  Fixpoint moves (h : nat -> Qc) (x : row) (k : nat) (ns : list nat) (p : nat -> row) : nat -> row :=
    match ns with [] => p | n :: ns => moves h x (k + 1) ns (move (h k) x p n) end.
  Definition ng_adapt (h : nat -> Qc) (T : nat) (x : row) (s : gas) : gas * gres unit :=
    match pick (g_nodes (gg s)) (argsort (distances s x)) with
    | GErr e => (s, GErr e)
    | GOk ranked =>
        let s := set_p s (moves h x 0 ranked (ps s)) in
        let s := set_a s (inc_ages (g_edges (gg s)) (ag s)) in
        match ranked with
        | n0 :: n1 :: _ =>
            match refresh s n0 n1 with
            | (s, GErr e) => (s, GErr e)
            | (s, GOk _) => let (g, r) := sweep (S (length (g_edges (gg s)))) 0 T (ag s) (gg s) in (set_g s g, r)
            end
        | _ => (s, GErr GIndexError)
        end
    end.
  Fixpoint ng_adapts (h : nat -> Qc) (T : nat) (xs : list row) (s : gas) : gas * gres unit :=
    match xs with [] => (s, GOk tt) | x :: xs => match ng_adapt h T x s with (s, GOk _) => ng_adapts h T xs s | r => r end end.
  Variable perm : nat -> list row -> list row.
  Variable decay : nat -> nat -> Qc.        (* epoch, rank *)
  Variable lifetime : nat -> nat.           (* epoch -> integral part of T *)
  (** the loop over the epochs :475-516 *)
  Fixpoint ng_epochs (n epoch : nat) (xs : list row) (s : gas) : gas * nat * gres unit :=
    match n with
    | 0 => (s, epoch, GOk tt)
    | S n => match ng_adapts (decay epoch) (lifetime epoch) (perm epoch xs) s with
             | (s, GOk _) => ng_epochs n (epoch + 1) xs s
             | (s, GErr e) => (s, epoch, GErr e)
             end
    end.
  Fixpoint add_ns (s : gas) (l : list row) : gas := match l with [] => s | p :: l => add_ns (fst (add_n s p)) l end.
  (** __init__ :334-451, _train :454-516; [init]: random positions, used if there are no nodes *)
  Definition ng_train (init : list row) (n epoch : nat) (xs : list row) (s : gas) : gas * nat * gres unit :=
    ng_epochs n epoch xs (match g_nodes (gg s) with [] => add_ns s init | _ => s end).
  (** nearest_neighbor :292-315, after the checks of execute: nodes and square roots of the smallest distances *)
  Fixpoint nearest_neighbor (xs : list row) (s : gas) : gres (list (nat * Qc)) :=
    match xs with
    | [] => GOk []
    | x :: xs => match nearest s x with GErr e => GErr e | GOk (n0, _, d0) => match nearest_neighbor xs s with GOk l => GOk ((n0, sqrtq d0) :: l) | GErr e => GErr e end end
    end.
  (** the array start_poss[0] of the caller: refcast (mdp/utils/routines.py:83-90) returns it if it has the dtype of the node, and the position of the
      first node is then this array (__init__ :138-139), which _move_node changes in place :191 *)
  Definition caller_start (same_dtype : bool) (p : row) (s : gas) : row := if same_dtype then ps s 0 else p.
End Gas.
