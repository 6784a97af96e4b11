(** Model of mdp/utils/quad_forms.py: QuadraticForm, and of SFA2Node in mdp/nodes/sfa_nodes.py.

    Exact arithmetic over an ordered field, conventions as in PCAModel.v.  numx_linalg.eig, argsort, solve, qr and the square root are parameters; real parts are not
    taken.  The tolerances of the test for symmetry, the machine epsilon of get_extrema and the epsilon of the bisection are parameters.  The argument x0 of
    _maximize, which no caller uses, is not modelled.  The bisection takes fuel. *)
From Coq Require Import List Arith ZArith Bool.
From Verif Require Import OField LinAlg PCAModel SymeigModel SFAModel ExpModel.
Import ListNotations.
Open Scope nat_scope.

(** QuadraticFormException, LinAlgError, UnboundLocalError; QLoop: out of fuel *)
Inductive qerr := QSym | QLinAlg | QUnbound | QLoop.
Inductive qres (T : Type) := QOk (v : T) | QErr (e : qerr).
Arguments QOk {T}. Arguments QErr {T}.

Section Quad.
  Context {K : ofield}.
  Notation vec := (vec (K := K)). Notation mtx := (mtx (K := K)).
  Open Scope of_scope.
  Variable eig : nat -> mtx -> option (list K * list vec).   (* None: LinAlgError *)
  Variable argsort : list K -> list nat.
  Variable solve : nat -> mtx -> vec -> option vec.          (* None: LinAlgError *)
  Variable qr : nat -> mtx -> list vec.                      (* the columns of Q *)
  Variable sqrt_ : K -> K.
  Variable atol rtol eps_f eps_l : K.

  Record qform := mkQ { q_n : nat; q_H : mtx; q_f : vec; q_c : K }.
  (** __init__ (mdp/utils/quad_forms.py:26-43); numx.allclose(H, H.T) *)
  Definition allclose (n : nat) (H : mtx) : bool :=
    forallb (fun i => forallb (fun j => negb (fltb (atol + rtol * fabs (H j i)) (fabs (H i j - H j i)))) (seq 0 n)) (seq 0 n).
  Definition qf_new (n : nat) (H : mtx) (f : option vec) (c : option K) : qres qform :=
    if allclose n H then QOk (mkQ n H (match f with Some f => f | None => fun _ => 0 end) (match c with Some c => c | None => 0 end)) else QErr QSym.
  (** apply (mdp/utils/quad_forms.py:45-50) on one row; 0.5 is 1/2 *)
  Definition qf_apply (q : qform) (x : vec) : K :=
    1 / (1 + 1) * fsumn (q_n q) (fun j => fsumn (q_n q) (fun k => x k * q_H q j k) * x j) + dot (q_n q) x (q_f q) + q_c q.
  (** _eig_sort (mdp/utils/quad_forms.py:52-58) *)
  Definition eig_sort (n : nat) (H : mtx) : option (list K * list vec) :=
    match eig n H with
    | None => None
    | Some (E, W) => let idx := argsort E in Some (map (fun i => nth i E 0) idx, map (fun i => nth i W vzero) idx)
    end.
  Definition norm2 (n : nat) (x : vec) : K := sqrt_ (dot n x x).
  (** sum over k of alpha_k^2 beta_k^2, beta_k = 1 / (lambda - mu_k) *)
  Definition norm_x2 (mu alpha : list K) (l : K) : K := fsum (map (fun p : K * K => snd p * snd p * (1 / (l - fst p) * (1 / (l - fst p)))) (combine mu alpha)).
  (** the loop of _maximize; [lam] is the last value of lambd, None before the first round *)
  Fixpoint bisect (fuel : nat) (mu alpha : list K) (norm_2 tol : K) (ll lr nx : K) (lam : option K) : option (K * K * K * option K) :=
    if fltb tol (fabs (nx - norm_2)) && fltb eps_l ((lr - ll) / lr) then
      match fuel with
      | O => None
      | S fuel =>
          let l := 1 / (1 + 1) * (lr - ll) + ll in
          let nx := norm_x2 mu alpha l in
          if fltb norm_2 nx then bisect fuel mu alpha norm_2 tol l lr nx (Some l) else bisect fuel mu alpha norm_2 tol ll l nx (Some l)
      end
    else Some (ll, lr, nx, lam).
  (** _maximize (mdp/utils/quad_forms.py:97-132) without x0; factor -1 or None *)
  Definition maximize (fuel : nat) (q : qform) (norm tol : K) (neg : bool) : qres vec :=
    let n := q_n q in
    let H : mtx := if neg then fun i j => - q_H q i j else q_H q in
    let f : vec := if neg then fun i => - q_f q i else q_f q in
    match eig_sort n H with
    | None => QErr QLinAlg
    | Some (mu, V) =>
        let alpha := map (fun v => dot n v f) V in
        let ll := last mu 0 in
        let lr := norm2 n f / norm + ll in
        match bisect fuel mu alpha (norm * norm) tol ll lr 0 None with
        | None => QErr QLoop
        | Some (_, _, _, None) => QErr QUnbound
        | Some (_, _, _, Some l) => QOk (fun i => fsum (map (fun p : K * K * vec => snd p i * snd (fst p) * (1 / (l - fst (fst p)))) (combine (combine mu alpha) V)))
        end
    end.
  (** get_extrema (mdp/utils/quad_forms.py:60-95): (xmax, xmin) *)
  Definition get_extrema (fuel : nat) (q : qform) (norm tol : K) : qres (vec * vec) :=
    let n := q_n q in
    if forallb (fun i => fltb (fabs (q_f q i)) eps_f) (seq 0 n) then
      match eig_sort n (q_H q) with
      | None => QErr QLinAlg
      | Some (_, W) => QOk (fun i => last W vzero i * norm, fun i => hd vzero W i * norm)
      end
    else
      match eig_sort n (q_H q) with
      | None => QErr QLinAlg
      | Some (E, _) =>
          let pos := negb (fltb (hd 0 E) 0) in
          let ngt := negb pos && negb (fltb 0 (last E 0)) in
          match solve n (fun i j => - q_H q i j) (q_f q) with
          | None => QErr QLinAlg
          | Some x0 =>
              let inside := negb (fltb norm (norm2 n x0)) in
              match (if pos && inside then QOk x0 else maximize fuel q norm tol true) with
              | QErr e => QErr e
              | QOk xmin =>
                  match (if ngt && inside then QOk x0 else maximize fuel q norm tol false) with
                  | QErr e => QErr e
                  | QOk xmax => QOk (xmax, xmin)
                  end
              end
          end
      end.
  (** get_invariances (mdp/utils/quad_forms.py:134-160): the columns of w, and nu *)
  Definition get_invariances (q : qform) (xs : vec) : qres (list vec * list K) :=
    let n := q_n q in
    let r := norm2 n xs in
    let B := tl (qr n (fun i j => if j =? 0 then xs i else delta i j)) in
    match eig_sort (length B) (congr n (q_H q) B) with
    | None => QErr QLinAlg
    | Some (nu, w) =>
        let s := (quad n (q_H q) xs xs + dot n (q_f q) xs) / (r * r) in
        let nu := map (fun a => a - s) nu in
        let idx := argsort (map fabs nu) in
        QOk (map (fun i => comb B (nth i w vzero)) idx, map (fun i => nth i nu 0) idx)
    end.
End Quad.

(** ** SFA2Node *)
Section SFA2.
  Context {K : ofield}.
  Notation vec := (vec (K := K)). Notation mtx := (mtx (K := K)). Notation sfa := (sfa (K := K)).
  Variable dim : nat.                     (* input_dim *)
  Variable solver : method -> option (Z * Z) -> nat -> mtx -> mtx -> solres K vec.
  (** self._expnode: QuadraticExpansionNode (mdp/nodes/expansion_nodes.py:146-162) *)
  Definition edim : nat := Z.to_nat (expanded_dim 2 (Z.of_nat dim)).
  Definition expand (x : vec) : vec := fun i => match poly_execute (f0 : K) fmul 2 (map x (seq 0 dim)) with Some l => nth i l f0 | None => f0 end.
  (** _train (mdp/nodes/sfa_nodes.py:677-679) *)
  Definition sfa2_train (s : sfa) (x : list vec) (include_last_sample : option bool) : sfa * sres unit := sfa_train s (map expand x) include_last_sample.
  Fixpoint sfa2_trains (s : sfa) (calls : list (list vec * option bool)) : sfa * sres unit :=
    match calls with [] => (s, SOk tt) | (x, b) :: r => match sfa2_train s x b with (s, SOk _) => sfa2_trains s r | e => e end end.
  (** _set_range (mdp/nodes/sfa_nodes.py:681-689) *)
  Definition sfa2_range (s : sfa) : option (Z * Z) :=
    match s_out s with Some k => if k <=? edim then Some (1, Z.of_nat k)%Z else None | None => None end.
  (** _stop_training (mdp/nodes/sfa_nodes.py:691-696) and SFANode._stop_training (:263-318) *)
  Definition sfa2_stop (s : sfa) (debug : bool) : sfa * sres unit :=
    if s_training s && negb (s_started s) then (s, SErr STraining)
    else if negb (s_training s) then (s, SErr SFinished)
    else
      let s := sfa_fix s in
      let set dfc d u := mkS (s_out s) (s_incl s) (s_accs s) (s_mats s) (s_avg s) (s_tlen s) (s_dtlen s) (s_meth s) dfc d u (s_bias s) (s_started s) (s_training s) in
      match s_mats s with
      | None => (s, SErr SAttribute)
      | Some (cm, dm) =>
          match solver (s_meth s) (sfa2_range s) (s_dfc s) dm cm with
          | SolSymeig => (s, SErr SNode)
          | SolIndex => (s, SErr SIndex)
          | SolOk dfc d u =>
              let dfc := match dfc with Some k => k | None => s_dfc s end in
              if length d =? 0 then (set dfc d u, SErr SValue)
              else if existsb (fun a => fltb a f0) d then (set dfc d u, SErr SNode)
              else (mkS (Some (match s_out s with Some k => k | None => edim end)) (s_incl s) (s_accs s) (if debug then s_mats s else None) (s_avg s) (s_tlen s) (s_dtlen s) (s_meth s) dfc d u
                        (map (fun v => dot edim (s_avg s) v) u) false false, SOk tt)
          end
      end.
  (** _execute (mdp/nodes/sfa_nodes.py:698-710) *)
  Definition sfa2_execute (s : sfa) (n : option Z) (x : vec) : list K := sfa_execute edim s n (expand x).
  (** the loops of get_quadratic_form: h and k *)
  Definition upd2 (h : mtx) (i j : nat) (a : K) : mtx := fun i' j' => if (i' =? i) && (j' =? j) then a else h i' j'.
  Definition qf_step (sf : vec) (i : nat) (s : mtx * nat) (j : nat) : mtx * nat :=
    let (h, k) := s in
    if i <? j then (upd2 h i j (sf k), k + 1)
    else if j =? i then (upd2 h i j ((f1 + f1) * sf k)%of, k + 1)
    else (upd2 h i j (h j i), k).
  Definition qf_fill (sf : vec) : mtx * nat := fold_left (fun s i => fold_left (qf_step sf i) (seq 0 dim) s) (seq 0 dim) (fun _ _ => f0, dim).
  (** get_quadratic_form (mdp/nodes/sfa_nodes.py:712-743) of a trained node; None: IndexError *)
  Definition get_quadratic_form (atol rtol : K) (s : sfa) (nr : Z) : option (qres qform) :=
    let m := Z.of_nat (length (s_sf s)) in
    let i := (if (nr <? 0)%Z then nr + m else nr)%Z in
    if ((i <? 0) || (m <=? i))%Z then None
    else
      let sf := nth (Z.to_nat i) (s_sf s) vzero in
      Some (qf_new atol rtol dim (fst (qf_fill sf)) (Some sf) (Some (- dot edim (s_avg s) sf)%of)).
End SFA2.
