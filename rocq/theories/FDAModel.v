(** Model of mdp/nodes/fda_nodes.py: FDANode.

    Exact arithmetic over an ordered field, conventions as in PCAModel.v; the input dimension is fixed.  The labels are natural numbers (in the code any
    hashable values); the dictionaries means and tlens are one function from labels.  The order in which Python goes through a set of labels, the solver of the
    generalised eigenvalue problem and the pseudoinverse are parameters.  [None] stands for an attribute that was deleted.  The state after an exception is kept. *)
From Coq Require Import List Arith ZArith Bool.
From Verif Require Import OField LinAlg PCAModel SymeigModel SFAModel.
Import ListNotations.
Open Scope nat_scope.

(** NodeException, TrainingException, TrainingFinishedException, KeyError, AttributeError, SymeigException, ValueError, IndexError *)
Inductive ferr := FNode | FTraining | FFinished | FKey | FAttribute | FSymeig | FValue | FIndex.
Inductive fres (T : Type) := FOk (v : T) | FErr (e : ferr).
Arguments FOk {T}. Arguments FErr {T}.
(** the argument labels: a single label, or one for each observation *)
Inductive labels := One (l : nat) | Each (ls : list nat).

Section FDA.
  Context {K : ofield}.
  Notation vec := (vec (K := K)). Notation mtx := (mtx (K := K)). Notation acc := (acc (K := K)).
  Variable dim : nat.                     (* input_dim *)
  Variable labset : list nat -> list nat. (* the elements of set(labels_) in the order of iteration *)
  Variable solver : option (Z * Z) -> mtx -> mtx -> solres K vec.   (* mdp.utils.symeig *)
  Variable pinv : list vec -> list vec.   (* the rows of the pseudoinverse of the matrix with these columns *)

  (** fields: _output_dim, means and tlens, _train_phase, _train_phase_started, _allcov, _S_W (inner None: Python's None), v (list of columns), avg *)
  Record fda := mkF { f_out : option nat; f_means : nat -> option (vec * nat); f_phase : nat; f_started : bool; f_all : option acc; f_sw : option (option mtx); f_v : list vec; f_avg : vec }.
  (** __init__ :43-64 *)
  Definition fda_new (out : option nat) : fda := mkF out (fun _ => None) 0 false (Some acc_new) (Some None) [] (fun _ => f0).
  (** the groups of observations, _train_means :84-91 and _train_fda :131-139 *)
  Definition groups (lb : labels) (x : list vec) : list (nat * list vec) :=
    match lb with
    | One l => [(l, x)]
    | Each ls => map (fun l => (l, map fst (filter (fun p : vec * nat => snd p =? l) (combine x ls)))) (labset ls)
    end.
  Definition colsum (x : list vec) : vec := fun i => fsum (map (fun v : vec => v i) x).
  (** _update_means :98-111 *)
  Definition update_means (d : nat -> option (vec * nat)) (g : nat * list vec) : nat -> option (vec * nat) :=
    fun l => if l =? fst g then
               let (m, n) := match d l with Some e => e | None => ((fun _ => f0) : vec, 0) end in
               Some ((fun i => m i + colsum (snd g) i)%of : vec, n + length (snd g))
             else d l.
  (** _update_SW :156-166 for one group, after another; the first exception ends the loop *)
  Fixpoint update_sw (d : nat -> option (vec * nat)) (sw : mtx) (gs : list (nat * list vec)) : mtx * fres unit :=
    match gs with
    | [] => (sw, FOk tt)
    | (l, x) :: gs =>
        match d l with
        | None => (sw, FErr FKey)
        | Some (m, _) => update_sw d (fun i j => sw i j + fsum (map (fun v : vec => (v i - m i) * (v j - m j)) x))%of gs
        end
    end.
  (** _check_train_args :66-71 *)
  Definition labels_fit (lb : labels) (x : list vec) : bool := match lb with One _ => true | Each ls => length ls =? length x end.
  (** Node.train (mdp/signal_node.py:590-617) with _train_means :75-91 or _train_fda :116-139 *)
  Definition fda_train (s : fda) (x : list vec) (lb : labels) : fda * fres unit :=
    if 2 <=? f_phase s then (s, FErr FFinished)
    else if length x =? 0 then (s, FErr FNode)
    else if negb (labels_fit lb x) then (s, FErr FTraining)
    else if f_phase s =? 0 then
      (mkF (f_out s) (fold_left update_means (groups lb x) (f_means s)) 0 true (f_all s) (f_sw s) (f_v s) (f_avg s), FOk tt)
    else
      let set a w := mkF (f_out s) (f_means s) (f_phase s) true a w (f_v s) (f_avg s) in
      match f_sw s with
      | None => (set (f_all s) None, FErr FAttribute)
      | Some w =>
          let w := match w with Some w => w | None => fun _ _ => f0 end in
          match f_all s with
          | None => (set None (Some (Some w)), FErr FAttribute)
          | Some a => let (w, r) := update_sw (f_means s) w (groups lb x) in (set (Some (acc_update a x)) (Some (Some w)), r)
          end
      end.
  (** calls of train; the first exception ends the sequence *)
  Fixpoint fda_trains (s : fda) (calls : list (list vec * labels)) : fda * fres unit :=
    match calls with [] => (s, FOk tt) | (x, lb) :: r => match fda_train s x lb with (s, FOk _) => fda_trains s r | e => e end end.
  (** _stop_means :93-96 *)
  Definition divide (e : vec * nat) : vec * nat := ((fun i => fst e i / fn (snd e))%of, snd e).
  (** Node.stop_training (mdp/signal_node.py:619-639) with _stop_means :93-96 or _stop_fda :141-154 *)
  Definition fda_stop (s : fda) : fda * fres unit :=
    if (f_phase s <? 2) && negb (f_started s) then (s, FErr FTraining)
    else if 2 <=? f_phase s then (s, FErr FFinished)
    else if f_phase s =? 0 then (mkF (f_out s) (fun l => option_map divide (f_means s l)) 1 false (f_all s) (f_sw s) (f_v s) (f_avg s), FOk tt)
    else
      match f_all s with
      | None => (s, FErr FAttribute)
      | Some a =>
          let (st, avg) := acc_fix true a in
          match f_sw s with
          | None => (mkF (f_out s) (f_means s) 1 true None None (f_v s) avg, FErr FAttribute)
          | Some w =>
              let w := match w with Some w => w | None => fun _ _ => f0 end in
              let out := match f_out s with Some k => k | None => dim end in
              let rng := match f_out s with Some k => Some (1, Z.of_nat k)%Z | None => None end in
              let set v ph b := mkF (Some out) (f_means s) ph b None None v avg in
              match solver rng w st with
              | SolSymeig => (set (f_v s) 1 true, FErr FSymeig)
              | SolIndex => (set (f_v s) 1 true, FErr FIndex)
              | SolOk _ _ v => (set v 2 false, FOk tt)
              end
          end
      end.
  (** _execute :185-202 on one row of a trained node *)
  Definition fda_execute (s : fda) (n : option Z) (x : vec) : list K := map (fun v => dot dim (sub x (f_avg s)) v) (upto n (f_v s)).
  (** Node.inverse (mdp/signal_node.py:656-667) with the check of the dimension (mdp/signal_node.py:493-503), and _inverse :204-205, on one row of a trained node *)
  Definition fda_inverse (s : fda) (y : list K) : fres vec :=
    if negb (match f_out s with Some o => length y =? o | None => false end) then FErr FNode
    else
      let w := pinv (f_v s) in
      if length w =? length y then FOk (fun i => fsum (map (fun p : K * vec => fst p * snd p i) (combine y w)) + f_avg s i)%of else FErr FValue.
End FDA.
