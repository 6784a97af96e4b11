(** Model of mdp/nodes/em_nodes.py: FANode.

    Numbers are those of an ordered field.  A d x k matrix is a function of two indices, of which only those in range are used.  [inv] is utils.inv (the theorems ask
    that what it returns is an inverse).  The covariance matrix and the mean of the training data (CovarianceMatrix with bias=True) are CovModel.v; here they are
    parameters.  The logarithm and the determinant occur only in the likelihood, which is an arbitrary function of the loading factors and the noise variances (of
    their values before the cycle changes them, :136, :155-157), and in the scale of the random initial factors, so that the initial factors are arbitrary.
    -inf is only the value of old_lhood in the first cycle, where it is not compared.  Random noise of generate_input and dtypes are not modelled. *)
From Coq Require Import List Arith Bool.
From Verif Require Import OField LinAlg.
Import ListNotations.
Local Open Scope of_scope.

Section FA.
  Context {K : ofield}.
  Notation vec := (vec (K := K)). Notation mtx := (mtx (K := K)).
  Variable inv : nat -> mtx -> mtx.     (* size, matrix *)
  Variables d k : nat.                  (* input_dim, output_dim *)
  Variable C : mtx.                     (* cov_mtx *)

  (** the parameters A and sigma *)
  Record params := mkPar { pA : mtx; pS : vec }.
  (** A A^T + Sigma: :131-133, :183-184 *)
  Definition big (p : params) : mtx := fun i j => fsumn k (fun l => pA p i l * pA p j l) + (if (i =? j)%nat then pS p i else 0).
  (** trA_B = A^T B :141 *)
  Definition trAB (p : params) : mtx := fun j i => fsumn d (fun l => pA p l j * inv d (big p) l i).
  (** trA_B_cov_mtx :142 *)
  Definition trABC (p : params) : mtx := fun j i => fsumn d (fun l => trAB p j l * C l i).
  (** E_yyT :146-148 *)
  Definition Eyy (p : params) : mtx := fun j l =>
    - fsumn d (fun i => trAB p j i * pA p i l) + fsumn d (fun i => trABC p j i * trAB p l i) + (if (j =? l)%nat then 1 else 0).
  (** M-step :151-152; the new sigma uses the new A *)
  Definition newA (p : params) : mtx := fun i j => fsumn k (fun l => trABC p l i * inv k (Eyy p) l j).
  Definition em_step (p : params) : params := mkPar (newA p) (fun i => C i i - fsumn k (fun l => newA p i l * trABC p l i)).

  (** the cycles :126-174: the likelihood of the parameters before the cycle, the base and the previous likelihood (None in the first cycle), lhood_curve, the number
      of warnings; returned with whether the loop ended by break *)
  Variable lhood : params -> K.
  Variable tol : K.
  Record em := mkEm { e_par : params; e_curve : list K; e_warn : nat; e_break : bool }.
  Fixpoint cycles (n : nat) (prev : option (K * K)) (p : params) (curve : list K) (warn : nat) : em :=
    match n with
    | O => mkEm p curve warn false
    | S n =>
        let l := lhood p in let p' := em_step p in
        match prev with
        | None => cycles n (Some (l, l)) p' (curve ++ [l]) warn
        | Some (base, old) =>
            if fltb (l - base) ((1 + tol) * (old - base)) then mkEm p' curve warn true
            else cycles n (Some (base, l)) p' (curve ++ [l]) (if fltb l old then S warn else warn)
        end
    end.
  (** _stop_training from the initial factors on: sigma is the diagonal of the covariance :109, :123 *)
  Definition fit (max_cycles : nat) (A0 : mtx) : em := cycles max_cycles None (mkPar A0 (fun i => C i i)) [] 0.

  (** E_y_mtx :183-186 *)
  Definition Ey (p : params) : mtx := fun i j => fsumn d (fun l => inv d (big p) l i * pA p l j).
  (** _execute :190-191 on one row *)
  Definition fa_exec (p : params) (mu x : vec) : vec := fun j => fsumn d (fun i => (x i - mu i) * Ey p i j).
  (** generate_input with given latent variables and without noise :228-231 *)
  Definition fa_gen (p : params) (mu y : vec) : vec := fun i => fsumn k (fun j => y j * pA p i j) + mu i.
End FA.
Arguments params : clear implicits.
Arguments em : clear implicits.

(** ** The life of a node: what is left after the exception of _stop_training *)
Section Life.
  Variables (X : Type) (singular : list X -> bool).       (* scale <= 0 :114-118 for the covariance of the chunks *)
  (** _cov_mtx (None: the attribute is deleted), _training, _train_phase_started *)
  Record fanode := mkFA { fa_acc : option (list X); fa_training : bool; fa_started : bool }.
  Inductive fares := FOk | FAttribute | FNode | FNotTrained | FFinished.
  (** __init__ :75-79 *)
  Definition fa_init : fanode := mkFA (Some []) true false.
  (** train: Node.train (signal_node.py:606-617) and _train :81-83 *)
  Definition fa_train (s : fanode) (x : X) : fanode * fares :=
    if negb (fa_training s) then (s, FFinished) else
    match fa_acc s with
    | None => (mkFA None true true, FAttribute)
    | Some l => (mkFA (Some (l ++ [x])) true true, FOk)
    end.
  (** stop_training: Node.stop_training (signal_node.py:626-639) and _stop_training :102-121; the attribute is deleted before the scale is looked at *)
  Definition fa_stop (s : fanode) : fanode * fares :=
    if fa_training s && negb (fa_started s) then (s, FNotTrained) else
    if negb (fa_training s) then (s, FFinished) else
    match fa_acc s with
    | None => (s, FAttribute)
    | Some l => if singular l then (mkFA None true true, FNode) else (mkFA None false false, FOk)
    end.
  (** what execute and generate_input do first: _if_training_stop_training (signal_node.py:505-512) *)
  Definition fa_ready (s : fanode) : fanode * fares := if fa_training s then fa_stop s else (s, FOk).
End Life.
