(** Model of mdp/nodes/rbm_nodes.py: RBMNode and RBMWithLabelsNode.

    Numbers are those of an ordered field with an arbitrary function [ex] in the place of exp; the theorems ask for the laws of the exponential function, and RBMProps.v
    instantiates them with the real exp.  A batch of n rows is a function of the row and the column.  random(shape) takes the next numbers of a stream [u], row by row;
    the random initial weights are arbitrary.  The arrays w, bv, bh are changed in place (:160, :166, :176), so that the attributes of the node change with them.
    Empty data are rejected by Node._check_input.  dtypes, printing and rounding are not modelled. *)
From Coq Require Import List Arith Bool ZArith.
From Verif Require Import OField.
Import ListNotations.
Local Open Scope of_scope.

Section RBM.
  Context {K : ofield}.
  Notation vec := (vec (K := K)). Notation mtx := (mtx (K := K)).
  Variable ex : K -> K.
  Variable u : nat -> K.             (* the random numbers *)

  (** w, bv, bh *)
  Record rbm := mkRBM { r_w : mtx; r_bv : vec; r_bh : vec }.
  Section Dims.
  Variables d m : nat.               (* input_dim, output_dim *)

  (** P(h=1|v) of _sample_h :96 and P(v=1|h) of _sample_v :102, one row *)
  Definition prob_h (p : rbm) (v : vec) : vec := fun j => 1 / (1 + ex (- r_bh p j - fsumn d (fun i => v i * r_w p i j))).
  Definition prob_v (p : rbm) (h : vec) : vec := fun i => 1 / (1 + ex (- r_bv p i - fsumn m (fun j => h j * r_w p i j))).
  (** (probs > random(probs.shape)).astype(...) :97, :103 from position [k] of the stream on, [c] columns *)
  Definition sample (k c : nat) (probs : mtx) : mtx := fun t j => if fltb (u (k + (t * c + j))%nat) (probs t j) then 1 else 0.
  (** _sample_h :94-98, _sample_v :100-104 on n rows: probabilities, sample, position *)
  Definition sample_h (n k : nat) (p : rbm) (v : mtx) : mtx * mtx * nat :=
    let pr := fun t => prob_h p (v t) in (pr, sample k m pr, (k + n * m)%nat).
  Definition sample_v (n k : nat) (p : rbm) (h : mtx) : mtx * mtx * nat :=
    let pr := fun t => prob_v p (h t) in (pr, sample k d pr, (k + n * d)%nat).
  (** _energy :232-234, one row *)
  Definition energy (p : rbm) (v h : vec) : K :=
    - fsumn d (fun i => v i * r_bv p i) - fsumn m (fun j => h j * r_bh p j) - fsumn m (fun j => fsumn d (fun i => v i * r_w p i j) * h j).

  (** the loop :152-154; [sv] is _sample_v, which the subclass replaces.  v_model and ph_model are unbound before the first round. *)
  Variable sv : nat -> nat -> rbm -> mtx -> mtx * mtx * nat.
  Fixpoint cd (rounds n k : nat) (p : rbm) (h : mtx) (last : option (mtx * mtx)) : option (mtx * mtx) * mtx * nat :=
    match rounds with
    | O => (last, h, k)
    | S r => let '(_, v', k1) := sv n k p h in let '(ph', h', k2) := sample_h n k1 p v' in cd r n k2 p h' (Some (v', ph'))
    end.
  Record hyper := mkHy { y_rounds : Z; y_eps : K; y_decay : K; y_mom : K; y_ph : bool }.
  (** the node: initialised, parameters, _delta, _train_err, position in the stream *)
  Record rstate := mkRS { s_init : bool; s_par : rbm; s_delta : rbm; s_err : K; s_pos : nat }.
  Definition zero : rbm := mkRBM (fun _ _ => 0) (fun _ => 0) (fun _ => 0).
  (** _init_weights :78-92 with the random parameters [p0] *)
  Definition init (p0 : rbm) (s : rstate) : rstate := if s_init s then s else mkRS true p0 zero (s_err s) (s_pos s).
  (** the new _delta :157-175 *)
  Definition delta' (y : hyper) (n : nat) (p dl : rbm) (v ph h v' ph' h' : mtx) : rbm :=
    mkRBM (fun i j => y_mom y * r_w dl i j + y_eps y * ((fsumn n (fun t => v t i * ph t j) - fsumn n (fun t => v' t i * ph' t j)) / fn n - y_decay y * r_w p i j))
          (fun i => y_mom y * r_bv dl i + y_eps y * ((fsumn n (fun t => v t i) - fsumn n (fun t => v' t i)) / fn n))
          (fun j => y_mom y * r_bh dl j + y_eps y * ((if y_ph y then fsumn n (fun t => ph t j) - fsumn n (fun t => ph' t j)
                                                      else fsumn n (fun t => h t j) - fsumn n (fun t => h' t j)) / fn n)).
  Definition plus (p q : rbm) : rbm := mkRBM (fun i j => r_w p i j + r_w q i j) (fun i => r_bv p i + r_bv q i) (fun j => r_bh p j + r_bh q j).
  (** _train :106-179; false: UnboundLocalError at :158 *)
  Definition train (y : hyper) (p0 : rbm) (n : nat) (v : mtx) (s : rstate) : rstate * bool :=
    let s1 := init p0 s in
    let '(ph, h, k1) := sample_h n (s_pos s1) (s_par s1) v in
    match cd (Z.to_nat (y_rounds y)) n k1 (s_par s1) h None with
    | (None, _, k2) => (mkRS true (s_par s1) (s_delta s1) (s_err s1) k2, false)
    | (Some (v', ph'), h', k2) =>
        let dl := delta' y n (s_par s1) (s_delta s1) v ph h v' ph' h' in
        (mkRS true (plus (s_par s1) dl) dl (fsumn n (fun t => fsumn d (fun i => (v t i - v' t i) * (v t i - v' t i)))) k2, true)
    end.
  (** _execute :252-272: result and position *)
  Definition exec (return_probs : bool) (n : nat) (v : mtx) (s : rstate) : mtx * rstate :=
    let '(ph, h, k) := sample_h n (s_pos s) (s_par s) v in
    (if return_probs then ph else h, mkRS (s_init s) (s_par s) (s_delta s) (s_err s) k).
  End Dims.

  (** RBMWithLabelsNode: [vd] visible and [ld] label variables *)
  Section Labels.
  Variables vd ld m : nat.
  (** the activation of the visible and label variables :348-349 *)
  Definition act (p : rbm) (h : vec) : vec := fun i => r_bv p i + fsumn m (fun j => h j * r_w p i j).
  Definition fmax (a b : K) : K := if fltb a b then b else a.
  Fixpoint maxn (n : nat) (f : nat -> K) : K := match n with O => f O | S n => fmax (maxn n f) (f (S n)) end.
  Definition soft_exp (p : rbm) (h : vec) (k : nat) : K := ex (act p h (vd + k)%nat - maxn (ld - 1) (fun l => act p h (vd + l)%nat)).
  (** probs_v and probs_l :352, :357-359 *)
  Definition lab_v (p : rbm) (h : vec) (i : nat) : K := 1 / (1 + ex (- act p h i)).
  Definition lab_l (p : rbm) (h : vec) (k : nat) : K := soft_exp p h k / fsumn ld (soft_exp p h).
  (** _sample_v(h) as called by _train :341-372: sample_l=False, concatenate=True *)
  Definition lab_sample (n k : nat) (p : rbm) (h : mtx) : mtx * mtx * nat :=
    let pr := fun t i => if (i <? vd)%nat then lab_v p (h t) i else lab_l p (h t) (i - vd)%nat in
    (pr, fun t i => if (i <? vd)%nat then sample k vd pr t i else pr t i, (k + n * vd)%nat).
  End Labels.
End RBM.
Arguments rbm : clear implicits. Arguments rstate : clear implicits. Arguments hyper : clear implicits.

(** What train, execute, sample_h and energy of RBMWithLabelsNode are given: v and l with their numbers of columns; numx.concatenate((v, l), axis=1) :397, :442, :468, :516.
    [None]: ValueError, the numbers of rows differ *)
Section Args.
  Context {A : Type}.
  Record arr := mkArr { a_cols : nat; a_rows : list (list A) }.
  Definition concat_cols (v l : arr) : option arr :=
    if (length (a_rows v) =? length (a_rows l))%nat
    then Some (mkArr (a_cols v + a_cols l) (map (fun p => fst p ++ snd p) (List.combine (a_rows v) (a_rows l)))) else None.
  (** input_dim, set by __init__ :331-332 if visible_dim is given, and the check of x, signal_node.py:469-491; true: accepted *)
  Definition lab_check (input_dim : option nat) (x : arr) : bool :=
    match input_dim with Some n => (a_cols x =? n)%nat && negb (length (a_rows x) =? 0)%nat | None => negb (length (a_rows x) =? 0)%nat end.
End Args.
Arguments arr : clear implicits.
