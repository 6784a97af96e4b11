(** Properties of SFANode.get_eta_values: C499, C500 *)
From Coq Require Import List Arith ZArith Reals Lra Lia Sorting.Sorted.
From Verif Require Import OField LinAlg PCAModel GenEig SymeigModel SFAModel SFAProps EtaModel.
Import ListNotations.

Section Eta.
  Notation vec := (vec (K := R_of)). Notation mtx := (mtx (K := R_of)). Notation sfa := (sfa (K := R_of)).
  Variables (dim : nat) (solver : method -> option (Z * Z) -> nat -> mtx -> mtx -> solres R_of vec).
  Notation trained := (trained (K := R_of) dim solver). Notation get_eta_values := (get_eta_values dim solver). Notation out_k := (out_k (K := R_of) dim).
  Notation solver_ok := (solver_ok (K := R_of) dim solver).
  Lemma trained_done out incl m calls s : trained out incl m calls s -> s_training s = false.
  Proof. intros T. apply (trained_ok dim solver) in T. tauto. Qed.
  (** ** C499 *)
  (** eta is t / 2 pi times the root of the delta value of the output on the training data *)
  Theorem C499_eta : forall out incl m calls s t k, trained out incl m calls s -> solver_ok m (derm calls) (covm incl calls) -> out <> Some 0 -> 2 <= length (samples incl calls) -> 2 <= length (steps calls) -> k < length (s_sf s) ->
    exists l, get_eta_values s t = (s, SOk l) /\ length l = length (s_sf s) /\
      nth k l 0%R = (t / (2 * PI) * sqrt (fold_right Rplus 0 (map (fun p => (out_k s k (fst p) - out_k s k (snd p)) ^ 2) (steps calls)) / (INR (length (steps calls)) - 1)))%R.
  Proof.
    intros out incl m calls s t k T OK NZ L1 L2 Hk. pose proof (C221_delta dim solver out incl m calls s k k T OK NZ L1 L2 Hk Hk) as D. rewrite Nat.eqb_refl in D.
    destruct (C221_order dim solver out incl m calls s T OK NZ L1 L2) as [LD _]. exists (eta_of t s). unfold EtaModel.get_eta_values. rewrite (trained_done _ _ _ _ _ T). split; [reflexivity|]. unfold eta_of. rewrite map_length. split; [exact LD|].
    rewrite (nth_indep _ 0%R (t / (2 * PI) * sqrt 0)%R) by (rewrite map_length; exact (eq_ind_r (fun n => k < n) Hk LD)). rewrite (map_nth (fun d : R => (t / (2 * PI) * sqrt d)%R) (s_d s) 0%R k).
    change (nth k (s_d s) 0%R) with (nth k (s_d s) (f0 (o := R_of))). rewrite <- D. f_equal. f_equal. cbn [fdiv fsub R_of f1]. f_equal.
    - clear. generalize (steps calls) as st. intros st. induction st as [|p l IH]; [reflexivity|]. cbn [map fold_right fsum]. rewrite IH. cbn [fadd fmul R_of]. change (fadd (o := R_of)) with Rplus. change (fmul (o := R_of)) with Rmult. f_equal. ring.
    - f_equal. clear. generalize (length (steps calls)) as n. intros n. induction n as [|n IHn]; [reflexivity|]. rewrite S_INR, <- IHn. cbn [fn]. change (fadd (o := R_of)) with Rplus. change (f1 (o := R_of)) with 1%R. apply Rplus_comm.
  Qed.
  (** called while the node is in training it is stop_training followed by get_eta_values; an exception of stop_training is that of get_eta_values *)
  Theorem C499_stop : forall s s' t, s_training s = true -> s_training s' = false -> sfa_stop dim solver s false = (s', SOk tt) -> get_eta_values s t = get_eta_values s' t.
  Proof. intros s s' t H H' E. unfold EtaModel.get_eta_values. now rewrite H, H', E. Qed.
  Theorem C499_error : forall s s' t e, s_training s = true -> sfa_stop dim solver s false = (s', SErr e) -> get_eta_values s t = (s', SErr e).
  Proof. intros s s' t e H E. unfold EtaModel.get_eta_values. now rewrite H, E. Qed.
  Lemma stop_done s s' u : sfa_stop dim solver s false = (s', SOk u) -> s_training s' = false.
  Proof.
    unfold sfa_stop. destruct (_ && _)%bool; [discriminate|]. destruct (negb _); [discriminate|]. destruct (set_range _ _) as [[o r]|]; [|discriminate]. destruct (s_mats _) as [[a b]|]; [|discriminate].
    destruct (solver _ _ _ _ _); try discriminate. destruct (_ =? _); [discriminate|]. destruct (existsb _ _); [discriminate|]. intros [= <- <-]. reflexivity.
  Qed.
  (** afterwards the node is trained, and further calls change nothing and give the same, or for another t a multiple of it *)
  Theorem C499_again : forall s s' t l t', get_eta_values s t = (s', SOk l) -> s_training s' = false /\ get_eta_values s' t = (s', SOk l) /\ (t <> 0%R -> get_eta_values s' t' = (s', SOk (map (fun e => (t' / t * e)%R) l))).
  Proof.
    intros s s' t l t' E. assert (H : s_training s' = false /\ l = eta_of t s').
    { unfold EtaModel.get_eta_values in E. destruct (s_training s) eqn:T; [destruct (sfa_stop _ _ _ _) as [x [u|e]] eqn:Es; [|discriminate]; injection E as <- <-; split; [exact (stop_done _ _ _ Es)|reflexivity]|injection E as <- <-; auto]. }
    destruct H as [H ->]. split; [exact H|]. unfold EtaModel.get_eta_values. rewrite H. split; [reflexivity|]. intros N. f_equal. f_equal. unfold eta_of. rewrite map_map. apply map_ext. intros d. field. split; [exact PI_neq0|exact N].
  Qed.
End Eta.
(** ** C500: "If x is a signal of length t which consists of a sine function that accomplishes exactly N oscillations, then eta(x) = N": not for the sampled signal. Four points of one
    oscillation give 3 / pi, whichever solver is used *)
(** one call of train with n points of N oscillations *)
Definition sine (N n : nat) : list (call (K := R_of)) := [(map (fun i => ((fun _ => sin (2 * PI * INR N * INR i / INR n)) : vec (K := R_of))) (seq 0 n), Some true)].
Theorem C500_refuted : forall solver incl s, solver_ok (K := R_of) 1 solver MNone (derm (sine 1 4)) (covm incl (sine 1 4)) -> trained (K := R_of) 1 solver None incl MNone (sine 1 4) s -> 0 < length (s_sf s) ->
  exists r, get_eta_values 1 solver s 4 = (s, SOk (3 / PI :: r)%R) /\ (3 / PI < 1)%R.
Proof.
  intros solver incl s OK T Hk. set (calls := sine 1 4) in *. assert (L1 : 2 <= length (samples incl calls)) by (cbn; lia). assert (L2 : 2 <= length (steps calls)) by (cbn; lia). assert (NZ : @None nat <> Some 0) by discriminate.
  destruct (C220_white 1 solver None incl MNone calls s 0 0 T OK NZ L1 L2 Hk Hk) as [M V]. destruct (C499_eta 1 solver None incl MNone calls s 4 0 T OK NZ L1 L2 Hk) as (l & E & Ll & N).
  assert (S0 : sin (2 * PI * INR 1 * INR 0 / INR 4) = 0%R) by (replace (2 * PI * INR 1 * INR 0 / INR 4)%R with 0%R by (cbn; field); apply sin_0).
  assert (S1 : sin (2 * PI * INR 1 * INR 1 / INR 4) = 1%R) by (replace (2 * PI * INR 1 * INR 1 / INR 4)%R with (PI / 2)%R by (cbn; field); apply sin_PI2).
  assert (S2 : sin (2 * PI * INR 1 * INR 2 / INR 4) = 0%R) by (replace (2 * PI * INR 1 * INR 2 / INR 4)%R with PI by (cbn; field); apply sin_PI).
  assert (S3 : sin (2 * PI * INR 1 * INR 3 / INR 4) = (-1)%R) by (replace (2 * PI * INR 1 * INR 3 / INR 4)%R with (3 * (PI / 2))%R by (cbn; field); apply sin_3PI2).
  assert (O : exists w b : R, forall x, out_k 1 s 0 x = (w * x 0%nat - b)%R).
  { unfold out_k, sfa_execute. destruct (trained_ok 1 solver None incl MNone calls s T) as (_ & _ & _ & _ & _ & _ & B & _). cbn [upto]. rewrite B. destruct (s_sf s) as [|v r]; [cbn in Hk; lia|]. exists (v 0), (dot 1 (s_avg s) v). intros x. cbn. ring. }
  destruct O as (w & b & O). unfold calls, sine, samples, steps, cchunk in M, V, N. cbn -[sin INR PI out_k Rdiv pow] in M, V, N. rewrite !O in M, V, N. rewrite ?S0, ?S1, ?S2, ?S3 in M, V, N.
  assert (B0 : b = 0%R) by lra. subst b. assert (W : (w * w = 3 / 2)%R). { cbn in V. field_simplify in V. nra. }
  destruct l as [|e r]; [cbn in Ll; lia|]. exists r. cbn [nth] in N. split.
  - rewrite E, N. f_equal. f_equal. f_equal. match goal with |- context [sqrt ?a] => replace a with ((3 / 2) * (3 / 2))%R end.
    + rewrite sqrt_square by lra. field. exact PI_neq0.
    + cbn [INR length]. cbn [pow]. nra.
  - pose proof PI2_3_2 as P. assert (P3 : (3 < PI)%R) by lra. apply (Rmult_lt_reg_r PI); [lra|]. replace (3 / PI * PI)%R with 3%R by (field; exact PI_neq0). lra.
Qed.
(** a solver for one input, and the node it gives *)
Definition sol1 (m : method) (rng : option (Z * Z)) (old : nat) (A B : mtx (K := R_of)) : solres R_of (vec (K := R_of)) :=
  let a : R := A 0 0 in let b : R := B 0 0 in if Rlt_dec 0 b then SolOk (Some 0) [(a / b)%R] [fun _ => (1 / sqrt b)%R] else SolSymeig.
Lemma sol1_ok m A B : solver_ok (K := R_of) 1 sol1 m A B.
Proof.
  intros k old dfc d U SA SB PA PB Hk E. unfold sol1 in E. set (a := A 0 0) in *. set (b := B 0 0) in *. change (car R_of) with R in a, b. destruct (Rlt_dec 0 b) as [P|P]; [|discriminate]. injection E as <- <- <-.
  assert (Q : sqrt b <> 0%R) by (apply Rgt_not_eq, sqrt_lt_R0, P). assert (QQ : (sqrt b * sqrt b = b)%R) by (apply sqrt_sqrt; lra).
  exists [(a / b)%R], [fun _ => (1 / sqrt b)%R]. split.
  - split; [reflexivity|]. split; [|split].
    + intros i j Hi Hj. cbn in Hi, Hj. assert (i = 0) by lia. assert (j = 0) by lia. subst. cbn. fold b. rewrite <- QQ at 2. field. exact Q.
    + intros i j Hi Hj. cbn in Hi, Hj. assert (i = 0) by lia. assert (j = 0) by lia. subst. cbn. fold a. rewrite <- QQ at 3. field. exact Q.
    + repeat constructor.
  - destruct k as [n|]; [|split; reflexivity]. specialize (Hk n eq_refl). assert (n = 1) by lia. subst. split; reflexivity.
Qed.
Lemma sine_vals : sin (2 * PI * INR 1 * INR 0 / INR 4) = 0%R /\ sin (2 * PI * INR 1 * INR 1 / INR 4) = 1%R /\ sin (2 * PI * INR 1 * INR 2 / INR 4) = 0%R /\ sin (2 * PI * INR 1 * INR 3 / INR 4) = (-1)%R.
Proof.
  repeat split.
  - replace (2 * PI * INR 1 * INR 0 / INR 4)%R with 0%R by (cbn; field); apply sin_0.
  - replace (2 * PI * INR 1 * INR 1 / INR 4)%R with (PI / 2)%R by (cbn; field); apply sin_PI2.
  - replace (2 * PI * INR 1 * INR 2 / INR 4)%R with PI by (cbn; field); apply sin_PI.
  - replace (2 * PI * INR 1 * INR 3 / INR 4)%R with (3 * (PI / 2))%R by (cbn; field); apply sin_3PI2.
Qed.
Example ex_C500 : exists s, trained (K := R_of) 1 sol1 None true MNone (sine 1 4) s /\ length (s_sf s) = 1 /\ get_eta_values 1 sol1 s 4 = (s, SOk [3 / PI]%R).
Proof.
  assert (X : exists s, trained (K := R_of) 1 sol1 None true MNone (sine 1 4) s /\ length (s_sf s) = 1 /\ length (s_d s) = 1).
  { unfold trained. eexists. split.
    - eexists. split; [reflexivity|]. unfold sfa_stop. cbn -[sin INR PI sol1]. unfold sol1. destruct sine_vals as (S0 & S1 & S2 & S3). rewrite S0, S1, S2, S3. match goal with |- context [Rlt_dec 0 ?b] => replace b with (2 / 3)%R by field end.
      destruct (Rlt_dec 0 (2 / 3)) as [_|N]; [|exfalso; lra]. cbn -[PI sqrt Rlt_dec Rdiv Rmult Rplus Rminus]. match goal with |- context [Rlt_dec ?a 0] => destruct (Rlt_dec a 0) as [N|_] end; [exfalso; match type of N with (?a < 0)%R => replace a with (9 / 4)%R in N by field end; lra|]. reflexivity.
    - split; reflexivity. }
  destruct X as (s & T & L & _). exists s. split; [exact T|]. split; [exact L|]. destruct (C500_refuted sol1 true s (sol1_ok _ _ _) T ltac:(lia)) as (r & E & _).
  destruct (C499_eta 1 sol1 None true MNone (sine 1 4) s 4 0 T (sol1_ok _ _ _) ltac:(discriminate) ltac:(cbn; lia) ltac:(cbn; lia) ltac:(lia)) as (l & E' & Ll & _). rewrite E in E'. injection E' as <-. rewrite L in Ll. destruct r; [exact E|discriminate].
Qed.
