(** The embedding of LLENode and the estimated number of dimensions; HLLENode (LleModel.v). *)
From Coq Require Import Reals List Arith ZArith Bool Lia Lra Psatz.
From Verif Require Import CovModel ICAModel ICAProofs FastProps IsfaProofs LleModel LleProps.
Import ListNotations.
Open Scope R_scope.

(** ** C451: the embedding *)
Lemma mult_def d a b i j : mult d a b i j = rsum d (fun k => a i k * b k j). Proof. reflexivity. Qed.
Lemma eye_sym i j : eye i j = eye j i. Proof. unfold eye. rewrite Nat.eqb_sym. reflexivity. Qed.
(** numpy's symeig of a symmetric matrix: an orthonormal basis [u] (columns) of eigenvectors, ascending eigenvalues *)
Definition is_symeig (n : nat) (a : rmat) (e : rvec) (u : rmat) : Prop :=
  orthogonal n u /\ (forall i b, (i < n)%nat -> (b < n)%nat -> rsum n (fun j => a i j * u j b) = e b * u i b) /\ forall b b', (b <= b' < n)%nat -> e b <= e b'.
(** the cost of a coordinate: how badly it is reconstructed from the coordinates of the neighbours *)
Definition badness (n : nat) (w : rmat) (v : rvec) : R := rsum n (fun row => (v row - rsum n (fun j => w j row * v j)) * (v row - rsum n (fun j => w j row * v j))).
Definition sums_one (n : nat) (w : rmat) : Prop := forall row, (row < n)%nat -> rsum n (fun j => w j row) = 1.
Lemma cost_apply n w v i : (i < n)%nat -> rsum n (fun j => cost n w i j * v j) = rsum n (fun row => (w i row - eye i row) * (rsum n (fun j => w j row * v j) - v row)).
Proof.
  intros Hi. transitivity (rsum n (fun j => rsum n (fun row => minus_eye w i row * minus_eye w j row) * v j)); [reflexivity|]. unfold minus_eye. transitivity (rsum n (fun j => rsum n (fun row => (w i row - eye i row) * ((w j row - eye j row) * v j)))).
  - apply rsum_ext. intros j _. rewrite <- rsum_mulr. apply rsum_ext. intros. ring.
  - rewrite rsum_swap. apply rsum_ext. intros row Hr. rewrite rsum_mul. f_equal. transitivity (rsum n (fun j => w j row * v j - eye j row * v j)); [apply rsum_ext; intros; ring|]. rewrite rsum_sub. f_equal. transitivity (rsum n (fun j => eye row j * v j)); [apply rsum_ext; intros; rewrite eye_sym; reflexivity|]. now apply rsum_eye_l.
Qed.
Lemma cost_qf n w v : qf n (cost n w) v = badness n w v.
Proof.
  unfold qf, badness. transitivity (rsum n (fun i => rsum n (fun row => v i * ((w i row - eye i row) * (rsum n (fun j => w j row * v j) - v row))))).
  - apply rsum_ext. intros i Hi. rewrite (cost_apply n w v i Hi), <- rsum_mul. reflexivity.
  - rewrite rsum_swap. apply rsum_ext. intros row Hr. set (z := rsum n (fun j => w j row * v j) - v row). transitivity (rsum n (fun i => (w i row * v i - eye i row * v i) * z)); [apply rsum_ext; intros; ring|]. rewrite rsum_mulr, rsum_sub.
    assert (E : rsum n (fun i => eye i row * v i) = v row) by (transitivity (rsum n (fun j => eye row j * v j)); [apply rsum_ext; intros; rewrite eye_sym; reflexivity|now apply rsum_eye_l]). rewrite E. unfold z. ring.
Qed.
Theorem C451_constants n w : sums_one n w -> forall c, null n (cost n w) (fun _ => c).
Proof.
  intros H c i Hi. rewrite (cost_apply n w (fun _ => c) i Hi). apply rsum_zero. intros row Hr. cbv beta. rewrite rsum_mulr, (H row Hr). ring.
Qed.
Section Embed.
  Variables (n : nat) (w : rmat) (e : rvec) (u : rmat).
  Hypothesis Hu : is_symeig n (shifted n w) e u.
  Lemma cost_eig i b : (i < n)%nat -> (b < n)%nat -> rsum n (fun j => cost n w i j * u j b) = (e b - 1/10) * u i b.
  Proof.
    intros Hi Hb. pose proof (proj1 (proj2 Hu) i b Hi Hb) as E. assert (S : rsum n (fun j => shifted n w i j * u j b) = rsum n (fun j => cost n w i j * u j b) + 1/10 * u i b); [|lra].
    transitivity (rsum n (fun j => cost n w i j * u j b + 1/10 * (eye i j * u j b))); [|rewrite rsum_add, rsum_mul, (rsum_eye_l n i (fun j => u j b)) by exact Hi; reflexivity]. apply rsum_ext. intros j _. unfold shifted, add_diag. unfold eye. destruct (i =? j)%nat; ring.
  Qed.
  Lemma cost_sym i j : cost n w i j = cost n w j i. Proof. unfold cost. rewrite !mult_def. apply rsum_ext. intros. apply Rmult_comm. Qed.
  Lemma udot b b' : (b < n)%nat -> (b' < n)%nat -> rsum n (fun t => u t b * u t b') = eye b b'.
  Proof. intros Hb Hb'. exact (proj1 (proj1 Hu b b' Hb Hb')). Qed.
  Lemma eig_nonneg b : (b < n)%nat -> 0 <= e b - 1/10.
  Proof.
    intros Hb. assert (E : qf n (cost n w) (fun t => u t b) = e b - 1/10).
    { unfold qf. transitivity (rsum n (fun i => (e b - 1/10) * (u i b * u i b))); [apply rsum_ext; intros i Hi; rewrite cost_eig by assumption; ring|]. rewrite rsum_mul, udot by assumption. unfold eye. rewrite Nat.eqb_refl. ring. }
    rewrite <- E, cost_qf. apply lsum_nonneg. intros. apply Rle_0_sqr.
  Qed.
  (** the coordinates are orthonormal, and eigenvectors of the cost itself *)
  Theorem C451_coordinates : forall b b', (S b < n)%nat -> (S b' < n)%nat -> rsum n (fun t => projection u t b * projection u t b') = eye b b' /\
    badness n w (fun t => projection u t b) = e (S b) - 1/10.
  Proof.
    intros b b' Hb Hb'. unfold projection. split; [rewrite udot by assumption; reflexivity|]. rewrite <- cost_qf. unfold qf. transitivity (rsum n (fun i => (e (S b) - 1/10) * (u i (S b) * u i (S b)))); [apply rsum_ext; intros i Hi; rewrite cost_eig by assumption; ring|]. rewrite rsum_mul, udot by assumption. unfold eye. rewrite Nat.eqb_refl. ring.
  Qed.
  Hypothesis Hw : sums_one n w.
  Hypothesis Hnull : forall v, null n (cost n w) v -> forall i j, (i < n)%nat -> (j < n)%nat -> v i = v j.
  Lemma dot_one b : (b < n)%nat -> (e b - 1/10) * rsum n (fun t => u t b) = 0.
  Proof.
    intros Hb. rewrite <- rsum_mul. transitivity (rsum n (fun i => rsum n (fun j => cost n w i j * u j b))); [apply rsum_ext; intros i Hi; now rewrite cost_eig|]. rewrite rsum_swap. apply rsum_zero. intros j Hj. rewrite rsum_mulr. pose proof (C451_constants n w Hw 1 j Hj) as C. cbv beta in C. assert (E : rsum n (fun i => cost n w i j) = 0) by (rewrite <- C; apply rsum_ext; intros; rewrite cost_sym; ring). rewrite E. ring.
  Qed.
  Lemma const_dot v : (forall i j, (i < n)%nat -> (j < n)%nat -> v i = v j) -> forall x, rsum n (fun t => v t * x t) = v 0%nat * rsum n x.
  Proof. intros C x. rewrite <- rsum_mul. apply rsum_ext. intros t Ht. rewrite (C t 0%nat) by lia. reflexivity. Qed.
  Lemma eig_const b : (b < n)%nat -> e b - 1/10 = 0 -> forall i j, (i < n)%nat -> (j < n)%nat -> u i b = u j b.
  Proof. intros Hb E. apply (Hnull (fun t => u t b)). intros i Hi. rewrite cost_eig by assumption. rewrite E. ring. Qed.
  (** zero mean *)
  Theorem C451_centered b : (S b < n)%nat -> rsum n (fun t => projection u t b) = 0.
  Proof.
    intros Hb. unfold projection. destruct (Rmult_integral _ _ (dot_one (S b) Hb)) as [Z|Z]; [exfalso|exact Z].
    assert (Z0 : e 0%nat - 1/10 = 0). { pose proof (proj2 (proj2 Hu) 0%nat (S b) ltac:(lia)). pose proof (eig_nonneg 0%nat ltac:(lia)). lra. }
    pose proof (eig_const (S b) Hb Z) as C1. pose proof (eig_const 0%nat ltac:(lia) Z0) as C0.
    assert (D00 := udot 0 0 ltac:(lia) ltac:(lia)). assert (D11 := udot (S b) (S b) Hb Hb). assert (D01 := udot 0 (S b) ltac:(lia) Hb). unfold eye in *. rewrite Nat.eqb_refl in *. cbn [Nat.eqb] in D01, D00.
    rewrite (const_dot (fun t => u t 0%nat) C0) in D00, D01. rewrite (const_dot (fun t => u t (S b)) C1) in D11. apply Rmult_integral in D01. destruct D01 as [D|D]; [rewrite D in D00; lra|]. rewrite D in D11. lra.
  Qed.
  Lemma first_const : (1 < n)%nat -> e 0%nat - 1/10 = 0.
  Proof.
    intros Hn. destruct (Rmult_integral _ _ (dot_one 0%nat ltac:(lia))) as [Z|Z]; [exact Z|exfalso].
    (* all columns of u sum to zero, but u is orthogonal *)
    assert (A : forall b, (b < n)%nat -> rsum n (fun t => u t b) = 0) by (intros [|b] Hb; [exact Z|exact (C451_centered b Hb)]).
    assert (P : rsum n (fun s => rsum n (fun b => rsum n (fun t => u t b) * u s b)) = INR n).
    { transitivity (rsum n (fun _ => 1)); [|clear; induction n as [|m IH]; [reflexivity|]; rewrite rsum_S, IH, S_INR; ring]. apply rsum_ext. intros s Hs. transitivity (rsum n (fun t => rsum n (fun b => u t b * u s b))). { rewrite rsum_swap. apply rsum_ext. intros b _. rewrite rsum_mulr. reflexivity. }
      transitivity (rsum n (fun t => eye s t * 1)); [|now apply (rsum_eye_l n s (fun _ => 1))]. apply rsum_ext. intros t Ht. rewrite eye_sym, Rmult_1_r. exact (proj2 (proj1 Hu t s Ht Hs)). }
    rewrite rsum_zero in P; [|intros s _; apply rsum_zero; intros b Hb; rewrite A by exact Hb; ring]. assert (INR n <> 0) by (apply not_0_INR; lia). lra.
  Qed.
  (** the coordinates are reconstructed best: no centered vector, orthogonal to the coordinates before, of the same length has less cost *)
  Theorem C451_best b v : (S b < n)%nat -> rsum n v = 0 -> (forall b', (b' < b)%nat -> rsum n (fun t => v t * projection u t b') = 0) ->
    badness n w (fun t => projection u t b) * rsum n (fun t => v t * v t) <= badness n w v.
  Proof.
    intros Hb V0 Vb. rewrite (proj2 (C451_coordinates b b Hb Hb)). set (c := fun a => rsum n (fun t => v t * u t a)).
    assert (Ev : forall t, (t < n)%nat -> v t = rsum n (fun a => c a * u t a)).
    { intros t Ht. unfold c. transitivity (rsum n (fun s => v s * rsum n (fun a => u s a * u t a))).
      - transitivity (rsum n (fun s => eye t s * v s)); [symmetry; now apply rsum_eye_l|]. apply rsum_ext. intros s Hs. rewrite (eye_sym t s), Rmult_comm. f_equal. symmetry. exact (proj2 (proj1 Hu s t Hs Ht)).
      - transitivity (rsum n (fun s => rsum n (fun a => v s * u s a * u t a))); [apply rsum_ext; intros; rewrite <- rsum_mul; apply rsum_ext; intros; ring|]. rewrite rsum_swap. apply rsum_ext. intros a _. rewrite rsum_mulr. reflexivity. }
    assert (Nv : rsum n (fun t => v t * v t) = rsum n (fun a => c a * c a)).
    { transitivity (rsum n (fun t => rsum n (fun a => c a * (v t * u t a)))). { apply rsum_ext. intros t Ht. rewrite (Ev t Ht) at 2. rewrite <- rsum_mul. apply rsum_ext. intros. ring. } rewrite rsum_swap. apply rsum_ext. intros a _. rewrite rsum_mul. reflexivity. }
    assert (Bv : badness n w v = rsum n (fun a => (e a - 1/10) * (c a * c a))).
    { rewrite <- cost_qf. unfold qf. transitivity (rsum n (fun i => rsum n (fun a => (e a - 1/10) * c a * (v i * u i a)))).
      - apply rsum_ext. intros i Hi. rewrite <- rsum_mul. transitivity (v i * rsum n (fun j => rsum n (fun a => c a * (cost n w i j * u j a)))).
        + rewrite rsum_mul. f_equal. apply rsum_ext. intros j Hj. rewrite (Ev j Hj), <- rsum_mul. apply rsum_ext. intros; ring.
        + rewrite rsum_swap, <- rsum_mul. apply rsum_ext. intros a Ha. rewrite rsum_mul, cost_eig by assumption. ring.
      - rewrite rsum_swap. apply rsum_ext. intros a _. rewrite rsum_mul. change (rsum n (fun i => v i * u i a)) with (c a). ring. }
    rewrite Nv, Bv, <- rsum_mul. apply Rminus_le. rewrite <- rsum_sub. apply Ropp_le_cancel. rewrite Ropp_0. rewrite <- (Rmult_1_l (rsum n _)), Ropp_mult_distr_l, <- rsum_mul. apply lsum_nonneg. intros a Ha. apply in_seq in Ha.
    destruct (le_lt_dec (S b) a) as [L|L].
    - pose proof (proj2 (proj2 Hu) (S b) a ltac:(lia)). pose proof (Rle_0_sqr (c a)) as Q. unfold Rsqr in Q. nra.
    - assert (C0 : c a = 0); [|rewrite C0; lra]. destruct a as [|a]; [|apply Vb; lia]. unfold c. pose proof (eig_const 0%nat ltac:(lia) (first_const ltac:(lia))) as K. transitivity (rsum n (fun t => u t 0%nat * v t)); [apply rsum_ext; intros; ring|]. rewrite (const_dot (fun t => u t 0%nat) K), V0. ring.
  Qed.
End Embed.
(** Example: two points, each reconstructed from the other *)
Definition w2 : rmat := fun i j => if (i =? j)%nat then 0 else 1.
Definition u2 : rmat := fun i b => match i, b with 1%nat, 1%nat => - / sqrt 2 | _, _ => / sqrt 2 end.
Definition e2 : rvec := fun b => match b with 0%nat => 1/10 | _ => 41/10 end.
Lemma is2 : / sqrt 2 * / sqrt 2 = / 2. Proof. rewrite <- Rinv_mult, sqrt_sqrt; [reflexivity|lra]. Qed.
Example C451_example : is_symeig 2 (shifted 2 w2) e2 u2 /\ sums_one 2 w2 /\ (forall v, null 2 (cost 2 w2) v -> forall i j, (i < 2)%nat -> (j < 2)%nat -> v i = v j) /\ badness 2 w2 (fun t => projection u2 t 0%nat) = 4.
Proof.
  pose proof is2 as I. assert (C : forall i j, (i < 2)%nat -> (j < 2)%nat -> cost 2 w2 i j = if (i =? j)%nat then 2 else - (2)). { intros [|[|i]] [|[|j]] Hi Hj; try lia; unfold cost; rewrite mult_def, rsum2; unfold minus_eye, transp, ftrans, w2, eye; cbn [Nat.eqb]; ring. }
  assert (Sy : is_symeig 2 (shifted 2 w2) e2 u2).
  { split; [|split].
    - intros [|[|a]] [|[|b]] Ha Hb; try lia; split; rewrite mult_def, rsum2; unfold transp, ftrans, u2, eye; cbn [Nat.eqb]; lra.
    - intros [|[|a]] [|[|b]] Ha Hb; try lia; rewrite rsum2; unfold shifted, add_diag; rewrite !C by lia; unfold u2, e2; cbn [Nat.eqb]; lra.
    - intros [|[|b]] [|[|b']] H; try lia; unfold e2; lra. }
  split; [exact Sy|]. split; [intros [|[|r]] Hr; try lia; rewrite rsum2; unfold w2; cbn; lra|]. split.
  - intros v Nv. assert (v 0%nat = v 1%nat) as E. { specialize (Nv 0%nat ltac:(lia)). rewrite rsum2, !C in Nv by lia. cbn in Nv. lra. } intros [|[|i]] [|[|j]] Hi Hj; try lia; congruence.
  - rewrite (proj2 (C451_coordinates 2 w2 e2 u2 Sy 0%nat 0%nat ltac:(lia) ltac:(lia))). unfold e2. lra.
Qed.

(** ** C454: the estimated number of dimensions *)
Lemma cum_S s j x : nth_error s j = Some x -> cum s (S j) = cum s j + x.
Proof. unfold cum. revert j. induction s as [|y s IH]; intros [|j] E; cbn in *; try discriminate; [injection E as ->; destruct s; cbn; lra|]. specialize (IH j E). cbn in IH. destruct s; [destruct j; discriminate|]. rewrite IH. lra. Qed.
Lemma search_spec s : Forall (fun x => 0 <= x) s -> forall acc v, acc < v -> v <= acc + cum s (length s) -> let j := searchsorted s acc v in (j < length s)%nat /\ acc + cum s j < v <= acc + cum s (S j).
Proof.
  induction 1 as [|x s Hx Hs IH]; intros acc v Ha Hv; cbn [length searchsorted] in *; [cbn in Hv; lra|]. destruct (Rle_dec v (acc + x)) as [L|L].
  - cbn. split; [lia|]. destruct s; cbn; lra.
  - specialize (IH (acc + x) v ltac:(lra)). cbn in Hv |- *. unfold cum in *. destruct IH as (A & B); [lra|]. cbn zeta in *. set (j := searchsorted s (acc + x) v) in *. split; [lia|]. cbn [firstn fold_right] in *. rewrite Rplus_assoc in B. destruct s; [cbn in A; lia|]. cbn [firstn fold_right] in *. lra.
Qed.
Lemma cum_mono s : Forall (fun x => 0 <= x) s -> forall i j, (i <= j)%nat -> cum s i <= cum s j.
Proof.
  induction 1 as [|x s Hx Hs IH]; intros i j L; [unfold cum; rewrite !firstn_nil; lra|]. destruct i as [|i]; destruct j as [|j]; try lia; unfold cum in *; cbn [firstn fold_right]; [lra| |specialize (IH i j ltac:(lia)); lra]. specialize (IH 0%nat j ltac:(lia)). cbn [firstn fold_right] in IH. lra.
Qed.
Lemma ceil_spec x j : INR j < x <= INR (S j) -> ceil x = Z.of_nat (S j).
Proof.
  intros H. unfold ceil. assert (E : up (- x) = (- Z.of_nat j)%Z); [|rewrite E; lia]. symmetry. rewrite S_INR in H. apply tech_up; rewrite opp_IZR, <- INR_IZR_INZ; lra.
Qed.
(** the number of dimensions for one point: the smallest number which keeps the fraction [v] of the variance *)
Theorem C454_row s v : Forall (fun x => 0 <= x) s -> fold_right Rplus 0 s = 1 -> 0 < v <= 1 ->
  exists m j, m_est s v = inl m /\ ceil m = Z.of_nat (S j) /\ (S j <= length s)%nat /\ INR j < m <= INR (S j) /\ v <= cum s (S j) /\ forall i, v <= cum s i -> (S j <= i)%nat.
Proof.
  intros P T Hv. assert (Tc : cum s (length s) = 1) by (unfold cum; now rewrite firstn_all). destruct (search_spec s P 0 v) as (L & B); [lra|lra|]. unfold m_est. cbv zeta. set (j := searchsorted s 0 v) in *. destruct (nth_error s j) as [x|] eqn:E; [|apply nth_error_None in E; lia].
  rewrite (cum_S s j x E) in B. assert (B' : cum s j < v <= cum s j + x) by lra. assert (Hx : 0 < x) by lra.
  assert (M : exists m, (if (0 <? j)%nat then INR j + (v - cum s j) / x else v / x) = m /\ INR j < m <= INR (S j)).
  { eexists. split; [reflexivity|]. assert (K : 0 < (v - cum s j) / x <= 1). { split; [apply Rmult_lt_0_compat; [lra|now apply Rinv_0_lt_compat]|]. apply Rmult_le_reg_r with x; [exact Hx|]. unfold Rdiv. rewrite Rmult_assoc, Rinv_l by lra. lra. }
    rewrite S_INR. destruct (Nat.ltb_spec 0 j); [lra|]. assert (J0 : j = 0%nat) by lia. rewrite J0 in *. cbn [INR]. unfold cum in K. cbn [firstn fold_right] in K. rewrite Rminus_0_r in K. lra. }
  destruct M as (m & -> & M). exists m, j. split; [reflexivity|]. split; [now apply ceil_spec|]. split; [lia|]. split; [exact M|]. split; [rewrite (cum_S s j x E); lra|]. intros i Hi. destruct (le_lt_dec (S j) i); [assumption|exfalso]. pose proof (cum_mono s P i j ltac:(lia)). lra.
Qed.
(** the median lies between the smallest and the greatest entry *)
Definition is_median (median : list R -> R) : Prop := forall l lo hi, l <> [] -> (forall x, In x l -> lo < x <= hi) -> lo < median l <= hi.
Lemma ceil_range x k : 0 < x <= INR k -> (1 <= ceil x <= Z.of_nat k)%Z.
Proof.
  intros H. unfold ceil. destruct (archimed (- x)) as (A1 & A2). rewrite INR_IZR_INZ in H. split.
  - assert (up (- x) < 1)%Z; [|lia]. apply lt_IZR. lra.
  - assert (- Z.of_nat k < up (- x))%Z; [|lia]. apply lt_IZR. rewrite opp_IZR. lra.
Qed.
Lemma nonneg_sum s : Forall (fun x => 0 <= x) s -> 0 <= fold_right Rplus 0 s.
Proof. induction 1; cbn; lra. Qed.
Lemma map_div_sum t s : fold_right Rplus 0 (map (fun x => x / t) s) = fold_right Rplus 0 s * / t.
Proof. induction s as [|a s IH]; cbn; [ring|]. rewrite IH. unfold Rdiv. ring. Qed.
Theorem C454_range d argsort sig2 median n k v m z kk : is_median median -> (forall k a, Forall (fun x => 0 <= x) (sig2 k a)) -> (forall k a, (length (sig2 k a) <= kk)%nat) -> 0 < v <= 1 -> (1 <= n)%nat ->
  adjust d argsort sig2 median n k v m = inl z -> (1 <= z <= Z.of_nat kk)%Z.
Proof.
  intros Hm Hs Hl Hv Hn E. unfold adjust in E. destruct (seq_rows (adjust_row d argsort sig2 n k v m) (seq 0 n)) as [l|] eqn:El; [|discriminate]. injection E as <-. apply ceil_range. destruct (seq_rows_ok _ _ _ El) as (L & P). rewrite seq_length in L, P. apply (Hm l 0 (INR kk)); [intros ->; cbn in L; lia|].
  intros x I. apply (In_nth _ _ 0) in I. destruct I as (i & Hi & <-). specialize (P i 0 ltac:(lia)). unfold adjust_row in P. destruct (_ && _); [discriminate|]. set (s := sig2 (length _) _) in P. cbv zeta in P. destruct (Req_EM_T _ 0) as [|N]; [discriminate|].
  assert (Ps : Forall (fun x => 0 <= x) s) by apply Hs. assert (T : 0 <= fold_right Rplus 0 s) by (now apply nonneg_sum). set (t := fold_right Rplus 0 s) in *. assert (Ht : 0 < / t) by (apply Rinv_0_lt_compat; lra).
  destruct (C454_row (map (fun x => x / t) s) v) as (y & j & E1 & _ & Lj & R1 & _).
  - apply Forall_forall. intros x I. apply in_map_iff in I. destruct I as (x' & <- & I). rewrite Forall_forall in Ps. specialize (Ps x' I). unfold Rdiv. nra.
  - transitivity (t * / t); [|apply Rinv_r; lra]. apply map_div_sum.
  - exact Hv.
  - rewrite E1 in P. injection P as <-. rewrite map_length in Lj. split; [pose proof (pos_INR j); lra|]. apply Rle_trans with (INR (S j)); [lra|]. apply le_INR. specialize (Hl (length (nbrs_train d argsort n k m (nth i (seq 0 n) 0%nat))) (diffs m (m (nth i (seq 0 n) 0%nat)) (nbrs_train d argsort n k m (nth i (seq 0 n) 0%nat)))). fold s in Hl. lia.
Qed.
Example C454_example : exists m, m_est [7/10; 2/10; 1/10] (85/100) = inl m /\ m = 7/4 /\ ceil m = 2%Z.
Proof.
  unfold m_est. cbn [searchsorted]. destruct (Rle_dec (85/100) (0 + 7/10)); [lra|]. destruct (Rle_dec (85/100) (0 + 7/10 + 2/10)); [|lra]. cbn [nth_error Nat.ltb Nat.leb]. unfold cum. cbn [firstn fold_right INR]. eexists. split; [reflexivity|]. split; [field|]. apply (ceil_spec _ 1). cbn [INR]. lra.
Qed.

(** ** HLLENode *)
(** C455: the normalization of the embedding.  [u]: orthonormal columns (symeig); [v], [dv]: the eigenvectors and eigenvalues of Y.T Y *)
Definition orthonormal_cols (n dout : nat) (u : rmat) : Prop := forall b b', (b < dout)%nat -> (b' < dout)%nat -> rsum n (fun t => u t b * u t b') = eye b b'.
Definition is_eig (dout : nat) (a : rmat) (dv : rvec) (v : rmat) : Prop := orthogonal dout v /\ forall i b, (i < dout)%nat -> (b < dout)%nat -> rsum dout (fun j => a i j * v j b) = dv b * v i b.
Lemma hl_gram_eye n dout u i j : orthonormal_cols n dout u -> (i < dout)%nat -> (j < dout)%nat -> hl_gram n u i j = INR n * eye i j.
Proof.
  intros O Hi Hj. rewrite <- (O i j Hi Hj), <- rsum_mul. unfold hl_gram. rewrite mult_def. apply rsum_ext. intros t _. unfold transp, ftrans, hl_y. pose proof (sqrt_sqrt (INR n) (pos_INR n)). transitivity (sqrt (INR n) * sqrt (INR n) * (u t i * u t j)); [ring|]. rewrite H. ring.
Qed.
Lemma hl_eigs n dout u dv v b : orthonormal_cols n dout u -> is_eig dout (hl_gram n u) dv v -> (b < dout)%nat -> dv b = INR n.
Proof.
  intros O (Ov & E) Hb. assert (K : forall i, (i < dout)%nat -> INR n * v i b = dv b * v i b).
  { intros i Hi. rewrite <- E by assumption. transitivity (rsum dout (fun j => eye i j * (INR n * v j b))); [symmetry; now apply (rsum_eye_l dout i (fun j => INR n * v j b))|]. apply rsum_ext. intros j Hj. rewrite (hl_gram_eye n dout u i j O Hi Hj). ring. }
  pose proof (proj1 (Ov b b Hb Hb)) as N. rewrite mult_def in N. unfold transp, ftrans, eye in N. rewrite Nat.eqb_refl in N. assert (Z : (INR n - dv b) * 1 = 0); [|lra]. rewrite <- N, <- rsum_mul. apply rsum_zero. intros i Hi. specialize (K i Hi). transitivity ((INR n * v i b - dv b * v i b) * v i b); [ring|]. rewrite K. ring.
Qed.
Lemma hl_sqrtm n dout u dv v i j : orthonormal_cols n dout u -> is_eig dout (hl_gram n u) dv v -> (i < dout)%nat -> (j < dout)%nat -> sqrtm_of dout dv v i j = sqrt (INR n) * eye i j.
Proof.
  intros O E Hi Hj. unfold sqrtm_of. rewrite mult_def. rewrite <- (proj2 (proj1 E i j Hi Hj)), mult_def, <- rsum_mul. apply rsum_ext. intros b Hb. rewrite (hl_eigs n dout u dv v b O E Hb). unfold transp, ftrans. ring.
Qed.
(** the result is the eigenvectors times N, whatever the eigenvectors of Y.T Y *)
Theorem C455_projection n dout u dv v t b : orthonormal_cols n dout u -> is_eig dout (hl_gram n u) dv v -> (b < dout)%nat -> hl_projection n dout u dv v t b = INR n * u t b.
Proof.
  intros O E Hb. unfold hl_projection. rewrite mult_def. transitivity (rsum dout (fun j => (hl_y n u t j * sqrt (INR n)) * eye j b)).
  - apply rsum_ext. intros j Hj. rewrite (hl_sqrtm n dout u dv v j b O E Hj Hb). ring.
  - rewrite (rsum_eye_r dout b (fun j => hl_y n u t j * sqrt (INR n))) by exact Hb. unfold hl_y. pose proof (sqrt_sqrt (INR n) (pos_INR n)) as H. transitivity (sqrt (INR n) * sqrt (INR n) * u t b); [ring|]. rewrite H. ring.
Qed.
(** C455 (refuted): "normalize" makes every coordinate of length N, variance N for N points, neither unit length nor unit variance *)
Theorem C455_refuted n dout u dv v b : (2 <= n)%nat -> orthonormal_cols n dout u -> is_eig dout (hl_gram n u) dv v -> (b < dout)%nat ->
  let tp := hl_projection n dout u dv v in rsum n (fun t => tp t b * tp t b) = INR n * INR n /\ rsum n (fun t => tp t b * tp t b) <> 1 /\ rsum n (fun t => tp t b * tp t b) / INR n <> 1.
Proof.
  intros Hn O E Hb tp. assert (N : rsum n (fun t => tp t b * tp t b) = INR n * INR n).
  { transitivity (rsum n (fun t => INR n * INR n * (u t b * u t b))); [apply rsum_ext; intros t _; unfold tp; rewrite (C455_projection n dout u dv v t b O E Hb); ring|]. rewrite rsum_mul, (O b b Hb Hb). unfold eye. rewrite Nat.eqb_refl. ring. }
  rewrite N. apply le_INR in Hn. cbn [INR] in Hn. split; [reflexivity|]. split; [nra|]. unfold Rdiv. rewrite Rmult_assoc, Rinv_r by lra. lra.
Qed.
(** C456: the weights of the Hessian estimator *)
(** the columns of the orthogonal factor after the first are orthogonal to the constants, so the division by the sum never happens *)
Theorem C456_unnormalized k w : rsum k w = 0 -> forall t, hessian_weight k w t = w t.
Proof. intros E t. unfold hessian_weight. cbv zeta. rewrite E, Rabs_R0. destruct (Rlt_dec 0 (1/10000)); [field|lra]. Qed.
Theorem C456_refuted k w : rsum k w = 0 -> rsum k (hessian_weight k w) <> 1.
Proof. intros E. rewrite (rsum_ext k _ w) by (intros; now apply C456_unnormalized). lra. Qed.

(** ** C457: _mgs *)
Lemma vdot_sym m u v : vdot m u v = vdot m v u. Proof. apply rsum_ext. intros. ring. Qed.
Lemma vdot_lin m q u c v : vdot m q (fun t => u t - c * v t) = vdot m q u - c * vdot m q v.
Proof. unfold vdot. rewrite <- rsum_mul, <- rsum_sub. apply rsum_ext. intros. ring. Qed.
(** the columns of the result: unit length, orthogonal to each other, and orthogonal to everything the columns are orthogonal to *)
Lemma mgs_spec m : forall fuel cols l, length cols = fuel -> mgs_ fuel m cols = Some l ->
  length l = length cols /\ (forall i j, (i < length l)%nat -> (j < length l)%nat -> vdot m (nth i l (fun _ => 0)) (nth j l (fun _ => 0)) = eye i j) /\
  forall z, (forall c, In c cols -> vdot m z c = 0) -> forall q, In q l -> vdot m z q = 0.
Proof.
  induction fuel as [|fuel IH]; intros cols l Hl E.
  - destruct cols; [|discriminate]. injection E as <-. split; [reflexivity|]. split; [cbn; lia|intros z _ q []].
  - destruct cols as [|v rest]; [discriminate|]. injection Hl as Hl. cbn [mgs_] in E. cbv zeta in E. set (r := sqrt (vdot m v v)) in *. destruct (Req_EM_T r 0) as [|Nr]; [discriminate|]. set (q := fun t => v t / r) in *. destruct (mgs_ fuel m _) as [l'|] eqn:E'; [|discriminate]. injection E as <-.
    apply IH in E'; [|now rewrite map_length]. destruct E' as (L & O & Z). rewrite map_length in L.
    assert (Qs : forall z, vdot m z q = vdot m z v / r) by (intros z; unfold vdot, q, Rdiv; rewrite <- rsum_mulr; apply rsum_ext; intros; ring).
    assert (Qq : vdot m q q = 1). { rewrite Qs, vdot_sym, Qs. assert (R2 : r * r = vdot m v v) by (apply sqrt_sqrt, lsum_nonneg; intros; apply Rle_0_sqr). rewrite <- R2. field. exact Nr. }
    assert (Q0 : forall p, In p l' -> vdot m q p = 0) by (apply Z; intros c I; apply in_map_iff in I; destruct I as (x & <- & I); transitivity (vdot m q (fun t => x t - vdot m q x * q t)); [reflexivity|]; rewrite (vdot_lin m q x (vdot m q x) q), Qq; ring).
    split; [cbn; f_equal; exact L|]. split.
    + intros i j Hi Hj. cbn [length] in Hi, Hj. destruct i as [|i], j as [|j]; cbn [nth].
      * exact Qq.
      * apply (Q0 (nth j l' (fun _ => 0))), nth_In. lia.
      * rewrite vdot_sym. apply (Q0 (nth i l' (fun _ => 0))), nth_In. lia.
      * change (eye (S i) (S j)) with (eye i j). apply O; lia.
    + intros z Hz p [<-|I]; [change (vdot m z q = 0); rewrite Qs, (Hz v (or_introl eq_refl)); unfold Rdiv; ring|]. apply (Z z); [|exact I]. intros c Ic. apply in_map_iff in Ic. destruct Ic as (x & <- & Ix). transitivity (vdot m z (fun t => x t - vdot m q x * q t)); [reflexivity|]. rewrite (vdot_lin m z x (vdot m q x) q), (Hz x), Qs, (Hz v); [unfold Rdiv; ring|now left|now right].
Qed.
Theorem C457_orthonormal m cols l : mgs m cols = Some l -> length l = length cols /\ forall i j, (i < length l)%nat -> (j < length l)%nat -> vdot m (nth i l (fun _ => 0)) (nth j l (fun _ => 0)) = eye i j.
Proof. intros E. destruct (mgs_spec m (length cols) cols l eq_refl E) as (L & O & _). auto. Qed.
(** no more than m columns of length m can be orthonormal: with fewer neighbours than columns _mgs divides by zero *)
Theorem C457_refuted m cols : (m < length cols)%nat -> mgs m cols = None.
Proof.
  intros H. destruct (mgs m cols) as [l|] eqn:E; [exfalso|reflexivity]. destruct (C457_orthonormal m cols l E) as (L & O). set (N := length l) in *.
  (* Bessel: the sum over the coordinates of the squared components is at most m *)
  set (q := fun i t => nth i l (fun _ => 0) t). assert (S1 : rsum N (fun i => rsum m (fun t => q i t * q i t)) = INR N).
  { transitivity (rsum N (fun _ => 1)); [apply rsum_ext; intros i Hi; pose proof (O i i Hi Hi) as K; unfold eye in K; rewrite Nat.eqb_refl in K; exact K|]. clear. induction N as [|x IH]; [reflexivity|]. rewrite rsum_S, IH, S_INR. ring. }
  assert (B : forall t, (t < m)%nat -> rsum N (fun i => q i t * q i t) <= 1).
  { intros t Ht. set (s := rsum N (fun i => q i t * q i t)). assert (P : 0 <= rsum m (fun a => (eye t a - rsum N (fun i => q i t * q i a)) * (eye t a - rsum N (fun i => q i t * q i a)))) by (apply lsum_nonneg; intros; apply Rle_0_sqr).
    assert (E2 : rsum m (fun a => rsum N (fun i => q i t * q i a) * rsum N (fun i => q i t * q i a)) = s).
    { transitivity (rsum m (fun a => rsum N (fun i => q i t * rsum N (fun j => q j t * (q i a * q j a))))). { apply rsum_ext. intros a _. rewrite <- rsum_mulr. apply rsum_ext. intros i _. rewrite Rmult_assoc. f_equal. rewrite <- rsum_mul. apply rsum_ext. intros. ring. }
      rewrite rsum_swap. apply rsum_ext. intros i Hi. rewrite rsum_mul. f_equal. rewrite rsum_swap. transitivity (rsum N (fun j => eye i j * q j t)); [|exact (rsum_eye_l N i (fun j => q j t) Hi)]. apply rsum_ext. intros j Hj. rewrite rsum_mul. rewrite <- (O i j Hi Hj). rewrite Rmult_comm. reflexivity. }
    assert (E1 : rsum m (fun a => eye t a * rsum N (fun i => q i t * q i a)) = s) by (now rewrite (rsum_eye_l m t (fun a => rsum N (fun i => q i t * q i a)))).
    assert (E0 : rsum m (fun a => eye t a * eye t a) = 1) by (rewrite (rsum_eye_l m t (fun a => eye t a)) by exact Ht; unfold eye; now rewrite Nat.eqb_refl).
    assert (X : rsum m (fun a => (eye t a - rsum N (fun i => q i t * q i a)) * (eye t a - rsum N (fun i => q i t * q i a))) = 1 - s - (s - s)); [|lra].
    transitivity (rsum m (fun a => eye t a * eye t a - eye t a * rsum N (fun i => q i t * q i a)) - rsum m (fun a => eye t a * rsum N (fun i => q i t * q i a) - rsum N (fun i => q i t * q i a) * rsum N (fun i => q i t * q i a))); [rewrite <- rsum_sub; apply rsum_ext; intros; ring|]. rewrite !rsum_sub, E0, E1, E2. ring. }
  assert (S2 : rsum m (fun t => rsum N (fun i => q i t * q i t)) <= INR m). { clear -B. assert (G : forall x, (x <= m)%nat -> rsum x (fun t => rsum N (fun i => q i t * q i t)) <= INR x) by (induction x as [|x IH]; intros Hx; [cbn; lra|rewrite rsum_S, S_INR; specialize (IH ltac:(lia)); specialize (B x ltac:(lia)); lra]). apply G. lia. }
  rewrite rsum_swap, S1 in S2. apply INR_le in S2. lia.
Qed.
(** so for k neighbours the estimator needs k >= 1 + d_out + d_out (d_out + 1)/2; the constructor only asks for k > 0 (and k > d_out) *)
Lemma pairs_len d : length (pairs_le d) = (d * (d + 1) / 2)%nat.
Proof.
  assert (G : forall y x, (d - x = y)%nat -> (length (flat_map (fun i => map (fun j => (i, j)) (seq i (d - i))) (seq x y)) * 2 = y * (y + 1))%nat).
  - induction y as [|y IH]; intros x Ey; [reflexivity|]. cbn [seq flat_map]. rewrite app_length, map_length, seq_length. specialize (IH (S x) ltac:(lia)). lia.
  - specialize (G d 0%nat ltac:(lia)). unfold pairs_le. rewrite <- G, Nat.div_mul by lia. reflexivity.
Qed.
Theorem C457_columns dout nb : length (hessian_cols dout nb) = (1 + dout + dout * (dout + 1) / 2)%nat.
Proof. unfold hessian_cols. cbn [length]. rewrite app_length, !map_length, seq_length, pairs_len. lia. Qed.
Theorem C457_few k dout nb : (k < 1 + dout + dout * (dout + 1) / 2)%nat -> mgs k (hessian_cols dout nb) = None.
Proof. intros H. apply C457_refuted. rewrite C457_columns. exact H. Qed.
(** the orthogonal factor of the Hessian columns: all but the first sum to zero *)
Theorem C456_sums k dout nb l : mgs k (hessian_cols dout nb) = Some l -> forall i, (1 <= i < length l)%nat -> rsum k (nth i l (fun _ => 0)) = 0.
Proof.
  intros E i Hi. pose proof (C457_orthonormal _ _ _ E) as (L & O). unfold mgs, hessian_cols in E. cbn [length mgs_] in E. cbv zeta in E. set (r := sqrt (vdot k (fun _ => 1) (fun _ => 1))) in *. destruct (Req_EM_T r 0) as [|N]; [discriminate|]. destruct (mgs_ _ _ _) as [l'|]; [|discriminate]. injection E as <-.
  specialize (O 0%nat i ltac:(lia) ltac:(lia)). unfold eye in O. destruct i as [|i]; [lia|]. cbn [Nat.eqb nth] in O |- *. set (z := nth i l' (fun _ => 0)) in *. assert (K : vdot k (fun _ => 1 / r) z = 1 / r * rsum k z) by (unfold vdot; apply rsum_mul). rewrite K in O. apply Rmult_integral in O. destruct O as [O|O]; [|exact O]. exfalso. unfold Rdiv in O. rewrite Rmult_1_l in O. now apply Rinv_neq_0_compat in O.
Qed.

(** LAPACK's qr: orthonormal columns, the first column of the matrix is a multiple of the first of them *)
Theorem C456_qr k (q : rmat) c : (forall i, (1 <= i)%nat -> vdot k (fun t => q t 0%nat) (fun t => q t i) = 0) -> (forall t, (t < k)%nat -> 1 = c * q t 0%nat) -> forall i, (1 <= i)%nat -> rsum k (fun t => q t i) = 0.
Proof. intros O H i Hi. transitivity (c * vdot k (fun t => q t 0%nat) (fun t => q t i)); [|rewrite O by exact Hi; ring]. unfold vdot. rewrite <- rsum_mul. apply rsum_ext. intros t Ht. rewrite <- Rmult_assoc, <- (H t Ht). ring. Qed.

(** ** C458: the rows are treated independently *)
Theorem C458_rows d argsort sig2 solve n k od r m tp xs : execute d argsort sig2 solve n k od (Some r) m tp xs =
  fold_right (fun x res => match execute_row d argsort sig2 solve n k od (Some r) m tp x with inr e => inr e | inl y => match res with inr e => inr e | inl ys => inl (y :: ys) end end) (inl []) xs.
Proof. induction xs as [|x xs IH]; [reflexivity|]. cbn [execute fold_right next_r]. rewrite IH. reflexivity. Qed.
(** with r = None the first row gets twice the unused variance, and every other row the unused variance at the first *)
Theorem C458_first d argsort sig2 solve n k od m tp x xs : is_solve k solve -> (od < k)%nat ->
  let c := unused sig2 k od (diffs m x (nbrs_exec d argsort n k m x)) in
  reg_exec d sig2 k od None m x (nbrs_exec d argsort n k m x) = add_diag c (add_diag c (gram d m x (nbrs_exec d argsort n k m x))) /\
  execute d argsort sig2 solve n k od None m tp (x :: xs) = match execute_row d argsort sig2 solve n k od None m tp x with inr e => inr e | inl y => match execute d argsort sig2 solve n k od (Some c) m tp xs with inr e => inr e | inl ys => inl (y :: ys) end end.
Proof. intros _ Ho c. apply Nat.ltb_lt in Ho. unfold reg_exec. cbn [execute next_r]. rewrite Ho. split; reflexivity. Qed.
(** C458 (refuted): the points (0,0), (2,0), (100,100); (1/2,0) alone cannot be executed, after (1,1) it can *)
Definition p3 : rmat := fun t a => match t, a with 0%nat, _ => 0 | 1%nat, 0%nat => 2 | 1%nat, _ => 0 | _, _ => 100 end.
Definition x1 : rvec := fun _ => 1.
Definition x2 : rvec := fun a => match a with 0%nat => 1/2 | _ => 0 end.
(** the squared singular values of a matrix with two rows and columns *)
Definition sig22 (k : nat) (a : rmat) : list R :=
  let g i j := rsum 2 (fun c => a i c * a j c) in let t := g 0%nat 0%nat + g 1%nat 1%nat in let dt := g 0%nat 0%nat * g 1%nat 1%nat - g 0%nat 1%nat * g 1%nat 0%nat in
  let s := sqrt (t * t - 4 * dt) in [(t + s) / 2; (t - s) / 2].
Lemma p3_sort x : x = x1 \/ x = x2 -> nbrs_exec 2 isort 3 2 p3 x = [0; 1]%nat.
Proof.
  intros Hx. unfold nbrs_exec, isort. set (f := dist2 2 p3 x). assert (L : f 0%nat <= f 1%nat /\ f 1%nat <= f 2%nat) by (unfold f, dist2; rewrite !rsum2; destruct Hx as [-> | ->]; unfold p3, x1, x2; lra). destruct L as (L0 & L1). cbn [seq fold_right ins]. destruct (Rle_dec (f 1%nat) (f 2%nat)); [|contradiction]. cbn [ins]. destruct (Rle_dec (f 0%nat) (f 1%nat)); [reflexivity|contradiction].
Qed.
Theorem C458_refuted tp : execute 2 isort sig22 solve2 3 2 1 None p3 tp [x2] = inr LLinAlg /\ exists ys, execute 2 isort sig22 solve2 3 2 1 None p3 tp [x1; x2] = inl ys.
Proof.
  assert (U1 : unused sig22 2 1 (diffs p3 x1 [0; 1]%nat) = 2).
  { unfold unused, sig22. cbn [skipn fold_right]. rewrite !rsum2. unfold diffs. cbn [nth]. unfold p3, x1. match goal with |- context [sqrt ?z] => replace (sqrt z) with 0 end; [lra|]. symmetry. transitivity (sqrt 0); [f_equal; lra|apply sqrt_0]. }
  assert (U2 : unused sig22 2 1 (diffs p3 x2 [0; 1]%nat) = 0).
  { unfold unused, sig22. cbn [skipn fold_right]. rewrite !rsum2. unfold diffs. cbn [nth]. unfold p3, x2. match goal with |- context [sqrt ?z] => replace (sqrt z) with (5/2) end; [lra|]. symmetry. apply sqrt_lem_1; lra. }
  assert (G : forall x i j, x = x1 \/ x = x2 -> gram 2 p3 x [0; 1]%nat i j = diffs p3 x [0; 1]%nat i 0%nat * diffs p3 x [0; 1]%nat j 0%nat + diffs p3 x [0; 1]%nat i 1%nat * diffs p3 x [0; 1]%nat j 1%nat) by (intros; apply rsum2).
  split.
  - cbn [execute]. unfold execute_row. rewrite p3_sort by now right. unfold reg_exec. cbn [Nat.ltb Nat.leb]. cbv zeta. rewrite U2. unfold weights_of, solve2, add_diag. cbn [Nat.eqb]. rewrite !G by now right. unfold diffs. cbn [nth]. unfold p3, x2. match goal with |- context [Req_EM_T ?z 0] => destruct (Req_EM_T z 0) as [|N]; [reflexivity|exfalso; apply N; lra] end.
  - rewrite (proj2 (C458_first 2 isort sig22 solve2 3 2 1 p3 tp x1 [x2] solve2_ok ltac:(lia))). rewrite p3_sort by now left. rewrite U1. cbn [execute]. destruct (C453_execute isort sig22 solve2 2 3 2 1 2 p3 tp x2 ltac:(lia) solve2_ok ltac:(lra)) as (y2 & E2). rewrite E2.
    assert (E1 : execute_row 2 isort sig22 solve2 3 2 1 None p3 tp x1 = execute_row 2 isort sig22 solve2 3 2 1 (Some 4) p3 tp x1).
    { unfold execute_row, weights_of. rewrite p3_sort by now left. assert (S : solve2 2 (reg_exec 2 sig22 2 1 None p3 x1 [0; 1]%nat) = solve2 2 (reg_exec 2 sig22 2 1 (Some 4) p3 x1 [0; 1]%nat)); [|now rewrite S]. unfold reg_exec. cbn [Nat.ltb Nat.leb]. cbv zeta. rewrite U1. unfold solve2, add_diag. cbn [Nat.eqb]. replace (gram 2 p3 x1 [0; 1]%nat 0%nat 0%nat + 2 + 2) with (gram 2 p3 x1 [0; 1]%nat 0%nat 0%nat + 4) by ring. replace (gram 2 p3 x1 [0; 1]%nat 1%nat 1%nat + 2 + 2) with (gram 2 p3 x1 [0; 1]%nat 1%nat 1%nat + 4) by ring. reflexivity. }
    rewrite E1. destruct (C453_execute isort sig22 solve2 2 3 2 1 4 p3 tp x1 ltac:(lia) solve2_ok ltac:(lra)) as (y1 & ->). eauto.
Qed.

(** ** Examples *)
Example C453_example r : 0 < r -> exists cols, train 1 isort no_sig solve2 3 2 1 (Some r) m3 = inl cols.
Proof. intros Hr. apply C453_train; [apply isort_ok|lia|apply solve2_ok|exact Hr|]. intros [|[|[|i]]] [|[|[|j]]] Hi Hj N; try lia; exists 0%nat; unfold m3; (split; [lia|lra]). Qed.
(** the points 0, 1, 10 moved and scaled *)
Example C450_example r : 0 < r -> exists cols cols', train 1 isort no_sig solve2 3 2 1 (Some r) m3 = inl cols /\ train 1 isort no_sig solve2 3 2 1 (Some r) (fun t _ => - (3) * m3 t 0%nat + 7) = inl cols' /\ wmat cols' 1%nat 0%nat = wmat cols 1%nat 0%nat.
Proof.
  intros Hr. destruct (C453_example r Hr) as (cols & E). destruct (C450_training isort no_sig solve2 isort_ok 3 2 1 r 1 1 (- (3)) m3 (fun t _ => - (3) * m3 t 0%nat + 7) cols solve2_ok ltac:(lra)) with (2 := E) as (cols' & E' & W).
  - intros row i j _ _ _. rewrite !rsum1. ring.
  - exists cols, cols'. split; [exact E|]. split; [exact E'|]. apply W. lia.
Qed.
Example C455_example : orthonormal_cols 2 1 (fun t _ => u2 t 1%nat) /\ is_eig 1 (hl_gram 2 (fun t _ => u2 t 1%nat)) (fun _ => 2) (fun _ _ => 1) /\ hl_projection 2 1 (fun t _ => u2 t 1%nat) (fun _ => 2) (fun _ _ => 1) 0%nat 0%nat = 2 * / sqrt 2.
Proof.
  pose proof is2 as I. assert (O : orthonormal_cols 2 1 (fun t _ => u2 t 1%nat)). { intros [|b] [|b'] Hb Hb'; try lia. rewrite rsum2. unfold u2, eye. cbn [Nat.eqb]. lra. }
  assert (E : is_eig 1 (hl_gram 2 (fun t _ => u2 t 1%nat)) (fun _ => 2) (fun _ _ => 1)). { split; [intros [|a] [|b] Ha Hb; try lia; split; rewrite mult_def, rsum1; unfold transp, ftrans, eye; cbn; ring|]. intros [|i] [|b] Hi Hb; try lia. rewrite rsum1, (hl_gram_eye 2 1 _ 0 0 O) by lia. unfold eye. cbn [INR Nat.eqb]. ring. }
  split; [exact O|]. split; [exact E|]. rewrite (C455_projection 2 1 _ _ _ 0 0 O E) by lia. unfold u2. cbn [INR]. ring.
Qed.
Example C456_example : rsum 2 (fun t => if (t =? 0)%nat then 1 else - (1)) = 0 /\ hessian_weight 2 (fun t => if (t =? 0)%nat then 1 else - (1)) 0%nat = 1 /\ hessian_weight 2 (fun _ => 1) 0%nat = 1/2.
Proof.
  assert (Z : rsum 2 (fun t => if (t =? 0)%nat then 1 else - (1)) = 0) by (rewrite rsum2; cbn [Nat.eqb]; ring). split; [exact Z|]. split; [rewrite (C456_unnormalized _ _ Z); reflexivity|]. unfold hessian_weight. rewrite rsum2. cbv zeta. destruct (Rlt_dec (Rabs (1 + 1)) (1/10000)) as [L|]; [rewrite Rabs_right in L by lra; lra|]. field.
Qed.
Definition c34 : rvec := fun t => match t with 0%nat => 3 | _ => 4 end.
Definition c10 : rvec := fun t => match t with 0%nat => 1 | _ => 0 end.
Example C457_example : exists l, mgs 2 [c34; c10] = Some l /\ nth 1 l (fun _ => 0) 0%nat = 4/5 /\ nth 1 l (fun _ => 0) 1%nat = - (3/5).
Proof.
  unfold mgs. cbn [length mgs_ map]. cbv zeta. set (v := c34). set (x := c10).
  assert (R1 : sqrt (vdot 2 v v) = 5) by (unfold vdot; rewrite rsum2; unfold v, c34; apply sqrt_lem_1; lra). rewrite !R1. destruct (Req_EM_T 5 0); [lra|]. set (y := fun t : nat => x t - vdot 2 (fun t0 : nat => v t0 / 5) x * (v t / 5)).
  assert (D : vdot 2 (fun t0 : nat => v t0 / 5) x = 3/5) by (unfold vdot; rewrite rsum2; unfold v, x, c34, c10; lra). assert (Y0 : y 0%nat = 16/25) by (unfold y; rewrite D; unfold x, v, c34, c10; lra). assert (Y1 : y 1%nat = - (12/25)) by (unfold y; rewrite D; unfold x, v, c34, c10; lra).
  assert (R2 : sqrt (vdot 2 y y) = 4/5) by (unfold vdot; rewrite rsum2, Y0, Y1; apply sqrt_lem_1; lra). fold y. rewrite !R2. destruct (Req_EM_T (4/5) 0); [lra|]. eexists. split; [reflexivity|]. cbn [nth]. split; [change (y 0%nat / (4/5) = 4/5); rewrite Y0; lra|change (y 1%nat / (4/5) = - (3/5)); rewrite Y1; lra].
Qed.
