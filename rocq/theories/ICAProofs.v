(** Lemmas about the model of ICANode, CuBICANode and JADENode *)
From Coq Require Import Reals List Arith ZArith Bool Lia Lra FunctionalExtensionality.
From Verif Require Import CovModel CovProps ICAModel.
Import ListNotations.
Open Scope R_scope.

(** ** sums *)
Lemma rsum_ext n f g : (forall i, (i < n)%nat -> f i = g i) -> rsum n f = rsum n g.
Proof. intros H. unfold rsum, fsum. f_equal. apply map_ext_in. intros i Hi. apply in_seq in Hi. apply H. lia. Qed.
Lemma lsum_ext {A} (f g : A -> R) l : (forall i, In i l -> f i = g i) -> lsum f l = lsum g l.
Proof. intros H. unfold lsum, fsum. f_equal. apply map_ext_in. exact H. Qed.
Lemma lsum_add {A} (f g : A -> R) l : lsum (fun k => f k + g k) l = lsum f l + lsum g l.
Proof. apply (fsum_add R 0 1 Rplus Rmult Rminus Ropp RTheory). Qed.
Lemma lsum_mul {A} c (f : A -> R) l : lsum (fun k => c * f k) l = c * lsum f l.
Proof. apply (fsum_lin R 0 1 Rplus Rmult Rminus Ropp RTheory). Qed.
Lemma rsum_lsum n f : rsum n f = lsum f (seq 0 n). Proof. reflexivity. Qed.
Lemma rsum_add n f g : rsum n (fun k => f k + g k) = rsum n f + rsum n g. Proof. apply lsum_add. Qed.
Lemma rsum_mul n c f : rsum n (fun k => c * f k) = c * rsum n f. Proof. apply lsum_mul. Qed.
Lemma rsum_mulr n c f : rsum n (fun k => f k * c) = rsum n f * c.
Proof. rewrite Rmult_comm, <- rsum_mul. apply rsum_ext. intros. ring. Qed.
Lemma rsum_sub n f g : rsum n (fun k => f k - g k) = rsum n f - rsum n g.
Proof. transitivity (rsum n (fun k => f k + (-1) * g k)); [apply rsum_ext; intros; ring|]. rewrite rsum_add, rsum_mul. ring. Qed.
Lemma rsum_zero n f : (forall i, (i < n)%nat -> f i = 0) -> rsum n f = 0.
Proof. intros H. rewrite (rsum_ext n f (fun _ => 0 * 0)) by (intros; rewrite H by assumption; ring). rewrite rsum_mul. ring. Qed.
Lemma rsum_pick n i g : (i < n)%nat -> rsum n (fun k => if (k =? i)%nat then g k else 0) = g i.
Proof. intros H. apply (fsum_pick R 0 1 Rplus Rmult Rminus Ropp RTheory). lia. Qed.
Lemma rsum_eye_l n i g : (i < n)%nat -> rsum n (fun k => eye i k * g k) = g i.
Proof. intros H. rewrite <- (rsum_pick n i g H). apply rsum_ext. intros k _. unfold eye. rewrite Nat.eqb_sym. destruct (k =? i)%nat; ring. Qed.
Lemma rsum_eye_r n i g : (i < n)%nat -> rsum n (fun k => g k * eye k i) = g i.
Proof. intros H. rewrite <- (rsum_pick n i g H). apply rsum_ext. intros k _. unfold eye. destruct (k =? i)%nat; ring. Qed.
Lemma lsum_swap {A B} (l : list A) (r : list B) (f : A -> B -> R) : lsum (fun x => lsum (fun y => f x y) r) l = lsum (fun y => lsum (fun x => f x y) l) r.
Proof.
  induction l as [|a l IH]; [induction r as [|b r IH]; [reflexivity|]; change (lsum (fun x : A => lsum (fun y : B => f x y) (b :: r)) []) with 0 in *;
    change (lsum (fun y => lsum (fun x : A => f x y) []) (b :: r)) with (0 + lsum (fun y => lsum (fun x : A => f x y) []) r); rewrite <- IH; cbn; ring|].
  change (lsum (fun x => lsum (fun y => f x y) r) (a :: l)) with (lsum (fun y => f a y) r + lsum (fun x => lsum (fun y => f x y) r) l). rewrite IH, <- lsum_add. reflexivity.
Qed.
Lemma rsum_swap n m f : rsum n (fun i => rsum m (fun j => f i j)) = rsum m (fun j => rsum n (fun i => f i j)). Proof. apply (lsum_swap (seq 0 n) (seq 0 m)). Qed.
Lemma lsum_nonneg {A} (f : A -> R) l : (forall x, In x l -> 0 <= f x) -> 0 <= lsum f l.
Proof. induction l as [|a l IH]; intros H; [cbn; lra|]. change (lsum f (a :: l)) with (f a + lsum f l). assert (0 <= f a) by (apply H; now left). assert (0 <= lsum f l) by (apply IH; intros; apply H; now right). lra. Qed.
Lemma rsum_two n f g i j : i <> j -> (i < n)%nat -> (j < n)%nat -> (forall k, (k < n)%nat -> k <> i -> k <> j -> f k = g k) -> f i + f j = g i + g j -> rsum n f = rsum n g.
Proof.
  intros Hij Hi Hj H E.
  assert (D : rsum n (fun k => f k - g k) = (f i - g i) + (f j - g j)).
  { rewrite <- (rsum_pick n i (fun k => f k - g k) Hi), <- (rsum_pick n j (fun k => f k - g k) Hj), <- rsum_add. apply rsum_ext. intros k Hk.
    destruct (Nat.eqb_spec k i), (Nat.eqb_spec k j); subst; try congruence; try ring. rewrite H by assumption. ring. }
  rewrite rsum_sub in D. lra.
Qed.

(** ** matrices *)
Lemma mult_ext d a b a' b' t k : (forall j, (j < d)%nat -> a t j = a' t j) -> (forall j, (j < d)%nat -> b j k = b' j k) -> mult d a b t k = mult d a' b' t k.
Proof. intros H1 H2. unfold mult, fmult. apply rsum_ext. intros j Hj. rewrite H1, H2 by assumption. reflexivity. Qed.
Lemma mult_assoc d e a b c t k : mult e (mult d a b) c t k = mult d a (mult e b c) t k.
Proof.
  change (rsum e (fun j => rsum d (fun i => a t i * b i j) * c j k) = rsum d (fun i => a t i * rsum e (fun j => b i j * c j k))).
  transitivity (rsum e (fun j => rsum d (fun i => a t i * b i j * c j k))); [apply rsum_ext; intros; symmetry; apply rsum_mulr|].
  rewrite rsum_swap. apply rsum_ext. intros i _. rewrite <- rsum_mul. apply rsum_ext. intros. ring.
Qed.
Lemma mult_eye_r d a t k : (k < d)%nat -> mult d a eye t k = a t k. Proof. intros H. apply (rsum_eye_r d k (fun j => a t j) H). Qed.
Lemma mult_eye_l d a t k : (t < d)%nat -> mult d eye a t k = a t k. Proof. intros H. apply (rsum_eye_l d t (fun j => a j k) H). Qed.
Lemma transp_mult d a b t k : transp (mult d a b) t k = mult d (transp b) (transp a) t k.
Proof. unfold transp, ftrans, mult, fmult. apply rsum_ext. intros. ring. Qed.
Definition orthogonal (d : nat) (q : rmat) : Prop := forall a b, (a < d)%nat -> (b < d)%nat -> mult d (transp q) q a b = eye a b /\ mult d q (transp q) a b = eye a b.

(** ** rotations *)
Definition rc (c s : R) := rot_cols R Rplus Rmult Rminus c s.
Lemma rc_eq c s i j m a b : i <> j -> rc c s i j m a b = if (b =? j)%nat then s * m a i + c * m a j else if (b =? i)%nat then c * m a i - s * m a j else m a b.
Proof. intros H. unfold rc, rot_cols, set_col. destruct (Nat.eqb_spec b j); [|reflexivity]. destruct (Nat.eqb_spec j i); [congruence|reflexivity]. Qed.
Lemma rc_mult c s i j d x q t b : i <> j -> mult d x (rc c s i j q) t b = rc c s i j (mult d x q) t b.
Proof.
  intros H. rewrite rc_eq by assumption. unfold mult at 1, fmult.
  transitivity (rsum d (fun k => x t k * (if (b =? j)%nat then s * q k i + c * q k j else if (b =? i)%nat then c * q k i - s * q k j else q k b))).
  { apply rsum_ext. intros k _. rewrite rc_eq by assumption. reflexivity. }
  change (fun a b0 => mult d x q a b0) with (fun a b0 => rsum d (fun k => x a k * q k b0)).
  destruct (b =? j)%nat; [|destruct (b =? i)%nat; [|reflexivity]]; unfold mult, fmult; fold (rsum d (fun k => x t k * q k i)) (rsum d (fun k => x t k * q k j));
    rewrite <- !rsum_mul, <- ?rsum_add, <- ?rsum_sub; apply rsum_ext; intros; ring.
Qed.
Lemma rc_rows c s i j d q a b : i <> j -> (i < d)%nat -> (j < d)%nat -> c * c + s * s = 1 -> mult d (rc c s i j q) (transp (rc c s i j q)) a b = mult d q (transp q) a b.
Proof.
  intros H Hi Hj H1. unfold mult, fmult, transp, ftrans. apply (rsum_two d _ _ i j); auto.
  - intros k _ Hki Hkj. rewrite !rc_eq by assumption. destruct (Nat.eqb_spec k j); [congruence|]. destruct (Nat.eqb_spec k i); [congruence|]. reflexivity.
  - rewrite !rc_eq by assumption. rewrite !Nat.eqb_refl. destruct (Nat.eqb_spec i j); [congruence|].
    replace (q a i * q b i + q a j * q b j) with ((c * c + s * s) * (q a i * q b i + q a j * q b j)) by (rewrite H1; ring). ring.
Qed.
Lemma rc_orthogonal c s i j d q : i <> j -> (i < d)%nat -> (j < d)%nat -> c * c + s * s = 1 -> orthogonal d q -> orthogonal d (rc c s i j q).
Proof.
  intros H Hi Hj H1 HQ a b Ha Hb. split.
  - unfold mult, transp, rc. rewrite (C40_rotate_data R 0 1 Rplus Rmult Rminus Ropp RTheory) by assumption.
    assert (E : forall a b, (a < d)%nat -> (b < d)%nat -> fmult R 0 Rplus Rmult d (ftrans R q) q a b = eye a b) by (intros; now apply HQ).
    unfold cov_rotate, rot_rows, rot_cols, set_row, set_col.
    repeat match goal with |- context [(?x =? ?y)%nat] => destruct (Nat.eqb_spec x y); subst; try congruence; try lia end; rewrite ?E by assumption; unfold eye;
    repeat match goal with |- context [(?x =? ?y)%nat] => destruct (Nat.eqb_spec x y); subst; try congruence; try lia end; lra.
  - rewrite rc_rows by assumption. now apply HQ.
Qed.
Lemma cs1 phi : cos phi * cos phi + sin phi * sin phi = 1.
Proof. pose proof (sin2_cos2 phi) as H. unfold Rsqr in H. lra. Qed.
Lemma eye_orthogonal d : orthogonal d eye.
Proof. intros a b Ha Hb. split; [rewrite mult_eye_r by assumption; unfold transp, ftrans, eye; now rewrite Nat.eqb_sym|rewrite mult_eye_l by assumption; unfold transp, ftrans, eye; now rewrite Nat.eqb_sym]. Qed.
Lemma in_pairs comp i j : In (i, j) (pairs comp) -> (i < j /\ j < comp)%nat.
Proof. unfold pairs. rewrite in_flat_map. intros (k & H1 & H2). apply in_map_iff in H2 as (l & E & H2). injection E as -> ->. apply in_seq in H1, H2. lia. Qed.

(** ** arctan2 *)
Lemma atan2_spec y x : x = sqrt (x * x + y * y) * cos (atan2 y x) /\ y = sqrt (x * x + y * y) * sin (atan2 y x).
Proof.
  assert (P : forall x, 0 < x -> sqrt (x * x + y * y) = x * sqrt (1 + (y / x)²)).
  { intros z Hz. replace (z * z + y * y) with (z² * (1 + (y / z)²)) by (unfold Rsqr; field; lra). rewrite sqrt_mult_alt by apply Rle_0_sqr. rewrite sqrt_Rsqr by lra. reflexivity. }
  assert (Q : forall t, 0 < sqrt (1 + t²)) by (intros t; apply sqrt_lt_R0; pose proof (Rle_0_sqr t); lra).
  unfold atan2. destruct (Rlt_dec 0 x) as [Hx|Hx].
  - rewrite cos_atan, sin_atan, (P x Hx). specialize (Q (y / x)). split; field; lra.
  - destruct (Rlt_dec x 0) as [Hx'|Hx'].
    + assert (E : sqrt (x * x + y * y) = - x * sqrt (1 + (y / x)²)).
      { replace (x * x) with (- x * - x) by ring. rewrite (P (- x)) by lra. f_equal. f_equal. unfold Rsqr. field. lra. }
      specialize (Q (y / x)). rewrite E.
      assert (C : cos (atan (y / x) + PI) = - (1 / sqrt (1 + (y / x)²)) /\ sin (atan (y / x) + PI) = - (y / x / sqrt (1 + (y / x)²))) by (rewrite neg_cos, neg_sin, cos_atan, sin_atan; auto).
      assert (C' : cos (atan (y / x) - PI) = - (1 / sqrt (1 + (y / x)²)) /\ sin (atan (y / x) - PI) = - (y / x / sqrt (1 + (y / x)²))).
      { replace (atan (y / x) - PI) with (- (- atan (y / x) + PI)) by ring. rewrite cos_neg, sin_neg, neg_cos, neg_sin, cos_neg, sin_neg, cos_atan, sin_atan. split; ring. }
      destruct (Rle_dec 0 y); [destruct C as [-> ->]|destruct C' as [-> ->]]; split; field; lra.
    + assert (x = 0) as -> by lra. replace (0 * 0 + y * y) with (y²) by (unfold Rsqr; ring). rewrite sqrt_Rsqr_abs.
      destruct (Rlt_dec 0 y); [rewrite cos_PI2, sin_PI2, Rabs_right by lra; split; ring|].
      destruct (Rlt_dec y 0); [rewrite cos_neg, sin_neg, cos_PI2, sin_PI2, Rabs_left by lra; split; ring|].
      assert (y = 0) as -> by lra. rewrite Rabs_R0. split; ring.
Qed.
Lemma cos2 t : cos (2 * t) = cos t * cos t - sin t * sin t. Proof. apply cos_2a. Qed.
Lemma sin2 t : sin (2 * t) = 2 * sin t * cos t. Proof. apply sin_2a. Qed.
Lemma cos4 t : cos (4 * t) = (cos t * cos t - sin t * sin t) * (cos t * cos t - sin t * sin t) - 4 * (sin t * cos t) * (sin t * cos t).
Proof. replace (4 * t) with (2 * (2 * t)) by ring. rewrite cos2, cos2, sin2. ring. Qed.
Lemma sin4 t : sin (4 * t) = 4 * (sin t * cos t) * (cos t * cos t - sin t * sin t).
Proof. replace (4 * t) with (2 * (2 * t)) by ring. rewrite sin2, cos2, sin2. ring. Qed.
(** a cos + b sin is at most the length of (a, b) *)
Lemma amplitude a b t : a * cos t + b * sin t <= sqrt (a * a + b * b).
Proof.
  set (v := a * cos t + b * sin t). destruct (Rle_dec v 0) as [H|H]; [apply Rle_trans with 0; [assumption|apply sqrt_pos]|].
  assert (Hv : 0 <= v) by lra. rewrite <- (sqrt_Rsqr v Hv). apply sqrt_le_1_alt. unfold Rsqr, v. pose proof (cs1 t) as H1. pose proof (Rle_0_sqr (a * sin t - b * cos t)) as H2. unfold Rsqr in H2.
  assert (E : a * a + b * b = (a * cos t + b * sin t) * (a * cos t + b * sin t) + (a * sin t - b * cos t) * (a * sin t - b * cos t)).
  { replace (a * a + b * b) with ((a * a + b * b) * (cos t * cos t + sin t * sin t)) by (rewrite H1; ring). ring. }
  lra.
Qed.
