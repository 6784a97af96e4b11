(** Proofs about IsfaModel.v: the contrast under a rotation. *)
From Coq Require Import Reals List Arith ZArith Bool Lia Lra FunctionalExtensionality Permutation.
From Verif Require Import CovModel CovProps ICAModel ICAProofs IsfaModel.
Import ListNotations.
Open Scope R_scope.

Lemma rsum_S n f : rsum (S n) f = rsum n f + f n.
Proof. unfold rsum, fsum. rewrite seq_S, map_app, fold_right_app. cbn. generalize (seq 0 n). intros l. induction l; cbn; [ring|]. rewrite IHl. ring. Qed.
Lemma rsum_0 f : rsum 0 f = 0. Proof. reflexivity. Qed.
Lemma lsum_app {A} (f : A -> R) l1 l2 : lsum f (l1 ++ l2) = lsum f l1 + lsum f l2.
Proof. unfold lsum, fsum. induction l1; cbn; [ring|]. rewrite IHl1. ring. Qed.
Lemma lsum_filter {A} (f : A -> R) p l : lsum f (filter p l) = lsum (fun x => if p x then f x else 0) l.
Proof. unfold lsum, fsum. induction l as [|x l IH]; cbn; [reflexivity|]. destruct (p x); cbn; rewrite IH; ring. Qed.
Lemma lsum_flat {A B} (f : B -> R) (g : A -> list B) l : lsum f (flat_map g l) = lsum (fun x => lsum f (g x)) l.
Proof. induction l as [|x l IH]; cbn [flat_map]; [reflexivity|]. rewrite lsum_app, IH. reflexivity. Qed.
Lemma lsum_map {A B} (f : B -> R) (g : A -> B) l : lsum f (map g l) = lsum (fun x => f (g x)) l.
Proof. unfold lsum, fsum. now rewrite map_map. Qed.
(** the elements above the diagonal *)
Definition above (n : nat) (f : nat -> nat -> R) : R := rsum n (fun a => rsum n (fun b => if (a <? b)%nat then f a b else 0)).
Lemma rsum_ge n k f : (k <= n)%nat -> rsum n (fun b => if (k <=? b)%nat then f b else 0) = lsum f (seq k (n - k)).
Proof.
  intros H. rewrite rsum_lsum. replace n with (k + (n - k))%nat at 1 by lia. rewrite seq_app, lsum_app. cbn [plus].
  rewrite (lsum_ext (fun b => if (k <=? b)%nat then f b else 0) (fun _ => 0) (seq 0 k)) by (intros i Hi; apply in_seq in Hi; destruct (Nat.leb_spec k i); [lia|reflexivity]).
  rewrite (lsum_ext (fun b => if (k <=? b)%nat then f b else 0) f (seq k (n - k))) by (intros i Hi; apply in_seq in Hi; destruct (Nat.leb_spec k i); [reflexivity|lia]).
  rewrite <- rsum_lsum, rsum_zero by reflexivity. ring.
Qed.
Lemma pairs_above n f : lsum (fun ij : nat * nat => f (fst ij) (snd ij)) (pairs n) = above n f.
Proof.
  unfold pairs, above. rewrite lsum_flat. destruct n as [|n]; [reflexivity|]. rewrite rsum_S.
  rewrite (rsum_zero (S n) (fun b => if (n <? b)%nat then f n b else 0)) by (intros i Hi; destruct (Nat.ltb_spec n i); [lia|reflexivity]).
  replace (S n - 1)%nat with n by lia. rewrite Rplus_0_r. rewrite <- rsum_lsum. apply rsum_ext. intros a Ha. rewrite lsum_map. cbn [fst snd].
  rewrite <- (rsum_ge (S n) (a + 1)) by lia. apply rsum_ext. intros b _. replace (a + 1)%nat with (S a) by lia. reflexivity.
Qed.
Lemma above_sym n f : (forall a b, (a < n)%nat -> (b < n)%nat -> f a b = f b a) -> 2 * above n f = rsum n (fun a => rsum n (fun b => f a b)) - rsum n (fun a => f a a).
Proof.
  intros H. assert (E : above n f = rsum n (fun a => rsum n (fun b => if (b <? a)%nat then f a b else 0))).
  { unfold above. rewrite rsum_swap. apply rsum_ext. intros a Ha. apply rsum_ext. intros b Hb. destruct (b <? a)%nat; [auto|reflexivity]. }
  replace (2 * above n f) with (above n f + above n f) by ring. rewrite E at 2. unfold above. rewrite <- rsum_add, <- rsum_sub. apply rsum_ext. intros a Ha. rewrite <- rsum_add.
  rewrite <- (rsum_pick n a (fun b => f a b) Ha). rewrite <- rsum_sub. apply rsum_ext. intros b Hb.
  destruct (Nat.ltb_spec a b), (Nat.ltb_spec b a), (Nat.eqb_spec b a); try lia; subst; ring.
Qed.
Lemma above_ext n f g : (forall a b, (a < n)%nat -> (b < n)%nat -> f a b = g a b) -> above n f = above n g.
Proof. intros H. unfold above. apply rsum_ext. intros a Ha. apply rsum_ext. intros b Hb. now rewrite H. Qed.

(** ** one matrix under a rotation *)
Definition rotm (c s : R) (i j : nat) (m : rmat) : rmat := cov_rotate R Rplus Rmult Rminus c s i j m.
Lemma rotm_eq c s i j m a b : i <> j -> rotm c s i j m a b =
  (if (a =? j)%nat then s * rc c s i j m i b + c * rc c s i j m j b else if (a =? i)%nat then c * rc c s i j m i b - s * rc c s i j m j b else rc c s i j m a b).
Proof. intros H. unfold rotm, cov_rotate, rot_rows, set_row. fold (rc c s i j m). destruct (Nat.eqb_spec a j); [|reflexivity]. destruct (Nat.eqb_spec j i); [congruence|reflexivity]. Qed.
Definition sym (m : rmat) : Prop := forall a b, m a b = m b a.
Ltac eqbs := repeat match goal with |- context [(?x =? ?y)%nat] => destruct (Nat.eqb_spec x y); subst; try congruence; try lia end.
Lemma rotm_sym c s i j m : i <> j -> sym m -> sym (rotm c s i j m).
Proof. intros H S a b. rewrite !rotm_eq by assumption. rewrite !rc_eq by assumption. eqbs; rewrite ?(S j i), ?(S b i), ?(S b j), ?(S a i), ?(S a j), ?(S a b); ring. Qed.
Section One.
  Variables (od : nat) (c s : R) (i j : nat) (m : rmat).
  Hypothesis (Hij : i <> j) (H1 : c * c + s * s = 1) (Sm : sym m) (Hi : (i < od)%nat).
  Lemma rot_ii : rotm c s i j m i i = c * c * m i i - 2 * c * s * m i j + s * s * m j j.
  Proof. clear Hi H1. rewrite rotm_eq, !rc_eq by assumption. eqbs. rewrite (Sm j i). ring. Qed.
  Lemma rot_jj : rotm c s i j m j j = s * s * m i i + 2 * c * s * m i j + c * c * m j j.
  Proof. clear Hi H1. rewrite rotm_eq, !rc_eq by assumption. eqbs. rewrite (Sm j i). ring. Qed.
  Lemma rot_ai a : a <> i -> a <> j -> rotm c s i j m a i = c * m a i - s * m a j.
  Proof. clear Hi H1. intros. rewrite rotm_eq, !rc_eq by assumption. eqbs; try reflexivity. Qed.
  Lemma rot_aj a : a <> i -> a <> j -> rotm c s i j m a j = s * m a i + c * m a j.
  Proof. clear Hi H1. intros. rewrite rotm_eq, !rc_eq by assumption. eqbs; try reflexivity. Qed.
  Lemma rot_ij : rotm c s i j m i j = (c * c - s * s) * m i j + c * s * (m i i - m j j).
  Proof. clear Hi H1. rewrite rotm_eq, !rc_eq by assumption. eqbs. rewrite (Sm j i). ring. Qed.
  Lemma rot_ab a b : a <> i -> a <> j -> b <> i -> b <> j -> rotm c s i j m a b = m a b.
  Proof. clear Hi H1. intros. rewrite rotm_eq, !rc_eq by assumption. eqbs; try reflexivity. Qed.
  Lemma diag_pick f : rsum od (fun a => if (a =? i)%nat then f a else 0) = f i. Proof. now apply (rsum_pick od i f). Qed.

  (** both indices among the first output_dim *)
  Lemma diag_rot1 : (j < od)%nat -> diag2 od (rotm c s i j m) = diag2 od m - m i i * m i i - m j j * m j j + rotm c s i j m i i * rotm c s i j m i i + rotm c s i j m j j * rotm c s i j m j j.
  Proof.
    intros Hj. unfold diag2. set (r := rotm c s i j m).
    assert (E : rsum od (fun a => r a a * r a a) = rsum od (fun a => m a a * m a a + (if (a =? i)%nat then r a a * r a a - m a a * m a a else 0) + (if (a =? j)%nat then r a a * r a a - m a a * m a a else 0))).
    { apply rsum_ext. intros a _. destruct (Nat.eqb_spec a i), (Nat.eqb_spec a j); try congruence; try (subst; ring). unfold r. rewrite rot_ab by assumption. ring. }
    rewrite E, !rsum_add. rewrite (rsum_pick od i (fun a => r a a * r a a - m a a * m a a)) by assumption. rewrite (rsum_pick od j (fun a => r a a * r a a - m a a * m a a)) by assumption. ring.
  Qed.
  Lemma total_rot1 : (j < od)%nat -> rsum od (fun a => rsum od (fun b => rotm c s i j m a b * rotm c s i j m a b)) = rsum od (fun a => rsum od (fun b => m a b * m a b)).
  Proof.
    intros Hj. transitivity (rsum od (fun a => rsum od (fun b => rc c s i j m a b * rc c s i j m a b))).
    - rewrite rsum_swap. rewrite (rsum_swap od od (fun a b => rc c s i j m a b * rc c s i j m a b)). apply rsum_ext. intros b _. apply (rsum_two od _ _ i j); auto.
      + intros a _ Ha Hb. rewrite rotm_eq by assumption. eqbs; try reflexivity.
      + rewrite !rotm_eq by assumption. eqbs. set (u := rc c s i j m i b). set (v := rc c s i j m j b).
        replace (u * u + v * v) with ((c * c + s * s) * (u * u + v * v)) by (rewrite H1; ring). ring.
    - apply rsum_ext. intros a _. apply (rsum_two od _ _ i j); auto.
      + intros b _ Ha Hb. rewrite rc_eq by assumption. eqbs; try reflexivity.
      + rewrite !rc_eq by assumption. eqbs. replace (m a i * m a i + m a j * m a j) with ((c * c + s * s) * (m a i * m a i + m a j * m a j)) by (rewrite H1; ring). ring.
  Qed.
  Lemma triu_above (x : rmat) : triu od x = above od (fun a b => x a b * x a b). Proof. reflexivity. Qed.
  Lemma triu_sym (x : rmat) : sym x -> 2 * triu od x = rsum od (fun a => rsum od (fun b => x a b * x a b)) - diag2 od x.
  Proof. intros S. rewrite triu_above, above_sym; [reflexivity|]. intros a b _ _. now rewrite (S a b). Qed.
  Lemma triu_rot1 : (j < od)%nat -> triu od (rotm c s i j m) = triu od m - m i j * m i j + rotm c s i j m i j * rotm c s i j m i j.
  Proof.
    intros Hj. assert (E : 2 * triu od (rotm c s i j m) = 2 * triu od m + diag2 od m - diag2 od (rotm c s i j m)).
    { rewrite !triu_sym by (auto using rotm_sym). rewrite total_rot1 by assumption. ring. }
    rewrite diag_rot1 in E by assumption. rewrite rot_ii, rot_jj in E. rewrite rot_ij.
    set (x := m i i) in *. set (y := m j j) in *. set (z := m i j) in *.
    assert (A : (c * c * x - 2 * c * s * z + s * s * y) * (c * c * x - 2 * c * s * z + s * s * y) + (s * s * x + 2 * c * s * z + c * c * y) * (s * s * x + 2 * c * s * z + c * c * y)
              = x * x + y * y + 2 * z * z - 2 * (((c * c - s * s) * z + c * s * (x - y)) * ((c * c - s * s) * z + c * s * (x - y)))).
    { replace (x * x + y * y + 2 * z * z) with ((c * c + s * s) * (c * c + s * s) * (x * x + y * y + 2 * z * z)) by (rewrite H1; ring). ring. }
    lra.
  Qed.
  (** the second index outside *)
  Lemma diag_rot2 : (od <= j)%nat -> diag2 od (rotm c s i j m) = diag2 od m - m i i * m i i + rotm c s i j m i i * rotm c s i j m i i.
  Proof.
    intros Hj. unfold diag2. set (r := rotm c s i j m).
    assert (E : rsum od (fun a => r a a * r a a) = rsum od (fun a => m a a * m a a + (if (a =? i)%nat then r a a * r a a - m a a * m a a else 0))).
    { apply rsum_ext. intros a Ha. destruct (Nat.eqb_spec a i); try (subst; ring). unfold r. rewrite rot_ab by (try assumption; lia). ring. }
    rewrite E, !rsum_add. rewrite (rsum_pick od i (fun a => r a a * r a a - m a a * m a a)) by assumption. ring.
  Qed.
  (** the elements above the diagonal without row and column i, and those of column i *)
  Lemma triu_split (x : rmat) : sym x ->
    triu od x = lsum (fun ab : nat * nat => x (fst ab) (snd ab) * x (fst ab) (snd ab)) (filter (fun ab : nat * nat => negb (fst ab =? i)%nat && negb (snd ab =? i)%nat) (pairs od))
                + (rsum od (fun k => x k i * x k i) - x i i * x i i).
  Proof.
    intros S. rewrite lsum_filter. set (g := fun a b => if negb (a =? i)%nat && negb (b =? i)%nat then x a b * x a b else 0). change (lsum _ (pairs od)) with (lsum (fun ab : nat * nat => g (fst ab) (snd ab)) (pairs od)).
    rewrite pairs_above. assert (Gs : forall a b, (a < od)%nat -> (b < od)%nat -> g a b = g b a).
    { intros a b _ _. unfold g. rewrite (S a b). rewrite andb_comm. reflexivity. }
    pose proof (above_sym od g Gs) as E1. pose proof (triu_sym x S) as E2.
    assert (T : rsum od (fun a => rsum od (fun b => x a b * x a b)) = rsum od (fun a => rsum od (fun b => g a b)) + 2 * rsum od (fun k => x k i * x k i) - x i i * x i i).
    { transitivity (rsum od (fun a => rsum od (fun b => g a b) + (x a i * x a i + ((if (a =? i)%nat then rsum od (fun b => x b i * x b i) else 0) - (if (a =? i)%nat then x a i * x a i else 0))))).
      - apply rsum_ext. intros a Ha. destruct (Nat.eqb_spec a i) as [->|Ne].
        + rewrite (rsum_zero od (fun b => g i b)) by (intros; unfold g; rewrite Nat.eqb_refl; reflexivity). rewrite (rsum_ext od (fun b => x i b * x i b) (fun b => x b i * x b i)) by (intros; now rewrite (S i)). ring.
        + rewrite <- (rsum_pick od i (fun b => x a b * x a b)) by assumption. replace (0 - 0) with 0 by ring. rewrite Rplus_0_r. rewrite <- rsum_add. apply rsum_ext. intros b _. unfold g.
          destruct (Nat.eqb_spec a i); [congruence|]. destruct (Nat.eqb_spec b i); cbn; ring.
      - rewrite !rsum_add, rsum_sub. rewrite (rsum_pick od i (fun a => rsum od (fun b => x b i * x b i))) by assumption. rewrite (rsum_pick od i (fun a => x a i * x a i)) by assumption. ring. }
    assert (Dg : diag2 od x = rsum od (fun a => g a a) + x i i * x i i).
    { unfold diag2. rewrite <- (rsum_pick od i (fun a => x a a * x a a)) by assumption. rewrite <- rsum_add. apply rsum_ext. intros a _. unfold g. destruct (Nat.eqb_spec a i); cbn; ring. }
    lra.
  Qed.
  Lemma triu_rot2 : (od <= j)%nat -> triu od (rotm c s i j m) =
    lsum (fun ab : nat * nat => m (fst ab) (snd ab) * m (fst ab) (snd ab)) (filter (fun ab : nat * nat => negb (fst ab =? i)%nat && negb (snd ab =? i)%nat) (pairs od))
    + (c * c * (rsum od (fun k => m k i * m k i) - m i i * m i i) - 2 * c * s * (rsum od (fun k => m k i * m k j) - m i i * m i j) + s * s * (rsum od (fun k => m k j * m k j) - m i j * m i j)).
  Proof.
    intros Hj. rewrite triu_split by (apply rotm_sym; assumption). f_equal.
    - rewrite !lsum_filter. apply lsum_ext. intros [a b] H. apply in_pairs in H. cbn [fst snd]. destruct (Nat.eqb_spec a i), (Nat.eqb_spec b i); cbn; try reflexivity. rewrite rot_ab by (try assumption; lia). reflexivity.
    - set (r := rotm c s i j m). assert (K : forall f : nat -> R, rsum od f - f i = rsum od (fun k => if (k =? i)%nat then 0 else f k)).
      { intros f. rewrite <- (rsum_pick od i f) at 1 by assumption. rewrite <- rsum_sub. apply rsum_ext. intros k _. destruct (k =? i)%nat; ring. }
      rewrite (K (fun k => r k i * r k i)), (K (fun k => m k i * m k i)), (K (fun k => m k i * m k j)), (K (fun k => m k j * m k j)).
      rewrite <- !rsum_mul, <- rsum_sub, <- rsum_add. apply rsum_ext. intros k Hk. destruct (Nat.eqb_spec k i); [ring|]. unfold r. rewrite rot_ai by (try assumption; lia). ring.
  Qed.
End One.
