(** Properties C432-C443 of ISFANode and TDSEPNode (IsfaModel.v). *)
From Coq Require Import Reals List Arith ZArith Bool Lia Lra FunctionalExtensionality Permutation.
From Verif Require Import CovModel CovProps ICAModel ICAProofs IsfaModel IsfaProofs.
Import ListNotations.
Open Scope R_scope.

Definition syms (cv : covs) : Prop := forall t, sym (cv t).

Section Angles.
  Variables (od : nat) (iw sw : nat -> R) (bica bsfa : R).
  Local Notation con T := (contrast_ od T iw sw bica bsfa).
  (** C432: the contrast of the rotated matrices is the curve which _givens_angle minimizes *)
  Theorem C432_case1 T m n cv phi : syms cv -> (m < n)%nat -> (n < od)%nat -> con T (rot_covs phi m n cv) = curve_1 od T iw sw bica bsfa m n cv phi.
  Proof.
    intros S Hm Hn. unfold contrast_, sfa_part, ica_part, curve_1, a20_1, c24_1, s24_1, d0_1, d1_1, d2_1, e0_1, e1_1, e2_1, dc_1, ec_1.
    replace (- 4 * phi) with (4 * - phi) by ring. rewrite cos4, sin4, cos_neg, sin_neg. pose proof (cs1 phi) as H1. set (c := cos phi) in *. set (s := sin phi) in *.
    assert (K : forall t, bsfa * sw t * diag2 od (rot_covs phi m n cv t) + bica * iw t * (2 * triu od (rot_covs phi m n cv t)) =
      let x := cv t m m in let y := cv t n n in let z := cv t m n in
      bsfa * sw t * (diag2 od (cv t) - x * x - y * y + (c * c * x - 2 * c * s * z + s * s * y) * (c * c * x - 2 * c * s * z + s * s * y) + (s * s * x + 2 * c * s * z + c * c * y) * (s * s * x + 2 * c * s * z + c * c * y))
      + bica * iw t * (2 * (triu od (cv t) - z * z + ((c * c - s * s) * z + c * s * (x - y)) * ((c * c - s * s) * z + c * s * (x - y))))).
    { intros t. unfold rot_covs. fold (rotm (cos phi) (sin phi) m n (cv t)). fold c s. cbv zeta. rewrite diag_rot1, triu_rot1 by (auto; lia). rewrite rot_ii, rot_jj, rot_ij by (auto; lia). reflexivity. }
    induction T as [|T IH]; [rewrite !rsum_0; ring|]. rewrite !rsum_S.
    specialize (K T). cbv zeta in K. set (x := cv T m m) in *. set (y := cv T n n) in *. set (z := cv T m n) in *. set (dg := diag2 od (cv T)) in *. set (tr := triu od (cv T)) in *.
    match type of IH with ?l = ?r => match goal with |- ?a + (bsfa * sw T * ?d) + (?b + bica * iw T * (2 * ?u)) = ?rhs => transitivity (l + (bsfa * sw T * d + bica * iw T * (2 * u))); [ring|] end end.
    rewrite IH, K.
    match goal with |- ?l + ?e = ?r => assert (E : r - l - e = (1 - (c * c + s * s) * (c * c + s * s)) * (/ 4 * (bsfa * sw T * (4 * z * z + 2 * x * y + 3 * x * x + 3 * y * y) + bica * iw T * ((x - y) * (x - y) + 4 * z * z))));
      [field|rewrite H1 in E; lra] end.
  Qed.
  Theorem C432_case2 T m n cv phi : syms cv -> (m < od)%nat -> (od <= n)%nat -> con T (rot_covs phi m n cv) = curve_2 od T iw sw bica bsfa m n cv phi.
  Proof.
    intros S Hm Hn. unfold contrast_, sfa_part, ica_part, curve_2, wave, a20_2, c24_2, s24_2, c22, s22, d0_2, d1_2, d2_2, d3_2, d4_2, e0_2, e1_2, e2_2, dc_2, ec_2.
    replace (- 4 * phi) with (4 * - phi) by ring. replace (- 2 * phi) with (2 * - phi) by ring. rewrite cos4, sin4, cos2, sin2, cos_neg, sin_neg. pose proof (cs1 phi) as H1. set (c := cos phi) in *. set (s := sin phi) in *.
    set (g := fun t => lsum (fun ij : nat * nat => cv t (fst ij) (snd ij) * cv t (fst ij) (snd ij)) (filter (fun ij : nat * nat => negb (fst ij =? m)%nat && negb (snd ij =? m)%nat) (pairs od))).
    set (p0 := fun t => rsum od (fun k => cv t k m * cv t k m)). set (p1 := fun t => rsum od (fun k => cv t k m * cv t k n)). set (p2 := fun t => rsum od (fun k => cv t k n * cv t k n)).
    change (fun t => iw t * (rsum od (fun k => cv t k m * cv t k m) - cv t m m * cv t m m)) with (fun t => iw t * (p0 t - cv t m m * cv t m m)).
    change (fun t => iw t * (rsum od (fun k => cv t k m * cv t k n) - cv t m m * cv t m n)) with (fun t => iw t * (p1 t - cv t m m * cv t m n)).
    change (fun t => iw t * (rsum od (fun k => cv t k n * cv t k n) - cv t m n * cv t m n)) with (fun t => iw t * (p2 t - cv t m n * cv t m n)).
    change (rsum T (fun t => _ * iw t)) with (rsum T (fun t => g t * iw t)).
    assert (K : forall t, bsfa * sw t * diag2 od (rot_covs phi m n cv t) + bica * iw t * (2 * triu od (rot_covs phi m n cv t)) =
      let x := cv t m m in let y := cv t n n in let z := cv t m n in
      bsfa * sw t * (diag2 od (cv t) - x * x + (c * c * x - 2 * c * s * z + s * s * y) * (c * c * x - 2 * c * s * z + s * s * y))
      + bica * iw t * (2 * (g t + (c * c * (p0 t - x * x) - 2 * c * s * (p1 t - x * z) + s * s * (p2 t - z * z))))).
    { intros t. unfold rot_covs. fold (rotm (cos phi) (sin phi) m n (cv t)). fold c s. cbv zeta. rewrite diag_rot2, triu_rot2 by (auto; lia). rewrite rot_ii by (auto; lia). reflexivity. }
    clearbody g p0 p1 p2.
    induction T as [|T IH]; [rewrite !rsum_0; ring|]. rewrite !rsum_S.
    specialize (K T). cbv zeta in K. set (x := cv T m m) in *. set (y := cv T n n) in *. set (z := cv T m n) in *. set (dg := diag2 od (cv T)) in *.
    match type of IH with ?l = ?r => match goal with |- ?a + (bsfa * sw T * ?d) + (?b + bica * iw T * (2 * ?u)) = ?rhs => transitivity (l + (bsfa * sw T * d + bica * iw T * (2 * u))); [ring|] end end.
    rewrite IH, K.
    match goal with |- ?l + ?e = ?r => assert (E : r - l - e = (1 - (c * c + s * s) * (c * c + s * s)) * (/ 8 * bsfa * sw T * (3 * x * x + 2 * (2 * z * z + x * y) + 3 * y * y))
        + (c * c + s * s) * (1 - (c * c + s * s)) * 0 + (1 - (c * c + s * s)) * (bica * iw T * ((p0 T - x * x) + (p2 T - z * z)))
        + (1 - (c * c + s * s)) * (/ 2 * bsfa * sw T * (x * x - y * y) * (c * c - s * s) - / 2 * bsfa * sw T * 4 * (z * x + z * y) * (c * s))); [field|rewrite H1 in E; lra] end.
  Qed.
  (** C433: with both axes among the components to be extracted the angle is at most 45 degrees and minimizes the contrast over all rotations; the value returned is the contrast *)
  Lemma min_1_value T m n cv : let S := s24_1 T iw sw bica bsfa m n cv in let C := c24_1 T iw sw bica bsfa m n cv in
    curve_1 od T iw sw bica bsfa m n cv (min_1 T iw sw bica bsfa m n cv) = a20_1 od T iw sw bica bsfa m n cv - sqrt (C * C + S * S).
  Proof.
    cbv zeta. unfold curve_1, min_1, phi4. set (S := s24_1 T iw sw bica bsfa m n cv). set (C := c24_1 T iw sw bica bsfa m n cv). destruct (atan2_spec S C) as (E1 & E2). set (p := atan2 S C) in *.
    assert (Cs : forall x, cos (x - PI) = - cos x) by (intros; rewrite cos_minus, cos_PI, sin_PI; ring). assert (Sn : forall x, sin (x - PI) = - sin x) by (intros; rewrite sin_minus, cos_PI, sin_PI; ring).
    pose proof (cs1 p) as H1. set (r := sqrt (C * C + S * S)) in *.
    assert (F : a20_1 od T iw sw bica bsfa m n cv + C * - cos p + S * - sin p = a20_1 od T iw sw bica bsfa m n cv - r).
    { rewrite E1 at 1. rewrite E2 at 1. replace (r * cos p * - cos p) with (- r * (cos p * cos p)) by ring. replace (r * sin p * - sin p) with (- r * (sin p * sin p)) by ring. replace (sin p * sin p) with (1 - cos p * cos p) by lra. ring. }
    rewrite <- F. destruct (Rle_dec 0 p).
    - replace (-4 * (- / 4 * (p - PI))) with (p - PI) by field. now rewrite Cs, Sn.
    - replace (-4 * (- / 4 * (p + PI))) with (p + PI) by field. now rewrite neg_cos, neg_sin.
  Qed.
  Theorem C433_minimal T m n cv : syms cv -> (m < n)%nat -> (n < od)%nat -> let (angle, c) := givens od T iw sw bica bsfa m n cv in
    c = con T (rot_covs angle m n cv) /\ forall phi, c <= con T (rot_covs phi m n cv).
  Proof.
    intros S Hm Hn. unfold givens. rewrite (proj2 (Nat.ltb_lt n od)) by assumption. unfold givens_1. split; [symmetry; now apply C432_case1|]. intros phi. rewrite C432_case1 by assumption. rewrite min_1_value.
    unfold curve_1. set (Sx := s24_1 _ _ _ _ _ _ _ _). set (Cx := c24_1 _ _ _ _ _ _ _ _). pose proof (amplitude (- Cx) (- Sx) (- 4 * phi)) as A. replace (- Cx * - Cx + - Sx * - Sx) with (Cx * Cx + Sx * Sx) in A by ring. lra.
  Qed.
  (** with the second axis outside: the value returned is the contrast of the rotated matrices *)
  Theorem C433_value T m n cv : syms cv -> (m < od)%nat -> (m < n)%nat -> let (angle, c) := givens od T iw sw bica bsfa m n cv in c = con T (rot_covs angle m n cv).
  Proof.
    intros S Hm Hn. unfold givens. destruct (Nat.ltb_spec n od); unfold givens_1, givens_2; symmetry; [apply C432_case1|apply C432_case2]; assumption.
  Qed.
  Lemma rot_zero m n cv t a b : m <> n -> rot_covs 0 m n cv t a b = cv t a b.
  Proof. intros H. unfold rot_covs. rewrite cos_0, sin_0. fold (rotm 1 0 m n (cv t)). rewrite rotm_eq, !rc_eq by assumption. eqbs; ring. Qed.
  Lemma con_ext T c1 c2 : (forall t a b, (t < T)%nat -> (a < od)%nat -> (b < od)%nat -> c1 t a b = c2 t a b) -> con T c1 = con T c2.
  Proof.
    intros H. unfold contrast_, sfa_part, ica_part. f_equal; apply rsum_ext; intros t Ht; f_equal.
    - apply rsum_ext. intros a Ha. now rewrite H.
    - f_equal. apply above_ext. intros a b Ha Hb. now rewrite H.
  Qed.
  Theorem C433_no_worse T m n cv : syms cv -> (m < n)%nat -> (n < od)%nat -> snd (givens od T iw sw bica bsfa m n cv) <= con T cv.
  Proof.
    intros S Hm Hn. pose proof (C433_minimal T m n cv S Hm Hn) as H. destruct (givens _ _ _ _ _ _ _ _ _) as [an c]. cbn [snd]. destruct H as (_ & H). specialize (H 0).
    rewrite (con_ext T (rot_covs 0 m n cv) cv) in H by (intros; apply rot_zero; lia). exact H.
  Qed.
End Angles.

(** ** Orthogonal matrices *)
Lemma orth_mult d p q : orthogonal d p -> orthogonal d q -> orthogonal d (mult d p q).
Proof.
  intros P Q a b Ha Hb. split.
  - transitivity (mult d (mult d (transp q) (transp p)) (mult d p q) a b); [apply mult_ext; [intros; apply transp_mult|reflexivity]|]. rewrite mult_assoc.
    transitivity (mult d (transp q) q a b); [|now apply Q]. apply mult_ext; [reflexivity|]. intros k Hk. rewrite <- mult_assoc.
    transitivity (mult d eye q k b); [apply mult_ext; [intros; now apply P|reflexivity]|now apply mult_eye_l].
  - transitivity (mult d (mult d p q) (mult d (transp q) (transp p)) a b); [apply mult_ext; [reflexivity|intros; apply transp_mult]|]. rewrite mult_assoc.
    transitivity (mult d p (transp p) a b); [|now apply P]. apply mult_ext; [reflexivity|]. intros k Hk. rewrite <- mult_assoc.
    transitivity (mult d eye (transp p) k b); [apply mult_ext; [intros; now apply Q|reflexivity]|now apply mult_eye_l].
Qed.
Lemma transform_mult D p q (c : covs) t a b : transform D (mult D p q) c t a b = transform D q (transform D p c) t a b.
Proof.
  unfold transform. transitivity (mult D (mult D (mult D (transp q) (transp p)) (c t)) (mult D p q) a b).
  { apply mult_ext; [|reflexivity]. intros j Hj. apply mult_ext; [intros; apply transp_mult|reflexivity]. }
  rewrite <- mult_assoc. apply mult_ext; [|reflexivity]. intros j Hj. transitivity (mult D (mult D (transp q) (mult D (transp p) (c t))) p a j).
  { apply mult_ext; [|reflexivity]. intros. apply mult_assoc. }
  apply mult_assoc.
Qed.
Lemma transform_sym D q (c : covs) t : sym (c t) -> sym (transform D q c t).
Proof.
  intros S a b. unfold transform. rewrite mult_assoc. transitivity (transp (mult D (mult D (transp q) (c t)) q) a b); [|reflexivity]. rewrite transp_mult.
  apply mult_ext; [reflexivity|]. intros j Hj. rewrite transp_mult. apply mult_ext; [|reflexivity]. intros k Hk. apply S.
Qed.
Lemma transform_ext D q (c c' : covs) t a b : (forall x y, (x < D)%nat -> (y < D)%nat -> c t x y = c' t x y) -> transform D q c t a b = transform D q c' t a b.
Proof. intros H. unfold transform. apply mult_ext; [|reflexivity]. intros j Hj. apply mult_ext; [reflexivity|]. intros. now apply H. Qed.
Lemma transform_eye D (c : covs) t a b : (a < D)%nat -> (b < D)%nat -> transform D eye c t a b = c t a b.
Proof.
  intros Ha Hb. unfold transform. rewrite mult_eye_r by assumption. transitivity (mult D eye (c t) a b); [|now apply mult_eye_l]. apply mult_ext; [|reflexivity].
  intros. unfold transp, ftrans, eye. now rewrite Nat.eqb_sym.
Qed.
Lemma transform_rot D c s i j q (cv : covs) t a b : i <> j -> (i < D)%nat -> (j < D)%nat -> transform D (rc c s i j q) cv t a b = rotm c s i j (transform D q cv t) a b.
Proof.
  intros H Hi Hj. unfold transform. rewrite rc_mult by assumption. rewrite rotm_eq by assumption. set (Z := mult D (mult D (transp q) (cv t)) q). set (Y := mult D (mult D (transp (rc c s i j q)) (cv t)) q).
  assert (K : forall a b, Y a b = if (a =? j)%nat then s * Z i b + c * Z j b else if (a =? i)%nat then c * Z i b - s * Z j b else Z a b).
  { clear a b. intros a b. unfold Y. rewrite mult_assoc. transitivity (mult D (transp (mult D (cv t) q)) (rc c s i j q) b a).
    { unfold mult, fmult, transp, ftrans. apply rsum_ext. intros. ring. }
    rewrite rc_mult, rc_eq by assumption. assert (W : forall k, mult D (transp (mult D (cv t) q)) q b k = Z k b).
    { intros k. unfold Z. rewrite mult_assoc. unfold mult at 1 3, fmult, transp, ftrans. apply rsum_ext. intros. ring. }
    rewrite !W. reflexivity. }
  rewrite !rc_eq by assumption. rewrite !K. eqbs; ring.
Qed.

(** ** Perturbations *)
Definition permutes (p : nat) (r : nat -> nat) : Prop := exists v, forall k, (k < p)%nat -> (r k < p /\ v k < p)%nat /\ v (r k) = k /\ r (v k) = k.
Lemma perm_orth p rr k : permutes p (rr k) -> orthogonal p (rnd_perm rr k).
Proof.
  intros (v & H) a b Ha Hb. unfold mult, fmult, transp, ftrans, rnd_perm, eye. split.
  - transitivity (rsum p (fun x => if (x =? rr k a)%nat then (if (x =? rr k b)%nat then 1 else 0) else 0)); [apply rsum_ext; intros x _; destruct (x =? rr k a)%nat, (x =? rr k b)%nat; ring|].
    rewrite (rsum_pick p (rr k a) (fun x => if (x =? rr k b)%nat then 1 else 0)) by (apply H; assumption). destruct (Nat.eqb_spec (rr k a) (rr k b)) as [E|E], (Nat.eqb_spec a b); try reflexivity; [|congruence].
    exfalso. apply n. rewrite <- (proj1 (proj2 (H a Ha))), <- (proj1 (proj2 (H b Hb))). now rewrite E.
  - transitivity (rsum p (fun x => if (x =? v a)%nat then (if (b =? rr k x)%nat then 1 else 0) else 0)).
    { apply rsum_ext. intros x Hx. destruct (Nat.eqb_spec x (v a)) as [->|N].
      - rewrite (proj2 (proj2 (H a Ha))). rewrite Nat.eqb_refl. destruct (b =? a)%nat; ring.
      - destruct (Nat.eqb_spec a (rr k x)) as [E|E]; [|ring]. exfalso. apply N. rewrite E. symmetry. apply H. exact Hx. }
    rewrite (rsum_pick p (v a) (fun x => if (b =? rr k x)%nat then 1 else 0)) by (apply H; assumption). rewrite (proj2 (proj2 (H a Ha))). now rewrite Nat.eqb_sym.
Qed.
Lemma rsum_split n m f : rsum (n + m) f = rsum n f + rsum m (fun k => f (n + k)%nat).
Proof. induction m as [|m IH]; [rewrite Nat.add_0_r, rsum_0; ring|]. rewrite Nat.add_succ_r, !rsum_S, IH. ring. Qed.
Definition block (od : nat) (B : rmat) : rmat := fun a b => if (od <=? a)%nat && (od <=? b)%nat then B (a - od)%nat (b - od)%nat else eye a b.
Lemma block_transp od B a b : transp (block od B) a b = block od (transp B) a b.
Proof. unfold transp, ftrans, block, eye. rewrite andb_comm, (Nat.eqb_sym b a). reflexivity. Qed.
Lemma block_mult od D B C a b : (od <= D)%nat -> (a < D)%nat -> (b < D)%nat -> mult D (block od B) (block od C) a b = block od (mult (D - od) B C) a b.
Proof.
  intros H Ha Hb. unfold mult at 1, fmult. change (rsum D (fun k => block od B a k * block od C k b) = block od (mult (D - od) B C) a b). unfold block at 3.
  destruct (Nat.leb_spec od a) as [La|La], (Nat.leb_spec od b) as [Lb|Lb]; cbn [andb].
  - replace D with (od + (D - od))%nat at 1 by lia. rewrite rsum_split, rsum_zero, Rplus_0_l.
    + apply rsum_ext. intros k Hk. unfold block. rewrite !(proj2 (Nat.leb_le _ _)) by lia. cbn [andb]. now replace (od + k - od)%nat with k by lia.
    + intros k Hk. unfold block, eye. rewrite (proj2 (Nat.leb_gt od k)) by lia. rewrite andb_false_r. cbn [andb]. destruct (Nat.eqb_spec a k); [lia|ring].
  - rewrite (rsum_ext D _ (fun k => block od B a k * eye k b)); [|intros k _; unfold block at 2; rewrite (proj2 (Nat.leb_gt od b)) by lia; now rewrite andb_false_r].
    rewrite (rsum_eye_r D b (fun k => block od B a k)) by assumption. unfold block. rewrite (proj2 (Nat.leb_gt od b)) by lia. now rewrite andb_false_r.
  - rewrite (rsum_ext D _ (fun k => eye a k * block od C k b)); [|intros k _; unfold block at 1; rewrite (proj2 (Nat.leb_gt od a)) by lia; reflexivity].
    rewrite (rsum_eye_l D a (fun k => block od C k b)) by assumption. unfold block. rewrite (proj2 (Nat.leb_gt od a)) by lia. reflexivity.
  - rewrite (rsum_ext D _ (fun k => eye a k * block od C k b)); [|intros k _; unfold block at 1; rewrite (proj2 (Nat.leb_gt od a)) by lia; reflexivity].
    rewrite (rsum_eye_l D a (fun k => block od C k b)) by assumption. unfold block. rewrite (proj2 (Nat.leb_gt od a)) by lia. reflexivity.
Qed.
Lemma block_orth od D B : (od <= D)%nat -> orthogonal (D - od) B -> orthogonal D (block od B).
Proof.
  intros H O a b Ha Hb.
  assert (E : forall X, (forall x y, (x < D - od)%nat -> (y < D - od)%nat -> X x y = eye x y) -> block od X a b = eye a b).
  { intros X HX. unfold block. destruct (Nat.leb_spec od a), (Nat.leb_spec od b); cbn [andb]; try reflexivity. rewrite HX by lia. unfold eye. destruct (Nat.eqb_spec (a - od) (b - od)), (Nat.eqb_spec a b); try reflexivity; lia. }
  split.
  - transitivity (mult D (block od (transp B)) (block od B) a b); [apply mult_ext; [intros; apply block_transp|reflexivity]|]. rewrite block_mult by assumption. apply E. intros. now apply O.
  - transitivity (mult D (block od B) (block od (transp B)) a b); [apply mult_ext; [reflexivity|intros; apply block_transp]|]. rewrite block_mult by assumption. apply E. intros. now apply O.
Qed.

(** ** The optimization *)
Section Opt.
  Variables (D od T : nat) (iw sw : nat -> R) (bica bsfa : R) (order : nat -> list (nat * nat)) (rnd_rot : nat -> rmat) (rnd_row : nat -> nat -> nat) (eps : R) (max_iter : nat).
  Hypothesis Hod : (od <= D)%nat.
  (** the shuffle permutes the axes; random_rot and permutation do what they say *)
  Hypothesis Hord : forall k, Permutation (rot_axis D od) (order k).
  Hypothesis Hrot : forall k, orthogonal (D - od) (rnd_rot k).
  Hypothesis Hrow : forall k, permutes (D - od) (rnd_row k).
  Local Notation con := (contrast_ od T iw sw bica bsfa).
  Local Notation sweep_ := (sweep od T iw sw bica bsfa).
  Local Notation loop_ := (loop D od T iw sw bica bsfa order rnd_rot rnd_row eps max_iter).
  Definition inv (c0 cv : covs) (q : rmat) : Prop := orthogonal D q /\ syms cv /\ forall t a b, (a < D)%nat -> (b < D)%nat -> cv t a b = transform D q c0 t a b.
  Lemma in_axis i j : In (i, j) (rot_axis D od) <-> (i < j /\ i < od /\ j < D)%nat.
  Proof.
    unfold rot_axis. rewrite in_flat_map. split.
    - intros (k & H1 & H2). apply in_map_iff in H2 as (l & E & H2). injection E as -> ->. apply in_seq in H1, H2. lia.
    - intros H. exists i. split; [apply in_seq; lia|]. apply in_map_iff. exists j. split; [reflexivity|]. apply in_seq. lia.
  Qed.
  Lemma inv_rot c0 cv q phi i j : (i < j)%nat -> (j < D)%nat -> inv c0 cv q -> inv c0 (rot_covs phi i j cv) (rotate phi i j q).
  Proof.
    intros Hi Hj (O & S & E). split; [|split].
    - apply rc_orthogonal; try lia; [apply cs1|assumption].
    - intros t. apply rotm_sym; [lia|apply S].
    - intros t a b Ha Hb. unfold rotate. fold (rc (cos phi) (sin phi) i j q). rewrite transform_rot by lia. unfold rot_covs. fold (rotm (cos phi) (sin phi) i j (cv t)).
      rewrite !rotm_eq, !rc_eq by lia. rewrite !E by lia. reflexivity.
  Qed.
  Lemma sweep_inv c0 l : (forall i j, In (i, j) l -> (i < j /\ i < od /\ j < D)%nat) -> forall mi cv q prev last mi' cv' q' c,
    inv c0 cv q -> sweep_ l mi cv q prev last = Some (mi', cv', q', c) -> inv c0 cv' q'.
  Proof.
    induction l as [|[i j] l IH]; intros Hl mi cv q prev last mi' cv' q' c I E; cbn [sweep] in E.
    - destruct last; [|discriminate]. now injection E as <- <- <- <-.
    - destruct (givens _ _ _ _ _ _ i j cv) as [an c1]. destruct (Req_EM_T c1 0); [now injection E as <- <- <- <-|]. assert (Hl' : forall a b, In (a, b) l -> (a < b /\ a < od /\ b < D)%nat) by (intros; apply Hl; now right).
      destruct (Hl i j (or_introl eq_refl)) as (A & B & C). destruct (reldiff prev c1); [|now apply IH in E]. apply IH in E; auto. apply inv_rot; auto.
  Qed.
  Lemma prt_block k : prt D od rnd_rot rnd_row k = block od (mult (D - od) (rnd_rot k) (rnd_perm rnd_row k)). Proof. reflexivity. Qed.
  Lemma inv_prt c0 cv q k : inv c0 cv q -> inv c0 (transform D (prt D od rnd_rot rnd_row k) cv) (mult D q (prt D od rnd_rot rnd_row k)).
  Proof.
    intros (O & S & E). rewrite prt_block. set (P := block od _). split; [|split].
    - apply orth_mult; [exact O|]. apply block_orth; [exact Hod|]. apply orth_mult; [apply Hrot|apply perm_orth, Hrow].
    - intros t. apply transform_sym, S.
    - intros t a b Ha Hb. rewrite transform_mult. apply transform_ext. intros. now apply E.
  Qed.
  Lemma order_ok k i j : In (i, j) (order k) -> (i < j /\ i < od /\ j < D)%nat.
  Proof. intros H. apply in_axis. eapply Permutation_in; [apply Permutation_sym, Hord|exact H]. Qed.
  Lemma loop_inv c0 fuel : forall k s cv q n, inv c0 (o_cv s) (o_q s) -> loop_ fuel k s = Some (inl (cv, q, n)) -> inv c0 cv q /\ (k < n)%nat /\ ((k < max_iter)%nat -> (n < max_iter)%nat).
  Proof.
    induction fuel as [|fuel IH]; intros k s cv q n I E; cbn [loop] in E; [discriminate|]. destruct (do_sweep _ _ _ _ _ _ _ _ _ _) as [[[[mi cv1] q1] c1]|] eqn:Es; [|discriminate].
    apply sweep_inv with (c0 := c0) in Es; [|apply order_ok|exact I]. destruct (decide _ _ _ _ _ _) as [[going pert] part].
    destruct ((1 <=? pert)%Z && going) eqn:Eg.
    - destruct (Nat.eqb_spec (S k) max_iter); [discriminate|]. apply andb_prop in Eg as (_ & ->). apply IH in E; [|apply inv_prt; exact Es]. destruct E as (A & B & C). split; [exact A|]. split; [lia|]. intros. apply C. lia.
    - destruct (Nat.eqb_spec (S k) max_iter); [discriminate|]. destruct going.
      + apply IH in E; [|exact Es]. destruct E as (A & B & C). split; [exact A|]. split; [lia|]. intros. apply C. lia.
      + injection E as <- <- <-. split; [exact Es|]. lia.
  Qed.
  (** C434: Q is orthogonal, and the matrices are the given ones rotated by Q *)
  Theorem C434_rotation fuel c0 cv q n : syms c0 -> optimize D od T iw sw bica bsfa order rnd_rot rnd_row eps max_iter fuel c0 = Some (inl (cv, q, n)) ->
    orthogonal D q /\ (forall t a b, (a < D)%nat -> (b < D)%nat -> cv t a b = transform D q c0 t a b).
  Proof.
    intros S E. apply (loop_inv c0) in E; [destruct E as ((A & _ & B) & _); auto|]. split; [apply eye_orthogonal|]. split; [exact S|]. intros. symmetry. now apply transform_eye.
  Qed.
  (** C437: the loop ends; it returns only with fewer than max_iter sweeps *)
  Lemma loop_ends fuel : forall k s, (k < max_iter)%nat -> (max_iter <= k + fuel)%nat -> loop_ fuel k s <> None.
  Proof.
    induction fuel as [|fuel IH]; intros k s H1 H2; [lia|]. cbn [loop]. destruct (do_sweep _ _ _ _ _ _ _ _ _ _) as [[[[mi cv1] q1] c1]|]; [|discriminate].
    destruct (decide _ _ _ _ _ _) as [[going pert] part]. destruct ((1 <=? pert)%Z && going); destruct (Nat.eqb_spec (S k) max_iter); try discriminate; destruct going; try discriminate; apply IH; lia.
  Qed.
  Theorem C437_ends fuel c0 : (1 <= max_iter <= fuel)%nat -> exists r, optimize D od T iw sw bica bsfa order rnd_rot rnd_row eps max_iter fuel c0 = Some r.
  Proof. intros H. destruct (optimize _ _ _ _ _ _ _ _ _ _ _ _ _ _) eqn:E; [eauto|]. now apply loop_ends in E; try lia. Qed.
  Theorem C437_sweeps fuel c0 cv q n : syms c0 -> (1 <= max_iter)%nat -> optimize D od T iw sw bica bsfa order rnd_rot rnd_row eps max_iter fuel c0 = Some (inl (cv, q, n)) -> (1 <= n < max_iter)%nat.
  Proof.
    intros S H E. apply (loop_inv c0) in E; [lia|]. split; [apply eye_orthogonal|]. split; [exact S|]. intros. symmetry. now apply transform_eye.
  Qed.
  (** C436: UnboundLocalError is raised exactly if there is no pair of axes *)
  Lemma sweep_some l : forall mi cv q prev c, sweep_ l mi cv q prev (Some c) <> None.
  Proof. induction l as [|[i j] l IH]; intros mi cv q prev c; cbn [sweep]; [discriminate|]. destruct (givens _ _ _ _ _ _ i j cv) as [an c1]. destruct (Req_EM_T c1 0); [discriminate|]. destruct (reldiff prev c1); apply IH. Qed.
  Theorem C436_axes fuel c0 : (1 <= od)%nat -> (2 <= D)%nat -> optimize D od T iw sw bica bsfa order rnd_rot rnd_row eps max_iter fuel c0 <> Some (inr IUnbound).
  Proof.
    intros H1 H2. unfold optimize. generalize 0%nat, (start D od T iw sw bica bsfa c0). induction fuel as [|fuel IH]; intros k s; cbn [loop]; [discriminate|].
    assert (E : do_sweep od T iw sw bica bsfa (order (S k)) (o_cv s) (o_q s) (o_con s) <> None).
    { unfold do_sweep. destruct (order (S k)) as [|[i j] l] eqn:Eo.
      - exfalso. assert (In (0, 1)%nat (order (S k))) by (eapply Permutation_in; [apply Hord|apply in_axis; lia]). now rewrite Eo in H.
      - cbn [sweep]. destruct (givens _ _ _ _ _ _ i j _) as [an c1]. destruct (Req_EM_T c1 0); [discriminate|]. destruct (reldiff _ c1); apply sweep_some. }
    destruct (do_sweep _ _ _ _ _ _ _ _ _ _) as [[[[mi cv1] q1] c1]|]; [|congruence]. destruct (decide _ _ _ _ _ _) as [[going pert] part].
    destruct ((1 <=? pert)%Z && going); destruct (S k =? max_iter)%nat; try discriminate; destruct going; try discriminate; apply IH.
  Qed.

  (** C435: without outer space the contrast never gets larger *)
  Hypothesis Hfull : od = D.
  Lemma sweep_con l : (forall i j, In (i, j) l -> (i < j /\ i < od /\ j < D)%nat) -> forall mi cv q prev last mi' cv' q' c,
    syms cv -> prev = con cv -> (match last with Some x => x = prev | None => True end) -> sweep_ l mi cv q prev last = Some (mi', cv', q', c) ->
    con cv' <= con cv /\ (c = con cv' \/ c = 0 /\ mi' = Fin (-1)).
  Proof using Hfull.
    clear Hod Hord Hrot Hrow. induction l as [|[i j] l IH]; intros Hl mi cv q prev last mi' cv' q' c Sy P L E; cbn [sweep] in E.
    - destruct last; [|discriminate]. injection E as <- <- <- <-. split; [lra|left; congruence].
    - destruct (Hl i j (or_introl eq_refl)) as (A & B & C). assert (Hj : (j < od)%nat) by lia.
      pose proof (C433_value od iw sw bica bsfa T i j cv Sy B A) as V. pose proof (C433_no_worse od iw sw bica bsfa T i j cv Sy A Hj) as W.
      destruct (givens od T iw sw bica bsfa i j cv) as [an c1]. cbn [snd] in W. destruct (Req_EM_T c1 0).
      + injection E as <- <- <- <-. split; [lra|]. right. auto.
      + assert (R : exists r, reldiff prev c1 = Some r).
        { unfold reldiff. destruct (Req_EM_T prev 0). - destruct (Rlt_dec prev c1); [lra|eauto].
          - destruct (Rlt_dec ((prev - c1) / Rabs prev) 0) as [Lt|]; [exfalso|eauto]. assert (0 < Rabs prev) by now apply Rabs_pos_lt. assert (0 <= (prev - c1) / Rabs prev); [|lra]. apply Rmult_le_pos; [lra|]. left. now apply Rinv_0_lt_compat. }
        destruct R as (r & R). rewrite R in E. apply IH in E; [|intros; apply Hl; now right|intros t; apply rotm_sym; [lia|apply Sy]|exact V|reflexivity]. destruct E as (E1 & E2). split; [lra|exact E2].
  Qed.
  Lemma loop_con fuel : forall k s cv q n, inv (o_cv s) (o_cv s) eye -> (o_pert s < 0)%Z -> o_con s = con (o_cv s) -> loop_ fuel k s = Some (inl (cv, q, n)) -> con cv <= con (o_cv s).
  Proof.
    induction fuel as [|fuel IH]; intros k s cv q n I Hp Hc E; cbn [loop] in E; [discriminate|]. destruct (do_sweep _ _ _ _ _ _ _ _ _ _) as [[[[mi cv1] q1] c1]|] eqn:Es; [|discriminate].
    assert (Sy : syms cv1).
    { refine (proj1 (proj2 (sweep_inv (o_cv s) (order (S k)) (order_ok (S k)) (Fin (-1)) (o_cv s) eye (o_con s) None mi cv1 (match sweep_ (order (S k)) (Fin (-1)) (o_cv s) eye (o_con s) None with Some (_, _, q', _) => q' | None => eye end) c1 I _))).
      assert (G : forall l mi cv q q2 prev last, match sweep_ l mi cv q prev last, sweep_ l mi cv q2 prev last with Some (m1, v1, _, d1), Some (m2, v2, _, d2) => m1 = m2 /\ v1 = v2 /\ d1 = d2 | None, None => True | _, _ => False end).
      { clear. induction l as [|[i j] l IH]; intros; cbn [sweep]; [destruct last; auto|]. destruct (givens _ _ _ _ _ _ i j cv) as [an c1]. destruct (Req_EM_T c1 0); [auto|]. destruct (reldiff prev c1); apply IH. }
      specialize (G (order (S k)) (Fin (-1)) (o_cv s) (o_q s) eye (o_con s) None). unfold do_sweep in Es. rewrite Es in G. destruct (sweep_ _ _ _ eye _ _) as [[[[m2 v2] q2] d2]|]; [|contradiction]. destruct G as (-> & -> & ->). reflexivity. }
    apply sweep_con in Es; [|apply order_ok|apply I|exact Hc|exact Logic.I]. destruct Es as (E1 & E2).
    destruct (decide eps mi c1 (o_pert s) (o_part s) (S k)) as [[going pert] part] eqn:Ed.
    assert (K : (pert < 0 \/ going = false)%Z /\ (going = true -> c1 = con cv1)).
    { unfold decide in Ed. destruct (elt mi 0 || (if Req_EM_T c1 0 then true else false)) eqn:Eb.
      - split; [|]. + right. destruct (o_pert s =? 0)%Z; destruct (elt mi eps && negb (elt mi 0)); repeat match type of Ed with context [if ?b then _ else _] => destruct b end; injection Ed as <- <- <-; auto.
        + intros ->. exfalso. destruct (o_pert s =? 0)%Z; destruct (elt mi eps && negb (elt mi 0)); repeat match type of Ed with context [if ?b then _ else _] => destruct b end; discriminate.
      - apply orb_false_elim in Eb as (Eb1 & Eb2). split.
        + left. destruct (elt mi eps && negb (elt mi 0)).
          * destruct (Z.eqb_spec (o_pert s) 0); [lia|]. destruct ((1 <=? o_pert s)%Z && _) eqn:Ep; [apply andb_prop in Ep as (Ep & _); apply Z.leb_le in Ep; lia|]. destruct (Z.ltb_spec (o_pert s) 0); [|lia]. injection Ed as <- <- <-. exact Hp.
          * injection Ed as <- <- <-. exact Hp.
        + intros _. destruct E2 as [E2|(_ & ->)]; [exact E2|]. cbn in Eb1. destruct (Rlt_dec (-1) 0); [discriminate|lra]. }
    destruct K as (K1 & K2).
    assert (Ef : (1 <=? pert)%Z && going = false) by (destruct K1 as [K1| ->]; [destruct (Z.leb_spec 1 pert); [lia|reflexivity]|apply andb_false_r]). rewrite Ef in E.
    destruct (S k =? max_iter)%nat; [discriminate|]. destruct going.
    - apply IH in E; cbn [o_cv o_pert o_con]; [cbn [o_cv] in E; lra| | |auto].
      + split; [apply eye_orthogonal|]. split; [exact Sy|]. intros. symmetry. now apply transform_eye.
      + destruct K1 as [|]; [assumption|discriminate].
    - injection E as <- <- <-. exact E1.
  Qed.
  Theorem C435_contrast fuel c0 cv q n : syms c0 -> optimize D od T iw sw bica bsfa order rnd_rot rnd_row eps max_iter fuel c0 = Some (inl (cv, q, n)) -> con cv <= con c0.
  Proof.
    intros S E. unfold optimize in E. apply loop_con in E; [exact E| | |reflexivity].
    - split; [apply eye_orthogonal|]. split; [exact S|]. intros. symmetry. now apply transform_eye.
    - cbn. rewrite Hfull, Nat.eqb_refl. lia.
  Qed.
End Opt.
(** a sweep, with or without an outer space: only rotations which do not increase the contrast are made *)
Theorem C435_sweep od T iw sw bica bsfa l : (forall i j, In (i, j) l -> (i < j /\ i < od)%nat) -> forall mi cv q prev last mi' cv' q' c,
  syms cv -> prev = contrast_ od T iw sw bica bsfa cv -> sweep od T iw sw bica bsfa l mi cv q prev last = Some (mi', cv', q', c) -> contrast_ od T iw sw bica bsfa cv' <= contrast_ od T iw sw bica bsfa cv.
Proof.
  induction l as [|[i j] l IH]; intros Hl mi cv q prev last mi' cv' q' c Sy P E; cbn [sweep] in E.
  - destruct last; [|discriminate]. injection E as <- <- <- <-. lra.
  - destruct (Hl i j (or_introl eq_refl)) as (A & B). pose proof (C433_value od iw sw bica bsfa T i j cv Sy B A) as V. destruct (givens od T iw sw bica bsfa i j cv) as [an c1]. destruct (Req_EM_T c1 0).
    + injection E as <- <- <- <-. lra.
    + destruct (reldiff prev c1) as [r|] eqn:R.
      * assert (L : c1 <= prev). { unfold reldiff in R. destruct (Req_EM_T prev 0); [destruct (Rlt_dec prev c1); [discriminate|lra]|]. destruct (Rlt_dec ((prev - c1) / Rabs prev) 0) as [|N]; [discriminate|]. assert (0 < Rabs prev) by now apply Rabs_pos_lt. apply Rnot_lt_le in N. apply (Rmult_le_compat_r (Rabs prev)) in N; [|lra]. unfold Rdiv in N. rewrite Rmult_assoc, Rinv_l in N by lra. lra. }
        apply IH in E; [lra|intros a b I; apply Hl; now right|intros t; apply rotm_sym; [lia|apply Sy]|exact V].
      * apply IH in E; [exact E|intros a b I; apply Hl; now right|exact Sy|exact P].
Qed.

(** ** C438: a pair of axes with a minimal contrast of zero *)
Theorem C438_quits od T iw sw bica bsfa i j l cv q prev : snd (givens od T iw sw bica bsfa i j cv) = 0 -> do_sweep od T iw sw bica bsfa ((i, j) :: l) cv q prev = Some (Fin (-1), cv, q, 0).
Proof. intros H. unfold do_sweep. cbn [sweep]. destruct (givens _ _ _ _ _ _ i j cv) as [an c]. cbn [snd] in H. subst c. destruct (Req_EM_T 0 0); [reflexivity|lra]. Qed.
Theorem C438_rotates od T iw sw bica bsfa i j l cv q prev : let (angle, c) := givens od T iw sw bica bsfa i j cv in c <> 0 -> c < prev ->
  exists r, do_sweep od T iw sw bica bsfa ((i, j) :: l) cv q prev = sweep od T iw sw bica bsfa l (emax (Fin (-1)) r) (rot_covs angle i j cv) (rotate angle i j q) c (Some c).
Proof.
  unfold do_sweep. cbn [sweep]. destruct (givens _ _ _ _ _ _ i j cv) as [an c]. intros N L. destruct (Req_EM_T c 0); [contradiction|]. unfold reldiff. destruct (Req_EM_T prev 0).
  - destruct (Rlt_dec prev c); [lra|eauto].
  - destruct (Rlt_dec ((prev - c) / Rabs prev) 0) as [Lt|]; [exfalso|eauto]. assert (0 < Rabs prev) by now apply Rabs_pos_lt. assert (0 < (prev - c) / Rabs prev); [|lra]. apply Rmult_lt_0_compat; [lra|]. now apply Rinv_0_lt_compat.
Qed.
Lemma two_zero iw sw bica cv : 0 <= bica * iw 0%nat -> sym (cv 0%nat) -> snd (givens 2 1 iw sw bica 0 0 1 cv) = 0.
Proof.
  intros H S. unfold givens. change (1 <? 2)%nat with true. cbv iota. unfold givens_1. cbn [snd]. rewrite min_1_value.
  set (x := cv 0%nat 0%nat 0%nat). set (y := cv 0%nat 1%nat 1%nat). set (z := cv 0%nat 0%nat 1%nat).
  assert (E : c24_1 1 iw sw bica 0 0 1 cv * c24_1 1 iw sw bica 0 0 1 cv + s24_1 1 iw sw bica 0 0 1 cv * s24_1 1 iw sw bica 0 0 1 cv = (bica * iw 0%nat / 4 * (4 * z * z + (x - y) * (x - y))) * (bica * iw 0%nat / 4 * (4 * z * z + (x - y) * (x - y)))).
  { unfold c24_1, s24_1, d0_1, d1_1, d2_1, e0_1, e1_1, e2_1, rsum, fsum. cbn [seq map fold_right]. fold x y z. field. }
  rewrite E. rewrite sqrt_square by (apply Rmult_le_pos; [lra|pose proof (Rle_0_sqr z); pose proof (Rle_0_sqr (x - y)); unfold Rsqr in *; lra]).
  unfold a20_1, d0_1, d2_1, e0_1, e2_1, dc_1, ec_1, triu, diag2, rsum, fsum. cbn [seq map fold_right Nat.ltb Nat.leb]. fold x y z. field.
Qed.
(** two components, one lag, no slowness term (TDSEP): no rotation, whatever the matrix *)
Lemma two_run iw sw bica rr row eps mx fuel cv : 0 <= bica * iw 0%nat -> sym (cv 0%nat) ->
  optimize 2 2 1 iw sw bica 0 (fun _ => rot_axis 2 2) rr row eps mx (S fuel) cv = Some (if (1 =? mx)%nat then inr INodeExc else inl (cv, eye, 1%nat)).
Proof.
  intros H S. unfold optimize, start. cbn [loop o_cv o_q o_con o_pert o_part]. change (rot_axis 2 2) with [(0, 1)]%nat. rewrite C438_quits by now apply two_zero.
  unfold decide. assert (E : elt (Fin (-1)) 0 = true) by (cbn; destruct (Rlt_dec (-1) 0); [reflexivity|lra]). rewrite E. cbn [orb negb Nat.eqb]. rewrite andb_false_r. cbn [Z.eqb Z.opp Z.leb Z.compare andb]. destruct (1 =? mx)%nat eqn:Em; destruct mx as [|[|mx]]; cbn in *; try discriminate; reflexivity.
Qed.
Theorem C438_two iw sw bica rr row eps mx fuel cv : 0 <= bica * iw 0%nat -> sym (cv 0%nat) -> mx <> 1%nat ->
  optimize 2 2 1 iw sw bica 0 (fun _ => rot_axis 2 2) rr row eps mx (S fuel) cv = Some (inl (cv, eye, 1%nat)).
Proof. intros H S N. rewrite two_run by assumption. destruct (Nat.eqb_spec 1 mx); [congruence|reflexivity]. Qed.
Definition half_cov : covs := fun _ a b => if (a =? b)%nat then 0 else 1 / 2.
Lemma half_sym : syms half_cov. Proof. intros t a b. unfold half_cov. now rewrite Nat.eqb_sym. Qed.
Lemma half_con phi : contrast_ 2 1 (fun _ => 1) (fun _ => 1) (1/2) 0 (rot_covs phi 0 1 half_cov) = (cos phi * cos phi - sin phi * sin phi) * (cos phi * cos phi - sin phi * sin phi) / 4.
Proof.
  unfold contrast_, sfa_part, ica_part, rsum, fsum. cbn [seq map fold_right]. unfold rot_covs. fold (rotm (cos phi) (sin phi) 0 1 (half_cov 0%nat)).
  rewrite triu_rot1; [|lia|apply cs1|apply half_sym|lia|lia]. rewrite rot_ij; [|lia|apply half_sym]. unfold triu, rsum, fsum. cbn [seq map fold_right Nat.ltb Nat.leb]. unfold half_cov. cbn [Nat.eqb]. field.
Qed.
Theorem C438_refuted : exists cv, syms cv /\ let (bica, bsfa) := adjust 2 0 1 in let con := contrast_ 2 1 (fun _ => 1) (fun _ => 1) bica bsfa in
  con cv > 0 /\ (exists phi, con (rot_covs phi 0 1 cv) = 0) /\
  forall rr row eps mx fuel argsort, (2 <= mx)%nat -> exists tr, stop_training 2 2 1 (fun _ => 1) (fun _ => 1) bica bsfa (fun _ => rot_axis 2 2) rr row eps mx argsort (S fuel) cv None ANone = Some (inl tr) /\
    t_final tr = con cv /\ t_init tr = con cv.
Proof.
  exists half_cov. split; [apply half_sym|]. unfold adjust. change (1 <? 2)%nat with true. cbv iota. replace (INR 2) with 2 by (cbn; ring). replace (1 / (2 * (2 - 1))) with (1 / 2) by field. replace (- 0 / 2) with 0 by field. cbv zeta.
  assert (E : contrast_ 2 1 (fun _ => 1) (fun _ => 1) (1/2) 0 half_cov = 1 / 4).
  { rewrite <- (con_ext 2 (fun _ => 1) (fun _ => 1) (1/2) 0 1 (rot_covs 0 0 1 half_cov)) by (intros; apply rot_zero; lia). rewrite half_con, cos_0, sin_0. field. }
  rewrite E. split; [lra|]. split; [exists (PI / 4); rewrite half_con, cos_PI4, sin_PI4; field; apply sqrt2_neq_0|].
  intros rr row eps mx fuel argsort Hm. unfold stop_training. rewrite C438_two; [|lra|apply half_sym|lia]. eexists. split; [reflexivity|]. cbn [t_final t_init]. auto.
Qed.

(** C436 (refuted): one component *)
Theorem C436_refuted : forall cv iw sw bica bsfa order rr row eps mx argsort fuel rp, (forall k, Permutation (rot_axis 1 1) (order k)) ->
  stop_training 1 1 1 iw sw bica bsfa order rr row eps mx argsort (S fuel) cv rp ANone = Some (inr IUnbound).
Proof.
  intros cv iw sw bica bsfa order rr row eps mx argsort fuel rp H. unfold stop_training, optimize. cbn [loop]. specialize (H 1%nat). change (rot_axis 1 1) with (@nil (nat * nat)) in H. apply Permutation_nil in H. rewrite H. reflexivity.
Qed.
(** C437 (refuted): convergence in the sweep number max_iter *)
Theorem C437_refuted : exists cv, syms cv /\ forall rr row eps fuel,
  optimize 2 2 1 (fun _ => 1) (fun _ => 1) (1/2) 0 (fun _ => rot_axis 2 2) rr row eps 2 (S fuel) cv = Some (inl (cv, eye, 1%nat)) /\
  optimize 2 2 1 (fun _ => 1) (fun _ => 1) (1/2) 0 (fun _ => rot_axis 2 2) rr row eps 1 (S fuel) cv = Some (inr INodeExc).
Proof.
  exists (fun _ _ _ => 0). split; [intros t a b; reflexivity|]. intros. split; rewrite two_run by (try lra; intros a b; reflexivity); reflexivity.
Qed.

(** ** The result of the training *)
Definition is_argsort (n : nat) (argsort : (nat -> R) -> nat -> nat) : Prop := forall f, permutes n (argsort f) /\ forall i j, (i <= j)%nat -> (j < n)%nat -> f (argsort f i) <= f (argsort f j).
Section Result.
  Variables (D od T : nat) (iw sw : nat -> R) (bica bsfa : R) (order : nat -> list (nat * nat)) (rnd_rot : nat -> rmat) (rnd_row : nat -> nat -> nat) (eps : R) (max_iter : nat) (argsort : (nat -> R) -> nat -> nat).
  Hypothesis (Hod : (od <= D)%nat) (Hord : forall k, Permutation (rot_axis D od) (order k)) (Hrot : forall k, orthogonal (D - od) (rnd_rot k)) (Hrow : forall k, permutes (D - od) (rnd_row k)) (Hsort : is_argsort od argsort).
  Local Notation stop := (stop_training D od T iw sw bica bsfa order rnd_rot rnd_row eps max_iter argsort).
  Definition used (own : covs) (a : covarg) : covs := match a with AMulti c => c | _ => own end.
  (** C439: RPC is orthogonal, the columns of RP are its first columns in another order, they are orthonormal; the covariance matrices are those of the data times RPC *)
  Theorem C439_matrices fuel own rp a tr : (forall r, rp = Some r -> orthogonal D r) -> syms (used own a) -> stop fuel own rp a = Some (inl tr) ->
    orthogonal D (t_rpc tr) /\
    (exists p, permutes od p /\ forall i b, (b < od)%nat -> t_rp tr i b = t_rpc tr i (p b)) /\
    (forall i j, (i < od)%nat -> (j < od)%nat -> mult D (transp (t_rp tr)) (t_rp tr) i j = eye i j) /\
    (forall t i j, (i < D)%nat -> (j < D)%nat -> t_covs tr t i j = transform D (t_rpc tr) (used own a) t i j).
  Proof.
    intros Hrp Sy E. unfold stop_training in E. destruct (match a with ANone => _ | _ => _ end) as [c0|] eqn:Ea; [|discriminate]. assert (Eu : used own a = c0) by (destruct a; cbn in Ea |- *; congruence). rewrite Eu in *.
    set (cv := match rp with None => c0 | Some r => transform D r c0 end) in *. destruct (optimize _ _ _ _ _ _ _ _ _ _ _ _ fuel cv) as [[[[cvf q] n]|]|] eqn:Eo; try discriminate. injection E as <-. cbn [t_rp t_rpc t_covs].
    assert (Scv : syms cv) by (unfold cv; destruct rp; [intros t; apply transform_sym, Sy|exact Sy]).
    apply C434_rotation in Eo; auto. destruct Eo as (Oq & _). set (rp0 := match rp with None => eye | Some r => r end). assert (O0 : orthogonal D rp0) by (unfold rp0; destruct rp; [now apply Hrp|apply eye_orthogonal]).
    pose proof (orth_mult D rp0 q O0 Oq) as Or. split; [exact Or|].
    set (f := fun a => transform D q cv 0%nat a a). destruct (proj1 (Hsort f)) as (v & Hv).
    assert (P : permutes od (fun b => argsort f (od - 1 - b)%nat)).
    { exists (fun k => od - 1 - v k)%nat. intros k Hk. destruct (Hv (od - 1 - k)%nat) as ((A & B) & C & F); [lia|]. destruct (Hv k Hk) as ((A' & B') & C' & F'). split; [split; [exact A|lia]|]. split; [rewrite C; lia|]. replace (od - 1 - (od - 1 - v k))%nat with (v k) by lia. exact F'. }
    split; [exists (fun b => argsort f (od - 1 - b)%nat); split; [exact P|reflexivity]|]. split.
    - intros i j Hi Hj. destruct P as (w & P). destruct (P i Hi) as ((A & _) & B & _). destruct (P j Hj) as ((A' & _) & B' & _).
      transitivity (mult D (transp (mult D rp0 q)) (mult D rp0 q) (argsort f (od - 1 - i)%nat) (argsort f (od - 1 - j)%nat)); [reflexivity|].
      cbv beta in A, A', B, B'. assert (Hp : (argsort f (od - 1 - i) < D)%nat) by lia. assert (Hq : (argsort f (od - 1 - j) < D)%nat) by lia.
      rewrite (proj1 (Or _ _ Hp Hq)). unfold eye. destruct (Nat.eqb_spec (argsort f (od - 1 - i)) (argsort f (od - 1 - j))) as [Eq|Ne], (Nat.eqb_spec i j) as [Eij|Nij]; try reflexivity; [|congruence].
      exfalso. apply Nij. rewrite <- B, <- B'. now rewrite Eq.
    - intros t i j Hi Hj. rewrite transform_mult. apply transform_ext. intros x y Hx Hy. unfold cv, rp0. destruct rp; [reflexivity|]. symmetry. now apply transform_eye.
  Qed.
  (** C440: the components are ordered by their covariance with the first lag *)
  Theorem C440_slowness fuel own rp a tr : (forall r, rp = Some r -> orthogonal D r) -> syms (used own a) -> stop fuel own rp a = Some (inl tr) ->
    forall i j, (i <= j)%nat -> (j < od)%nat -> transform D (t_rp tr) (used own a) 0%nat j j <= transform D (t_rp tr) (used own a) 0%nat i i.
  Proof.
    intros Hrp Sy E i j Hi Hj. pose proof (C439_matrices fuel own rp a tr Hrp Sy E) as (_ & _ & _ & Hc). unfold stop_training in E. destruct (match a with ANone => _ | _ => _ end) as [c0|] eqn:Ea; [|discriminate].
    set (cv := match rp with None => c0 | Some r => transform D r c0 end) in *. destruct (optimize _ _ _ _ _ _ _ _ _ _ _ _ fuel cv) as [[[[cvf q] n]|]|] eqn:Eo; try discriminate. injection E as <-. cbn [t_rp t_rpc t_covs] in *.
    set (f := fun a => transform D q cv 0%nat a a) in *. destruct (Hsort f) as ((v & Hv) & So). set (rpc := mult D (match rp with None => eye | Some r => r end) q) in *.
    assert (K : forall b, (b < od)%nat -> transform D (fun x y => rpc x (argsort f (od - 1 - y)%nat)) (used own a) 0%nat b b = f (argsort f (od - 1 - b)%nat)).
    { intros b Hb. destruct (Hv (od - 1 - b)%nat) as ((A & _) & _); [lia|]. unfold f at 2. rewrite Hc by lia. unfold transform. reflexivity. }
    rewrite !K by lia. apply So; lia.
  Qed.
  (** the data times RP have these covariances *)
End Result.

Definition argsort2 (f : nat -> R) (i : nat) : nat := if Rle_dec (f 0%nat) (f 1%nat) then i else (1 - i)%nat.
Lemma argsort2_ok : is_argsort 2 argsort2.
Proof.
  intros f. unfold argsort2. destruct (Rle_dec (f 0%nat) (f 1%nat)) as [L|L]; split.
  - exists (fun k => k). intros. auto.
  - intros [|[|i]] [|[|j]] H1 H2; try lia; lra.
  - exists (fun k => 1 - k)%nat. intros [|[|k]] Hk; try lia; cbn; lia.
  - intros [|[|i]] [|[|j]] H1 H2; try lia; cbn; lra.
Qed.
Definition diag_cov (x y : R) : covs := fun _ a b => if (a =? b)%nat then if (a =? 0)%nat then x else y else 0.
Lemma diag_sym x y : syms (diag_cov x y).
Proof. intros t a b. unfold diag_cov. destruct (Nat.eqb_spec a b), (Nat.eqb_spec b a); subst; try reflexivity; congruence. Qed.
Definition simple_stop (cv : covs) rp a := stop_training 2 2 1 (fun _ => 1) (fun _ => 1) (1/2) 0 (fun _ => rot_axis 2 2) (fun _ => eye) (fun _ k => k) (1/1000) 100 argsort2 100 cv rp a.
Ltac tr22 := unfold transform, mult, fmult, transp, ftrans, CovModel.fsum, eye; cbn [seq map fold_right Nat.eqb].
(** C439 (refuted): RP is not the first part of RPC *)
Theorem C439_refuted : exists cv tr, syms cv /\ simple_stop cv None ANone = Some (inl tr) /\ t_rp tr 0%nat 0%nat <> t_rpc tr 0%nat 0%nat.
Proof.
  exists (diag_cov 0 1). eexists. split; [apply diag_sym|]. split; [unfold simple_stop, stop_training; rewrite C438_two; [reflexivity|lra|apply diag_sym|lia]|]. cbn [t_rp t_rpc]. unfold argsort2.
  assert (E0 : transform 2 eye (diag_cov 0 1) 0%nat 0%nat 0%nat = 0) by (rewrite transform_eye by lia; reflexivity). assert (E1 : transform 2 eye (diag_cov 0 1) 0%nat 1%nat 1%nat = 1) by (rewrite transform_eye by lia; reflexivity).
  rewrite E0, E1. destruct (Rle_dec 0 1); [|lra]. cbn [Nat.sub]. rewrite !mult_eye_r by lia. unfold eye. cbn [Nat.eqb]. lra.
Qed.
(** C441 (refuted): stored covariance matrices are changed by the training, a second training with them gives other filters *)
Definition swap2 : rmat := fun a b => if (a + b =? 1)%nat then 1 else 0.
Theorem C441_refuted : exists cv tr1 tr2, syms cv /\ orthogonal 2 swap2 /\ simple_stop cv (Some swap2) (AMulti cv) = Some (inl tr1) /\ simple_stop cv (Some swap2) (AMulti (t_covs tr1)) = Some (inl tr2) /\
  t_rp tr1 0%nat 0%nat = 1 /\ t_rp tr2 0%nat 0%nat = 0.
Proof.
  exists (diag_cov 1 0). eexists. eexists. split; [apply diag_sym|]. split.
  { intros [|[|a]] [|[|b]] Ha Hb; try lia; unfold swap2; tr22; cbn [Nat.add Nat.eqb]; split; ring. }
  split; [unfold simple_stop, stop_training; rewrite C438_two; [reflexivity|lra|apply transform_sym, diag_sym|lia]|]. cbn [t_covs].
  split; [unfold simple_stop, stop_training; rewrite C438_two; [reflexivity|lra|apply transform_sym, transform_sym, transform_sym, diag_sym|lia]|]. cbn [t_rp t_covs].
  assert (SW : forall c : covs, forall a b, (a < 2)%nat -> (b < 2)%nat -> transform 2 swap2 c 0%nat a b = c 0%nat (1 - a)%nat (1 - b)%nat).
  { intros c [|[|a]] [|[|b]] Ha Hb; try lia; unfold swap2; tr22; cbn [Nat.add Nat.sub Nat.eqb]; ring. }
  unfold argsort2. rewrite !transform_eye by lia. rewrite !SW by lia. cbn [Nat.sub]. rewrite !transform_eye by lia. rewrite !SW by lia. cbn [Nat.sub]. unfold diag_cov. cbn [Nat.eqb]. destruct (Rle_dec 0 1); [|lra]. destruct (Rle_dec 1 0); [lra|]. cbn [Nat.sub].
  rewrite !mult_eye_r by lia. unfold swap2. cbn. auto.
Qed.
(** C442 (refuted): the recipe of the docstring, a list of DelayCovarianceMatrix *)
Theorem C442_refuted : forall D od T iw sw bica bsfa order rr row eps mx argsort fuel own rp, stop_training D od T iw sw bica bsfa order rr row eps mx argsort fuel own rp AList = Some (inr IAttrErr).
Proof. reflexivity. Qed.
(** with the MultipleCovarianceMatrices the node would have learned itself the result is the same *)
Theorem C442_multi D od T iw sw bica bsfa order rr row eps mx argsort fuel own own' rp :
  stop_training D od T iw sw bica bsfa order rr row eps mx argsort fuel own' rp (AMulti own) = stop_training D od T iw sw bica bsfa order rr row eps mx argsort fuel own rp ANone.
Proof. reflexivity. Qed.

(** ** C443: the constructor *)
Theorem C443_refuted : (exists lags w, length w <> length lags /\ weights lags (WSeq w) WNone = inr ITypeErr) /\ (forall lags, weights lags (WNum 1) WNone = inr ITypeErr) /\ weights [] WNone WNone = inr IIndexErr.
Proof. split; [exists [1]%Z, [1; 1]; split; [cbn; lia|reflexivity]|]. split; reflexivity. Qed.
Theorem C443_weights lags ica sfa iw sw : weights lags ica sfa = inl (iw, sw) ->
  length iw = length lags /\ length sw = length lags /\ (forall l, ica = WSeq l -> iw = l) /\ (forall l, sfa = WSeq l -> sw = l) /\
  (ica = WNone -> forall k, (k < length lags)%nat -> nth k iw 0 = 1) /\ (sfa = WNone -> forall k, (k < length lags)%nat -> nth k sw 0 = if (k =? 0)%nat then 1 else 0).
Proof.
  unfold weights, weights_of, sfa_default. intros H.
  assert (N : forall n k, nth k (repeat 0 n) 0 = 0) by (induction n; intros [|k]; cbn; auto).
  assert (N1 : forall n k, (k < n)%nat -> nth k (repeat 1 n) 0 = 1) by (induction n; intros [|k] Hk; cbn; try lia; auto; apply IHn; lia).
  destruct ica as [|r|li]; [|discriminate|]; destruct sfa as [|r|ls]; try discriminate; repeat match type of H with context [(?a =? ?b)%nat] => destruct (Nat.eqb_spec a b); [|discriminate] end; try discriminate.
  - destruct (length lags) as [|n] eqn:E; [discriminate|]. injection H as <- <-. cbn [length]. rewrite !repeat_length. repeat split; try discriminate; auto. + intros _ k Hk. apply (N1 (S n)). exact Hk. + intros _ [|k] Hk; cbn; auto.
  - injection H as <- <-. rewrite repeat_length. repeat split; try discriminate; auto. congruence.
  - destruct (length lags) as [|n] eqn:E; [discriminate|]. injection H as <- <-. cbn [length]. rewrite repeat_length. repeat split; try discriminate; auto; [congruence|]. intros _ [|k] Hk; cbn; auto.
  - injection H as <- <-. repeat split; try discriminate; auto; congruence.
Qed.
Theorem C443_accepted lags ica sfa : (1 <= length lags)%nat -> (ica = WNone \/ exists l, ica = WSeq l /\ length l = length lags) -> (sfa = WNone \/ exists l, sfa = WSeq l /\ length l = length lags) -> exists iw sw, weights lags ica sfa = inl (iw, sw).
Proof.
  intros H [->|(li & -> & E1)] [->|(ls & -> & E2)]; unfold weights, weights_of, sfa_default; rewrite ?E1, ?E2, ?Nat.eqb_refl; destruct (length lags); try lia; rewrite ?Nat.eqb_refl; eauto.
Qed.
Example C443_example : weights [1; 2; 5]%Z WNone (WSeq [1; 2; 3]) = inl ([1; 1; 1], [1; 2; 3]) /\ lags_of (LInt 3) = inl [1; 2; 3]%Z.
Proof. split; reflexivity. Qed.

(** ** C444: white_comp *)
Theorem C444_refuted : exists w o : nat, (o < w)%nat /\ id_white (isfa_dims false (Some w) (Some o)) = Some o /\ forall n, effective_dim (isfa_dims false (Some w) (Some o)) n = o.
Proof. exists 10%nat, 3%nat. split; [lia|]. split; reflexivity. Qed.
Theorem C444_dims whitened wc o n : let d := isfa_dims whitened wc o in
  effective_dim d n = (if whitened then n else match o, wc with Some k, _ => k | None, Some k => k | None, None => n end) /\
  id_out d = match o with Some k => Some k | None => if whitened then None else wc end /\
  (whitened = false -> forall k, id_out d = Some k -> effective_dim d n = k).
Proof. unfold isfa_dims, effective_dim. destruct whitened, wc, o; cbn; repeat split; auto; try congruence. Qed.
(** without a given output_dim white_comp components are kept *)
Theorem C444_alone w n : effective_dim (isfa_dims false (Some w) None) n = w. Proof. reflexivity. Qed.

(** ** C445: TDSEPNode *)
Theorem C445_refuted : exists (p : bool), tdsep_white_parm false (Some p) <> p /\ forall q : option bool, tdsep_white_parm false q = false.
Proof. exists true. split; [discriminate|reflexivity]. Qed.
Theorem C445_isfa {P : Type} (e : P) p : isfa_white_parm e (Some p) = p /\ isfa_white_parm e None = e. Proof. split; reflexivity. Qed.
Theorem C445_convergence sfa ica : forall r, tdsep_convergence sfa ica <> CNumber r. Proof. discriminate. Qed.

(** ** C446: execute and inverse *)
Theorem C446_execute_inverse D od rp y t b : (forall i j, (i < od)%nat -> (j < od)%nat -> mult D (transp rp) rp i j = eye i j) -> (b < od)%nat -> isfa_execute D rp (isfa_inverse od rp y) t b = y t b.
Proof.
  intros O Hb. unfold isfa_execute, isfa_inverse. rewrite mult_assoc. transitivity (mult od y eye t b); [|now apply mult_eye_r]. apply mult_ext; [reflexivity|]. intros. now apply O.
Qed.
Lemma perm_sum n p f : permutes n p -> rsum n (fun k => f (p k)) = rsum n f.
Proof.
  intros (v & H). transitivity (rsum n (fun k => rsum n (fun j => if (j =? p k)%nat then f j else 0))).
  { apply rsum_ext. intros k Hk. symmetry. apply (rsum_pick n (p k) f). now apply H. }
  rewrite rsum_swap. apply rsum_ext. intros j Hj. transitivity (rsum n (fun k => if (k =? v j)%nat then f j else 0)).
  - apply rsum_ext. intros k Hk. destruct (Nat.eqb_spec j (p k)) as [E|E], (Nat.eqb_spec k (v j)) as [F|F]; try reflexivity; exfalso.
    + apply F. rewrite E. symmetry. now apply H.
    + apply E. rewrite F. symmetry. now apply H.
  - apply (rsum_pick n (v j) (fun _ => f j)). now apply H.
Qed.
(** all components kept: inverse undoes execute *)
Theorem C446_inverse_execute D q rp p x t a : orthogonal D q -> permutes D p -> (forall i b, (b < D)%nat -> rp i b = q i (p b)) -> (a < D)%nat -> isfa_inverse D rp (isfa_execute D rp x) t a = x t a.
Proof.
  intros O P E Ha. unfold isfa_execute, isfa_inverse. rewrite mult_assoc. transitivity (mult D x eye t a); [|now apply mult_eye_r]. apply mult_ext; [reflexivity|]. intros i Hi.
  transitivity (mult D q (transp q) i a); [|now apply O]. unfold mult, fmult, transp, ftrans. transitivity (rsum D (fun k => q i (p k) * q a (p k))); [apply rsum_ext; intros; now rewrite !E|]. apply (perm_sum D p (fun k => q i k * q a k) P).
Qed.
(** a training result satisfies the assumptions *)
Example C446_example : exists tr, simple_stop (diag_cov 0 1) None ANone = Some (inl tr) /\ isfa_execute 2 (t_rp tr) (fun _ a => if (a =? 0)%nat then 3 else 5) 0%nat 0%nat = 5.
Proof.
  eexists. split; [unfold simple_stop, stop_training; rewrite C438_two; [reflexivity|lra|apply diag_sym|lia]|]. cbn [t_rp]. unfold argsort2.
  assert (E0 : transform 2 eye (diag_cov 0 1) 0%nat 0%nat 0%nat = 0) by (rewrite transform_eye by lia; reflexivity). assert (E1 : transform 2 eye (diag_cov 0 1) 0%nat 1%nat 1%nat = 1) by (rewrite transform_eye by lia; reflexivity).
  rewrite E0, E1. destruct (Rle_dec 0 1); [|lra]. unfold isfa_execute, mult, fmult, CovModel.fsum, eye. cbn. ring.
Qed.

(** ** Examples *)
(** the contrast 1/4 of half_cov, and 0 after a rotation by pi/4 *)
Example C432_example : contrast_ 2 1 (fun _ => 1) (fun _ => 1) (1/2) 0 (rot_covs 0 0 1 half_cov) = 1/4 /\ contrast_ 2 1 (fun _ => 1) (fun _ => 1) (1/2) 0 (rot_covs (PI/4) 0 1 half_cov) = 0.
Proof. rewrite !half_con, cos_0, sin_0, cos_PI4, sin_PI4. split; field. apply sqrt2_neq_0. Qed.
(** slowness only: the minimum is at pi/4, where the contrast is -1/4 *)
Example C433_example : givens 2 1 (fun _ => 1) (fun _ => 1) 0 (-1/2) 0 1 half_cov = (PI/4, -1/4).
Proof.
  assert (Es : s24_1 1 (fun _ => 1) (fun _ => 1) 0 (-1/2) 0 1 half_cov = 0).
  { unfold s24_1, d1_1, e1_1, rsum, fsum, half_cov. cbn [seq map fold_right Nat.eqb]. field. }
  assert (Ec : c24_1 1 (fun _ => 1) (fun _ => 1) 0 (-1/2) 0 1 half_cov = 1/8).
  { unfold c24_1, d0_1, d2_1, e0_1, e2_1, rsum, fsum, half_cov. cbn [seq map fold_right Nat.eqb]. field. }
  unfold givens. change (1 <? 2)%nat with true. cbv iota. unfold givens_1. rewrite min_1_value, Es, Ec.
  replace (1/8 * (1/8) + 0 * 0) with (1/8 * (1/8)) by ring. rewrite sqrt_square by lra. f_equal.
  - unfold min_1, phi4. rewrite Es, Ec. unfold atan2. destruct (Rlt_dec 0 (1/8)); [|lra]. unfold Rdiv. rewrite Rmult_0_l, atan_0. destruct (Rle_dec 0 0); [field|lra].
  - unfold a20_1, d0_1, d2_1, e0_1, e2_1, dc_1, ec_1, triu, diag2, rsum, fsum, half_cov. cbn [seq map fold_right Nat.ltb Nat.leb Nat.eqb]. field.
Qed.
(** the first sweep of the optimization rotates by pi/4 *)
Example C435_example : exists r, do_sweep 2 1 (fun _ => 1) (fun _ => 1) 0 (-1/2) (rot_axis 2 2) half_cov eye 0 = Some (r, rot_covs (PI/4) 0 1 half_cov, rotate (PI/4) 0 1 eye, -1/4).
Proof.
  change (rot_axis 2 2) with [(0, 1)]%nat. pose proof (C438_rotates 2 1 (fun _ => 1) (fun _ => 1) 0 (-1/2) 0 1 [] half_cov eye 0) as H. rewrite C433_example in H. destruct H as (r & H); [lra|lra|]. rewrite H. cbn [sweep]. eauto.
Qed.
Example C440_example : exists tr, simple_stop (diag_cov 0 1) None ANone = Some (inl tr) /\ transform 2 (t_rp tr) (diag_cov 0 1) 0%nat 0%nat 0%nat = 1 /\ transform 2 (t_rp tr) (diag_cov 0 1) 0%nat 1%nat 1%nat = 0.
Proof.
  eexists. split; [unfold simple_stop, stop_training; rewrite C438_two; [reflexivity|lra|apply diag_sym|lia]|]. cbn [t_rp]. unfold argsort2.
  assert (E0 : transform 2 eye (diag_cov 0 1) 0%nat 0%nat 0%nat = 0) by (rewrite transform_eye by lia; reflexivity). assert (E1 : transform 2 eye (diag_cov 0 1) 0%nat 1%nat 1%nat = 1) by (rewrite transform_eye by lia; reflexivity).
  rewrite E0, E1. destruct (Rle_dec 0 1); [|lra]. unfold transform, mult, fmult, transp, ftrans, CovModel.fsum, eye, diag_cov. cbn. split; ring.
Qed.
