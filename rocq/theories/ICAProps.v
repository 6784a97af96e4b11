(** Properties C416-C420: ICANode and CuBICANode *)
From Coq Require Import Reals List Arith ZArith Bool Lia Lra.
From Verif Require Import CovModel CovProps ICAModel ICAProofs.
Import ListNotations.
Open Scope R_scope.

Section CuBICA.
  Variables (tlen comp : nat).
  Notation mom := (mom tlen).
  Lemma mom_ext f g : (forall t, f t = g t) -> mom f = mom g.
  Proof. intros H. unfold ICAModel.mom. f_equal. apply rsum_ext. intros. apply H. Qed.
  Lemma mom_add f g : mom (fun t => f t + g t) = mom f + mom g. Proof. unfold ICAModel.mom. rewrite rsum_add. unfold Rdiv. ring. Qed.
  Lemma mom_mul c f : mom (fun t => c * f t) = c * mom f. Proof. unfold ICAModel.mom. rewrite rsum_mul. unfold Rdiv. ring. Qed.

  (** the invariant of the sweeps *)
  Definition inv (data : rmat) (x q : rmat) : Prop := orthogonal comp q /\ forall t b, (b < comp)%nat -> x t b = mult comp data q t b.
  Lemma inv_step data x q mx i j : (i < j)%nat -> (j < comp)%nat -> inv data x q -> let '(x', q', _) := cub_step tlen (x, q, mx) (i, j) in inv data x' q'.
  Proof.
    intros Hij Hj [HQ HX]. cbn [cub_step]. unfold rotate. set (phi := phi_max tlen x i j). split.
    - apply rc_orthogonal; try lia; [apply cs1|assumption].
    - intros t b Hb. change (rc (cos phi) (sin phi) i j x t b = mult comp data (rc (cos phi) (sin phi) i j q) t b). rewrite rc_mult by lia. rewrite !rc_eq by lia.
      rewrite !HX by lia. destruct (b =? j)%nat; [reflexivity|]. destruct (b =? i)%nat; reflexivity.
  Qed.
  Lemma inv_fold data l : (forall i j, In (i, j) l -> (i < j /\ j < comp)%nat) -> forall x q mx, inv data x q -> let '(x', q', _) := fold_left (cub_step tlen) l (x, q, mx) in inv data x' q'.
  Proof.
    induction l as [|[i j] l IH]; intros HL x q mx H; [exact H|]. cbn [fold_left].
    assert (H1 : (i < j /\ j < comp)%nat) by (apply HL; now left). pose proof (inv_step data x q mx i j (proj1 H1) (proj2 H1) H) as H2.
    destruct (cub_step tlen (x, q, mx) (i, j)) as [[x1 q1] mx1]. apply IH; [intros; apply HL; now right|exact H2].
  Qed.
  Lemma inv_sweeps data limit todo : forall k x q, inv data x q -> let '(x', q', _, _) := cub_sweeps tlen comp limit todo k x q in inv data x' q'.
  Proof.
    induction todo as [|todo IH]; intros k x q H; cbn [cub_sweeps]; unfold cub_sweep; cbn [fst snd];
      pose proof (inv_fold data (pairs comp) (in_pairs comp) x q 0 H) as H2; destruct (fold_left _ _ _) as [[x1 q1] mx1]; destruct (Rleb mx1 limit); try exact H2.
    specialize (IH (S k) x1 q1 H2). destruct (cub_sweeps tlen comp limit todo (S k) x1 q1) as [[[x2 q2] l] k2]. exact IH.
  Qed.
  (** C416: the filters of CuBICA are an orthogonal matrix, and the rotated copy of the data is data * filters *)
  Theorem C416_orthogonal : forall limit data, let r := cub_core tlen comp limit data in
    orthogonal comp (cub_filters r) /\ forall t b, (b < comp)%nat -> cub_x r t b = mult comp data (cub_filters r) t b.
  Proof.
    intros limit data r. unfold r, cub_core. pose proof (inv_sweeps data limit (num_sweeps comp - 1) 0 data eye) as H.
    destruct (cub_sweeps tlen comp limit (num_sweeps comp - 1) 0 data eye) as [[[x q] l] k]. cbn [cub_filters cub_x]. apply H. split; [apply eye_orthogonal|].
    intros t b Hb. now rewrite mult_eye_r.
  Qed.
  (** C416: means and second moments: white data stay white *)
  Theorem C416_white : forall limit data, (forall a, (a < comp)%nat -> mom (fun t => data t a) = 0) ->
    (forall a b, (a < comp)%nat -> (b < comp)%nat -> mom (fun t => data t a * data t b) = eye a b) ->
    let y := mult comp data (cub_filters (cub_core tlen comp limit data)) in
    (forall a, (a < comp)%nat -> mom (fun t => y t a) = 0) /\ forall a b, (a < comp)%nat -> (b < comp)%nat -> mom (fun t => y t a * y t b) = eye a b.
  Proof.
    intros limit data H0 H1 y. destruct (C416_orthogonal limit data) as [HQ _]. set (q := cub_filters (cub_core tlen comp limit data)) in *. clearbody q.
    assert (M : forall f : nat -> nat -> R, mom (fun t => rsum comp (f t)) = rsum comp (fun k => mom (fun t => f t k))).
    { intros f. unfold ICAModel.mom, Rdiv. rewrite rsum_mulr. f_equal. apply rsum_swap. }
    split.
    - intros a Ha. unfold y. change (mom (fun t => rsum comp (fun k => data t k * q k a)) = 0). rewrite (M (fun t k => data t k * q k a)). apply rsum_zero.
      intros k Hk. rewrite (mom_ext _ (fun t => q k a * data t k)) by (intros; ring). rewrite mom_mul, H0 by assumption. ring.
    - intros a b Ha Hb. rewrite <- (proj1 (HQ a b Ha Hb)).
      transitivity (rsum comp (fun k => rsum comp (fun l => q k a * q l b * eye k l))).
      + rewrite (mom_ext _ (fun t => rsum comp (fun k => rsum comp (fun l => q k a * q l b * (data t k * data t l))))).
        * rewrite (M (fun t k => rsum comp (fun l => q k a * q l b * (data t k * data t l)))). apply rsum_ext. intros k Hk.
          rewrite (M (fun t l => q k a * q l b * (data t k * data t l))). apply rsum_ext. intros l Hl. rewrite mom_mul, H1 by assumption. reflexivity.
        * intros t. change (rsum comp (fun k => data t k * q k a) * rsum comp (fun l => data t l * q l b) = rsum comp (fun k => rsum comp (fun l => q k a * q l b * (data t k * data t l)))).
          rewrite <- rsum_mulr. apply rsum_ext. intros k _. rewrite <- rsum_mul. apply rsum_ext. intros. ring.
      + unfold mult, fmult, transp, ftrans. apply rsum_ext. intros k Hk. transitivity (rsum comp (fun l => eye k l * (q k a * q l b))); [apply rsum_ext; intros; ring|].
        now rewrite (rsum_eye_l comp k (fun l => q k a * q l b)).
  Qed.
  (** C416: the sweeps *)
  Lemma Rleb_spec a b : Rleb a b = true <-> a <= b. Proof. unfold Rleb. destruct (Rle_dec a b); split; intros; auto; discriminate. Qed.
  Lemma sweeps_spec limit todo : forall k x q, let '(_, _, l, k2) := cub_sweeps tlen comp limit todo k x q in
    (k <= k2 <= k + todo)%nat /\ length l = S (k2 - k) /\ (last l 0 <= limit \/ k2 = (k + todo)%nat) /\ (forall a, In a (removelast l) -> limit < a) /\ forall a, In a l -> 0 <= a.
  Proof.
    assert (P : forall l x q mx, 0 <= mx -> let '(_, _, m) := fold_left (cub_step tlen) l (x, q, mx) in 0 <= m).
    { induction l as [|[i j] l IH]; intros x q mx H; [exact H|]. cbn [fold_left cub_step]. apply IH. apply Rle_trans with mx; [assumption|apply Rmax_l]. }
    induction todo as [|todo IH]; intros k x q; cbn [cub_sweeps]; unfold cub_sweep; cbn [fst snd]; pose proof (P (pairs comp) x q 0 (Rle_refl 0)) as H0;
      destruct (fold_left (cub_step tlen) (pairs comp) (x, q, 0)) as [[x1 q1] mx]; destruct (Rleb mx limit) eqn:E; cbn [length last removelast].
    1,2,3: split; [lia|split; [lia|split; [first [left; apply Rleb_spec; assumption|right; lia]|split; [intros ? []|intros ? [<-|[]]; assumption]]]].
    specialize (IH (S k) x1 q1). destruct (cub_sweeps tlen comp limit todo (S k) x1 q1) as [[[x2 q2] l] k2]. destruct IH as (H1 & H2 & H3 & H4 & H5).
    destruct l as [|b l]; [cbn in H2; lia|]. repeat split; try lia; [cbn [length] in *; lia|destruct H3; [left; assumption|right; lia]| |].
    - intros a [<-|Ha]; [|now apply H4]. apply Rnot_le_lt. intros F. apply Rleb_spec in F. congruence.
    - intros a [<-|Ha]; [assumption|now apply H5].
  Qed.
  Theorem C416_sweeps : forall limit data, let r := cub_core tlen comp limit data in
    (cub_iter r < num_sweeps comp)%nat /\ length (cub_maxangle r) = (cub_iter r + 2)%nat /\ cub_ret r = last (cub_maxangle r) 0 /\ 0 <= cub_ret r /\
    (cub_ret r <= limit \/ cub_iter r = (num_sweeps comp - 1)%nat) /\ forall k, (1 <= k <= cub_iter r)%nat -> limit < nth k (cub_maxangle r) 0.
  Proof.
    intros limit data r. unfold r, cub_core. pose proof (sweeps_spec limit (num_sweeps comp - 1) 0 data eye) as H. destruct (cub_sweeps tlen comp limit (num_sweeps comp - 1) 0 data eye) as [[[x q] l] k].
    destruct H as (H1 & H2 & H3 & H4 & H5). cbn [cub_iter cub_maxangle cub_ret]. assert (N : (0 < num_sweeps comp)%nat) by (unfold num_sweeps; lia).
    destruct l as [|a l]; [cbn in H2; lia|]. repeat split; try lia; [cbn [length] in *; lia|apply H5; destruct (@exists_last _ (a :: l)) as (l' & z & ->); [discriminate|]; rewrite last_last; apply in_or_app; right; now left|destruct H3; [now left|right; lia]|].
    intros i Hi. destruct i as [|i]; [lia|]. change (limit < nth i (a :: l) 0). apply H4. cbn [length] in H2.
    destruct (@exists_last _ (a :: l)) as (l' & z & E); [discriminate|]. rewrite E, removelast_last.
    assert (length l' = k) by (apply (f_equal (@length R)) in E; rewrite app_length in E; cbn [length] in E; lia).
    rewrite app_nth1 by lia. apply nth_In. lia.
  Qed.
  (** C416: int(1+round(sqrt(comp))) *)
  Theorem C416_num : Rabs (INR (num_sweeps comp - 1) - sqrt (INR comp)) < 1 / 2.
  Proof.
    unfold num_sweeps. set (s := Nat.sqrt comp). pose proof (Nat.sqrt_spec comp (Nat.le_0_l comp)) as [H1 H2]. fold s in H1, H2.
    assert (G : forall a b : R, 0 <= a -> 0 <= b -> a * a < b * b -> a < b) by (intros a b Ha Hb Hab; destruct (Rlt_le_dec a b); [assumption|]; assert (b * b <= a * a) by (apply Rmult_le_compat; assumption); lra).
    set (r := sqrt (INR comp)). assert (Hr : 0 <= r) by apply sqrt_pos. assert (Hrr : r * r = INR comp) by (apply sqrt_sqrt, pos_INR).
    destruct (Nat.leb_spec comp (s * s + s)) as [L|L]; rewrite Nat.add_comm, Nat.add_sub.
    - apply le_INR in L. apply le_INR in H1. rewrite plus_INR, mult_INR in L. rewrite mult_INR in H1. pose proof (pos_INR s). assert (r < INR s + 1 / 2) by (apply G; [assumption|lra|rewrite Hrr; lra]). assert (INR s - 1 / 2 < r) by (destruct (Rlt_le_dec r (INR s)); [apply Rlt_le_trans with r; [|lra]; assert (r * r < INR s * INR s) by (apply Rmult_le_0_lt_compat; assumption); lra|lra]). apply Rabs_def1; lra.
    - assert (L' : (s * s + s + 1 <= comp)%nat) by lia. assert (H2' : (comp + 1 <= S s * S s)%nat) by lia. apply le_INR in L'. apply le_INR in H2'. rewrite !plus_INR, !mult_INR in L'. rewrite plus_INR, mult_INR, (S_INR s) in H2'. change (INR 1) with 1 in *. rewrite S_INR. pose proof (pos_INR s). assert (INR s + 1 / 2 < r) by (apply G; [lra|assumption|rewrite Hrr; lra]). assert (r < INR s + 1) by (apply G; [assumption|lra|rewrite Hrr; lra]). apply Rabs_def1; lra.
  Qed.

  (** ** C417: the contrast function *)
  (** the sum of the squared diagonal cumulants of third and fourth order, weighted with 1/3! and 1/4! *)
  Definition contrast (x : rmat) (i j : nat) : R :=
    / 6 * (C111 tlen x i j * C111 tlen x i j + C222 tlen x i j * C222 tlen x i j) + / 24 * (C1111 tlen x i j * C1111 tlen x i j + C2222 tlen x i j * C2222 tlen x i j).
  (** the terms of frequency 8, not considered by the code *)
  Definition a4c (x : rmat) (i j : nat) : R := / 8 * (C1111 tlen x i j - 6 * C1122 tlen x i j + C2222 tlen x i j).
  Definition a4s (x : rmat) (i j : nat) : R := / 2 * (C1112 tlen x i j - C1222 tlen x i j).
  Lemma mom4 p q r w f g h k : mom (fun t => p * f t + q * g t + r * h t + w * k t) = p * mom f + q * mom g + r * mom h + w * mom k.
  Proof. now rewrite (mom_add (fun t => p * f t + q * g t + r * h t)), (mom_add (fun t => p * f t + q * g t)), (mom_add (fun t => p * f t)), !mom_mul. Qed.
  Lemma mom5 p q r w z f g h k l : mom (fun t => p * f t + q * g t + r * h t + w * k t + z * l t) = p * mom f + q * mom g + r * mom h + w * mom k + z * mom l.
  Proof. now rewrite (mom_add (fun t => p * f t + q * g t + r * h t + w * k t)), mom4, mom_mul. Qed.
  Section Rot.
    Variables (x : rmat) (i j : nat) (c s : R).
    Hypothesis Hij : i <> j.
    Hypothesis H1 : c * c + s * s = 1.
    Let y := rc c s i j x.
    Lemma yi t : y t i = c * x t i - s * x t j. Proof. unfold y. rewrite rc_eq by assumption. destruct (Nat.eqb_spec i j); [congruence|]. now rewrite Nat.eqb_refl. Qed.
    Lemma yj t : y t j = s * x t i + c * x t j. Proof. unfold y. rewrite rc_eq by assumption. now rewrite Nat.eqb_refl. Qed.
    Lemma rot111 : C111 tlen y i j = c * c * c * C111 tlen x i j + (- (3 * c * c * s)) * C112 tlen x i j + 3 * c * s * s * C122 tlen x i j + (- (s * s * s)) * C222 tlen x i j.
    Proof. unfold C111 at 1. unfold C111, C112, C122, C222. rewrite <- mom4. apply mom_ext. intros t. rewrite yi. ring. Qed.
    Lemma rot222 : C222 tlen y i j = s * s * s * C111 tlen x i j + 3 * c * s * s * C112 tlen x i j + 3 * c * c * s * C122 tlen x i j + c * c * c * C222 tlen x i j.
    Proof. unfold C222 at 1. unfold C111, C112, C122, C222. rewrite <- mom4. apply mom_ext. intros t. rewrite yj. ring. Qed.
    Lemma rot1111 : C1111 tlen y i j = c * c * c * c * C1111 tlen x i j + (- (4 * c * c * c * s)) * C1112 tlen x i j + 6 * c * c * s * s * C1122 tlen x i j + (- (4 * c * s * s * s)) * C1222 tlen x i j + s * s * s * s * C2222 tlen x i j.
    Proof.
      unfold C1111 at 1. replace (3 : R) with (3 * (c * c + s * s) * (c * c + s * s)) by (rewrite H1; ring).
      rewrite (mom_ext _ (fun t => c * c * c * c * ((x t i * x t i) * (x t i * x t i)) + (- (4 * c * c * c * s)) * (x t i * x t i * x t i * x t j) + 6 * c * c * s * s * ((x t i * x t i) * (x t j * x t j)) + (- (4 * c * s * s * s)) * (x t j * x t j * x t j * x t i) + s * s * s * s * ((x t j * x t j) * (x t j * x t j)))) by (intros; rewrite yi; ring).
      rewrite mom5. unfold C1111, C1112, C1122, C1222, C2222. ring.
    Qed.
    Lemma rot2222 : C2222 tlen y i j = s * s * s * s * C1111 tlen x i j + 4 * c * s * s * s * C1112 tlen x i j + 6 * c * c * s * s * C1122 tlen x i j + 4 * c * c * c * s * C1222 tlen x i j + c * c * c * c * C2222 tlen x i j.
    Proof.
      unfold C2222 at 1. replace (3 : R) with (3 * (c * c + s * s) * (c * c + s * s)) by (rewrite H1; ring).
      rewrite (mom_ext _ (fun t => s * s * s * s * ((x t i * x t i) * (x t i * x t i)) + 4 * c * s * s * s * (x t i * x t i * x t i * x t j) + 6 * c * c * s * s * ((x t i * x t i) * (x t j * x t j)) + 4 * c * c * c * s * (x t j * x t j * x t j * x t i) + c * c * c * c * ((x t j * x t j) * (x t j * x t j)))) by (intros; rewrite yj; ring).
      rewrite mom5. unfold C1111, C1112, C1122, C1222, C2222. ring.
    Qed.
    Let c4 := (c * c - s * s) * (c * c - s * s) - 4 * (s * c) * (s * c).
    Let s4 := 4 * (s * c) * (c * c - s * s).
    Lemma contrast_rot : contrast y i j = contrast x i j + (c_34 tlen x i j + c_44 tlen x i j) * (c4 - 1) - (s_34 tlen x i j + s_44 tlen x i j) * s4
      + (a4c x i j * a4c x i j - a4s x i j * a4s x i j) / 24 * (c4 * c4 - s4 * s4 - 1) - a4c x i j * a4s x i j / 12 * (2 * s4 * c4).
    Proof.
      set (e := c * c + s * s) in *.
      transitivity (/ 6 * (C111 tlen x i j * C111 tlen x i j + C222 tlen x i j * C222 tlen x i j) * (e * e * e) + c_34 tlen x i j * (c4 * e - e * e * e) - s_34 tlen x i j * (s4 * e)
        + (/ 24 * (C1111 tlen x i j * C1111 tlen x i j + C2222 tlen x i j * C2222 tlen x i j) * (e * e * e * e) + c_44 tlen x i j * (c4 * (e * e) - e * e * e * e) - s_44 tlen x i j * (s4 * (e * e))
           + (a4c x i j * a4c x i j - a4s x i j * a4s x i j) / 24 * (c4 * c4 - s4 * s4 - e * e * e * e) - a4c x i j * a4s x i j / 12 * (2 * s4 * c4))).
      - unfold contrast. rewrite rot111, rot222, rot1111, rot2222. unfold c_34, s_34, c_44, s_44, a4c, a4s, e, c4, s4. cbv zeta. field.
      - rewrite H1. unfold contrast. ring.
    Qed.
  End Rot.
  (** C417: the contrast after a rotation by phi *)
  Theorem C417_contrast : forall x i j phi, i <> j -> contrast (rotate phi i j x) i j = contrast x i j
      + (c_34 tlen x i j + c_44 tlen x i j) * (cos (4 * phi) - 1) - (s_34 tlen x i j + s_44 tlen x i j) * sin (4 * phi)
      + (a4c x i j * a4c x i j - a4s x i j * a4s x i j) / 24 * (cos (8 * phi) - 1) - a4c x i j * a4s x i j / 12 * sin (8 * phi).
  Proof.
    intros x i j phi Hij. unfold rotate. change (rot_cols R Rplus Rmult Rminus (cos phi) (sin phi) i j x) with (rc (cos phi) (sin phi) i j x).
    rewrite (contrast_rot x i j (cos phi) (sin phi) Hij (cs1 phi)). replace (8 * phi) with (2 * (4 * phi)) by ring. rewrite cos2, sin2, cos4, sin4. ring.
  Qed.
  (** C417: without these terms the rotation by phi_max gives the largest contrast *)
  Theorem C417_max : forall x i j, i <> j -> a4c x i j = 0 -> a4s x i j = 0 -> forall phi, contrast (rotate phi i j x) i j <= contrast (rotate (phi_max tlen x i j) i j x) i j.
  Proof.
    intros x i j Hij Ha Hb phi. rewrite !C417_contrast by assumption. rewrite Ha, Hb. unfold phi_max. set (cc := c_34 tlen x i j + c_44 tlen x i j). set (ss := s_34 tlen x i j + s_44 tlen x i j).
    destruct (atan2_spec ss cc) as [E1 E2]. replace (4 * (- (1 / 4) * atan2 ss cc)) with (- atan2 ss cc) by field. rewrite cos_neg, sin_neg.
    pose proof (amplitude cc (- ss) (4 * phi)) as A. replace (- ss * - ss) with (ss * ss) in A by ring.
    assert (B : cc * cos (atan2 ss cc) + ss * sin (atan2 ss cc) = sqrt (cc * cc + ss * ss)).
    { set (rho := sqrt (cc * cc + ss * ss)) in *. set (t := atan2 ss cc) in *. rewrite E1 at 1. rewrite E2 at 1. transitivity (rho * (cos t * cos t + sin t * sin t)); [ring|]. rewrite cs1. ring. }
    lra.
  Qed.
End CuBICA.
Lemma atan2_00 : atan2 0 0 = 0. Proof. unfold atan2. repeat (destruct Rlt_dec; try lra). Qed.
(** C417 (refuted): phi_max is the "rotation angle that maximize the contrast function".  Eight points, white: CuBICA stops after one sweep with the identity, a rotation gives a larger contrast *)
Definition ex_x : rmat := fun t k => nth k (nth t [[8/5; 6/5]; [-6/5; 8/5]; [-8/5; -6/5]; [6/5; -8/5]] []) 0.
Ltac sum8 := unfold C111, C112, C122, C222, C1111, C1112, C1122, C1222, C2222, mom, rsum, fsum; unfold ex_x; cbn [seq map fold_right nth]; change (INR 8) with (1+1+1+1+1+1+1+1); field.
Lemma ex_cum : C111 8 ex_x 0 1 = 0 /\ C112 8 ex_x 0 1 = 0 /\ C122 8 ex_x 0 1 = 0 /\ C222 8 ex_x 0 1 = 0 /\ C1111 8 ex_x 0 1 = - (527/625) /\ C1112 8 ex_x 0 1 = 336/625 /\
  C1122 8 ex_x 0 1 = 527/625 /\ C1222 8 ex_x 0 1 = - (336/625) /\ C2222 8 ex_x 0 1 = - (527/625).
Proof. repeat split; sum8. Qed.
Lemma ex_phi : phi_max 8 ex_x 0 1 = 0.
Proof.
  unfold phi_max, s_34, s_44, c_34, c_44. cbv zeta. destruct ex_cum as (-> & -> & -> & -> & -> & -> & -> & -> & ->).
  match goal with |- _ * atan2 ?a ?b = _ => replace a with 0 by field; replace b with 0 by field end. rewrite atan2_00. ring.
Qed.
Theorem C417_refuted : exists (data : rmat) (phi : R),
  (forall a, (a < 2)%nat -> mom 8 (fun t => data t a) = 0) /\ (forall a b, (a < 2)%nat -> (b < 2)%nat -> mom 8 (fun t => data t a * data t b) = eye a b) /\
  (forall limit, 0 <= limit -> let r := cub_core 8 2 limit data in cub_iter r = 0%nat /\ cub_ret r = 0 /\ forall a b, cub_filters r a b = eye a b) /\
  contrast 8 data 0 1 < contrast 8 (rotate phi 0 1 data) 0 1.
Proof.
  exists ex_x, (atan2 (- (3/5)) (4/5)). split; [|split; [|split]].
  - intros [|[|a]] Ha; try lia; unfold mom, rsum, fsum; unfold ex_x; cbn [seq map fold_right nth]; field; change (INR 8) with (1+1+1+1+1+1+1+1); lra.
  - intros [|[|a]] [|[|b]] Ha Hb; try lia; unfold mom, rsum, fsum, eye; unfold ex_x; cbn [seq map fold_right nth Nat.eqb]; change (INR 8) with (1+1+1+1+1+1+1+1); field.
  - intros limit Hl r. unfold r, cub_core. change (num_sweeps 2 - 1)%nat with 1%nat. cbn [cub_sweeps]. unfold cub_sweep. cbn [fst snd]. change (pairs 2) with [(0, 1)]%nat. cbn [fold_left cub_step].
    rewrite ex_phi, Rabs_R0. rewrite (Rmax_left 0 0) by lra. unfold Rleb. destruct (Rle_dec 0 limit) as [_|N]; [|lra]. cbn [cub_iter cub_ret cub_filters last]. repeat split.
    intros a b. unfold rotate. rewrite cos_0, sin_0. change (rc 1 0 0 1 eye a b = eye a b). rewrite rc_eq by lia. destruct (Nat.eqb_spec b 1) as [->|]; [ring|]. destruct (Nat.eqb_spec b 0) as [->|]; ring.
  - destruct (atan2_spec (- (3/5)) (4/5)) as [E1 E2]. replace (4 / 5 * (4 / 5) + - (3 / 5) * - (3 / 5)) with 1 in E1, E2 by field. rewrite sqrt_1, Rmult_1_l in E1, E2.
    unfold rotate. rewrite <- E1, <- E2. change (contrast 8 ex_x 0 1 < contrast 8 (rc (4/5) (- (3/5)) 0 1 ex_x) 0 1). rewrite (contrast_rot 8 ex_x 0 1 (4/5) (- (3/5))) by (try lia; field).
    unfold contrast, c_34, s_34, c_44, s_44, a4c, a4s. cbv zeta. destruct ex_cum as (-> & -> & -> & -> & -> & -> & -> & -> & ->). lra.
Qed.
Lemma atan2_pi x : x < 0 -> atan2 0 x = PI.
Proof. intros H. unfold atan2. destruct (Rlt_dec 0 x); [lra|]. destruct (Rlt_dec x 0); [|lra]. destruct (Rle_dec 0 0); [|lra]. unfold Rdiv. rewrite Rmult_0_l, atan_0. ring. Qed.
(** a point on the diagonal is turned onto the first axis *)
Example C416_example : phi_max 1 (fun _ _ => 1) 0 1 = - PI / 4 /\ rotate (- PI / 4) 0 1 (fun _ _ => 1) 0%nat 0%nat = sqrt 2 /\ rotate (- PI / 4) 0 1 (fun _ _ => 1) 0%nat 1%nat = 0.
Proof.
  assert (S2 : 0 < sqrt 2) by (apply sqrt_lt_R0; lra). assert (S22 : sqrt 2 * sqrt 2 = 2) by (apply sqrt_sqrt; lra).
  split; [|unfold rotate; change (rc (cos (- PI / 4)) (sin (- PI / 4)) 0 1 (fun _ _ => 1) 0%nat 0%nat = sqrt 2 /\ rc (cos (- PI / 4)) (sin (- PI / 4)) 0 1 (fun _ _ => 1) 0%nat 1%nat = 0);
    rewrite !rc_eq by lia; cbn [Nat.eqb]; replace (- PI / 4) with (- (PI / 4)) by field; rewrite cos_neg, sin_neg, cos_PI4, sin_PI4; split; [|field; lra]].
  - unfold phi_max. match goal with |- _ * atan2 ?a ?b = _ => replace a with 0 by (unfold s_34, s_44, C111, C112, C122, C222, C1111, C1112, C1122, C1222, C2222, mom, rsum, fsum; cbn [seq map fold_right]; change (INR 1) with 1; field) end.
    rewrite atan2_pi; [field|]. unfold c_34, c_44, C111, C112, C122, C222, C1111, C1112, C1122, C1222, C2222, mom, rsum, fsum; cbn [seq map fold_right]; change (INR 1) with 1. lra.
  - apply Rmult_eq_reg_r with (sqrt 2); [|lra]. rewrite S22. field. lra.
Qed.

(** ** C418: execute, inverse and the matrices *)
Section ICA.
  Variables (dim : nat) (s : ica).
  Let k := i_k s.
  Theorem C418_projmatrix : forall x t b, ica_execute dim s x t b =
    if i_whitened s then mult k x (get_projmatrix s true) t b else mult dim (fun t a => x t a - w_avg (i_white s) a) (get_projmatrix s true) t b.
  Proof.
    intros x t b. unfold ica_execute, get_projmatrix, w_execute, k. destruct (i_whitened s); [reflexivity|]. rewrite mult_assoc. apply mult_ext; [reflexivity|]. intros j _.
    rewrite transp_mult. reflexivity.
  Qed.
  Theorem C418_recmatrix : forall y t a, i_whitened s = true \/ w_k (i_white s) = k -> ica_inverse s y t a = mult k y (get_recmatrix s true) t a + (if i_whitened s then 0 else w_avg (i_white s) a).
  Proof.
    intros y t a Hk. unfold ica_inverse, get_recmatrix, w_inverse, k in *. destruct (i_whitened s); [ring|]. destruct Hk as [Hk|Hk]; [discriminate|]. rewrite Hk, mult_assoc. reflexivity.
  Qed.
  Theorem C418_transposed : forall a b, get_projmatrix s false a b = get_projmatrix s true b a /\ get_recmatrix s false a b = get_recmatrix s true b a.
  Proof. intros. split; reflexivity. Qed.
  Hypothesis Ho : orthogonal k (i_filters s).
  (** a whitening node with R * P = 1 (C208, C213) *)
  Hypothesis Hw : i_whitened s = false -> w_k (i_white s) = k /\ forall a b, (a < k)%nat -> (b < k)%nat -> mult dim (w_r (i_white s)) (w_p (i_white s)) a b = eye a b.
  Theorem C418_matrices : forall a b, (a < k)%nat -> (b < k)%nat -> mult (if i_whitened s then k else dim) (get_recmatrix s true) (get_projmatrix s true) a b = eye a b.
  Proof.
    intros a b Ha Hb. unfold get_recmatrix, get_projmatrix. fold k. destruct (i_whitened s) eqn:W.
    - apply (Ho a b Ha Hb).
    - destruct (Hw eq_refl) as [_ H]. rewrite mult_assoc.
      rewrite (mult_ext k _ _ (transp (i_filters s)) (i_filters s) a b); [now apply Ho|reflexivity|].
      intros j Hj. transitivity (mult dim (w_r (i_white s)) (mult k (w_p (i_white s)) (i_filters s)) j b).
      { apply mult_ext; [reflexivity|]. intros i _. rewrite transp_mult. reflexivity. }
      rewrite <- mult_assoc. transitivity (mult k eye (i_filters s) j b); [apply mult_ext; [|reflexivity]; intros i Hi; now apply H|now apply mult_eye_l].
  Qed.
  Theorem C418_execute_inverse : forall y t b, (b < k)%nat -> ica_execute dim s (ica_inverse s y) t b = y t b.
  Proof.
    intros y t b Hb. rewrite C418_projmatrix. pose proof C418_matrices as M. destruct (i_whitened s) eqn:W.
    - rewrite (mult_ext k _ _ (mult k y (get_recmatrix s true)) (get_projmatrix s true) t b); [|intros j _; rewrite C418_recmatrix by (left; assumption); rewrite W; ring|reflexivity].
      rewrite mult_assoc. rewrite (mult_ext k _ _ y eye t b); [now apply mult_eye_r|reflexivity|]. intros j Hj. now apply M.
    - rewrite (mult_ext dim _ _ (mult k y (get_recmatrix s true)) (get_projmatrix s true) t b); [|intros j _; rewrite C418_recmatrix by (right; now apply Hw); rewrite W; ring|reflexivity].
      rewrite mult_assoc. rewrite (mult_ext k _ _ y eye t b); [now apply mult_eye_r|reflexivity|]. intros j Hj. now apply M.
  Qed.
  (** no components left out: P * R = 1 *)
  Theorem C418_inverse_execute : forall x t a, (a < dim)%nat ->
    (if i_whitened s then k = dim else forall a b, (a < dim)%nat -> (b < dim)%nat -> mult k (w_p (i_white s)) (w_r (i_white s)) a b = eye a b) -> ica_inverse s (ica_execute dim s x) t a = x t a.
  Proof.
    intros x t a Ha HP. rewrite C418_recmatrix by (destruct (i_whitened s); [now left|right; now apply Hw]).
    assert (E : forall i, (i < dim)%nat -> mult k (get_projmatrix s true) (get_recmatrix s true) i a = eye i a).
    { intros i Hi. unfold get_projmatrix, get_recmatrix. fold k. destruct (i_whitened s); [apply Ho; lia|].
      transitivity (mult k (mult k (w_p (i_white s)) (i_filters s)) (mult k (transp (i_filters s)) (w_r (i_white s))) i a); [apply mult_ext; [intros j _; now rewrite transp_mult|reflexivity]|].
      rewrite mult_assoc. rewrite <- (HP i a Hi Ha). apply mult_ext; [reflexivity|]. intros j Hj. rewrite <- mult_assoc. transitivity (mult k eye (w_r (i_white s)) j a); [apply mult_ext; [intros l Hl; now apply Ho|reflexivity]|now apply mult_eye_l]. }
    destruct (i_whitened s) eqn:W.
    - rewrite (mult_ext k _ _ (mult k x (get_projmatrix s true)) (get_recmatrix s true) t a); [|intros j _; rewrite C418_projmatrix, W; reflexivity|reflexivity].
      rewrite mult_assoc, Rplus_0_r. rewrite (mult_ext k _ _ x eye t a); [apply mult_eye_r; lia|reflexivity|]. intros j Hj. apply E. lia.
    - rewrite (mult_ext k _ _ (mult dim (fun t a => x t a - w_avg (i_white s) a) (get_projmatrix s true)) (get_recmatrix s true) t a); [|intros j _; rewrite C418_projmatrix, W; reflexivity|reflexivity].
      rewrite mult_assoc. rewrite (mult_ext dim _ _ (fun t a => x t a - w_avg (i_white s) a) eye t a); [rewrite mult_eye_r by assumption; ring|reflexivity|]. intros j Hj. now apply E.
  Qed.
End ICA.
(** the filters of CuBICA are such filters; white data of full rank: the data are recovered *)
Example C418_example : forall tlen limit data x t a, (a < 3)%nat ->
  let s := mkIca true (mkWhite (fun _ => 0) eye eye 3) (cub_filters (cub_core tlen 3 limit data)) 3 in ica_inverse s (ica_execute 3 s x) t a = x t a.
Proof. intros tlen limit data x t a Ha s. apply C418_inverse_execute; [apply C416_orthogonal|discriminate|assumption|reflexivity]. Qed.

(** ** C419: the telescope mode *)
Section Telescope.
  Variable core : nat -> R.
  Variables (limit : R) (dim n : nat).
  Hypothesis Hn : (0 < n)%nat.
  Hypothesis Hd : (0 < dim)%nat.
  Lemma minpow_bounds : (10 * dim < 2 ^ minpow dim <= 20 * dim)%nat.
  Proof. unfold minpow. destruct dim as [|d]; [lia|]. pose proof (Nat.log2_spec (S d * 10)) as H. cbn [Nat.pow] in *. lia. Qed.
  Lemma maxpow_bounds : (2 ^ maxpow n <= n < 2 * 2 ^ maxpow n)%nat.
  Proof. unfold maxpow. pose proof (Nat.log2_spec n Hn) as H. cbn [Nat.pow] in *. lia. Qed.
  Lemma tel_spec l : forall c0, let (r, u) := tel_loop core limit n l c0 in
    (l = [] -> r = c0) /\ (l <> [] -> exists c, r = Some c /\ u <> [] /\ c = core (Nat.min (last u 0%nat) n) /\ (c <= limit \/ last u 0%nat = (2 ^ last l 0)%nat)) /\
    (forall a, In a (removelast u) -> limit < core (Nat.min a n)) /\ exists m, u = map (fun t => 2 ^ t)%nat (firstn m l).
  Proof.
    induction l as [|t l IH]; intros c0; [cbn; repeat split; [congruence|intros _ []|exists 0%nat; reflexivity]|].
    cbn [tel_loop]. destruct (Rleb (core (Nat.min (2 ^ t) n)) limit) eqn:E.
    - apply Rleb_spec in E. repeat split; [discriminate| |intros a []|exists 1%nat; reflexivity]. intros _. eexists. repeat split; [discriminate|now left].
    - specialize (IH (Some (core (Nat.min (2 ^ t) n)))). destruct (tel_loop core limit n l (Some (core (Nat.min (2 ^ t) n)))) as [r u]. destruct IH as (A & B & C & m & D).
      assert (L : limit < core (Nat.min (2 ^ t) n)) by (apply Rnot_le_lt; intros F; apply Rleb_spec in F; congruence).
      split; [discriminate|]. split; [|split].
      + intros _. destruct l as [|t2 l]; [rewrite A by reflexivity; eexists; subst u; rewrite firstn_nil; repeat split; [discriminate|right; reflexivity]|].
        destruct B as (c & -> & Hu & -> & HH); [discriminate|]. destruct u as [|b u]; [congruence|]. eexists. repeat split; [discriminate|exact HH].
      + intros a Ha. destruct u as [|b u]; [destruct Ha|]. destruct Ha as [<-|Ha]; [assumption|now apply C].
      + exists (S m). cbn [firstn map]. now rewrite D.
  Qed.
  (** C419: the chunks are the powers of two from 2^minpow (the first above 10 times input_dim) on; every chunk but the last gave a convergence above the limit, the last one gave at most the
      limit or is the largest power of two not above n *)
  Theorem C419_telescope : (2 ^ minpow dim <= n)%nat -> exists m c, stop_core core limit dim n true = inl c /\
    stop_sizes core limit dim n true = map (fun k => 2 ^ k)%nat (seq (minpow dim) (S m)) /\ (2 ^ (minpow dim + m) <= n)%nat /\ c = core (2 ^ (minpow dim + m))%nat /\
    (c <= limit \/ (n < 2 * 2 ^ (minpow dim + m))%nat) /\ forall k, (k < m)%nat -> limit < core (2 ^ (minpow dim + k))%nat.
  Proof.
    intros Hmin. pose proof maxpow_bounds as [HM1 HM2]. assert (Hle : (minpow dim <= maxpow n)%nat) by (unfold maxpow; apply Nat.log2_le_pow2; assumption).
    unfold stop_core, stop_sizes. set (l := seq (minpow dim) (maxpow n + 1 - minpow dim)). pose proof (tel_spec l None) as H. destruct (tel_loop core limit n l None) as [r u]. cbn [fst snd].
    destruct H as (_ & B & C & m & D). assert (Hl : l <> []) by (unfold l; destruct (maxpow n + 1 - minpow dim)%nat eqn:X; [lia|discriminate]). destruct (B Hl) as (c & -> & Hu & Hc & HH).
    assert (F : forall m, firstn m l = seq (minpow dim) (Nat.min m (maxpow n + 1 - minpow dim))).
    { unfold l. generalize (maxpow n + 1 - minpow dim)%nat as w. generalize (minpow dim) as a. clear. intros a w m. revert a w. induction m as [|m IH]; intros a [|w]; cbn; try reflexivity. now rewrite IH. }
    rewrite F in D. destruct (Nat.min m (maxpow n + 1 - minpow dim)) as [|m'] eqn:Em; [rewrite D in Hu; now elim Hu|].
    assert (Hm' : (minpow dim + m' <= maxpow n)%nat) by lia.
    assert (P : forall k, (k <= m')%nat -> (2 ^ (minpow dim + k) <= n)%nat) by (intros k Hk; apply Nat.le_trans with (2 ^ maxpow n)%nat; [apply Nat.pow_le_mono_r; lia|assumption]).
    assert (La : last u 0%nat = (2 ^ (minpow dim + m'))%nat) by (rewrite D, seq_S, map_app; cbn [map]; apply last_last).
    assert (Ll : last l 0%nat = maxpow n). { unfold l. replace (maxpow n + 1 - minpow dim)%nat with (S (maxpow n - minpow dim)) by lia. rewrite seq_S, last_last. lia. }
    exists m', c. rewrite La in Hc, HH. rewrite Nat.min_l in Hc by (apply P; lia). repeat split; try assumption; [apply P; lia| |].
    - destruct HH as [HH|HH]; [now left|right]. rewrite HH, Ll. assumption.
    - intros k Hk. rewrite <- (Nat.min_l (2 ^ (minpow dim + k)) n) by (apply P; lia). apply C. rewrite D, seq_S, map_app. cbn [map]. rewrite removelast_last. apply in_map_iff. exists (minpow dim + k)%nat. split; [reflexivity|]. apply in_seq. lia.
  Qed.
  (** C419, exactly: with fewer data UnboundLocalError, in particular with up to 10 times input_dim data points; never with 20 times input_dim *)
  Theorem C419_exact : (stop_core core limit dim n true = inr tt <-> (n < 2 ^ minpow dim)%nat) /\ (10 * dim < 2 ^ minpow dim <= 20 * dim)%nat.
  Proof.
    split; [|apply minpow_bounds]. split.
    - intros H. apply Nat.nle_gt. intros L. destruct (C419_telescope L) as (m & c & E & _). congruence.
    - intros L. unfold stop_core. assert (maxpow n < minpow dim)%nat. { unfold maxpow. apply Nat.log2_lt_pow2; assumption. }
      replace (maxpow n + 1 - minpow dim)%nat with 0%nat by lia. reflexivity.
  Qed.
End Telescope.
(** C419 (refuted): training in telescope mode succeeds *)
Theorem C419_refuted : exists dim n, (dim < n)%nat /\ forall core limit, stop_core core limit dim n true = inr tt /\ stop_core core limit dim n false = inl (core n).
Proof. exists 5%nat, 60%nat. split; [lia|]. intros. split; reflexivity. Qed.
Example C419_example : minpow 5 = 6%nat /\ stop_core (fun n => if (n <? 200)%nat then 1 else 0) (1 / 2) 5 1000 true = inl 0 /\
  stop_sizes (fun n => if (n <? 200)%nat then 1 else 0) (1 / 2) 5 1000 true = [64; 128; 256]%nat.
Proof.
  assert (E : tel_loop (fun n => if (n <? 200)%nat then 1 else 0) (1 / 2) 1000 (seq (minpow 5) (maxpow 1000 + 1 - minpow 5)) None = (Some 0, [64; 128; 256]%nat)).
  { change (seq (minpow 5) (maxpow 1000 + 1 - minpow 5)) with [6; 7; 8; 9]%nat. cbn [tel_loop]. change (Nat.min (2 ^ 6) 1000 <? 200)%nat with true. change (Nat.min (2 ^ 7) 1000 <? 200)%nat with true. change (Nat.min (2 ^ 8) 1000 <? 200)%nat with false.
    cbv iota. assert (A : Rleb 1 (1 / 2) = false) by (unfold Rleb; destruct (Rle_dec 1 (1 / 2)); [lra|reflexivity]). assert (B : Rleb 0 (1 / 2) = true) by (unfold Rleb; destruct (Rle_dec 0 (1 / 2)); [reflexivity|lra]).
    rewrite A, B. reflexivity. }
  split; [reflexivity|]. unfold stop_core, stop_sizes. rewrite E. split; reflexivity.
Qed.

(** ** C420: the dimensions after training *)
Theorem C420_dims : forall keep whitened white_comp n, keep n None = n -> (forall k, keep n (Some k) = k) -> exists s, trained_dims keep whitened white_comp n = Some s /\
  d_in s = Some n /\ d_out s = d_filters s /\ d_out s = Some (if whitened then n else match white_comp with Some k => k | None => n end).
Proof.
  intros keep whitened white_comp n K1 K2. unfold trained_dims, set_in, stop_dims. destruct whitened; [|destruct white_comp as [k|]]; cbn; rewrite ?K1, ?K2; eexists; repeat split; reflexivity.
Qed.
(** already when the input dimension is set; only white_comp is left for the end of the training *)
Theorem C420_set : forall whitened white_comp n, exists s, set_in whitened white_comp n (mkDims None None None) = Some s /\ d_in s = Some n /\ d_filters s = None /\
  d_out s = (if whitened then Some n else match white_comp with Some _ => None | None => Some n end).
Proof. intros [] [k|] n; eexists; repeat split. Qed.
(** C420 (refuted): output_dim is the number of columns of the result; white_parm={'reduce': True} with data in which one of the three components is constant *)
Theorem C420_refuted : exists keep n s, (keep n None < n)%nat /\ trained_dims keep false None n = Some s /\ d_out s = Some n /\ d_filters s = Some (keep n None) /\ d_out s <> d_filters s.
Proof. exists (fun n _ => (n - 1)%nat), 3%nat. eexists. repeat split; try discriminate. cbn. lia. Qed.
