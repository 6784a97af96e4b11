(** C148: perceptron convergence; C149: signum classifier *)
From Coq Require Import List Arith ZArith QArith Qcanon Bool Lia Permutation.
From Verif Require Import CovModel CovProofs RoutModel MiscModel ClassModel ClassProofs ClassProps HopProps KMeansProps PercModel RecProps.
Import ListNotations.
Open Scope Qc_scope.

(** ** scalar products of functions *)
Definition dotf (n : nat) (f g : nat -> Qc) : Qc := qsum (map (fun j => f j * g j) (seq 0 n)).
Lemma dotf_lin n a b f g h : dotf n (fun j => a * f j + b * g j) h = a * dotf n f h + b * dotf n g h.
Proof. unfold dotf. rewrite <- !qsum_map_mul, <- qsum_map_add. apply qsum_ext. intro j. ring. Qed.
Lemma dotf_comm n f g : dotf n f g = dotf n g f.
Proof. apply qsum_ext. intro j. ring. Qed.
Lemma dotf_nonneg n f : 0 <= dotf n f f.
Proof. apply qsum_nonneg. intros. apply sq_nonneg. Qed.
Lemma dotf_ext n f f' g g' : (forall j, (j < n)%nat -> f j = f' j) -> (forall j, (j < n)%nat -> g j = g' j) -> dotf n f g = dotf n f' g'.
Proof. intros Hf Hg. unfold dotf. f_equal. apply map_ext_in. intros j Hj. apply in_seq in Hj. rewrite Hf, Hg by lia. reflexivity. Qed.
Lemma dotf_zero n f : dotf n f f = 0 -> forall j, (j < n)%nat -> f j = 0.
Proof.
  intros H j Hj. destruct (Qc_eq_dec (f j) 0) as [|Hn]; [assumption|]. exfalso.
  assert (0 < dotf n f f) as Hp; [|rewrite H in Hp; discriminate].
  unfold dotf. replace 0 with (qsum (map (fun _ : nat => 0) (seq 0 n))) by apply qsum_zero.
  apply qsum_lt with (a := j); [apply in_seq; lia|now apply sq_pos|]. intros. apply sq_nonneg.
Qed.
Lemma mul_le a b c : 0 <= c -> a <= b -> a * c <= b * c.
Proof. intros. now apply Qcmult_le_compat_r. Qed.
Lemma cauchy n f g : dotf n f g * dotf n f g <= dotf n f f * dotf n g g.
Proof.
  set (A := dotf n f f). set (B := dotf n g g). set (C := dotf n f g). destruct (Qc_eq_dec B 0) as [E|E].
  - assert (C = 0) as ->; [|rewrite E; replace (0 * 0) with 0 by ring; replace (A * 0) with 0 by ring; apply Qcle_refl].
    unfold C, dotf. transitivity (qsum (map (fun _ : nat => 0) (seq 0 n))); [|apply qsum_zero]. f_equal. apply map_ext_in. intros j Hj. apply in_seq in Hj.
    rewrite (dotf_zero n g E j) by lia. ring.
  - assert (HB : 0 < B) by (destruct (Qcle_lt_or_eq _ _ (dotf_nonneg n g)) as [|E0]; [assumption|unfold B in E; congruence]).
    pose proof (dotf_nonneg n (fun j => B * f j + (- C) * g j)) as H.
    rewrite dotf_lin, (dotf_comm n f), (dotf_comm n g), !dotf_lin in H. rewrite (dotf_comm n g f) in H. fold A B C in H.
    replace (B * (B * A + - C * C) + - C * (B * C + - C * B)) with ((A * B - C * C) * B) in H by ring.
    destruct (Qclt_le_dec (A * B) (C * C)) as [Hl|]; [|assumption]. exfalso. assert (Hd : A * B - C * C < 0) by (set (u := A * B) in *; set (v := C * C) in *; clearbody u v; qlra).
    pose proof (Qcmult_lt_compat_r _ _ B HB Hd) as Hc. replace (0 * B) with 0 in Hc by ring. apply (Qclt_not_le _ _ Hc H).
Qed.
Lemma archimedes q : exists N, q < qn N.
Proof.
  assert (G : forall N, this (qn N) == inject_Z (Z.of_nat N)).
  { induction N; [reflexivity|]. cbn [qn]. rewrite this_plus, IHN. change (this 1) with 1%Q. change 1%Q with (inject_Z 1). rewrite <- inject_Z_plus. f_equiv. lia. }
  exists (S (Z.to_nat (Qnum q))). unfold Qclt. rewrite G. destruct q as [[a b] Hc]. cbn [Qnum this]. unfold Qlt, inject_Z. cbn [Qnum Qden]. nia.
Qed.

Section Perceptron.
  Context (d : nat).
  Definition aug (w : vec) (b : Qc) (j : nat) : Qc := if (j =? d)%nat then b else nth j w 0.
  Definition ax (x : vec) : nat -> Qc := aug x 1.
  Definition av (s : perc) : nat -> Qc := aug (p_weights s) (p_offset s).
  Lemma dot_dotf : forall a b, length a = d -> length b = d -> dot a b = dotf d (fun j => nth j a 0) (fun j => nth j b 0).
  Proof.
    unfold dot, dotf. revert d. clear. intros d a. revert d. induction a as [|x a IH]; intros [|d] [|y b] Ha Hb; try discriminate; [reflexivity|]. cbn [combine map qsum seq fst snd nth].
    injection Ha as Ha. injection Hb as Hb. f_equal. rewrite (IH d b Ha Hb), <- seq_shift, map_map. reflexivity.
  Qed.
  Lemma dotf_aug w b w' b' : length w = d -> length w' = d -> dotf (S d) (aug w b) (aug w' b') = dot w w' + b * b'.
  Proof.
    intros Hw Hw'. unfold dotf. rewrite seq_S, map_app, qsum_app. cbn [map qsum plus]. unfold aug at 3 4. rewrite Nat.eqb_refl. rewrite dot_dotf by assumption.
    replace (b * b' + 0) with (b * b') by ring. f_equal. unfold dotf. f_equal. apply map_ext_in. intros j Hj. apply in_seq in Hj. unfold aug. destruct (Nat.eqb_spec j d); [lia|reflexivity].
  Qed.
  Definition ok (s : perc) : Prop := length (p_weights s) = d.
  Lemma label_aug s (x : vec) : ok s -> length x = d -> perc_label s x = sign (dotf (S d) (av s) (ax x)).
  Proof. intros Hs Hx. unfold perc_label, av, ax. rewrite (dotf_comm (S d)), dotf_aug by assumption. f_equal. ring. Qed.
  Lemma one_ok s (x : vec) l : ok s -> length x = d -> ok (perc_one s (x, l)).
  Proof. unfold ok. intros Hs Hx. cbn. rewrite map_length, combine_length. lia. Qed.
  Lemma one_aug s (x : vec) l j : ok s -> length x = d -> (j < S d)%nat -> av (perc_one s (x, l)) j = 1 * av s j + learning_rate * (l - perc_label s x) * ax x j.
  Proof.
    intros Hs Hx Hj. unfold av, ax, aug, ok in *. set (rate := learning_rate * (l - perc_label s x)). cbn [perc_one p_weights p_offset]. fold rate. destruct (Nat.eqb_spec j d); [ring|].
    rewrite nth_combine_map by lia. cbn. ring.
  Qed.

  (** a sample is misclassified if its label differs *)
  Definition wrong (s : perc) (p : vec * Qc) : bool := if Qc_eq_dec (perc_label s (fst p)) (snd p) then false else true.
  Fixpoint mistakes (s : perc) (ps : list (vec * Qc)) : nat := match ps with [] => 0 | p :: ps => (if wrong s p then 1 else 0) + mistakes (perc_one s p) ps end.
  Definition sample_ok (p : vec * Qc) : Prop := length (fst p) = d /\ pm (snd p).
  Lemma right_unchanged s p : ok s -> sample_ok p -> wrong s p = false -> perc_one s p = s.
  Proof.
    intros Hs [Hx _] Hw. unfold wrong in Hw. destruct p as [x l]. cbn in *. destruct (Qc_eq_dec (perc_label s x) l) as [E|]; [|discriminate]. rewrite E.
    replace (learning_rate * (l - l)) with 0 by ring. destruct s as [w b]. unfold ok in Hs. cbn in *. f_equal; [|ring]. clear -Hs Hx. revert x d Hs Hx. induction w as [|a w IH]; intros x d Hs Hx; [reflexivity|].
    destruct x as [|y x]; cbn in *; [lia|]. f_equal; [ring|]. destruct d; [discriminate|]. apply (IH x n); lia.
  Qed.
  (** effect of a mistake *)
  Lemma mistake_bounds s (x : vec) l u (g R : Qc) : ok s -> sample_ok (x, l) -> wrong s (x, l) = true -> 0 <= g -> g <= l * dotf (S d) u (ax x) -> dotf (S d) (ax x) (ax x) <= R ->
    let s' := perc_one s (x, l) in
    dotf (S d) u (av s) + learning_rate * g <= dotf (S d) u (av s') /\
    dotf (S d) (av s') (av s') <= dotf (S d) (av s) (av s) + (1 + 1) * (1 + 1) * (learning_rate * learning_rate) * R.
  Proof.
    intros Hs [Hx Hl] Hw Hg Hu HR. cbn [fst snd] in *. cbv zeta. unfold wrong in Hw. cbn [fst snd] in Hw. pose proof (label_aug s x Hs Hx) as El.
    pose proof (fun j => one_aug s x l j Hs Hx) as Ha. set (V := av s) in *. set (V' := av (perc_one s (x, l))) in *. set (Z := ax x) in *. set (h := dotf (S d) V Z) in *.
    set (c := l - perc_label s x) in *. set (r := learning_rate) in *.
    assert (E1 : dotf (S d) u V' = dotf (S d) u V + r * c * dotf (S d) u Z).
    { rewrite (dotf_ext (S d) u u V' (fun j => 1 * V j + (r * c) * Z j)) by auto. rewrite dotf_comm, dotf_lin. rewrite (dotf_comm (S d) V), (dotf_comm (S d) Z). ring. }
    assert (E2 : dotf (S d) V' V' = dotf (S d) V V + (1 + 1) * (r * c) * h + (r * c) * (r * c) * dotf (S d) Z Z).
    { rewrite (dotf_ext (S d) V' (fun j => 1 * V j + (r * c) * Z j) V' (fun j => 1 * V j + (r * c) * Z j)) by auto.
      rewrite dotf_lin, (dotf_comm (S d) V), (dotf_comm (S d) Z), !dotf_lin, (dotf_comm (S d) Z V). fold h. ring. }
    assert (Hcase : (c = l \/ c = (1 + 1) * l) /\ l * h <= 0).
    { unfold c. rewrite El. destruct (Qc_eq_dec (perc_label s x) l) as [|Hne]; [discriminate|]. rewrite El in Hne. destruct (sign_cases h) as [[A1 A2]|[[A1 A2]|[A1 A2]]]; rewrite A2 in *; destruct Hl as [-> | ->]; try congruence.
      - split; [right; ring|]. clearbody h. replace (1 * h) with h by ring. qlra.
      - split; [left; ring|]. rewrite A1. discriminate.
      - split; [left; ring|]. rewrite A1. discriminate.
      - split; [right; ring|]. replace (- (1) * h) with (- h) by ring. clearbody h. qlra. }
    destruct Hcase as [Hc Hh]. assert (Hr : 0 <= r) by discriminate. assert (Hll : l * l = 1) by (destruct Hl as [-> | ->]; reflexivity).
    assert (Hpos : 0 <= dotf (S d) Z Z) by apply dotf_nonneg. rewrite E1, E2. clear E1 E2 Ha El. clearbody V V' Z h c. set (uz := dotf (S d) u Z) in *. set (zz := dotf (S d) Z Z) in *. set (uv := dotf (S d) u V). set (vv := dotf (S d) V V).
    clearbody uz zz uv vv.
    assert (K1 : r * g <= r * (l * uz)) by (rewrite !(Qcmult_comm r); now apply mul_le).
    assert (K0 : 0 <= r * g) by (replace 0 with (0 * g) by ring; now apply mul_le).
    assert (K2 : r * (l * h) <= 0) by (rewrite (Qcmult_comm r); replace 0 with (0 * r) by ring; now apply mul_le).
    assert (Hrr : 0 <= r * r) by discriminate.
    assert (K3 : r * r * zz <= r * r * R) by (rewrite !(Qcmult_comm (r * r)); now apply mul_le).
    assert (K4 : 0 <= r * r * zz) by (replace 0 with (0 * zz) by ring; now apply mul_le).
    destruct Hc as [-> | ->].
    - replace (r * l * uz) with (r * (l * uz)) by ring. replace ((1 + 1) * (r * l) * h) with (r * (l * h) + r * (l * h)) by ring.
      replace (r * l * (r * l) * zz) with (r * r * zz * (l * l)) by ring. rewrite Hll. replace (r * r * zz * 1) with (r * r * zz) by ring.
      replace ((1 + 1) * (1 + 1) * (r * r) * R) with (r * r * R + r * r * R + r * r * R + r * r * R) by ring.
      set (a1 := r * g) in *. set (a2 := r * (l * uz)) in *. set (a3 := r * (l * h)) in *. set (a4 := r * r * zz) in *. set (a5 := r * r * R) in *. clearbody a1 a2 a3 a4 a5. split; qlra.
    - replace (r * ((1 + 1) * l) * uz) with (r * (l * uz) + r * (l * uz)) by ring. replace ((1 + 1) * (r * ((1 + 1) * l)) * h) with (r * (l * h) + r * (l * h) + r * (l * h) + r * (l * h)) by ring.
      replace (r * ((1 + 1) * l) * (r * ((1 + 1) * l)) * zz) with ((r * r * zz + r * r * zz + r * r * zz + r * r * zz) * (l * l)) by ring. rewrite Hll. 
      replace ((r * r * zz + r * r * zz + r * r * zz + r * r * zz) * 1) with (r * r * zz + r * r * zz + r * r * zz + r * r * zz) by ring.
      replace ((1 + 1) * (1 + 1) * (r * r) * R) with (r * r * R + r * r * R + r * r * R + r * r * R) by ring.
      set (a1 := r * g) in *. set (a2 := r * (l * uz)) in *. set (a3 := r * (l * h)) in *. set (a4 := r * r * zz) in *. set (a5 := r * r * R) in *. clearbody a1 a2 a3 a4 a5. split; qlra.
  Qed.
  Lemma run_bounds u g R ps : 0 <= g -> Forall (fun p => sample_ok p /\ g <= snd p * dotf (S d) u (ax (fst p)) /\ dotf (S d) (ax (fst p)) (ax (fst p)) <= R) ps -> forall s, ok s ->
    let s' := fold_left perc_one ps s in
    ok s' /\ dotf (S d) u (av s) + qn (mistakes s ps) * (learning_rate * g) <= dotf (S d) u (av s') /\
    dotf (S d) (av s') (av s') <= dotf (S d) (av s) (av s) + qn (mistakes s ps) * ((1 + 1) * (1 + 1) * (learning_rate * learning_rate) * R).
  Proof.
    intros Hg. induction ps as [|p ps IH]; intros H s Hs; cbn [fold_left mistakes].
    - split; [assumption|]. change (qn 0) with 0. rewrite !Qcmult_0_l, !Qcplus_0_r. split; apply Qcle_refl.
    - inversion H as [|? ? (Hp & Hu & HR) Hps]; subst. destruct p as [x l]. pose proof (one_ok s x l Hs (proj1 Hp)) as Hs1. specialize (IH Hps _ Hs1). cbv zeta in IH. destruct IH as (I1 & I2 & I3). split; [assumption|].
      destruct (wrong s (x, l)) eqn:Ew.
      + destruct (mistake_bounds s x l u g R Hs Hp Ew Hg Hu HR) as [B1 B2]. change (1 + mistakes (perc_one s (x, l)) ps)%nat with (S (mistakes (perc_one s (x, l)) ps)). cbn [qn].
        set (m := qn (mistakes (perc_one s (x, l)) ps)) in *. set (rg := learning_rate * g) in *. set (rR := (1 + 1) * (1 + 1) * (learning_rate * learning_rate) * R) in *.
        replace ((1 + m) * rg) with (rg + m * rg) by ring. replace ((1 + m) * rR) with (rR + m * rR) by ring.
        set (t1 := m * rg) in *. set (t2 := m * rR) in *. split; [eapply Qcle_trans; [|exact I2]|eapply Qcle_trans; [exact I3|]].
        * rewrite Qcplus_assoc. apply Qcplus_le_compat; [exact B1|apply Qcle_refl].
        * rewrite Qcplus_assoc. apply Qcplus_le_compat; [exact B2|apply Qcle_refl].
      + pose proof (right_unchanged s (x, l) Hs Hp Ew) as Eu. rewrite Eu in I2, I3 |- *. cbn [plus]. split; assumption.
  Qed.
  (** ** the number of mistakes is bounded *)
  Lemma mistakes_bounded u g R s0 : 0 < g -> 0 <= R -> ok s0 -> exists N, forall ps,
    Forall (fun p => sample_ok p /\ g <= snd p * dotf (S d) u (ax (fst p)) /\ dotf (S d) (ax (fst p)) (ax (fst p)) <= R) ps -> (mistakes s0 ps <= N)%nat.
  Proof.
    intros Hg HR Hs. set (A := learning_rate * g). set (a0 := dotf (S d) u (av s0)). set (uu := dotf (S d) u u). set (B := uu * dotf (S d) (av s0) (av s0)).
    set (Cc := uu * ((1 + 1) * (1 + 1) * (learning_rate * learning_rate) * R)).
    assert (HA : 0 < A). { unfold A. replace 0 with (0 * g) by ring. apply Qcmult_lt_compat_r; [assumption|reflexivity]. }
    assert (Huu : 0 <= uu) by apply dotf_nonneg. assert (HB : 0 <= B). { unfold B. replace 0 with (0 * dotf (S d) (av s0) (av s0)) by ring. apply mul_le; [apply dotf_nonneg|assumption]. }
    assert (HAn : A <> 0) by (intro E; rewrite E in HA; discriminate).
    destruct (archimedes ((B + Cc - (1 + 1) * a0 * A) / (A * A))) as [N1 HN1]. destruct (archimedes (- a0 / A)) as [N2 HN2].
    exists (S N1 + N2)%nat. intros ps Hps. destruct (run_bounds u g R ps (Qclt_le_weak _ _ Hg) Hps s0 Hs) as (_ & H1 & H2). set (M := mistakes s0 ps) in *. set (s' := fold_left perc_one ps s0) in *.
    destruct (Nat.le_gt_cases M (S N1 + N2)) as [|Hgt]; [assumption|]. exfalso. fold A a0 in H1.
    assert (Hmn : forall n, (n <= M)%nat -> qn n <= qn M).
    { intros n Hn. replace M with (n + (M - n))%nat by lia. rewrite qn_add. pose proof (qn_nonneg (M - n)) as Hq. set (a := qn n). set (b := qn (M - n)) in *. clearbody a b. qlra. }
    assert (Hm1 : (B + Cc - (1 + 1) * a0 * A) / (A * A) < qn M) by (eapply Qclt_le_trans; [exact HN1|apply Hmn; lia]).
    assert (Hm2 : - a0 / A < qn M) by (eapply Qclt_le_trans; [exact HN2|apply Hmn; lia]).
    assert (Hm3 : 1 <= qn M) by (replace 1 with (qn 1) by reflexivity; apply Hmn; lia).
    set (m := qn M) in *. clearbody m.
    assert (Hp : 0 < a0 + m * A). { pose proof (Qcmult_lt_compat_r _ _ A HA Hm2) as Hx. replace (- a0 / A * A) with (- a0) in Hx by (field; assumption). set (t := m * A) in *. clearbody t a0. qlra. }
    assert (Hsq : (a0 + m * A) * (a0 + m * A) <= uu * dotf (S d) (av s') (av s')).
    { eapply Qcle_trans; [|apply cauchy]. set (t := dotf (S d) u (av s')) in *. set (q := a0 + m * A) in *. clearbody t q.
      assert (0 <= q) by now apply Qclt_le_weak. assert (0 <= t) by (eapply Qcle_trans; eauto).
      eapply Qcle_trans; [apply (mul_le q t q); assumption|]. rewrite (Qcmult_comm t q). now apply mul_le. }
    assert (Hle : uu * dotf (S d) (av s') (av s') <= B + m * Cc).
    { unfold B, Cc. rewrite (Qcmult_comm uu). eapply Qcle_trans; [apply mul_le; [exact Huu|exact H2]|]. match goal with |- ?a <= ?b => replace b with a by ring end. apply Qcle_refl. }
    assert (Hbig : B + Cc - (1 + 1) * a0 * A < m * (A * A)).
    { assert (HAA : 0 < A * A) by (replace 0 with (0 * A) by ring; now apply Qcmult_lt_compat_r). pose proof (Qcmult_lt_compat_r _ _ (A * A) HAA Hm1) as Hx.
      replace ((B + Cc - (1 + 1) * a0 * A) / (A * A) * (A * A)) with (B + Cc - (1 + 1) * a0 * A) in Hx by (field; assumption). exact Hx. }
    assert (Hm0 : 0 < m) by (clear -Hm3; qlra).
    pose proof (Qcmult_lt_compat_r _ _ m Hm0 Hbig) as Hbm.
    assert (HBm : B <= B * m). { rewrite (Qcmult_comm B m). replace B with (1 * B) at 1 by ring. now apply mul_le. }
    pose proof (sq_nonneg a0) as Hsa.
    replace ((a0 + m * A) * (a0 + m * A)) with (a0 * a0 + (1 + 1) * a0 * A * m + m * (A * A) * m) in Hsq by ring.
    replace ((B + Cc - (1 + 1) * a0 * A) * m) with (B * m + m * Cc - (1 + 1) * a0 * A * m) in Hbm by ring.
    set (x1 := a0 * a0) in *. set (x2 := (1 + 1) * a0 * A * m) in *. set (x3 := m * (A * A) * m) in *. set (x4 := B * m) in *. set (x5 := m * Cc) in *. set (x6 := uu * dotf (S d) (av s') (av s')) in *.
    clearbody x1 x2 x3 x4 x5 x6 B. clear -Hsq Hle Hbm HBm Hsa. qlra.
  Qed.
  (** ** repeated passes *)
  Lemma mistakes_app a : forall s b, mistakes s (a ++ b) = (mistakes s a + mistakes (fold_left perc_one a s) b)%nat.
  Proof. induction a as [|p a IH]; intros s b; cbn; [reflexivity|]. rewrite IH. lia. Qed.
  Lemma no_mistake ps : Forall sample_ok ps -> forall s, ok s -> mistakes s ps = 0%nat -> fold_left perc_one ps s = s /\ Forall (fun p => perc_label s (fst p) = snd p) ps.
  Proof.
    induction 1 as [|p ps Hp _ IH]; intros s Hs Hm; cbn in *; [split; [reflexivity|constructor]|]. destruct (wrong s p) eqn:E; [discriminate|]. rewrite (right_unchanged s p Hs Hp E) in *.
    destruct (IH s Hs Hm) as [I1 I2]. split; [assumption|]. constructor; [|assumption]. unfold wrong in E. destruct (Qc_eq_dec _ _); [assumption|discriminate].
  Qed.
  Definition all_right (s : perc) (ps : list (vec * Qc)) : Prop := Forall (fun p => perc_label s (fst p) = snd p) ps.
  Lemma fold_ok ps : Forall sample_ok ps -> forall s, ok s -> ok (fold_left perc_one ps s).
  Proof. induction 1 as [|[x l] ps Hp _ IH]; intros s Hs; cbn; [assumption|]. apply IH. apply one_ok; [assumption|apply Hp]. Qed.
  Lemma right_stays ps : Forall sample_ok ps -> forall s, ok s -> all_right s ps -> fold_left perc_one ps s = s.
  Proof.
    induction 1 as [|p ps Hp _ IH]; intros s Hs Ha; cbn; [reflexivity|]. inversion Ha; subst. rewrite right_unchanged; [now apply IH|assumption|assumption|].
    unfold wrong. destruct (Qc_eq_dec _ _); [reflexivity|congruence].
  Qed.
  Fixpoint passes (n : nat) (ps : list (vec * Qc)) : list (vec * Qc) := match n with O => [] | S n => ps ++ passes n ps end.
  Lemma passes_forall (P : vec * Qc -> Prop) n ps : Forall P ps -> Forall P (passes n ps).
  Proof. intro H. induction n; cbn; [constructor|]. now apply Forall_app. Qed.
  Lemma passes_right n ps : Forall sample_ok ps -> forall s, ok s -> (mistakes s (passes n ps) < n)%nat -> all_right (fold_left perc_one (passes n ps) s) ps.
  Proof.
    intro Hps. induction n as [|n IH]; intros s Hs Hm; [lia|]. cbn [passes] in *. rewrite mistakes_app in Hm. rewrite fold_left_app. destruct (mistakes s ps) eqn:E.
    - destruct (no_mistake ps Hps s Hs E) as [E1 E2]. rewrite E1. clear -E2 Hps Hs. induction n as [|n IH]; [exact E2|]. cbn [passes]. rewrite fold_left_app, (right_stays ps Hps s Hs E2). exact IH.
    - apply IH; [now apply fold_ok|lia].
  Qed.
End Perceptron.

(** *** C148 *)
(** the state after any training starts with ones; [train] with lists or with single labels runs perc_one over the samples *)
Definition separable (d : nat) (S : list (vec * Qc)) : Prop := exists w b, length w = d /\ forall p, In p S -> 0 < snd p * (dot w (fst p) + b).
Lemma margin d S w b : length w = d -> Forall (sample_ok d) S -> (forall p, In p S -> 0 < snd p * (dot w (fst p) + b)) ->
  exists g R, 0 < g /\ 0 <= R /\ forall p, In p S -> g <= snd p * dotf (Datatypes.S d) (aug d w b) (ax d (fst p)) /\ dotf (Datatypes.S d) (ax d (fst p)) (ax d (fst p)) <= R.
Proof.
  intros Hw Hok Hp. induction Hok as [|p S Hpo HS IH]; [exists 1, 0; split; [reflexivity|split; [apply Qcle_refl|intros p []]]|].
  destruct IH as (g & R & Hg & HR & H); [intros; apply Hp; now right|]. set (g1 := snd p * (dot w (fst p) + b)). set (R1 := dotf (Datatypes.S d) (ax d (fst p)) (ax d (fst p))).
  assert (Hg1 : 0 < g1) by (apply Hp; now left). assert (HR1 : 0 <= R1) by apply dotf_nonneg.
  assert (Eg : snd p * dotf (Datatypes.S d) (aug d w b) (ax d (fst p)) = g1). { unfold ax. rewrite dotf_aug; [|assumption|apply Hpo]. unfold g1. ring. }
  exists (if Qclt_le_dec g g1 then g else g1), (if Qclt_le_dec R R1 then R1 else R). repeat split.
  - destruct (Qclt_le_dec g g1); assumption.
  - destruct (Qclt_le_dec R R1); assumption.
  - destruct H0 as [<-|Hi]; [rewrite Eg|]; [destruct (Qclt_le_dec g g1); [now apply Qclt_le_weak|apply Qcle_refl]|]. destruct (H p0 Hi) as [Ha _]. destruct (Qclt_le_dec g g1); [assumption|]. eapply Qcle_trans; eauto.
  - destruct H0 as [<-|Hi]; [fold R1; destruct (Qclt_le_dec R R1); [apply Qcle_refl|assumption]|]. destruct (H p0 Hi) as [_ Hb]. destruct (Qclt_le_dec R R1); [|assumption]. apply Qcle_trans with R; [assumption|now apply Qclt_le_weak].
Qed.
(** whatever samples of a linearly separable set are presented in whatever order and number, the weights change only a bounded number of times *)
Theorem C148_mistakes (d : nat) (S : list (vec * Qc)) (s0 : perc) : Forall (fun p => length (fst p) = d /\ (snd p = 1 \/ snd p = - (1))) S -> separable d S -> length (p_weights s0) = d ->
  exists N, forall ps, incl ps S -> (mistakes s0 ps <= N)%nat.
Proof.
  intros HS (w & b & Hw & Hsep) Hs0. destruct (margin d S w b Hw HS Hsep) as (g & R & Hg & HR & H).
  destruct (mistakes_bounded d (aug d w b) g R s0 Hg HR Hs0) as [N HN]. exists N. intros ps Hin. apply HN. apply Forall_forall. intros p Hp. rewrite Forall_forall in HS. split; [apply HS; auto|apply H; auto].
Qed.
(** enough passes through the set, and all its samples are labelled correctly *)
Theorem C148_convergence (d : nat) (S : list (vec * Qc)) : (0 < d)%nat -> Forall (fun p => length (fst p) = d /\ (snd p = 1 \/ snd p = - (1))) S -> separable d S ->
  exists N, forall n, (N <= n)%nat -> forall s,
    perc_train d perc_init (concat (repeat (map fst S) n)) (Listed (concat (repeat (map snd S) n))) = Some s -> forall p, In p S -> perc_label s (fst p) = snd p.
Proof.
  intros Hd HS Hsep. assert (Hok : Forall (sample_ok d) S) by exact HS. set (s0 := perc_start d perc_init). assert (Hs0 : ok d s0) by (unfold ok; cbn; apply repeat_length).
  destruct (C148_mistakes d S s0 HS Hsep Hs0) as [N HN]. exists (N + 1)%nat. intros n Hn s.
  cbn [perc_train]. destruct (_ && _); [|discriminate]. intros [= <-] p Hp. fold s0.
  assert (E : combine (concat (repeat (map fst S) n)) (concat (repeat (map snd S) n)) = passes n S).
  { clear. induction n as [|n IH]; cbn; [reflexivity|]. rewrite <- IH. clear. assert (G : forall (l : list (vec * Qc)) a b, combine (map fst l ++ a) (map snd l ++ b) = l ++ combine a b).
    { induction l as [|[x y] l IH]; intros a b; cbn; [reflexivity|]. now rewrite IH. } apply G. }
  rewrite E. assert (Hr : all_right (fold_left perc_one (passes n S) s0) S).
  { apply (passes_right d); [assumption|assumption|]. assert ((mistakes s0 (passes n S) <= N)%nat); [|lia]. apply HN. intros q Hq.
    assert (G : Forall (fun q => In q S) (passes n S)) by (apply passes_forall; apply Forall_forall; auto). rewrite Forall_forall in G. auto. }
  unfold all_right in Hr. rewrite Forall_forall in Hr. now apply Hr.
Qed.
(** the call above is accepted *)
Theorem C148_accepted d S n : Forall (fun p => length (fst p) = d /\ (snd p = 1 \/ snd p = - (1))) S ->
  exists s, perc_train d perc_init (concat (repeat (map fst S) n)) (Listed (concat (repeat (map snd S) n))) = Some s.
Proof.
  intro H. cbn [perc_train].
  assert (E1 : length (concat (repeat (map snd S) n)) = length (concat (repeat (map fst S) n))) by (clear; induction n as [|n IH]; cbn; [reflexivity|rewrite !app_length, !map_length, IH; reflexivity]).
  rewrite E1, Nat.eqb_refl. cbn [andb].
  assert (E2 : forallb is_pm1 (concat (repeat (map snd S) n)) = true).
  { apply forallb_forall. intros l Hl. apply in_concat in Hl as (r & Hr & Hl). apply repeat_spec in Hr. subst r. apply in_map_iff in Hl as (p & <- & Hp). rewrite Forall_forall in H. destruct (H p Hp) as [_ [-> | ->]]; reflexivity. }
  rewrite E2. eauto.
Qed.
Definition and_gate : list (vec * Qc) := [([q_ 0; q_ 0], - (1)); ([q_ 0; q_ 1], - (1)); ([q_ 1; q_ 0], - (1)); ([q_ 1; q_ 1], 1)].
Example C148_ex : match perc_train 2 perc_init (concat (repeat (map fst and_gate) 8)) (Listed (concat (repeat (map snd and_gate) 8))) with
  | Some s => map (fun p => this (perc_label s (fst p))) and_gate = map (fun p => this (snd p)) and_gate | None => False end.
Proof. vm_compute. reflexivity. Qed.
Example C148_separable : separable 2 and_gate.
Proof. exists [q_ 2; q_ 2], (q_ (-3)). split; [reflexivity|]. intros p [<-|[<-|[<-|[<-|[]]]]]; reflexivity. Qed.

(** ** C149 *)
Theorem C149_signum (x : list vec) : Forall2 (fun v l => (0 < qsum v -> l = 1) /\ (qsum v < 0 -> l = - (1)) /\ (qsum v = 0 -> l = 0)) x (signum_label x).
Proof.
  unfold signum_label. induction x as [|v x IH]; cbn; constructor; [|exact IH]. destruct (sign_cases (qsum v)) as [[H ->]|[[H ->]|[H ->]]]; repeat split; intro H'; try reflexivity; exfalso.
  - apply (Qclt_not_le _ _ H). now apply Qclt_le_weak.
  - rewrite H' in H. discriminate.
  - rewrite H in H'. discriminate.
  - rewrite H in H'. discriminate.
  - apply (Qclt_not_le _ _ H). now apply Qclt_le_weak.
  - rewrite H' in H. discriminate.
Qed.
