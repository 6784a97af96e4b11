(** Properties C421-C423: JADENode *)
From Coq Require Import Reals List Arith ZArith Bool Lia Lra.
From Verif Require Import CovModel CovProps ICAModel ICAProofs ICAProps.
Import ListNotations.
Open Scope R_scope.

Lemma g_cols_rc c s p q v a b : p <> q -> g_cols c s p q v a b = rc c (- s) p q v a b.
Proof. intros H. rewrite rc_eq by assumption. unfold g_cols. destruct (Nat.eqb_spec b p), (Nat.eqb_spec b q); subst; try congruence; ring. Qed.
Lemma g_cols_orth c s p q d v : p <> q -> (p < d)%nat -> (q < d)%nat -> c * c + s * s = 1 -> orthogonal d v -> orthogonal d (g_cols c s p q v).
Proof.
  intros H Hp Hq H1 Hv a b Ha Hb. assert (H1' : c * c + - s * - s = 1) by lra. destruct (rc_orthogonal c (- s) p q d v H Hp Hq H1' Hv a b Ha Hb) as [E1 E2]. split.
  - rewrite <- E1. apply mult_ext; intros; unfold transp, ftrans; now rewrite g_cols_rc.
  - rewrite <- E2. apply mult_ext; intros; unfold transp, ftrans; now rewrite g_cols_rc.
Qed.
Lemma g_cols_mult c s p q d x v t b : p <> q -> mult d x (g_cols c s p q v) t b = g_cols c s p q (mult d x v) t b.
Proof. intros H. rewrite g_cols_rc, <- rc_mult by assumption. apply mult_ext; [reflexivity|]. intros. now apply g_cols_rc. Qed.
Lemma g_rows_mult c s p q d x v t b : p <> q -> mult d (g_rows c s p q x) v t b = g_rows c s p q (mult d x v) t b.
Proof.
  intros H. pose proof (g_cols_mult c s p q d (transp v) (transp x) b t H) as E.
  change (g_rows c s p q (mult d x v) t b) with (g_cols c s p q (transp (mult d x v)) b t).
  transitivity (mult d (transp v) (g_cols c s p q (transp x)) b t); [change (g_rows c s p q x) with (transp (g_cols c s p q (transp x))); symmetry; exact (transp_mult d (transp v) (g_cols c s p q (transp x)) t b)|].
  rewrite E. unfold g_cols. destruct (t =? p)%nat; [|destruct (t =? q)%nat]; rewrite <- !transp_mult; reflexivity.
Qed.
Lemma g_both_ext c s p q d u v a b : (p < d)%nat -> (q < d)%nat -> (a < d)%nat -> (b < d)%nat -> (forall a b, (a < d)%nat -> (b < d)%nat -> u a b = v a b) -> g_both c s p q u a b = g_both c s p q v a b.
Proof. intros Hp Hq Ha Hb H. unfold g_both, g_cols, g_rows. rewrite !H by assumption. reflexivity. Qed.
Lemma conj_step c s p q d v c0 a b : p <> q -> mult d (mult d (transp (g_cols c s p q v)) c0) (g_cols c s p q v) a b = g_both c s p q (mult d (mult d (transp v) c0) v) a b.
Proof.
  intros H. rewrite g_cols_mult by assumption. unfold g_both.
  assert (E : forall a b, mult d (mult d (transp (g_cols c s p q v)) c0) v a b = g_rows c s p q (mult d (mult d (transp v) c0) v) a b).
  { intros a0 b0. rewrite <- g_rows_mult by assumption. apply mult_ext; [|reflexivity]. intros j _. change (transp (g_cols c s p q v)) with (g_rows c s p q (transp v)). now apply g_rows_mult. }
  unfold g_cols at 1 3. rewrite !E. reflexivity.
Qed.

(** ** the sums of squares *)
Lemma rsum_delta n f g i j : i <> j -> (i < n)%nat -> (j < n)%nat -> (forall k, (k < n)%nat -> k <> i -> k <> j -> f k = g k) -> rsum n f = rsum n g + (f i + f j - g i - g j).
Proof.
  intros Hij Hi Hj H. pose (h := fun k => if (k =? i)%nat then f i + f j - g j else g k).
  rewrite (rsum_two n f h i j Hij Hi Hj).
  - assert (D : rsum n (fun k => h k - g k) = f i + f j - g j - g i).
    { rewrite <- (rsum_pick n i (fun k => f i + f j - g j - g i) Hi). apply rsum_ext. intros k _. unfold h. destruct (Nat.eqb_spec k i); subst; ring. }
    rewrite rsum_sub in D. lra.
  - intros k Hk Hki Hkj. unfold h. destruct (Nat.eqb_spec k i); [congruence|]. now apply H.
  - unfold h. rewrite Nat.eqb_refl. destruct (Nat.eqb_spec j i); [congruence|]. ring.
Qed.
Section Sums.
  Variables (m p q : nat).
  Hypothesis Hpq : p <> q. Hypothesis Hp : (p < m)%nat. Hypothesis Hq : (q < m)%nat.
  Notation dd c := (c p p - c q q). Notation oo c := (c p q + c q p).
  Lemma both_d c s (v : rmat) : g_both c s p q v p p - g_both c s p q v q q = (c * c - s * s) * dd v + 2 * (s * c) * oo v /\
    g_both c s p q v p q + g_both c s p q v q p = - (2 * (s * c)) * dd v + (c * c - s * s) * oo v.
  Proof. unfold g_both, g_cols, g_rows. rewrite !Nat.eqb_refl. destruct (Nat.eqb_spec p q), (Nat.eqb_spec q p); try congruence. split; ring. Qed.
  Lemma on_one c s (v : rmat) : c * c + s * s = 1 -> rsum m (fun a => g_both c s p q v a a * g_both c s p q v a a) = rsum m (fun a => v a a * v a a)
    + / 4 * (((c * c - s * s) * (c * c - s * s) - 4 * (s * c) * (s * c) - 1) * (dd v * dd v - oo v * oo v) + 4 * (s * c) * (c * c - s * s) * (2 * (dd v * oo v))).
  Proof.
    intros H1. rewrite (rsum_delta m _ (fun a => v a a * v a a) p q Hpq Hp Hq).
    - f_equal. unfold g_both, g_cols, g_rows. rewrite !Nat.eqb_refl. destruct (Nat.eqb_spec p q), (Nat.eqb_spec q p); try congruence. set (e := c * c + s * s) in *.
      match goal with |- ?a + ?b - ?f - ?g = _ => transitivity (a + b - (f + g) * (e * e)); [rewrite H1; ring|] end.
      match goal with |- _ = / 4 * ((?k - 1) * ?x + ?y) => transitivity (/ 4 * ((k - e * e) * x + y)); [unfold e; field|rewrite H1; ring] end.
    - intros k _ H2 H3. unfold g_both, g_cols, g_rows. destruct (Nat.eqb_spec k p), (Nat.eqb_spec k q); try congruence.
  Qed.
  Lemma total_one c s (v : rmat) : c * c + s * s = 1 -> rsum m (fun a => rsum m (fun b => g_both c s p q v a b * g_both c s p q v a b)) = rsum m (fun a => rsum m (fun b => v a b * v a b)).
  Proof.
    intros H1. transitivity (rsum m (fun a => rsum m (fun b => g_rows c s p q v a b * g_rows c s p q v a b))).
    - apply rsum_ext. intros a _. unfold g_both. apply (rsum_two m _ _ p q Hpq Hp Hq).
      + intros k _ H2 H3. unfold g_cols. destruct (Nat.eqb_spec k p), (Nat.eqb_spec k q); try congruence.
      + unfold g_cols. rewrite !Nat.eqb_refl. destruct (Nat.eqb_spec q p); [congruence|]. set (u := g_rows c s p q v a p). set (w := g_rows c s p q v a q).
        transitivity ((c * c + s * s) * (u * u + w * w)); [ring|rewrite H1; ring].
    - rewrite rsum_swap, (rsum_swap m m (fun a b => v a b * v a b)). apply rsum_ext. intros b _. apply (rsum_two m _ _ p q Hpq Hp Hq).
      + intros k _ H2 H3. unfold g_rows. destruct (Nat.eqb_spec k p), (Nat.eqb_spec k q); try congruence.
      + unfold g_rows. rewrite !Nat.eqb_refl. destruct (Nat.eqb_spec q p); [congruence|].
        transitivity ((c * c + s * s) * (v p b * v p b + v q b * v q b)); [ring|rewrite H1; ring].
  Qed.
  Lemma lsum_map {A B} (f : B -> R) (g : A -> B) l : lsum f (map g l) = lsum (fun x => f (g x)) l. Proof. unfold lsum. now rewrite map_map. Qed.
  Lemma ton_eq l : ton l p q = lsum (fun c : rmat => dd c * dd c - oo c * oo c) l.
  Proof. unfold ton. transitivity (lsum (fun c : rmat => dd c * dd c + (-1) * (oo c * oo c)) l); [rewrite lsum_add, lsum_mul; ring|apply lsum_ext; intros; ring]. Qed.
  Lemma toff_eq l : toff l p q = lsum (fun c : rmat => 2 * (dd c * oo c)) l.
  Proof. unfold toff. rewrite <- lsum_add. apply lsum_ext. intros. ring. Qed.
  (** the sum of the squares on the diagonals after a rotation by t *)
  Lemma on_rot t l : on_ m (map (g_both (cos t) (sin t) p q) l) = on_ m l + (ton l p q * cos (4 * t) + toff l p q * sin (4 * t) - ton l p q) / 4.
  Proof.
    unfold on_. rewrite lsum_map. rewrite ton_eq, toff_eq, cos4, sin4. set (c := cos t). set (s := sin t).
    transitivity (lsum (fun v : rmat => rsum m (fun a => v a a * v a a) + (/ 4 * ((c * c - s * s) * (c * c - s * s) - 4 * (s * c) * (s * c) - 1) * (dd v * dd v - oo v * oo v) + / 4 * (4 * (s * c) * (c * c - s * s)) * (2 * (dd v * oo v)))) l).
    - apply lsum_ext. intros v _. rewrite on_one by apply cs1. ring.
    - rewrite lsum_add, lsum_add, !lsum_mul. field.
  Qed.
  Lemma total_rot t l : total m (map (g_both (cos t) (sin t) p q) l) = total m l.
  Proof. unfold total. rewrite lsum_map. apply lsum_ext. intros v _. apply total_one, cs1. Qed.
  Lemma ton_rot t l : ton (map (g_both (cos t) (sin t) p q) l) p q = ton l p q * cos (4 * t) + toff l p q * sin (4 * t) /\
    toff (map (g_both (cos t) (sin t) p q) l) p q = toff l p q * cos (4 * t) - ton l p q * sin (4 * t).
  Proof.
    rewrite !ton_eq, !toff_eq, !lsum_map, cos4, sin4. set (c := cos t). set (s := sin t). split.
    - transitivity (lsum (fun v : rmat => ((c * c - s * s) * (c * c - s * s) - 4 * (s * c) * (s * c)) * (dd v * dd v - oo v * oo v) + (4 * (s * c) * (c * c - s * s)) * (2 * (dd v * oo v))) l).
      + apply lsum_ext. intros v _. destruct (both_d c s v) as [-> ->]. ring.
      + rewrite lsum_add, !lsum_mul. ring.
    - transitivity (lsum (fun v : rmat => ((c * c - s * s) * (c * c - s * s) - 4 * (s * c) * (s * c)) * (2 * (dd v * oo v)) + (- (4 * (s * c) * (c * c - s * s))) * (dd v * dd v - oo v * oo v)) l).
      + apply lsum_ext. intros v _. destruct (both_d c s v) as [-> ->]. ring.
      + rewrite lsum_add, !lsum_mul. ring.
  Qed.
End Sums.

(** ** the angle *)
Lemma sqrt_sum a b : 0 <= sqrt (a * a + b * b) /\ sqrt (a * a + b * b) * sqrt (a * a + b * b) = a * a + b * b.
Proof. split; [apply sqrt_pos|apply sqrt_sqrt; pose proof (Rle_0_sqr a); pose proof (Rle_0_sqr b); unfold Rsqr in *; lra]. Qed.
Lemma theta_angles l p q : ~ (toff l p q = 0 /\ ton l p q < 0) -> let rho := sqrt (ton l p q * ton l p q + toff l p q * toff l p q) in
  rho * cos (4 * theta_ l p q) = ton l p q /\ rho * sin (4 * theta_ l p q) = toff l p q.
Proof.
  intros H rho. unfold theta_. set (a := ton l p q) in *. set (b := toff l p q) in *. fold rho. destruct (sqrt_sum a b) as [R0 RR]. fold rho in R0, RR.
  replace (4 * (1 / 2 * atan2 b (a + rho))) with (2 * atan2 b (a + rho)) by field. destruct (atan2_spec b (a + rho)) as [E1 E2]. destruct (sqrt_sum (a + rho) b) as [G0 GG].
  set (h := sqrt ((a + rho) * (a + rho) + b * b)) in *. set (t := atan2 b (a + rho)) in *. rewrite cos2, sin2.
  destruct (Req_dec (a + rho) 0) as [Z|Z].
  - assert (b = 0). { assert (b * b = 0) by (replace (b * b) with (rho * rho - a * a) by lra; replace a with (- rho) by lra; ring). now apply Rmult_integral in H0 as [|]. }
    assert (a = 0) by (destruct (Rlt_dec a 0); [elim H; auto|lra]). assert (rho = 0) by lra. rewrite H2. lra.
  - assert (X : h * h = 2 * rho * (rho + a)) by (rewrite GG; lra).
    assert (Y1 : h * h * (cos t * cos t - sin t * sin t) = 2 * a * (a + rho)). { replace (h * h * (cos t * cos t - sin t * sin t)) with ((h * cos t) * (h * cos t) - (h * sin t) * (h * sin t)) by ring. rewrite <- E1, <- E2. lra. }
    assert (Y2 : h * h * (2 * sin t * cos t) = 2 * (a + rho) * b). { replace (h * h * (2 * sin t * cos t)) with (2 * (h * cos t) * (h * sin t)) by ring. rewrite <- E1, <- E2. ring. }
    rewrite X in Y1, Y2. split; apply Rmult_eq_reg_r with (2 * (a + rho)); lra.
Qed.
Lemma atan2_0 x : 0 <= x -> atan2 0 x = 0.
Proof. intros H. unfold atan2. destruct (Rlt_dec 0 x); [unfold Rdiv; now rewrite Rmult_0_l, atan_0|]. destruct (Rlt_dec x 0); [lra|]. repeat (destruct Rlt_dec; try lra). Qed.
Lemma theta_stuck l p q : toff l p q = 0 -> ton l p q <= 0 -> theta_ l p q = 0.
Proof.
  intros H1 H2. unfold theta_. rewrite H1. replace (ton l p q * ton l p q + 0 * 0) with ((- ton l p q) * (- ton l p q)) by ring. rewrite sqrt_square by lra. rewrite atan2_0 by lra. ring.
Qed.
Lemma theta_zero l p q : toff l p q = 0 -> theta_ l p q = 0.
Proof.
  intros H1. destruct (Rle_dec (ton l p q) 0); [now apply theta_stuck|]. unfold theta_. rewrite H1. replace (ton l p q * ton l p q + 0 * 0) with (ton l p q * ton l p q) by ring. rewrite sqrt_square by lra. rewrite atan2_0 by lra. ring.
Qed.
(** C422: unless toff = 0 and ton < 0 the rotation by theta gives the largest sum of squares of the diagonal elements of all rotations in the plane, and Gain is its growth *)
Theorem C422_gain : forall m l p q, p <> q -> (p < m)%nat -> (q < m)%nat -> ~ (toff l p q = 0 /\ ton l p q < 0) -> let th := theta_ l p q in
  on_ m (map (g_both (cos th) (sin th) p q) l) = on_ m l + gain l p q /\ 0 <= gain l p q /\
  forall t, on_ m (map (g_both (cos t) (sin t) p q) l) <= on_ m (map (g_both (cos th) (sin th) p q) l).
Proof.
  intros m l p q Hpq Hp Hq H th. destruct (theta_angles l p q H) as [E1 E2]. set (rho := sqrt (ton l p q * ton l p q + toff l p q * toff l p q)) in *. fold th in E1, E2.
  assert (A : ton l p q * cos (4 * th) + toff l p q * sin (4 * th) = rho).
  { rewrite <- E1 at 1. rewrite <- E2 at 1. transitivity (rho * (cos (4 * th) * cos (4 * th) + sin (4 * th) * sin (4 * th))); [ring|]. rewrite cs1. ring. }
  split; [|split].
  - rewrite on_rot by assumption. rewrite A. unfold gain. fold rho. reflexivity.
  - unfold gain. fold rho. pose proof (amplitude (ton l p q) (toff l p q) 0) as B. rewrite cos_0, sin_0 in B. fold rho in B. lra.
  - intros t. rewrite !on_rot by assumption. rewrite A. pose proof (amplitude (ton l p q) (toff l p q) (4 * t)) as B. fold rho in B. lra.
Qed.

(** ** the sweeps *)
Section Loop.
  Variables (m : nat) (l0 : list rmat) (seuil : R).
  Hypothesis Hs : 0 <= seuil.
  Definition conj_of (v c c0 : rmat) : Prop := forall a b, (a < m)%nat -> (b < m)%nat -> c a b = mult m (mult m (transp v) c0) v a b.
  Record jinv (st : jst) : Prop := mkInv { inv_v : orthogonal m (j_v st); inv_cm : Forall2 (conj_of (j_v st)) (j_cm st) l0; inv_on : j_on st = on_ m (j_cm st);
    inv_total : total m (j_cm st) = total m l0; inv_ge : on_ m l0 <= on_ m (j_cm st) }.
  Lemma Rltb_spec a b : Rltb a b = true <-> a < b. Proof. unfold Rltb. destruct (Rlt_dec a b); split; intros; auto; discriminate. Qed.
  Lemma rotated_ok l p q : seuil < Rabs (theta_ l p q) -> ~ (toff l p q = 0 /\ ton l p q < 0).
  Proof. intros H [H1 H2]. rewrite theta_stuck, Rabs_R0 in H by lra. lra. Qed.
  Lemma Forall2_map_l {A B C} (P : A -> B -> Prop) (Q : C -> B -> Prop) (f : A -> C) l r : (forall a b, P a b -> Q (f a) b) -> Forall2 P l r -> Forall2 Q (map f l) r.
  Proof. intros H. induction 1; constructor; auto. Qed.
  Lemma step_inv st p q : (p < q)%nat -> (q < m)%nat -> jinv st -> jinv (jade_step seuil st (p, q)).
  Proof.
    intros Hpq Hq [I1 I2 I3 I4 I5]. cbn [jade_step]. destruct (Rltb seuil (Rabs (theta_ (j_cm st) p q))) eqn:E; [|constructor; assumption]. apply Rltb_spec in E. pose proof (rotated_ok _ _ _ E) as NS.
    set (th := theta_ (j_cm st) p q) in *. destruct (C422_gain m (j_cm st) p q) as (G1 & G2 & _); [lia|lia|assumption|assumption|]. fold th in G1.
    constructor; cbn [j_v j_cm j_on].
    - apply g_cols_orth; try lia; [apply cs1|assumption].
    - eapply Forall2_map_l; [|exact I2]. intros c c0 H a b Ha Hb. rewrite conj_step by lia. apply (g_both_ext _ _ p q m); try lia. exact H.
    - rewrite I3, G1. reflexivity.
    - rewrite total_rot by lia. assumption.
    - rewrite G1. lra.
  Qed.
  Lemma fold_inv l : (forall i j, In (i, j) l -> (i < j /\ j < m)%nat) -> forall st, jinv st -> jinv (fold_left (jade_step seuil) l st).
  Proof. induction l as [|[i j] l IH]; intros HL st H; [exact H|]. cbn [fold_left]. apply IH; [intros; apply HL; now right|]. destruct (HL i j) as [A B]; [now left|]. now apply step_inv. Qed.
  Lemma sweep_inv st : jinv st -> jinv (jade_sweep m seuil st).
  Proof. intros H. unfold jade_sweep. apply fold_inv; [apply in_pairs|]. destruct H. constructor; assumption. Qed.
  Lemma fold_upds l : forall st, let st' := fold_left (jade_step seuil) l st in (j_upds st <= j_upds st')%nat /\ (j_encore st = (0 <? j_upds st)%nat -> j_encore st' = (0 <? j_upds st')%nat).
  Proof.
    induction l as [|[i j] l IH]; intros st; [split; [apply Nat.le_refl|auto]|]. cbn [fold_left]. destruct (IH (jade_step seuil st (i, j))) as [H1 H2]. cbn [jade_step] in *.
    destruct (Rltb seuil (Rabs (theta_ (j_cm st) i j))); cbn [j_upds j_encore] in *; split; auto; try lia.
  Qed.
  Lemma sweep_upds st : j_encore (jade_sweep m seuil st) = (0 <? j_upds (jade_sweep m seuil st))%nat.
  Proof. unfold jade_sweep. apply fold_upds. reflexivity. Qed.
  Lemma loop_spec max_it fuel : forall updates st, (updates <= max_it)%nat -> jinv st ->
    match jade_loop m seuil max_it fuel updates st with
    | None => (fuel + updates <= max_it + 1)%nat
    | Some (inr _) => True
    | Some (inl (st', u)) => (u <= max_it)%nat /\ jinv st' /\ j_upds st' = 0%nat /\ exists st1, jinv st1 /\ st' = jade_sweep m seuil st1
    end.
  Proof.
    induction fuel as [|fuel IH]; intros updates st Hu HI; cbn [jade_loop]; [lia|]. pose proof (sweep_upds st) as SE. pose proof (sweep_inv st HI) as SI. destruct (Nat.ltb_spec max_it (updates + j_upds (jade_sweep m seuil st))) as [L|L]; [exact I|].
    rewrite SE. destruct (Nat.ltb_spec 0 (j_upds (jade_sweep m seuil st))) as [P|P].
    - specialize (IH (updates + j_upds (jade_sweep m seuil st))%nat (jade_sweep m seuil st) L SI). destruct (jade_loop m seuil max_it fuel _ _) as [[[st' u]|]|]; auto. lia.
    - split; [assumption|]. split; [assumption|]. split; [lia|]. eauto.
  Qed.
End Loop.
Definition orth_rows (m : nat) (f : rmat) : Prop := forall a b, (a < m)%nat -> (b < m)%nat -> mult m (transp f) f a b = eye a b.
Lemma jsign_spec b : jsign b * jsign b = 1 /\ 0 <= jsign b * b. Proof. unfold jsign. destruct (Rlt_dec b 0); split; lra. Qed.
(** the columns of the filters are those of V, permuted and with signs: orthonormal, first row not negative *)
Lemma filters_orth m perm v : orthogonal m v -> (forall a, (a < m)%nat -> (perm a < m)%nat) -> (forall a b, (a < m)%nat -> (b < m)%nat -> perm a = perm b -> a = b) -> orth_rows m (jade_filters perm v).
Proof.
  intros Hv Hp Hi a b Ha Hb. unfold jade_filters, transp, ftrans, mult, fmult.
  transitivity (jsign (v 0%nat (perm a)) * jsign (v 0%nat (perm b)) * mult m (transp v) v (perm a) (perm b)).
  - change (mult m (transp v) v (perm a) (perm b)) with (rsum m (fun k => v k (perm a) * v k (perm b))). rewrite <- rsum_mul. apply rsum_ext. intros. ring.
  - rewrite (proj1 (Hv (perm a) (perm b) (Hp a Ha) (Hp b Hb))). unfold eye. destruct (Nat.eqb_spec a b) as [->|N].
    + rewrite Nat.eqb_refl, Rmult_1_r. apply jsign_spec.
    + destruct (Nat.eqb_spec (perm a) (perm b)) as [E|E]; [elim N; now apply Hi|ring].
Qed.
Lemma seuil_pos tlen limit : 0 <= seuil_ tlen limit.
Proof.
  unfold seuil_. apply Rmult_le_pos; [pose proof (Rle_0_sqr limit); assumption|]. destruct (Req_dec (sqrt (INR tlen)) 0) as [E|E]; [rewrite E; rewrite Rinv_0; lra|].
  left. apply Rinv_0_lt_compat. pose proof (sqrt_pos (INR tlen)). lra.
Qed.
Lemma start_inv tlen m data : jinv m (cms tlen m data) (jade_start tlen m data).
Proof.
  constructor; cbn [jade_start j_v j_cm j_on]; [apply eye_orthogonal| |reflexivity|reflexivity|apply Rle_refl]. induction (cms tlen m data) as [|c l IH]; constructor; [|exact IH]. intros a b Ha Hb.
  rewrite mult_eye_r by assumption. transitivity (mult m eye c a b); [now rewrite mult_eye_l|]. apply mult_ext; [|reflexivity]. intros. unfold transp, ftrans, eye. now rewrite Nat.eqb_sym.
Qed.
(** C421: JADE ends after at most max_it + 2 sweeps.  If it does not raise there were at most max_it rotations, the filters (for every order of the components) have orthonormal columns and a first row
    without negative elements, the matrices are V^t C V for the cumulant matrices C computed at the beginning *)
Theorem C421_jade : forall tlen m data limit max_it, exists r, jade_loop m (seuil_ tlen limit) max_it (max_it + 2) 0 (jade_start tlen m data) = Some r /\
  forall st u, r = inl (st, u) -> (u <= max_it)%nat /\ orthogonal m (j_v st) /\ Forall2 (conj_of m (j_v st)) (j_cm st) (cms tlen m data) /\
    forall perm, (forall a, (a < m)%nat -> (perm a < m)%nat) -> (forall a b, (a < m)%nat -> (b < m)%nat -> perm a = perm b -> a = b) ->
      orth_rows m (jade_filters perm (j_v st)) /\ forall a, 0 <= jade_filters perm (j_v st) 0%nat a.
Proof.
  intros tlen m data limit max_it. pose proof (loop_spec m (cms tlen m data) (seuil_ tlen limit) (seuil_pos tlen limit) max_it (max_it + 2) 0 (jade_start tlen m data) (Nat.le_0_l _) (start_inv tlen m data)) as H.
  destruct (jade_loop m (seuil_ tlen limit) max_it (max_it + 2) 0 (jade_start tlen m data)) as [r|]; [|lia]. exists r. split; [reflexivity|]. intros st u ->. destruct H as (H1 & H2 & H3 & _). destruct H2.
  repeat split; try assumption; try apply inv_v0; auto. - now apply filters_orth. - intros a. unfold jade_filters, transp, ftrans. apply jsign_spec.
Qed.
(** C422: On is the sum of the squares of the diagonal elements, which never gets smaller; the sum of all squares (On + Off) stays the same *)
Theorem C422_on : forall tlen m data limit max_it fuel st u, jade_loop m (seuil_ tlen limit) max_it fuel 0 (jade_start tlen m data) = Some (inl (st, u)) ->
  j_on st = on_ m (j_cm st) /\ on_ m (cms tlen m data) <= on_ m (j_cm st) /\ total m (j_cm st) = total m (cms tlen m data).
Proof.
  intros tlen m data limit max_it fuel st u E. pose proof (loop_spec m (cms tlen m data) (seuil_ tlen limit) (seuil_pos tlen limit) max_it fuel 0 (jade_start tlen m data) (Nat.le_0_l _) (start_inv tlen m data)) as H.
  rewrite E in H. destruct H as (_ & H & _). destruct H. auto.
Qed.
(** C422: two components: at most one rotation, by theta of the cumulant matrices *)
Theorem C422_two : forall tlen data limit max_it, (1 <= max_it)%nat -> let th := theta_ (cms tlen 2 data) 0 1 in exists st u,
  jade_loop 2 (seuil_ tlen limit) max_it (max_it + 2) 0 (jade_start tlen 2 data) = Some (inl (st, u)) /\
  if Rltb (seuil_ tlen limit) (Rabs th) then u = 1%nat /\ j_v st = g_cols (cos th) (sin th) 0 1 eye /\ j_cm st = map (g_both (cos th) (sin th) 0 1) (cms tlen 2 data)
  else u = 0%nat /\ j_v st = eye /\ j_cm st = cms tlen 2 data.
Proof.
  intros tlen data limit max_it Hm th. pose proof (seuil_pos tlen limit) as Hs. set (seuil := seuil_ tlen limit) in *. replace (max_it + 2)%nat with (S (S max_it)) by lia.
  set (l := cms tlen 2 data) in *.
  assert (SW : forall v cm on t u e, jade_sweep 2 seuil (mkJ v cm on t u e) = if Rltb seuil (Rabs (theta_ cm 0 1))
      then mkJ (g_cols (cos (theta_ cm 0 1)) (sin (theta_ cm 0 1)) 0 1 v) (map (g_both (cos (theta_ cm 0 1)) (sin (theta_ cm 0 1)) 0 1) cm) (on + gain cm 0 1) (theta_ cm 0 1) 1 true
      else mkJ v cm on (theta_ cm 0 1) 0 false) by reflexivity.
  assert (LS : forall f u st, jade_loop 2 seuil max_it (S f) u st = let st := jade_sweep 2 seuil st in if (max_it <? u + j_upds st)%nat then Some (inr tt) else if j_encore st then jade_loop 2 seuil max_it f (u + j_upds st) st else Some (inl (st, (u + j_upds st)%nat))) by reflexivity.
  rewrite LS. unfold jade_start. fold l. rewrite SW. fold th. destruct (Rltb seuil (Rabs th)) eqn:E; cbv zeta; cbn [j_upds j_encore].
  - destruct (Nat.ltb_spec max_it (0 + 1)) as [L|L]; [lia|]. rewrite LS, SW.
    apply Rltb_spec in E. pose proof (rotated_ok seuil Hs _ _ _ E) as NS. destruct (theta_angles _ _ _ NS) as [E1 E2]. fold th in E1, E2.
    assert (T : theta_ (map (g_both (cos th) (sin th) 0 1) l) 0 1 = 0).
    { apply theta_zero. destruct (ton_rot 0 1 (Nat.neq_0_succ 0) th l) as [_ ->]. revert E1 E2. generalize (sqrt (ton l 0 1 * ton l 0 1 + toff l 0 1 * toff l 0 1)). intros rho E1 E2. rewrite <- E1, <- E2. ring. }
    rewrite T, Rabs_R0. assert (F : Rltb seuil 0 = false) by (unfold Rltb; destruct (Rlt_dec seuil 0); [lra|reflexivity]). rewrite F. cbv zeta. cbn [j_upds j_encore].
    destruct (Nat.ltb_spec max_it (0 + 1 + 0)) as [L2|L2]; [lia|]. eexists _, _. split; [reflexivity|]. auto.
  - destruct (Nat.ltb_spec max_it (0 + 0)) as [L|L]; [lia|]. eexists _, _. split; [reflexivity|]. auto.
Qed.

(** ** C422 (refuted): two independent sources with the values 1 and -1, mixed by a rotation by 45 degrees: toff = 0 and ton < 0, JADE does nothing, although a rotation by 45 degrees gives a larger sum of squares
    on the diagonals, and the sources *)
Definition binary (x y : R) : Prop := (x = 1 \/ x = -1) /\ (y = 1 \/ y = -1).
Definition diamond : rmat := fun t k => nth k (nth t [[sqrt 2; 0]; [0; sqrt 2]; [- sqrt 2; 0]; [0; - sqrt 2]] []) 0.
Lemma s22 : sqrt 2 * sqrt 2 = 2. Proof. apply sqrt_sqrt. lra. Qed.
Lemma s2pos : 1 < sqrt 2 < 3 / 2.
Proof. split; [rewrite <- sqrt_1 at 1; apply sqrt_lt_1; lra|]. rewrite <- (sqrt_square (3 / 2)) by lra. apply sqrt_lt_1; lra. Qed.
Lemma lsum3 (f : rmat -> R) a b c : lsum f [a; b; c] = f a + f b + f c. Proof. unfold lsum, fsum. cbn [map fold_right]. ring. Qed.
Lemma cms2 tlen x : cms tlen 2 x = [cm_diag tlen x 0; cm_diag tlen x 1; cm_off tlen x 1 0]. Proof. reflexivity. Qed.
Ltac sum4 := unfold emat, mom, rsum, fsum; cbn [seq map fold_right nth]; change (INR 4) with (1+1+1+1).
Lemma dia_em : forall i j a b, (i < 2)%nat -> (j < 2)%nat -> (a < 2)%nat -> (b < 2)%nat -> emat 4 diamond i j a b = if ((i =? j) && (i =? a) && (i =? b))%nat then 2 else 0.
Proof.
  pose proof s22 as Q. intros i j a b Hi Hj Ha Hb. unfold diamond. destruct i as [|[|i]]; try lia; destruct j as [|[|j]]; try lia; destruct a as [|[|a]]; try lia; destruct b as [|[|b]]; try lia; cbn [Nat.eqb andb]; sum4; try field.
  all: replace (- sqrt 2 * - sqrt 2 * - sqrt 2 * - sqrt 2) with ((sqrt 2 * sqrt 2) * (sqrt 2 * sqrt 2)) by ring; replace (sqrt 2 * sqrt 2 * sqrt 2 * sqrt 2) with ((sqrt 2 * sqrt 2) * (sqrt 2 * sqrt 2)) by ring; rewrite Q; field.
Qed.
Lemma dia_ton : ton (cms 4 2 diamond) 0 1 = -4 /\ toff (cms 4 2 diamond) 0 1 = 0.
Proof. rewrite cms2. unfold ton, toff. rewrite !lsum3. unfold cm_diag, cm_off, outer, eye. rewrite !dia_em by lia. cbn [Nat.eqb andb]. split; ring. Qed.
Theorem C422_refuted : exists data : rmat, (forall a b, (a < 2)%nat -> (b < 2)%nat -> mom 4 (fun t => data t a * data t b) = eye a b) /\
  (forall limit max_it, (1 <= max_it)%nat -> exists st, jade_loop 2 (seuil_ 4 limit) max_it (max_it + 2) 0 (jade_start 4 2 data) = Some (inl (st, 0%nat)) /\ j_v st = eye) /\
  exists t, on_ 2 (cms 4 2 data) < on_ 2 (map (g_both (cos t) (sin t) 0 1) (cms 4 2 data)) /\
    let y := mult 2 data (g_cols (cos t) (sin t) 0 1 eye) in forall k, (k < 4)%nat -> binary (y k 0%nat) (y k 1%nat).
Proof.
  exists diamond. destruct dia_ton as [T1 T2]. pose proof s22 as Q. pose proof s2pos as P. split; [|split].
  - intros [|[|a]] [|[|b]] Ha Hb; try lia; unfold eye, diamond; cbn [Nat.eqb]; sum4; try field;
      match goal with |- _ = 1 => replace (- sqrt 2 * - sqrt 2) with (sqrt 2 * sqrt 2) by ring; rewrite Q; field end.
  - intros limit max_it Hm. destruct (C422_two 4 diamond limit max_it Hm) as (st & u & E & H). rewrite (theta_stuck _ _ _ T2) in H by (rewrite T1; lra). rewrite Rabs_R0 in H.
    unfold Rltb in H. destruct (Rlt_dec (seuil_ 4 limit) 0) as [N|N]; [pose proof (seuil_pos 4 limit); lra|]. destruct H as (-> & H & _). eauto.
  - exists (PI / 4). split.
    + rewrite on_rot by lia. rewrite T1, T2. replace (4 * (PI / 4)) with PI by field. rewrite cos_PI, sin_PI. lra.
    + assert (I2 : 1 / sqrt 2 * sqrt 2 = 1) by (field; lra). intros y k Hk. unfold y. rewrite !g_cols_mult by lia. unfold g_cols. cbn [Nat.eqb]. rewrite !mult_eye_r by lia. rewrite cos_PI4, sin_PI4. unfold binary, diamond.
      destruct k as [|[|[|[|k]]]]; try lia; cbn [nth]; split; first [left; lra|right; lra].
Qed.

(** ** C423: the matrices which are diagonalized *)
(** the fourth order cumulants of white data *)
Definition cum4 (tlen : nat) (x : rmat) (i j a b : nat) : R := mom tlen (fun t => x t i * x t j * x t a * x t b) - eye i j * eye a b - eye i a * eye j b - eye i b * eye j a.
Theorem C423_diagonal : forall tlen x i a b, cm_diag tlen x i a b = cum4 tlen x i i a b.
Proof. intros. unfold cm_diag, cum4, emat, mom, outer, eye. rewrite Nat.eqb_refl, (Nat.eqb_sym i a), (Nat.eqb_sym i b). ring. Qed.
(** what is added to sqrt(2) times the cumulants because sqrt(2) is not applied to the last two terms *)
Theorem C423_exact : forall tlen x i j a b, i <> j -> cm_off tlen x i j a b = sqrt 2 * cum4 tlen x i j a b + (sqrt 2 - 1) * (eye i a * eye j b + eye i b * eye j a).
Proof. intros tlen x i j a b H. unfold cm_off, cum4, emat, mom, outer, eye. rewrite (Nat.eqb_sym i a), (Nat.eqb_sym i b), (Nat.eqb_sym j a), (Nat.eqb_sym j b). destruct (Nat.eqb_spec i j); [congruence|]. ring. Qed.
(** C423 (refuted): four points, an orthogonal mixture of two independent sources with the values 1 and -1.  Whatever the limit, the result of JADE does not consist of independent components *)
Definition mixed : rmat := fun t k => nth k (nth t [[1/5; 7/5]; [7/5; -1/5]; [-1/5; -7/5]; [-7/5; 1/5]] []) 0.
Lemma mix_em : emat 4 mixed 0 0 0%nat 0%nat = 1201/625 /\ emat 4 mixed 0 0 1%nat 1%nat = 49/625 /\ emat 4 mixed 0 0 0%nat 1%nat = -168/625 /\ emat 4 mixed 0 0 1%nat 0%nat = -168/625 /\
  emat 4 mixed 1 1 0%nat 0%nat = 49/625 /\ emat 4 mixed 1 1 1%nat 1%nat = 1201/625 /\ emat 4 mixed 1 1 0%nat 1%nat = 168/625 /\ emat 4 mixed 1 1 1%nat 0%nat = 168/625 /\
  emat 4 mixed 1 0 0%nat 0%nat = -168/625 /\ emat 4 mixed 1 0 1%nat 1%nat = 168/625 /\ emat 4 mixed 1 0 0%nat 1%nat = 49/625 /\ emat 4 mixed 1 0 1%nat 0%nat = 49/625.
Proof. unfold mixed. repeat split; sum4; field. Qed.
Lemma mix_ton : ton (cms 4 2 mixed) 0 1 = (245000 * sqrt 2 - 1562500) / 390625 /\ toff (cms 4 2 mixed) 0 1 = 840000 * sqrt 2 / 390625.
Proof.
  pose proof s22 as Q. rewrite cms2. unfold ton, toff. rewrite !lsum3. unfold cm_diag, cm_off, outer, eye. cbn [Nat.eqb]. destruct mix_em as (-> & -> & -> & -> & -> & -> & -> & -> & -> & -> & -> & ->).
  split; field_simplify; replace (sqrt 2 ^ 2) with 2 by (cbn [pow]; lra); field.
Qed.
Lemma mix_cum c s : c * c + s * s = 1 -> let y := mult 2 mixed (g_cols c s 0 1 eye) in
  mom 4 (fun t => y t 0%nat * y t 0%nat * y t 0%nat * y t 1%nat) = / 2 * (4 * (s * c) * (c * c - s * s) * (-527/625) - ((c * c - s * s) * (c * c - s * s) - 4 * (s * c) * (s * c)) * (336/625)).
Proof.
  intros H1 y. rewrite (mom_ext 4 _ (fun t => (c * mixed t 0%nat + s * mixed t 1%nat) * (c * mixed t 0%nat + s * mixed t 1%nat) * (c * mixed t 0%nat + s * mixed t 1%nat) * (- s * mixed t 0%nat + c * mixed t 1%nat))).
  - unfold mixed. sum4. field.
  - intros t. unfold y. rewrite !g_cols_mult by lia. unfold g_cols. cbn [Nat.eqb]. rewrite !mult_eye_r by lia. reflexivity.
Qed.
Theorem C423_refuted : exists data : rmat, (forall a b, (a < 2)%nat -> (b < 2)%nat -> mom 4 (fun t => data t a * data t b) = eye a b) /\
  (exists t, let y := mult 2 data (g_cols (cos t) (sin t) 0 1 eye) in forall k, (k < 4)%nat -> binary (y k 0%nat) (y k 1%nat)) /\
  forall limit max_it, (1 <= max_it)%nat -> exists st u, jade_loop 2 (seuil_ 4 limit) max_it (max_it + 2) 0 (jade_start 4 2 data) = Some (inl (st, u)) /\
    let y := mult 2 data (j_v st) in mom 4 (fun t => y t 0%nat * y t 0%nat * y t 0%nat * y t 1%nat) <> 0.
Proof.
  exists mixed. pose proof s2pos as P. destruct mix_ton as [T1 T2]. split; [|split].
  - intros [|[|a]] [|[|b]] Ha Hb; try lia; unfold eye, mixed; cbn [Nat.eqb]; sum4; field.
  - exists (atan2 (3/5) (4/5)). destruct (atan2_spec (3/5) (4/5)) as [E1 E2]. replace (4 / 5 * (4 / 5) + 3 / 5 * (3 / 5)) with 1 in E1, E2 by field. rewrite sqrt_1, Rmult_1_l in E1, E2. rewrite <- E1, <- E2.
    intros y k Hk. unfold y. rewrite !g_cols_mult by lia. unfold g_cols. cbn [Nat.eqb]. rewrite !mult_eye_r by lia. unfold binary, mixed. destruct k as [|[|[|[|k]]]]; try lia; cbn [nth]; split; first [left; lra|right; lra].
  - intros limit max_it Hm. destruct (C422_two 4 mixed limit max_it Hm) as (st & u & E & H). exists st, u. split; [exact E|]. set (th := theta_ (cms 4 2 mixed) 0 1) in *.
    destruct (Rltb (seuil_ 4 limit) (Rabs th)); destruct H as (_ & -> & _).
    + intros y. unfold y. rewrite mix_cum by apply cs1. rewrite <- cos4, <- sin4. intros Z. destruct (theta_angles (cms 4 2 mixed) 0 1) as [E1 E2]; [rewrite T1, T2; intros [A _]; lra|].
      fold th in E1, E2. revert E1 E2. generalize (sqrt (ton (cms 4 2 mixed) 0 1 * ton (cms 4 2 mixed) 0 1 + toff (cms 4 2 mixed) 0 1 * toff (cms 4 2 mixed) 0 1)). intros rho E1 E2.
      assert (ZZ : toff (cms 4 2 mixed) 0 1 * (-527/625) - ton (cms 4 2 mixed) 0 1 * (336/625) = 0).
      { rewrite <- E1, <- E2. transitivity (2 * rho * (/ 2 * (sin (4 * th) * (-527 / 625) - cos (4 * th) * (336 / 625)))); [field|]. rewrite Z. ring. }
      rewrite T1, T2 in ZZ. lra.
    + intros y. unfold y. rewrite (mom_ext 4 _ (fun t => mixed t 0%nat * mixed t 0%nat * mixed t 0%nat * mixed t 1%nat)) by (intros t; rewrite !mult_eye_r by lia; reflexivity).
      replace (mom 4 (fun t => mixed t 0%nat * mixed t 0%nat * mixed t 0%nat * mixed t 1%nat)) with (-168/625); [lra|]. unfold mixed. sum4. field.
Qed.
(** the matrix [[3, 4], [4, -3]] is diagonalized by one rotation: 18 + 32 is the sum of all squares *)
Example C422_example : let l := [(fun a b => if (a =? b)%nat then if (a =? 0)%nat then 3 else -3 else 4) : rmat] in
  ton l 0 1 = -28 /\ toff l 0 1 = 96 /\ gain l 0 1 = 32 /\ on_ 2 l = 18 /\ total 2 l = 50.
Proof.
  cbv zeta. assert (T : ton [(fun a b => if (a =? b)%nat then if (a =? 0)%nat then 3 else -3 else 4) : rmat] 0 1 = -28 /\ toff [(fun a b => if (a =? b)%nat then if (a =? 0)%nat then 3 else -3 else 4) : rmat] 0 1 = 96) by (split; unfold ton, toff, lsum, fsum; cbn [map fold_right Nat.eqb]; ring).
  destruct T as [T1 T2]. repeat split; try assumption; [unfold gain; rewrite T1, T2; replace (-28 * -28 + 96 * 96) with (100 * 100) by ring; rewrite sqrt_square by lra; field| |]; unfold on_, total, lsum, rsum, fsum; cbn [map fold_right seq Nat.eqb]; ring.
Qed.
Example C421_example : let v : rmat := fun a b => nth b (nth a [[-3/5; 4/5]; [4/5; 3/5]] []) 0 in let f := jade_filters (fun a => (1 - a)%nat) v in
  orthogonal 2 v /\ f 0%nat 0%nat = 4/5 /\ f 1%nat 0%nat = 3/5 /\ f 0%nat 1%nat = 3/5 /\ f 1%nat 1%nat = -4/5.
Proof.
  cbv zeta. split; [intros [|[|a]] [|[|b]] Ha Hb; try lia; unfold mult, fmult, fsum, transp, ftrans, eye; cbn [seq map fold_right nth Nat.eqb]; split; field|].
  unfold jade_filters, transp, ftrans, jsign. cbn [nth Nat.sub]. repeat split; destruct Rlt_dec; lra.
Qed.
