(** Properties C297-C307: CCIPCANode and CCIPCAWhiteningNode. *)
From Coq Require Import List Arith QArith Qcanon Bool Lia Field Reals.
From Verif Require Import OField LinAlg IncModel IncProofs.
Import ListNotations.
Open Scope nat_scope.

(** the square root of the reals is one *)
Lemma R_sqrt : is_sqrt (K := R_of) sqrt.
Proof.
  intros a H. unfold fle in *. cbn in *. destruct (Rlt_dec a 0) as [|N]; [discriminate|]. assert (P : (0 <= a)%R) by (now apply Rnot_lt_le). split; [|now apply sqrt_sqrt].
  destruct (Rlt_dec (sqrt a) 0) as [L|]; [|reflexivity]. exfalso. exact (Rle_not_lt _ _ (sqrt_pos a) L).
Qed.

Section Weights.
  Context {K : ofield}.
  Add Field Kip1 : (fth K).
  (** ** C297: the amnesic weights *)
  Theorem C297_average : forall (n1 n2 m c : K) t, flt (fn (t + 2)) n1 -> amnesic (n1, n2, m, c) (t + 1) = Some (fn (t + 1) / fn (t + 2), f1 / fn (t + 2))%of.
  Proof.
    intros n1 n2 m c t H. unfold amnesic. replace (t + 1 + 1) with (t + 2) by lia. unfold flt in H. rewrite H. replace (t + 2) with (S (t + 1)) by lia. cbn [fn]. pose proof (fn_ne (K := K) (S (t + 1)) ltac:(lia)) as NE. cbn [fn] in NE. do 2 f_equal; field; exact NE.
  Qed.
  Theorem C297_weights : forall (n1 n2 m c : K), fle f0 c -> flt (c + f1)%of n1 -> flt (c + f1)%of n2 -> fle f1 m ->
    forall t, exists w1 w2, amnesic (n1, n2, m, c) (t + 1) = Some (w1, w2) /\ (w1 + w2)%of = f1 /\ flt f0 w1 /\ fle (f1 / fn (t + 2))%of w2.
  Proof.
    intros n1 n2 m c C0 C1 C2 M1 t. unfold amnesic. replace (t + 1 + 1) with (t + 2) by lia. set (i := fn (t + 2)).
    assert (I0 : flt f0 i) by (unfold i; replace (t + 2) with (S (t + 1)) by lia; apply fn_pos).
    assert (I1 : flt f0 (i - f1)%of) by (unfold i; apply fn_pred; lia).
    assert (NI : i <> f0) by (now apply flt_ne0).
    assert (G : forall l : K, fle f0 l -> flt f0 (i - f1 - l)%of -> let w1 := ((i - f1 - l) / i)%of in let w2 := ((f1 + l) / i)%of in (w1 + w2)%of = f1 /\ flt f0 w1 /\ fle (f1 / i)%of w2).
    { intros l L0 L1 w1 w2. unfold w1, w2. split; [now field|]. split; [now apply fdiv_lt|]. apply fle_sub. replace ((f1 + l) / i - f1 / i)%of with (l / i)%of by (now field). now apply fdiv_pos. }
    destruct (fltb i n1) eqn:E1.
    - do 2 eexists. split; [reflexivity|]. apply (G f0); [apply fle_refl|]. now replace (i - f1 - f0)%of with (i - f1)%of by ring.
    - assert (N1 : fle n1 i) by exact E1. assert (IC : flt f0 (i - f1 - c)%of).
      { apply (flt_le_trans _ (n1 - f1 - c)%of); [replace (n1 - f1 - c)%of with (n1 - (c + f1))%of by ring; now apply (proj1 (flt_sub _ _))|]. apply fle_sub. replace (i - f1 - c - (n1 - f1 - c))%of with (i - n1)%of by ring. now apply (proj1 (fle_sub _ _)). }
      destruct (fltb i n2) eqn:E2.
      + assert (D : flt f0 (n2 - n1)%of) by (apply (proj1 (flt_sub _ _)); now apply (fle_lt_trans _ i)).
        do 2 eexists. split; [reflexivity|]. apply G.
        * apply fdiv_pos; [|exact D]. apply fle_mul0; [exact C0|]. now apply (proj1 (fle_sub _ _)).
        * apply (flt_le_trans _ (i - f1 - c)%of _ IC). apply fle_sub. replace (i - f1 - c * (i - n1) / (n2 - n1) - (i - f1 - c))%of with (c * (n2 - i) / (n2 - n1))%of by (field; now apply flt_ne0).
          apply fdiv_pos; [|exact D]. apply fle_mul0; [exact C0|]. apply (proj1 (fle_sub _ _)). now apply flt_le.
      + assert (N2 : fle n2 i) by exact E2. assert (MP : flt f0 m) by (apply (flt_le_trans _ f1); [apply f01|exact M1]). rewrite (iszero_pos m MP).
        do 2 eexists. split; [reflexivity|]. assert (X : fle f0 ((i - n2) / m)%of) by (apply fdiv_pos; [now apply (proj1 (fle_sub _ _))|exact MP]). apply G.
        * replace f0 with (f0 + f0 : K)%of by ring. now apply fle_add2.
        * apply (flt_le_trans _ (n2 - f1 - c)%of); [replace (n2 - f1 - c)%of with (n2 - (c + f1))%of by ring; now apply (proj1 (flt_sub _ _))|].
          apply fle_sub. replace (i - f1 - (c + (i - n2) / m) - (n2 - f1 - c))%of with ((i - n2) * (m - f1) / m)%of by (field; now apply flt_ne0). apply fdiv_pos; [|exact MP]. apply fle_mul0; now apply (proj1 (fle_sub _ _)).
  Qed.
  Definition default_amn : K * K * K * K := (fn 20, fn 200, fn 2000, fn 3).
  Theorem C297_default : weights_pos default_amn.
  Proof.
    assert (L : forall a b, (a < b)%nat -> flt (fn a + f1 : K)%of (fn (b + 1))).
    { intros a b H. apply flt_sub. replace (b + 1) with (S (b - a - 1) + S a) by lia. rewrite fn_add. replace (fn (S (b - a - 1)) + fn (S a) - (fn a + f1))%of with (fn (S (b - a - 1)) : K) by (cbn [fn]; ring). apply fn_pos. }
    intros t. destruct (C297_weights (fn 20) (fn 200) (fn 2000) (fn 3)) with (t := t) as (w1 & w2 & E & _ & P & Q).
    - apply fn_nonneg.
    - apply (L 3 19). lia.
    - apply (L 3 199). lia.
    - apply fle_sub. change (fn 2000) with (fn (1 + 1999) : K). rewrite fn_add. replace (fn 1 + fn 1999 - f1)%of with (fn 1999 : K) by (cbn [fn]; ring). apply fn_nonneg.
    - exists w1, w2. split; [exact E|]. split; [exact P|]. apply (fle_trans _ (f1 / fn (t + 2))%of); [|exact Q]. apply fdiv_pos; [apply flt_le, f01|]. replace (t + 2) with (S (t + 1)) by lia. apply fn_pos.
  Qed.
End Weights.

Section Ccipca.
  Context {K : ofield}.
  Add Field Kip2 : (fth K).
  Notation vec := (vec (K := K)). Notation pca := (pca (K := K)).
  Variable sq : K -> K.
  Hypothesis SQ : is_sqrt sq.
  (** what can be read off a node: v, d, and _v *)
  Definition vectors (s : pca) : list vec := match p_live s with Some l => l_v l | None => [] end.
  Definition values (s : pca) : list K := match p_live s with Some l => l_d l | None => [] end.
  Definition raw (s : pca) : list vec := match p_live s with Some l => l_u l | None => [] end.
  (** the vectors of a node are there: n inputs, o outputs; [scale d]: the length of the vector with eigenvalue d *)
  Definition inited (n o : nat) (s : pca) : Prop := p_in s = Some n /\ p_out s = Some o /\ p_init s <> None /\ p_batch s = false /\ p_live s <> None.
  Definition sound_ (scale : K -> K) (n o : nat) (s : pca) : Prop :=
    inited n o s /\ length (vectors s) = o /\ length (values s) = o /\ length (raw s) = o /\
    forall j, j < o -> flt f0 (nth j (values s) f0) /\
      exists e : vec, dot n e e = f1 /\ (forall i, i < n -> nthv j (raw s) i = (nth j (values s) f0 * e i)%of) /\ (forall i, i < n -> nthv j (vectors s) i = (scale (nth j (values s) f0) * e i)%of).
  (** CCIPCANode: unit vectors; CCIPCAWhiteningNode: divided by the square root of the eigenvalue *)
  Definition scale_of (white : bool) (d : K) : K := if white then (f1 / sq d)%of else f1.
  Definition sound (white : bool) := sound_ (scale_of white).

  Lemma sq_unique (a b : K) : fle f0 b -> (b * b)%of = a -> sq a = b.
  Proof.
    intros B E. assert (A : fle f0 a) by (rewrite <- E; apply fsq). destruct (SQ a A) as (S0 & S1). assert (X : ((sq a - b) * (sq a + b))%of = f0) by (replace ((sq a - b) * (sq a + b))%of with (sq a * sq a - b * b)%of by ring; rewrite S1, E; ring).
    destruct (fmul_eq0 _ _ X) as [H|H]; [replace (sq a) with (sq a - b + b)%of by ring; rewrite H; ring|].
    assert (Z : b = f0). { apply fle_antisym; [|exact B]. apply fle_sub. replace (f0 - b)%of with (sq a - (sq a + b))%of by ring. rewrite H. replace (sq a - f0)%of with (sq a) by ring. exact S0. }
    rewrite Z in *. replace (sq a) with (sq a + f0)%of by ring. exact H.
  Qed.
  Lemma norm_of_unit n (u e : vec) d : flt f0 d -> dot n e e = f1 -> (forall i, i < n -> u i = (d * e i)%of) -> norm sq n u = d.
  Proof.
    intros D E H. apply sq_unique; [now apply flt_le|]. rewrite (dot_ext n u (fun i => d * e i)%of u (fun i => d * e i)%of H H), dot_scale, dot_scale_l, E. ring.
  Qed.
  Lemma sound_ready white n o s : sound white n o s -> ready sq n o s.
  Proof.
    intros ((A & B & C & D & L) & LV & LD & LU & H). unfold vectors, values, raw in *. destruct (p_live s) as [l|] eqn:E; [|easy]. repeat (split; [assumption|]). exists l. split; [exact E|]. split; [|now split]. split; [congruence|]. intros j Hj. rewrite LU in Hj. destruct (H j Hj) as (P & e & U & R & _). split; [|exact P].
    symmetry. now apply (norm_of_unit n _ e).
  Qed.
  Lemma nth_over n (vs : list vec) : forall (ds : list K) j i, length vs = length ds -> j < length vs -> i < n ->
    nthv j (map (fun p => over n (fst p) (sq (snd p))) (combine vs ds)) i = (nthv j vs i / sq (nth j ds f0))%of.
  Proof.
    induction vs as [|v vs IH]; intros [|d ds] j i LE Hj Hi; try discriminate; [cbn in Hj; lia|]. destruct j as [|j]; [cbn; unfold over; now rewrite tab_in|].
    exact (IH ds j i ltac:(now injection LE) ltac:(cbn in Hj; lia) Hi).
  Qed.
  Lemma step_sound (white : bool) n o s r : ready sq n o s -> weights_pos (p_amn s) -> exists s', p_step sq white r s = (s', None) /\ sound white n o s' /\ p_amn s' = p_amn s /\ p_iter s' = p_iter s + 1 /\ p_started s' = p_started s.
  Proof.
    intros R WP. destruct (step_ready sq SQ white n o s r R WP) as (w1 & w2 & l & l' & vns & EW & W1 & W2 & EL & EC & EL' & ES & OK & L1 & L2 & L3). rewrite ES. eexists. split; [reflexivity|]. cbn [p_amn p_iter p_started]. split; [|repeat split].
    destruct R as (A & B & C & D & l0 & E0 & OK0 & LU0 & _). rewrite EL in E0. injection E0 as <-.
    split; [unfold inited; cbn; repeat (split; [first [assumption|congruence]|]); discriminate|]. unfold vectors, values, raw. cbn [p_live].
    assert (LV : length (l_v l') = o). { rewrite (f_equal l_v EL'). destruct white; cbn [l_v]; [|exact L2]. rewrite map_length, combine_length, L2, L3. apply Nat.min_id. }
    split; [exact LV|]. split; [exact L3|]. split; [exact L1|]. intros j Hj. destruct (comps_spec sq n w1 w2 (l_u l) (l_d l) r (l_u l') vns (l_d l') (proj1 OK0) EC) as (_ & _ & _ & SP). destruct (SP j ltac:(lia)) as (_ & B1 & B2 & B3).
    destruct (proj2 OK j ltac:(lia)) as (_ & P). split; [exact P|]. exists (nthv j vns). rewrite B1 in B2. split; [apply (unit_norm sq SQ n (nthv j (l_u l'))); [exact B2|]; intros i Hi; now rewrite <- B1, (B3 i Hi)|].
    split; [intros i Hi; rewrite (B3 i Hi); field; rewrite B1; exact B2|]. intros i Hi. destruct white.
    - pose proof (f_equal l_v EL') as EV. cbn [l_v] in EV. rewrite EV, nth_over by lia. unfold scale_of. field. apply flt_ne0, (sq_pos sq SQ), P.
    - pose proof (f_equal l_v EL') as EV. cbn [l_v] in EV. rewrite EV. unfold scale_of. ring.
  Qed.
  Lemma steps_sound (white : bool) n o rs : forall s, ready sq n o s -> weights_pos (p_amn s) -> rs <> [] ->
    exists s', each (p_step sq white) rs s = (s', None) /\ sound white n o s' /\ p_amn s' = p_amn s /\ p_iter s' = p_iter s + length rs /\ p_started s' = p_started s.
  Proof.
    induction rs as [|r rs IH]; intros s R WP NE; [easy|]. destruct (step_sound white n o s r R WP) as (s1 & E & R1 & A1 & I1 & S1). cbn [each]. rewrite E. cbn [bnd].
    destruct rs as [|r2 rs]; [exists s1; cbn [each length]; repeat (split; [first [assumption|reflexivity|lia]|]); assumption|]. destruct (IH s1 (sound_ready _ _ _ _ R1) ltac:(now rewrite A1) ltac:(discriminate)) as (s2 & E2 & R2 & A2 & I2 & S2).
    exists s2. split; [exact E2|]. split; [exact R2|]. split; [congruence|]. split; [cbn [length] in *; lia|congruence].
  Qed.

  (** ** C298: a new node, trained with any nonempty chunks *)
  Theorem C298_train : forall (white : bool) amn rel din dout rnd n o xss, weights_pos amn -> agree din n = true -> o = match dout with Some o => o | None => n end ->
    length (rnd n o) = o -> Forall (fun c => dot n c c <> f0) (rnd n o) -> Forall (fun x => x <> []) xss -> xss <> [] ->
    exists s, each (p_train sq rnd white n) xss (pca_new amn None rel din dout) = (s, None) /\ sound white n o s /\ p_iter s = length (concat xss).
  Proof.
    intros white amn rel din dout rnd n o xss WP A EO LR FR FX NE. destruct xss as [|x xss]; [easy|]. set (s0 := pca_new amn None rel din dout).
    destruct (checks_new sq SQ rnd s0 n (length x) o eq_refl eq_refl eq_refl A) as (s1 & E1 & R1 & A1 & I1 & S1 & _); try assumption; [pose proof (Forall_inv FX) as X; now destruct x|].
    assert (WP1 : weights_pos (p_amn (p_start s1))) by (unfold p_start; cbn [p_amn]; rewrite A1; exact WP).
    assert (E : each (p_train sq rnd white n) (x :: xss) s0 = each (p_step sq white) (concat (x :: xss)) (p_start s1)).
    { cbn [each concat]. rewrite (train_checked sq rnd white n o (length x) s0 s1 x E1 eq_refl R1), each_app. destruct (steps_keep sq SQ white n o x (p_start s1) R1 WP1) as (s2 & E2 & R2 & A2 & I2 & S2). rewrite E2. cbn [bnd].
      destruct xss as [|y xss]; [reflexivity|]. rewrite (trains_ready sq SQ rnd white n o (y :: xss) s2 R2); [now rewrite (start_idem s2 S2)|now rewrite A2|exact (Forall_inv_tail FX)|discriminate]. }
    rewrite E. destruct (steps_sound white n o (concat (x :: xss)) (p_start s1) R1 WP1) as (s2 & E2 & R2 & _ & I2 & _).
    - pose proof (Forall_inv FX) as X. cbn [concat]. now destruct x.
    - exists s2. split; [exact E2|]. split; [exact R2|]. rewrite I2. unfold p_start. cbn [p_iter]. now rewrite I1.
  Qed.
  (** and from then on *)
  Theorem C298_more : forall (white : bool) rnd n o s xss, sound white n o s -> weights_pos (p_amn s) -> Forall (fun x => x <> []) xss ->
    exists s', each (p_train sq rnd white n) xss s = (s', None) /\ sound white n o s' /\ p_iter s' = p_iter s + length (concat xss).
  Proof.
    intros white rnd n o s xss SO WP FX. destruct xss as [|x xss]; [exists s; cbn; repeat split; try apply SO; lia|]. rewrite (trains_ready sq SQ rnd white n o (x :: xss) s (sound_ready _ _ _ _ SO) WP FX) by discriminate.
    destruct (steps_sound white n o (concat (x :: xss)) (p_start s) (sound_ready _ _ _ _ SO) WP) as (s2 & E2 & R2 & _ & I2 & _); [pose proof (Forall_inv FX) as X; cbn [concat]; now destruct x|]. exists s2. split; [exact E2|]. split; [exact R2|]. exact I2.
  Qed.
  (** the way the samples are split into chunks does not matter *)
  Theorem C298_chunks : forall (white : bool) rnd n o s xss yss, sound white n o s -> weights_pos (p_amn s) -> Forall (fun x => x <> []) xss -> Forall (fun x => x <> []) yss -> concat xss = concat yss ->
    each (p_train sq rnd white n) xss s = each (p_train sq rnd white n) yss s.
  Proof.
    intros white rnd n o s xss yss SO WP FX FY E. assert (N : xss = [] <-> yss = []).
    { split; intros ->; [destruct yss as [|y yss]|destruct xss as [|y yss]]; try reflexivity; cbn [concat] in E; [pose proof (Forall_inv FY)|pose proof (Forall_inv FX)]; destruct y; try easy; discriminate. }
    destruct xss as [|x xss]; [rewrite (proj1 N eq_refl); reflexivity|]. destruct yss as [|y yss]; [discriminate (proj2 N eq_refl)|].
    rewrite !(trains_ready sq SQ rnd white n o _ s (sound_ready _ _ _ _ SO) WP) by (assumption || discriminate). now rewrite E.
  Qed.

  (** ** C299: one more sample *)
  Theorem C299_update : forall (white : bool) rnd n o s x, sound white n o s -> weights_pos (p_amn s) -> exists s' w1 w2, p_train sq rnd white n [x] s = (s', None) /\ amnesic (p_amn s) (p_iter s + 1) = Some (w1, w2) /\ p_iter s' = p_iter s + 1 /\
    exists es, length es = o /\ forall j, j < o -> let r := resid n (firstn j es) x in
      (forall i, i < n -> nthv j (raw s') i = (w1 * nthv j (raw s) i + w2 * dot n r (nthv j (raw s)) / nth j (values s) f0 * r i)%of) /\
      (forall i, i < n -> nthv j (raw s') i = (nth j (values s') f0 * nthv j es i)%of) /\ dot n (nthv j es) (nthv j es) = f1 /\ flt f0 (nth j (values s') f0) /\
      flt f0 (dot n (nthv j (raw s')) (nthv j (raw s))).
  Proof.
    intros white rnd n o s x SO WP. pose proof (sound_ready _ _ _ _ SO) as R. rewrite (train_ready sq rnd white n o s [x] R) by discriminate. cbn [each].
    destruct (step_ready sq SQ white n o (p_start s) x R WP) as (w1 & w2 & l & l' & vns & EW & W1 & W2 & EL & EC & EL' & ES & OK & L1 & L2 & L3). rewrite ES. cbn [bnd]. do 3 eexists. split; [reflexivity|]. split; [exact EW|]. split; [reflexivity|].
    destruct R as (A & B & C & D & l0 & E0 & OK0 & LU0 & _). change (p_live (p_start s)) with (p_live s) in EL. rewrite EL in E0. injection E0 as <-. exists vns. split; [exact L2|].
    unfold raw, values. cbn [p_live]. rewrite EL. intros j Hj. set (r := resid n (firstn j vns) x). destruct (comps_spec sq n w1 w2 (l_u l) (l_d l) x (l_u l') vns (l_d l') (proj1 OK0) EC) as (_ & _ & _ & SP). destruct (SP j ltac:(lia)) as (B0 & B1 & B2 & B3).
    destruct (proj2 OK j ltac:(lia)) as (_ & P). destruct (proj2 OK0 j ltac:(lia)) as (N0 & P0). split; [exact B0|]. split; [intros i Hi; rewrite (B3 i Hi); field; exact B2|]. split; [apply (unit_norm sq SQ n (nthv j (l_u l'))); rewrite <- B1; [exact B2|exact B3]|]. split; [exact P|].
    refine (proj1 (keep_side n w1 w2 r (nthv j (l_u l)) (nth j (l_d l) f0) (nthv j (l_u l')) W1 W2 P0 _ B0)). intros E. apply (flt_ne0 _ P0). rewrite N0. apply fsq0. now rewrite (norm_sq sq SQ).
  Qed.

  (** ** C300: what the components take from a sample: [es] are the unit vectors of the node after it *)
  Theorem C300_residual : forall n (es : list vec) x, Forall (fun e => dot n e e = f1) es ->
    (forall j, j < length es -> dot n (resid n (firstn (S j) es) x) (nthv j es) = f0) /\
    (fsumn (length es) (fun j => dot n (resid n (firstn j es) x) (nthv j es) * dot n (resid n (firstn j es) x) (nthv j es)) + dot n (resid n es x) (resid n es x))%of = dot n x x.
  Proof.
    intros n es x F. assert (FS : forall j, j < length es -> firstn (S j) es = firstn j es ++ [nthv j es]).
    { intros j. unfold nthv. revert j. induction es as [|e es IH]; intros j Hj; [cbn in Hj; lia|]. destruct j as [|j]; [reflexivity|]. change (e :: firstn (S j) es = e :: (firstn j es ++ [nth j es vzero])). rewrite IH; [reflexivity|exact (Forall_inv_tail F)|cbn in Hj; lia]. }
    assert (FN : forall j, j < length es -> dot n (nthv j es) (nthv j es) = f1) by (intros j Hj; rewrite Forall_forall in F; apply F; now apply nth_In).
    split; [intros j Hj; rewrite (FS j Hj), resid_snoc; apply resid_orth; now apply FN|].
    assert (G : forall k, k <= length es -> (fsumn k (fun j => dot n (resid n (firstn j es) x) (nthv j es) * dot n (resid n (firstn j es) x) (nthv j es)) + dot n (resid n (firstn k es) x) (resid n (firstn k es) x))%of = dot n x x).
    { induction k as [|k IH]; intros Hk; [cbn; ring|]. rewrite fsumn_S, (FS k ltac:(lia)), resid_snoc, (resid_energy n (nthv k es) _ (FN k ltac:(lia))). rewrite <- (IH ltac:(lia)). ring. }
    specialize (G (length es) ltac:(lia)). now rewrite firstn_all in G.
  Qed.

  (** ** C301: while the weights are those of an average, the first vector is the average of the samples weighted with their components *)
  Definition rows_train rnd white n (xs : list vec) (s : pca) : pca := fst (each (fun x => p_train sq rnd white n [x]) xs s).
  Lemma rows_step rnd white n xs x s : snd (each (fun x => p_train sq rnd white n [x]) xs s) = None -> rows_train rnd white n (xs ++ [x]) s = fst (p_train sq rnd white n [x] (rows_train rnd white n xs s)).
  Proof. intros H. unfold rows_train. rewrite each_app. destruct (each _ xs s) as [s1 e] eqn:E. cbn [snd] in H. subst e. cbn [bnd fst each]. now destruct (p_train sq rnd white n [x] s1) as [s2 [e|]]. Qed.
  Lemma rows_sound rnd (white : bool) n o xs s : sound white n o s -> weights_pos (p_amn s) -> snd (each (fun x => p_train sq rnd white n [x]) xs s) = None /\ sound white n o (rows_train rnd white n xs s) /\ p_iter (rows_train rnd white n xs s) = p_iter s + length xs /\ p_amn (rows_train rnd white n xs s) = p_amn s.
  Proof.
    intros SO WP. unfold rows_train. revert s SO WP. induction xs as [|x xs IH]; intros s SO WP; [cbn; repeat split; try apply SO; lia|]. cbn [each]. rewrite (train_ready sq rnd white n o s [x] (sound_ready _ _ _ _ SO)) by discriminate. cbn [each].
    destruct (step_sound white n o (p_start s) x (sound_ready _ _ _ _ SO) WP) as (s1 & E & S1 & A1 & I1 & _). rewrite E. cbn [bnd]. destruct (IH s1 S1 ltac:(now rewrite A1)) as (P & Q & R & T). split; [exact P|]. split; [exact Q|]. split; [rewrite R, I1; unfold p_start; cbn; lia|now rewrite T, A1].
  Qed.
  Lemma nthv_init (xs : list vec) x k : k < length xs -> nthv k (xs ++ [x]) = nthv k xs. Proof. intros H. unfold nthv. now rewrite app_nth1. Qed.
  Lemma nthv_last (xs : list vec) x : nthv (length xs) (xs ++ [x]) = x. Proof. unfold nthv. rewrite app_nth2 by lia. now rewrite Nat.sub_diag. Qed.
  Theorem C301_average : forall rnd n o s xs n1 n2 m c, sound false n o s -> 0 < o -> p_amn s = (n1, n2, m, c) -> weights_pos (p_amn s) -> p_iter s = 0 -> flt (fn (length xs + 1)) n1 ->
    forall i, i < n -> (fn (length xs + 1) * nthv 0 (raw (rows_train rnd false n xs s)) i)%of =
      (nthv 0 (raw s) i + fsumn (length xs) (fun k => dot n (nthv k xs) (nthv 0 (vectors (rows_train rnd false n (firstn k xs) s))) * nthv k xs i))%of.
  Proof.
    intros rnd n o s xs n1 n2 m c SO HO EA WP I0 LT i Hi. induction xs as [|x xs IH] using rev_ind; [cbn; ring|]. rewrite app_length in *. cbn [length] in *.
    destruct (rows_sound rnd false n o xs s SO WP) as (NE & SX & IX & AX). rewrite (rows_step rnd false n xs x s NE).
    destruct (C299_update false rnd n o (rows_train rnd false n xs s) x SX ltac:(now rewrite AX)) as (s' & w1 & w2 & E & EW & _ & es & LE & H). rewrite E. cbn [fst]. destruct (H 0 HO) as (H0 & _). cbn [firstn resid fold_left] in H0. rewrite (H0 i Hi).
    rewrite AX, EA, IX, I0 in EW. cbn [plus] in EW. replace (length xs + 1 + 1) with (length xs + 2) in LT by lia. rewrite (C297_average n1 n2 m c (length xs) LT) in EW. injection EW as <- <-.
    destruct SX as (_ & _ & _ & _ & SX). destruct (SX 0 HO) as (P & e & U & R1 & V1).
    assert (NF : (fn (length xs + 2) : K) <> f0) by (apply fn_ne; lia).
    assert (LT' : flt (fn (length xs + 1)) n1). { refine (flt_trans K _ _ _ _ LT). apply flt_sub. replace (length xs + 2) with (S (length xs + 1)) by lia. cbn [fn]. replace (f1 + fn (length xs + 1) - fn (length xs + 1))%of with (f1 : K) by ring. apply f01. }
    specialize (IH LT'). replace (length xs + 1 + 1) with (length xs + 2) by lia. replace (length xs + 1) with (S (length xs)) at 2 by lia. rewrite fsumn_S.
    rewrite (fsumn_ext (length xs) _ (fun k => dot n (nthv k xs) (nthv 0 (vectors (rows_train rnd false n (firstn k xs) s))) * nthv k xs i)%of).
    2:{ intros k Hk. rewrite firstn_app. replace (k - length xs) with 0 by lia. cbn [firstn]. rewrite app_nil_r. now rewrite (nthv_init xs x k Hk). }
    rewrite firstn_app, Nat.sub_diag, firstn_all. cbn [firstn]. rewrite app_nil_r, nthv_last.
    match goal with |- _ = (_ + (?S + _))%of => replace S with (fn (length xs + 1) * nthv 0 (raw (rows_train rnd false n xs s)) i - nthv 0 (raw s) i)%of by (rewrite IH; ring) end.
    set (q := rows_train rnd false n xs s) in *. set (d := nth 0 (values q) f0) in *.
    replace (dot n x (nthv 0 (raw q))) with (d * dot n x e)%of by (rewrite (dot_ext n x x (nthv 0 (raw q)) (fun i => d * e i)%of (fun _ _ => eq_refl) R1), dot_scale; reflexivity).
    replace (dot n x (nthv 0 (vectors q))) with (dot n x e). 2:{ symmetry. apply dot_ext; [reflexivity|]. intros k Hk. rewrite (V1 k Hk). unfold scale_of. ring. }
    field. split; [exact NF|now apply flt_ne0].
  Qed.

  (** ** C302: samples along one direction *)
  Theorem C302_direction : forall rnd n o s (e x : vec) a, sound false n o s -> weights_pos (p_amn s) -> 0 < o -> dot n e e = f1 -> (forall i, i < n -> nthv 0 (vectors s) i = e i) -> (forall i, i < n -> x i = (a * e i)%of) ->
    exists s' w1 w2, p_train sq rnd false n [x] s = (s', None) /\ amnesic (p_amn s) (p_iter s + 1) = Some (w1, w2) /\
      nth 0 (values s') f0 = (w1 * nth 0 (values s) f0 + w2 * (a * a))%of /\ (forall i, i < n -> nthv 0 (vectors s') i = e i) /\
      forall j, 0 < j -> j < o -> nth j (values s') f0 = (w1 * nth j (values s) f0)%of /\ (forall i, i < n -> nthv j (vectors s') i = nthv j (vectors s) i).
  Proof.
    intros rnd n o s e x a SO WP HO EE VE XE. destruct (C298_more false rnd n o s [[x]] SO WP) as (s' & ET & SO' & _); [constructor; [discriminate|constructor]|]. cbn [each bnd] in ET.
    destruct (C299_update false rnd n o s x SO WP) as (s2 & w1 & w2 & E2 & EW & _ & es & LE & H). assert (s2 = s'). { rewrite E2 in ET. cbn in ET. congruence. } subst s2. exists s', w1, w2. split; [exact E2|]. split; [exact EW|].
    destruct (WP (p_iter s)) as (w1' & w2' & EW' & W1 & W2). assert (w1' = w1 /\ w2' = w2) as (-> & ->) by (split; congruence).
    (* the two descriptions of the new vectors agree *)
    assert (VS : forall j, j < o -> forall i, i < n -> nthv j (vectors s') i = nthv j es i).
    { intros j Hj i Hi. destruct (H j Hj) as (_ & R1 & _ & P & _). destruct SO' as (_ & _ & _ & _ & SP). destruct (SP j Hj) as (_ & e' & _ & R2 & V2). rewrite (V2 i Hi). unfold scale_of. assert (E : (nth j (values s') f0 * e' i)%of = (nth j (values s') f0 * nthv j es i)%of) by (now rewrite <- (R1 i Hi), (R2 i Hi)).
      pose proof (flt_ne0 _ P) as NZ. replace (f1 * e' i)%of with (finv (nth j (values s') f0) * (nth j (values s') f0 * e' i))%of by (field; exact NZ). rewrite E. field. exact NZ. }
    destruct SO as (_ & _ & _ & _ & SP). destruct (SP 0 HO) as (P0 & e0 & U0 & R0 & V0).
    assert (RE : forall i, i < n -> nthv 0 (raw s) i = (nth 0 (values s) f0 * e i)%of). { intros i Hi. rewrite (R0 i Hi). f_equal. specialize (V0 i Hi). rewrite (VE i Hi) in V0. rewrite V0. unfold scale_of. ring. }
    destruct (H 0 HO) as (H0 & H1 & H2 & H3 & _). cbn [firstn resid fold_left] in H0.
    assert (DX : dot n x (nthv 0 (raw s)) = (a * nth 0 (values s) f0)%of) by (rewrite (dot_ext n x (fun i => a * e i)%of (nthv 0 (raw s)) (fun i => nth 0 (values s) f0 * e i)%of XE RE), dot_scale, dot_scale_l, EE; ring).
    assert (D0 : forall i, i < n -> nthv 0 (raw s') i = ((w1 * nth 0 (values s) f0 + w2 * (a * a)) * e i)%of). { intros i Hi. rewrite (H0 i Hi), DX, (RE i Hi), (XE i Hi). field. now apply flt_ne0. }
    assert (DP : flt f0 (w1 * nth 0 (values s) f0 + w2 * (a * a))%of) by (apply fadd_pos; [now apply flt_mul|apply fle_mul0; [exact W2|apply fsq]]).
    assert (DV : nth 0 (values s') f0 = (w1 * nth 0 (values s) f0 + w2 * (a * a))%of). { rewrite <- (norm_of_unit n (nthv 0 (raw s')) (nthv 0 es) _ H3 H2 H1). now apply (norm_of_unit n _ e). }
    assert (V1 : forall i, i < n -> nthv 0 es i = e i). { intros i Hi. pose proof (flt_ne0 _ DP) as NZ. specialize (H1 i Hi). rewrite (D0 i Hi), DV in H1. replace (e i) with (finv (w1 * nth 0 (values s) f0 + w2 * (a * a)) * ((w1 * nth 0 (values s) f0 + w2 * (a * a)) * e i))%of by (field; exact NZ). rewrite H1. field. exact NZ. }
    split; [exact DV|]. split; [intros i Hi; rewrite (VS 0 HO i Hi); now apply V1|]. intros j J0 Hj. destruct (H j Hj) as (K0 & K1 & K2 & K3 & _). set (r := resid n (firstn j es) x) in *.
    assert (RZ : forall i, i < n -> r i = f0).
    { unfold r. destruct j as [|j]; [lia|]. destruct es as [|e1 es]; [cbn in LE; lia|]. cbn [firstn]. unfold resid. cbn [fold_left]. change (nthv 0 (e1 :: es)) with e1 in V1.
      assert (Z : forall l (y : vec), (forall i, i < n -> y i = f0) -> forall i, i < n -> fold_left (fun r v i => r i - dot n r v * v i)%of l y i = f0).
      { clear. induction l as [|v l IH]; intros y Y i Hi; [now apply Y|]. cbn [fold_left]. apply IH; [|exact Hi]. intros k Hk. rewrite (Y k Hk), (dot_ext n y (fun _ => f0) v v Y (fun _ _ => eq_refl)). unfold dot. rewrite fsumn_zero; [ring|intros; ring]. }
      apply Z. intros i Hi. rewrite (dot_ext n x (fun i => a * e i)%of e1 e XE V1), dot_scale_l, EE, (XE i Hi), (V1 i Hi). ring. }
    destruct (SP j Hj) as (Pj & ej & Uj & Rj & Vj).
    assert (Dj : forall i, i < n -> nthv j (raw s') i = ((w1 * nth j (values s) f0) * ej i)%of). { intros i Hi. rewrite (K0 i Hi), (RZ i Hi), (Rj i Hi). ring. }
    assert (DVj : nth j (values s') f0 = (w1 * nth j (values s) f0)%of). { rewrite <- (norm_of_unit n (nthv j (raw s')) (nthv j es) _ K3 K2 K1). apply (norm_of_unit n _ ej); [now apply flt_mul|exact Uj|exact Dj]. }
    split; [exact DVj|]. intros i Hi. rewrite (VS j Hj i Hi), (Vj i Hi). unfold scale_of. specialize (K1 i Hi). rewrite (Dj i Hi), DVj in K1. assert (NZ : (w1 * nth j (values s) f0)%of <> f0) by (now apply flt_ne0, flt_mul).
    replace (f1 * ej i)%of with (finv (w1 * nth j (values s) f0) * (w1 * nth j (values s) f0 * ej i))%of by (field; repeat split; intros Z; apply NZ; rewrite Z; ring). rewrite K1. field. repeat split; intros Z; apply NZ; rewrite Z; ring.
  Qed.
End Ccipca.

Section Ccipca2.
  Context {K : ofield}.
  Add Field Kip3 : (fth K).
  Notation vec := (vec (K := K)). Notation pca := (pca (K := K)).
  Variable sq : K -> K.
  Hypothesis SQ : is_sqrt sq.
  Notation sound := (sound sq).

  (** ** C303: initial vectors *)
  Theorem C303_set : forall amn rel din dout k (cols : list vec), agree din k = true -> agree dout (length cols) = true -> Forall (fun c => dot k c c <> f0) cols ->
    exists s, p_set_init sq (k, cols) (pca_new amn None rel din dout) = (s, None) /\ sound false k (length cols) s /\ raw s = cols /\ p_amn s = amn /\ p_rel s = rel /\ p_tot s = f1 /\ p_iter s = 0 /\
      forall (white : bool) rnd rnd' x, x <> [] -> p_train sq rnd white k x s = p_train sq rnd' white k x s.
  Proof.
    intros amn rel din dout k cols A B F. destruct (set_init_ready sq SQ (pca_new amn None rel din dout) k cols A B eq_refl eq_refl F) as (s & E & R & A1 & I1 & S1 & L1 & P1 & R1 & T1). exists s. split; [exact E|].
    split; [|split; [unfold raw; now rewrite L1|split; [exact A1|split; [exact R1|split; [exact T1|split; [exact I1|]]]]]].
    - destruct R as (X1 & X2 & X3 & X4 & l & EL & OK & LU & LV). split; [split; [exact X1|split; [exact X2|split; [exact X3|split; [exact X4|rewrite EL; discriminate]]]]|]. unfold vectors, values, raw. rewrite EL. rewrite EL in L1. injection L1 as ->. cbn [l_u l_d l_v] in *. rewrite !map_length. split; [reflexivity|]. split; [reflexivity|]. split; [reflexivity|].
      intros j Hj. destruct (proj2 OK j Hj) as (N & P). split; [exact P|]. exists (nthv j (map (fun c => over k c (norm sq k c)) cols)).
      assert (EV : forall i, i < k -> nthv j (map (fun c => over k c (norm sq k c)) cols) i = (nthv j cols i / norm sq k (nthv j cols))%of).
      { intros i Hi. clear - Hj Hi. revert j Hj. induction cols as [|c cols IH]; intros j Hj; [cbn in Hj; lia|]. destruct j as [|j]; [cbn; unfold over; now rewrite tab_in|]. apply (IH j). cbn in Hj. lia. }
      rewrite N in P. split; [apply (unit_norm sq SQ k (nthv j cols)); [now apply flt_ne0|exact EV]|]. split; [intros i Hi; rewrite (EV i Hi), N; field; now apply flt_ne0|]. intros i Hi. unfold scale_of. ring.
    - intros white rnd rnd' x NE. now rewrite !(train_ready sq _ white k (length cols) s x R NE).
  Qed.
  (** the argument init_eigen_vectors of the constructor: training fails *)
  Theorem C303_constructor : forall (white : bool) amn M rel din dout rnd n x, weights_pos amn -> agree din n = true -> x <> [] ->
    let r := p_train sq rnd white n x (pca_new amn (Some M) rel din dout) in snd r = Some XType /\ p_live (fst r) = None.
  Proof.
    intros white amn M rel din dout rnd n x WP A NE. destruct x as [|r x]; [easy|]. unfold p_train, p_checks, p_check_input, pca_new. cbn [p_in p_init p_batch p_amn p_out p_live]. rewrite A. cbn [length Nat.eqb negb andb bnd]. unfold p_check_params. cbn [p_init bnd p_batch each]. unfold p_train_. cbn [p_amn p_iter p_out p_live].
    destruct (WP 0) as (w1 & w2 & E & _). cbn [plus] in E |- *. rewrite E. destruct dout; cbn [bnd]; split; reflexivity.
  Qed.
  Theorem C303_refuted : exists M n x, Forall (fun c => dot n c c <> f0) (snd M) /\ x <> [] /\ forall white rnd,
    snd (p_train sq rnd white n x (pca_new default_amn (Some M) f1 None None)) <> None /\ snd (bnd (p_set_init sq M (pca_new default_amn None f1 None None)) (p_train sq rnd white n x)) = None.
  Proof.
    set (e := (fun _ => f1) : vec). exists (1, [e]), 1, [e]. assert (F : Forall (fun c : vec => dot 1 c c <> f0) [fun _ => f1]) by (constructor; [cbn; intros E; apply (f10 (K := K)); rewrite <- E; unfold dot, fsumn; cbn; ring|constructor]).
    split; [exact F|]. split; [discriminate|]. intros white rnd. split; [destruct (C303_constructor white default_amn (1, [e]) f1 None None rnd 1 [e] C297_default eq_refl ltac:(discriminate)) as (E & _); rewrite E; discriminate|].
    destruct (C303_set default_amn f1 None None 1 [e] eq_refl eq_refl F) as (s & E & SO & _ & A & _). rewrite E. cbn [bnd]. rewrite (train_ready sq rnd white 1 1 s _ (sound_ready sq SQ _ _ _ _ SO)) by discriminate.
    destruct (steps_keep sq SQ white 1 1 [e] (p_start s) (sound_ready sq SQ _ _ _ _ SO)) as (s2 & E2 & _); [unfold p_start; cbn [p_amn]; rewrite A; exact C297_default|]. now rewrite E2.
  Qed.

  (** ** C304: get_reduced_dimsensionality *)
  Lemma reduce_spec (rel tot : K) ds : flt f0 tot -> forall acc j, let k := reduce rel tot acc j ds in j <= k /\ k <= j + length ds /\ (j < k -> fle (acc + fsum (firstn (k - j) ds))%of (rel * tot)%of) /\ (k < j + length ds -> flt (rel * tot)%of (acc + fsum (firstn (S (k - j)) ds))%of).
  Proof.
    intros T. assert (C : forall a, fltb rel (a / tot)%of = true <-> flt (rel * tot)%of a).
    { intros a. pose proof (flt_ne0 tot T) as NT. split.
      - intros H. apply (proj1 (flt_sub _ _)) in H. apply flt_sub. replace (a - rel * tot)%of with ((a / tot - rel) * tot)%of by (field; exact NT). now apply flt_mul.
      - intros H. apply (proj1 (flt_sub _ _)) in H. apply (proj2 (flt_sub _ _)). replace (a / tot - rel)%of with ((a - rel * tot) / tot)%of by (field; exact NT). now apply fdiv_lt. }
    induction ds as [|d ds IH]; intros acc j k; unfold k; cbn [reduce length]; [repeat split; lia|]. destruct (fltb rel ((acc + d) / tot)%of) eqn:E.
    - apply C in E. split; [lia|]. split; [lia|]. split; [lia|]. intros _. rewrite Nat.sub_diag. cbn [firstn fsum]. now replace (acc + (d + f0))%of with (acc + d)%of by ring.
    - destruct (IH (acc + d)%of (S j)) as (A & B & D & F). set (q := reduce rel tot (acc + d)%of (S j) ds) in *. split; [lia|]. split; [lia|]. split.
      + intros _. destruct (Nat.eq_dec q (S j)) as [->|NE].
        * replace (S j - j) with 1 by lia. cbn [firstn fsum]. replace (acc + (d + f0))%of with (acc + d)%of by ring. destruct (fle_or_lt (acc + d)%of (rel * tot)%of) as [L|L]; [exact L|]. apply C in L. congruence.
        * replace (q - j) with (S (q - S j)) by lia. cbn [firstn fsum]. replace (acc + (d + fsum (firstn (q - S j) ds)))%of with (acc + d + fsum (firstn (q - S j) ds))%of by ring. apply D. lia.
      + intros H. replace (S (q - j)) with (S (S (q - S j))) by lia. change (firstn (S (S (q - S j))) (d :: ds)) with (d :: firstn (S (q - S j)) ds). cbn [fsum]. replace (acc + (d + fsum (firstn (S (q - S j)) ds)))%of with (acc + d + fsum (firstn (S (q - S j)) ds))%of by ring. apply F. lia.
  Qed.
  (** the total variance it is compared with is the one before the sample *)
  Theorem C304_reduced : forall (white : bool) rnd n o s x, sound white n o s -> weights_pos (p_amn s) -> flt f0 (p_tot s) -> exists s' k, p_train sq rnd white n [x] s = (s', None) /\ p_red s' = Some k /\ k <= o /\ p_tot s' = fsum (values s') /\
    (0 < k -> fle (fsum (firstn k (values s'))) (p_rel s * p_tot s)%of) /\ (k < o -> flt (p_rel s * p_tot s)%of (fsum (firstn (S k) (values s')))).
  Proof.
    intros white rnd n o s x SO WP T. pose proof (sound_ready sq SQ _ _ _ _ SO) as R. rewrite (train_ready sq rnd white n o s [x] R) by discriminate. cbn [each].
    destruct (step_ready sq SQ white n o (p_start s) x R WP) as (w1 & w2 & l & l' & vns & EW & W1 & W2 & EL & EC & EL' & ES & OK & L1 & L2 & L3). rewrite ES. cbn [bnd]. do 2 eexists. split; [reflexivity|]. split; [reflexivity|]. unfold values. cbn [p_live p_tot p_rel].
    destruct (reduce_spec (p_rel s) (p_tot s) (l_d l') T f0 0) as (A & B & C & D). rewrite L3 in *. cbn [plus] in *. change (p_rel (p_start s)) with (p_rel s). change (p_tot (p_start s)) with (p_tot s). split; [exact B|]. split; [reflexivity|]. rewrite Nat.sub_0_r in C, D.
    set (k := reduce (p_rel s) (p_tot s) f0 0 (l_d l')) in *. split; [intros H; specialize (C H)|intros H; specialize (D H)].
    - now replace (fsum (firstn k (l_d l'))) with (f0 + fsum (firstn k (l_d l')))%of by ring.
    - now replace (fsum (firstn (S k) (l_d l'))) with (f0 + fsum (firstn (S k) (l_d l')))%of by ring.
  Qed.
  Lemma one_dim (e : vec) : e = (fun _ => f1) -> dot 1 e e = f1. Proof. intros ->. unfold dot, fsumn. cbn. ring. Qed.
  Lemma avg_weights0 : exists h : K, (h * fn 2)%of = f1 /\ flt f0 h /\ amnesic default_amn (0 + 1) = Some (h, h).
  Proof.
    exists (f1 / fn 2)%of. pose proof (fn_ne (K := K) 2 ltac:(lia)) as NZ. split; [field; exact NZ|]. split; [apply fdiv_lt; [apply f01|apply fn_pos]|]. unfold default_amn. rewrite (C297_average (fn 20) (fn 200) (fn 2000) (fn 3) 0); [|].
    - do 2 f_equal. cbn [plus fn]. f_equal; field; exact NZ.
    - apply flt_sub. change (0 + 2) with 2. replace (fn 20 - fn 2)%of with (fn 18 : K); [apply fn_pos|]. change 20 with (18 + 2). rewrite fn_add. ring.
  Qed.
  (** the documentation: the explained variance of the reduced dimensions is at most var_rel times the total variance, so with var_rel = 1 nothing is dropped *)
  Theorem C304_refuted : exists s x s', sound false 1 1 s /\ p_amn s = default_amn /\ p_rel s = f1 /\ (forall rnd, p_train sq rnd false 1 [x] s = (s', None)) /\
    fle (fsum (firstn 1 (values s'))) (p_rel s' * p_tot s')%of /\ p_red s' = Some 0.
  Proof.
    set (e := (fun _ => f1) : vec). assert (EE : dot 1 e e = f1) by (now apply one_dim). destruct (C303_set default_amn f1 None None 1 [e] eq_refl eq_refl) as (s & E & SO & RW & A & RL & TT & I0 & ND); [constructor; [rewrite EE; apply f10|constructor]|].
    assert (WP : weights_pos (p_amn s)) by (rewrite A; exact C297_default). set (x2 := (fun _ => fn 2) : vec). exists s, x2. destruct avg_weights0 as (h & H2 & HP & HW).
    pose proof SO as (_ & LV & LD & _ & SP). destruct (SP 0 ltac:(cbn; lia)) as (P0 & e0 & U0 & R0 & V0).
    assert (D0 : nth 0 (values s) f0 = f1). { rewrite <- (norm_of_unit sq SQ 1 (nthv 0 (raw s)) e0 _ P0 U0 R0). apply (norm_of_unit sq SQ 1 _ e); [apply f01|exact EE|]. rewrite RW. intros i Hi. cbn. unfold e. ring. }
    assert (VE : forall i, i < 1 -> nthv 0 (vectors s) i = e i). { intros i Hi. rewrite (V0 i Hi). specialize (R0 i Hi). rewrite RW, D0 in R0. cbn in R0. rewrite R0. unfold scale_of. ring. }
    destruct (C302_direction sq SQ (fun _ _ => []) 1 1 s e x2 (fn 2) SO WP ltac:(lia) EE VE ltac:(intros; unfold e, x2; ring)) as (s' & w1 & w2 & ET & EW & EV & _). rewrite A, I0, HW in EW. injection EW as <- <-. rewrite D0 in EV.
    destruct (C304_reduced false (fun _ _ => []) 1 1 s x2 SO WP) as (s2 & k & ET2 & EK & LK & TK & K1 & K2); [rewrite TT; apply f01|]. rewrite ET in ET2. injection ET2 as <-. exists s'. split; [exact SO|]. split; [exact A|]. split; [exact RL|]. split; [intros rnd; now rewrite (ND false rnd (fun _ _ => []) [_]) by discriminate|].
    destruct (C298_more sq SQ false (fun _ _ => []) 1 1 s [[x2]] SO WP) as (s3 & E3 & SO3 & _); [constructor; [discriminate|constructor]|]. cbn [each] in E3. rewrite ET in E3. cbn [bnd] in E3. injection E3 as <-.
    destruct SO3 as (_ & _ & LD3 & _). rewrite RL, TT in *. destruct (values s') as [|d [|d2 ds]]; try discriminate. cbn [nth] in EV. cbn [firstn fsum] in *.
    assert (RL' : p_rel s' = f1). { assert (X := f_equal (fun r => p_rel (fst r)) ET). cbn [fst] in X. rewrite <- X, (train_ready sq _ false 1 1 s _ (sound_ready sq SQ _ _ _ _ SO)) by discriminate. cbn [each]. destruct (step_ready sq SQ false 1 1 (p_start s) x2 (sound_ready sq SQ _ _ _ _ SO) WP) as (? & ? & ? & ? & ? & _ & _ & _ & _ & _ & _ & ES & _). rewrite ES. exact RL. }
    split; [rewrite RL', TK; replace (f1 * (d + f0))%of with (d + f0)%of by ring; apply fle_refl|]. rewrite EK. f_equal. destruct k as [|k]; [reflexivity|]. exfalso. assert (k = 0) by lia. subst k. specialize (K1 ltac:(lia)).
    apply (flt_not_le f1 (d + f0)%of); [|now replace (f1 : K) with (f1 * f1 : K)%of by ring]. apply flt_sub. replace (d + f0 - f1)%of with (h * fn 2 * fn 2 - f1 + h)%of by (rewrite EV; cbn [fn]; ring). rewrite H2. replace (f1 * fn 2 - f1 + h)%of with (f1 + h)%of by (cbn [fn]; ring). apply fadd_pos; [apply f01|now apply flt_le].
  Qed.

  (** ** C305: training type 'batch' *)
  Theorem C305_batch : forall (white : bool) rnd n s x l, p_in s = Some n -> p_out s <> None -> p_init s <> None -> p_live s = Some l -> p_batch s = true -> weights_pos (p_amn s) -> 2 <= length x ->
    p_train sq rnd white n x s = (p_start s, Some XValue).
  Proof.
    intros white rnd n s x l A B C L D WP LX. unfold p_train, p_checks, p_check_input. rewrite A. cbn [agree]. rewrite Nat.eqb_refl. destruct x as [|r1 [|r2 x]]; [cbn in LX; lia ..|]. cbn [length Nat.eqb negb andb bnd]. unfold p_check_params. cbn [p_init]. destruct (p_init s) eqn:I; [|easy]. cbn [bnd p_batch]. rewrite D. unfold p_train_. cbn [p_amn p_iter p_out p_live p_in].
    destruct (WP (p_iter s)) as (w1 & w2 & E & _). rewrite E. destruct (p_out s) as [o|] eqn:O; [|easy]. rewrite L. cbn [bnd]. unfold p_start. now rewrite A, O, I, L, D.
  Qed.
  (** 'batch' is a supported training type: chunks of several samples should be accepted *)
  Definition with_batch (s : pca) : pca := mkP (p_amn s) (p_rel s) (p_in s) (p_out s) (p_init s) (p_live s) (p_tot s) (p_red s) (p_iter s) (p_started s) true.
  Theorem C305_refuted : exists s x, sound false 1 1 s /\ (forall rnd white, snd (p_train sq rnd white 1 x s) = None) /\ (forall rnd white, snd (p_train sq rnd white 1 x (with_batch s)) = Some XValue).
  Proof.
    set (e := (fun _ => f1) : vec). assert (EE : dot 1 e e = f1) by (now apply one_dim). destruct (C303_set default_amn f1 None None 1 [e] eq_refl eq_refl) as (s & E & SO & RW & A & RL & TT & I0 & ND); [constructor; [rewrite EE; apply f10|constructor]|].
    exists s, [e; e]. assert (WP : weights_pos (p_amn s)) by (rewrite A; exact C297_default). pose proof (sound_ready sq SQ _ _ _ _ SO) as R. split; [exact SO|]. split; intros rnd white.
    - rewrite (train_ready sq rnd white 1 1 s _ R) by discriminate. destruct (steps_keep sq SQ white 1 1 [e; e] (p_start s) R WP) as (s2 & E2 & _). now rewrite E2.
    - destruct R as (R1 & R2 & R3 & R4 & l & R5 & _). rewrite (C305_batch white rnd 1 (with_batch s) [e; e] l R1); [reflexivity|cbn; congruence|exact R3|exact R5|reflexivity|exact WP|cbn; lia].
  Qed.

  (** ** C306: the array handed out by get_projmatrix *)
  Theorem C306_live : forall rnd n o s x k, sound false n o s -> weights_pos (p_amn s) -> p_proj s = Some k -> exists s', p_train sq rnd false n [x] s = (s', None) /\ p_deref s k = Some (vectors s) /\ p_deref s' k = Some (vectors s').
  Proof.
    intros rnd n o s x k SO WP PK. pose proof (sound_ready sq SQ _ _ _ _ SO) as R. rewrite (train_ready sq rnd false n o s [x] R) by discriminate. cbn [each].
    destruct (step_ready sq SQ false n o (p_start s) x R WP) as (w1 & w2 & l & l' & vns & EW & W1 & W2 & EL & EC & EL' & ES & OK & L1 & L2 & L3). rewrite ES. cbn [bnd]. eexists. split; [reflexivity|]. change (p_live (p_start s)) with (p_live s) in EL. unfold p_proj in PK. rewrite EL in PK. injection PK as <-.
    unfold p_deref, vectors. cbn [p_live]. rewrite EL. split; [now rewrite nth_error_app2, Nat.sub_diag by lia|]. rewrite (f_equal l_old EL'). cbn [l_old]. now rewrite nth_error_app2, Nat.sub_diag by lia.
  Qed.
  (** of a whitening node: after the next sample the array holds the unit vectors, and the node has a new one *)
  Theorem C306_white : forall rnd n o s x k, sound true n o s -> weights_pos (p_amn s) -> p_proj s = Some k -> exists s' es, p_train sq rnd true n [x] s = (s', None) /\ sound true n o s' /\ p_deref s k = Some (vectors s) /\ p_proj s' = Some (S k) /\
    p_deref s' k = Some es /\ length es = o /\ forall j, j < o -> dot n (nthv j es) (nthv j es) = f1 /\ forall i, i < n -> nthv j (vectors s') i = (nthv j es i / sq (nth j (values s') f0))%of.
  Proof.
    intros rnd n o s x k SO WP PK. pose proof (sound_ready sq SQ _ _ _ _ SO) as R. rewrite (train_ready sq rnd true n o s [x] R) by discriminate. cbn [each].
    destruct (step_sound sq SQ true n o (p_start s) x R WP) as (sx & ESX & SX & _).
    destruct (step_ready sq SQ true n o (p_start s) x R WP) as (w1 & w2 & l & l' & vns & EW & W1 & W2 & EL & EC & EL' & ES & OK & L1 & L2 & L3). rewrite ES in ESX |- *. injection ESX as <-. cbn [bnd]. do 2 eexists. split; [reflexivity|]. split; [exact SX|]. change (p_live (p_start s)) with (p_live s) in EL. unfold p_proj in PK. rewrite EL in PK. injection PK as <-.
    destruct R as (_ & _ & _ & _ & l0 & E0 & OK0 & LU0 & _). rewrite EL in E0. injection E0 as <-.
    unfold p_deref, p_proj, vectors, values. cbn [p_live option_map]. rewrite EL. split; [now rewrite nth_error_app2, Nat.sub_diag by lia|]. pose proof (f_equal l_old EL') as EO. pose proof (f_equal l_v EL') as EV. cbn [l_old l_v] in EO, EV. rewrite EO. split; [rewrite app_length; cbn; f_equal; lia|].
    split; [rewrite <- app_assoc, nth_error_app2, Nat.sub_diag by lia; reflexivity|]. split; [exact L2|]. intros j Hj. destruct (comps_spec sq n w1 w2 (l_u l) (l_d l) x (l_u l') vns (l_d l') (proj1 OK0) EC) as (_ & _ & _ & SP). destruct (SP j ltac:(lia)) as (_ & B1 & B2 & B3).
    split; [apply (unit_norm sq SQ n (nthv j (l_u l'))); rewrite <- B1; [exact B2|exact B3]|]. intros i Hi. rewrite EV. apply (nth_over sq); lia.
  Qed.
  (** the first sample 2 after the start vector 1, in one dimension: the eigenvalue is 5/2 *)
  Lemma white_start : exists s, sound true 1 1 s /\ weights_pos (p_amn s) /\ nth 0 (values s) f0 = (fn 5 / fn 2)%of.
  Proof.
    set (e := (fun _ => f1) : vec). assert (EE : dot 1 e e = f1) by (now apply one_dim). destruct (C303_set default_amn f1 None None 1 [e] eq_refl eq_refl) as (s & E & SO & RW & A & RL & TT & I0 & ND); [constructor; [rewrite EE; apply f10|constructor]|].
    assert (WP : weights_pos (p_amn s)) by (rewrite A; exact C297_default). pose proof (sound_ready sq SQ _ _ _ _ SO) as R. destruct avg_weights0 as (h & H2 & HP & HW).
    destruct (step_sound sq SQ true 1 1 (p_start s) (fun _ => fn 2) R WP) as (s' & ES & SO' & A' & _). exists s'. split; [exact SO'|]. split; [rewrite A'; exact WP|].
    destruct (step_ready sq SQ true 1 1 (p_start s) (fun _ => fn 2) R WP) as (w1 & w2 & l & l' & vns & EW & W1 & W2 & EL & EC & EL' & ES' & OK & L1 & L2 & L3). rewrite ES in ES'. injection ES' as ->. change (p_amn (p_start s)) with (p_amn s) in EW. change (p_iter (p_start s)) with (p_iter s) in EW. rewrite A, I0, HW in EW. injection EW as <- <-.
    change (p_live (p_start s)) with (p_live s) in EL. destruct R as (_ & _ & _ & _ & l0 & E0 & OK0 & LU0 & _). rewrite EL in E0. injection E0 as <-. destruct (comps_spec sq 1 h h (l_u l) (l_d l) (fun _ => fn 2) (l_u l') vns (l_d l') (proj1 OK0) EC) as (_ & _ & _ & SP). cbn [length] in LU0. destruct (SP 0 ltac:(rewrite LU0; lia)) as (B0 & B1 & _). cbn [firstn resid fold_left] in B0.
    unfold values. cbn [p_live]. rewrite B1. apply (norm_of_unit sq SQ 1 _ e); [apply fdiv_lt; apply fn_pos|exact EE|]. intros i Hi. rewrite (B0 i Hi). assert (i = 0) by lia. subst i. unfold raw in RW. rewrite EL in RW. rewrite RW in *. destruct (proj2 OK0 0 ltac:(cbn; lia)) as (D0 & _). rewrite D0. change (nthv 0 [e]) with e.
    rewrite (norm_of_unit sq SQ 1 e e f1 (f01 (K := K)) EE) by (intros; ring). unfold e, dot, fsumn. cbn [map seq fsum]. pose proof (fn_ne (K := K) 2 ltac:(lia)) as NZ. replace h with (f1 / fn 2 : K)%of by (rewrite <- H2; field; exact NZ). assert (NZ2 : (f1 + f1 : K)%of <> f0) by (intros Z; apply NZ; rewrite <- Z; cbn [fn]; ring). cbn [fn] in *. field. repeat split; first [exact NZ2|apply f10].
  Qed.
  (** a projection matrix obtained from a node should not change *)
  Theorem C306_refuted : exists s x s' k A B, sound true 1 1 s /\ (forall rnd, p_train sq rnd true 1 [x] s = (s', None)) /\ p_proj s = Some k /\ p_deref s k = Some A /\ p_deref s' k = Some B /\ A <> B.
  Proof.
    destruct white_start as (s & SO & WP & D). assert (PK : exists k, p_proj s = Some k). { destruct SO as ((_ & _ & _ & _ & L) & _). unfold p_proj. destruct (p_live s) as [l|]; [|easy]. now exists (length (l_old l)). } destruct PK as (k & PK).
    destruct (C306_white (fun _ _ => []) 1 1 s (fun _ => f1) k SO WP PK) as (s' & es & ET & _ & DA & _ & DB & LE & U). exists s, (fun _ => f1), s', k, (vectors s), es. split; [exact SO|].
    split; [intros rnd; rewrite <- ET; now rewrite !(train_ready sq _ true 1 1 s _ (sound_ready sq SQ _ _ _ _ SO)) by discriminate|]. split; [exact PK|]. split; [exact DA|]. split; [exact DB|]. intros E. destruct (U 0 ltac:(lia)) as (U0 & _). rewrite <- E in U0.
    destruct SO as (_ & _ & _ & _ & SP). destruct (SP 0 ltac:(lia)) as (P & e & UE & _ & VE). rewrite (dot_ext 1 _ _ _ _ VE VE), dot_scale, dot_scale_l, UE in U0. unfold scale_of in U0. rewrite D in *. destruct (SQ _ (flt_le _ _ P)) as (_ & S2). pose proof (flt_ne0 _ (sq_pos sq SQ _ P)) as NZ. set (q := sq (fn 5 / fn 2)%of) in *.
    assert (X : (q * q)%of = f1). { replace (q * q)%of with ((f1 / q * (f1 / q * f1)) * (q * q))%of by (rewrite U0; ring). field. exact NZ. } rewrite S2 in X. pose proof (fn_ne (K := K) 2 ltac:(lia)) as N2. assert (Y : (fn 5 : K) = fn 2). { replace (fn 5 : K) with (fn 5 / fn 2 * fn 2 : K)%of by (field; exact N2). rewrite X. ring. }
    change 5 with (2 + 3) in Y. rewrite fn_add in Y. apply (fn_ne (K := K) 3 ltac:(lia)). replace (fn 3 : K) with (fn 2 + fn 3 - fn 2 : K)%of by ring. rewrite Y. ring.
  Qed.

  (** ** C307: whitening *)
  Lemma nth_map2 {A} (f : vec * K -> A) (vs : list vec) : forall (ds : list K) j (a : A), length vs = length ds -> j < length vs -> nth j (map f (combine vs ds)) a = f (nthv j vs, nth j ds f0).
  Proof. induction vs as [|v vs IH]; intros [|d ds] j a LE Hj; try discriminate; [cbn in Hj; lia|]. destruct j as [|j]; [reflexivity|]. cbn [map combine nth]. rewrite IH; [reflexivity|now injection LE|cbn in Hj; lia]. Qed.
  (** the unit eigenvectors are those of get_eigenvectors; execute and inverse together project on them, as for CCIPCANode *)
  Definition projected n (es : list vec) (x : vec) : vec := fun i => fsumn (length es) (fun j => dot n x (nthv j es) * nthv j es i)%of.
  Lemma inverse_sum white (y : list K) (s : pca) i : length y = length (p_rec white s) -> p_inverse_ white y s i = fsumn (length y) (fun j => nth j y f0 * nthv j (p_rec white s) i)%of.
  Proof.
    unfold p_inverse_. generalize (p_rec white s) as P. induction y as [|a y IH]; intros [|p P] LE; try discriminate; [reflexivity|]. cbn [combine map fsum length fst snd]. rewrite (IH P) by (now injection LE). change (S (length y)) with (1 + length y). rewrite fsumn_split. apply f_equal2; [|reflexivity]. unfold fsumn. cbn. unfold nthv. cbn. ring.
  Qed.
  Theorem C307_eigenvectors : forall n o s, sound true n o s -> length (p_eigenvectors sq s) = o /\ forall j, j < o -> let e := nthv j (p_eigenvectors sq s) in
    dot n e e = f1 /\ (forall i, i < n -> nthv j (raw s) i = (nth j (values s) f0 * e i)%of) /\ (dot n (nthv j (vectors s)) (nthv j (vectors s)) * nth j (values s) f0)%of = f1.
  Proof.
    intros n o s ((_ & _ & _ & _ & L) & LV & LD & LU & SP). unfold p_eigenvectors, vectors, values, raw in *. destruct (p_live s) as [l|] eqn:EL; [|easy]. split; [rewrite map_length, combine_length, LV, LD; apply Nat.min_id|]. intros j Hj. cbv zeta. match goal with |- dot n ?z ?z = _ /\ _ => set (e := z) end. destruct (SP j Hj) as (P & e0 & U & R & V).
    pose proof (flt_ne0 _ (sq_pos sq SQ _ P)) as NZ. assert (EE : forall i, i < n -> e i = e0 i). { intros i Hi. unfold e. unfold nthv at 1. rewrite nth_map2 by lia. cbn [fst snd]. rewrite (V i Hi). unfold scale_of. field. exact NZ. }
    split; [now rewrite (dot_ext n e e0 e e0 EE EE)|]. split; [intros i Hi; now rewrite (R i Hi), (EE i Hi)|]. rewrite (dot_ext n _ _ _ _ V V), dot_scale, dot_scale_l, U. unfold scale_of. destruct (SQ _ (flt_le _ _ P)) as (_ & S2). rewrite <- S2 at 3. field. exact NZ.
  Qed.
  Theorem C307_inverse : forall (white : bool) n o s x, sound white n o s -> exists y, p_execute_ [x] None s = inl [y] /\ length y = o /\
    exists es, length es = o /\ (forall j, j < o -> dot n (nthv j es) (nthv j es) = f1 /\ forall i, i < n -> nthv j (raw s) i = (nth j (values s) f0 * nthv j es i)%of) /\
      (forall j, j < o -> nth j y f0 = (scale_of sq white (nth j (values s) f0) * dot n x (nthv j es))%of) /\ forall i, i < n -> p_inverse_ white y s i = projected n es x i.
  Proof.
    intros white n o s x ((A & _ & _ & _ & L) & LV & LD & LU & SP). unfold p_execute_, vectors, values, raw in *. destruct (p_live s) as [l|] eqn:EL; [|easy]. rewrite A. cbn [map]. eexists. split; [reflexivity|]. rewrite map_length. split; [exact LV|].
    (* the unit vectors *)
    set (es := map (fun p i => (fst p i / snd p)%of) (combine (l_u l) (l_d l)) : list vec). exists es. assert (LE : length es = o) by (unfold es; rewrite map_length, combine_length, LU, LD; apply Nat.min_id). split; [exact LE|].
    assert (NE : forall j, j < o -> forall i, nthv j es i = (nthv j (l_u l) i / nth j (l_d l) f0)%of). { intros j Hj i. unfold es. unfold nthv at 1. rewrite nth_map2 by lia. reflexivity. }
    assert (EE : forall j, j < o -> exists e0, dot n e0 e0 = f1 /\ (forall i, i < n -> nthv j es i = e0 i) /\ (forall i, i < n -> nthv j (l_u l) i = (nth j (l_d l) f0 * e0 i)%of) /\ (forall i, i < n -> nthv j (l_v l) i = (scale_of sq white (nth j (l_d l) f0) * e0 i)%of)).
    { intros j Hj. destruct (SP j Hj) as (P & e0 & U & R & V). exists e0. split; [exact U|]. split; [|now split]. intros i Hi. rewrite (NE j Hj i), (R i Hi). field. now apply flt_ne0. }
    split; [|split].
    - intros j Hj. destruct (EE j Hj) as (e0 & U & E & R & V). split; [now rewrite (dot_ext n _ _ _ _ E E)|]. intros i Hi. now rewrite (E i Hi), (R i Hi).
    - intros j Hj. destruct (EE j Hj) as (e0 & U & E & R & V). rewrite (nth_indep _ f0 (dot n x vzero)) by (rewrite map_length; lia). rewrite map_nth. change (nth j (l_v l) vzero) with (nthv j (l_v l)). rewrite (dot_ext n x x _ _ (fun _ _ => eq_refl) V), dot_scale. now rewrite (dot_ext n x x (nthv j es) e0 (fun _ _ => eq_refl) E).
    - intros i Hi. assert (LR : length (p_rec white s) = o). { unfold p_rec. rewrite EL. destruct white; [|exact LV]. rewrite map_length, combine_length, LV, LD. apply Nat.min_id. }
      rewrite inverse_sum by (rewrite map_length; lia). rewrite map_length, LV. unfold projected. rewrite LE. apply fsumn_ext. intros j Hj. destruct (EE j Hj) as (e0 & U & E & R & V). destruct (SP j Hj) as (P & _).
      rewrite (nth_indep _ f0 (dot n x vzero)) by (rewrite map_length; lia). rewrite map_nth. change (nth j (l_v l) vzero) with (nthv j (l_v l)). rewrite (dot_ext n x x _ _ (fun _ _ => eq_refl) V), dot_scale. rewrite (dot_ext n x x (nthv j es) e0 (fun _ _ => eq_refl) E), (E i Hi).
      assert (RI : nthv j (p_rec white s) i = (if white then sq (nth j (l_d l) f0) * e0 i else e0 i)%of).
      { unfold p_rec. rewrite EL. destruct white; unfold nthv at 1.
        - rewrite nth_map2 by lia. cbn [fst snd]. rewrite (V i Hi). unfold scale_of. destruct (SQ _ (flt_le _ _ P)) as (_ & S2). pose proof (flt_ne0 _ (sq_pos sq SQ _ P)) as NZ. rewrite <- S2 at 2. field. exact NZ.
        - change (nth j (l_v l) vzero) with (nthv j (l_v l)). rewrite (V i Hi). unfold scale_of. ring. }
      rewrite RI. destruct white; unfold scale_of; [|ring]. field. apply flt_ne0, (sq_pos sq SQ), P.
  Qed.
  (** before the first sample the vectors of a whitening node are not scaled: its eigenvectors are not unit vectors *)
  Theorem C307_refuted : exists M s, p_set_init sq M (pca_new default_amn None f1 None None) = (s, None) /\ exists e, p_eigenvectors sq s = [e] /\ dot 1 e e <> f1.
  Proof.
    set (u := (fun _ => fn 4) : vec). exists (1, [u]). set (e1 := (fun _ => f1) : vec). assert (EE : dot 1 e1 e1 = f1) by (now apply one_dim).
    assert (NU : norm sq 1 u = fn 4) by (apply (norm_of_unit sq SQ 1 u e1); [apply fn_pos|exact EE|intros; unfold u, e1; ring]).
    unfold p_set_init, pca_new. cbn [p_in p_out p_live agree negb existsb]. rewrite NU, (iszero_pos _ (fn_pos (K := K) 3)). cbn [orb]. eexists. split; [reflexivity|]. unfold p_eigenvectors. cbn [p_live l_v l_d map combine fst snd]. rewrite NU. eexists. split; [reflexivity|].
    assert (S4 : sq (fn 4) = fn 2) by (apply (sq_unique sq SQ); [apply fn_nonneg|cbn [fn]; ring]). rewrite S4. unfold dot, fsumn. cbn [map seq fsum]. unfold over. rewrite tab_in by lia. unfold u. pose proof (fn_ne (K := K) 4 ltac:(lia)) as NZ.
    replace (fn 2 * (fn 4 / fn 4) * (fn 2 * (fn 4 / fn 4)) + f0)%of with (fn 2 * fn 2 : K)%of by (field; exact NZ). intros E. apply (fn_ne (K := K) 3 ltac:(lia)). replace (fn 3 : K) with (fn 2 * fn 2 - f1 : K)%of by (cbn [fn]; ring). rewrite E. ring.
  Qed.
End Ccipca2.

(** Examples: [qsq] is exact on the squares of rationals, the only arguments below *)
Definition qsq (q : Qc) : Qc := Q2Qc (Z.sqrt (Qnum q) # Z.to_pos (Z.sqrt (Zpos (Qden q)))).
Definition q2 (a b : Q) : nat -> Qc := fun i => match i with 0 => Q2Qc a | 1 => Q2Qc b | _ => Q2Qc 0 end.
Definition pq := @pca Qc_of.
Definition pairs (vs : list (nat -> Qc)) : list (Q * Q) := map (fun v => (this (v 0), this (v 1))) vs.
Definition shown (s : pq) : list (Q * Q) * list Q := (pairs (vectors s), map this (values s)).
Definition norand : nat -> nat -> list (nat -> Qc) := fun _ _ => [].
Definition qtrain (white : bool) (x : list (nat -> Qc)) (s : pq) : out pq := p_train (K := Qc_of) qsq norand white 2 x s.
Definition qstart (din dout : option nat) (cols : list (nat -> Qc)) : pq := fst (p_set_init (K := Qc_of) qsq (2, cols) (pca_new (K := Qc_of) (default_amn (K := Qc_of)) None (Q2Qc 1) din dout)).
Definition qs1 := qstart None (Some 1) [q2 1 0].
Definition qs2 := qstart None None [q2 1 0; q2 0 1].
Definition two (p : option (Qc * Qc)) := option_map (fun p => (this (fst p), this (snd p))) p.
Example C297_ex : (two (amnesic (K := Qc_of) (default_amn (K := Qc_of)) 1), two (amnesic (K := Qc_of) (default_amn (K := Qc_of)) 9), two (amnesic (K := Qc_of) (default_amn (K := Qc_of)) 109)) = (Some (1#2, 1#2), Some (9#10, 1#10), Some (43#44, 1#44))%Q.
Proof. vm_compute. reflexivity. Qed.
Definition qw := qstart None (Some 1) [q2 (4#5) 0].
Definition xw := q2 2 (16#5).
Example C298_ex : (snd (qtrain false [q2 1 (3#2)] qs1), shown (fst (qtrain false [q2 1 (3#2)] qs1)), shown (fst (qtrain true [xw] qw))) = (None, ([(4#5, 3#5)], [5#4]), ([(3#10, 2#5)], [4#1]))%Q.
Proof. vm_compute. reflexivity. Qed.
Example C298_chunks_ex : shown (fst (qtrain false [q2 4 0; q2 0 4] qs2)) = ([(1, 0); (0, 1)], [17#3; 17#3])%Q /\ shown (fst (bnd (qtrain false [q2 4 0] qs2) (qtrain false [q2 0 4]))) = ([(1, 0); (0, 1)], [17#3; 17#3])%Q.
Proof. split; vm_compute; reflexivity. Qed.
Example C299_ex : pairs (raw (fst (qtrain false [q2 1 (3#2)] qs1))) = [(1, 3#4)]%Q.
Proof. vm_compute. reflexivity. Qed.
Example C300_ex : pairs [resid (K := Qc_of) 2 [q2 (4#5) (3#5)] (q2 1 (3#2))] = [(-9#25, 12#25)]%Q.
Proof. vm_compute. reflexivity. Qed.
(** the mean of 1 (the start), 16, 0 and 4 *)
Example C301_ex : pairs (raw (fst (qtrain false [q2 4 0; q2 0 4; q2 2 0] qs1))) = [(21#4, 0)]%Q.
Proof. vm_compute. reflexivity. Qed.
Example C302_ex : shown (fst (qtrain false [q2 3 0] qs1)) = ([(1, 0)], [5#1])%Q.
Proof. vm_compute. reflexivity. Qed.
Example C303_ex : (snd (qtrain false [q2 3 0] (pca_new (K := Qc_of) (default_amn (K := Qc_of)) (Some (2, [q2 1 0])) (Q2Qc 1) (Some 2) (Some 1))), snd (qtrain false [q2 3 0] qs1),
  snd (p_set_init (K := Qc_of) qsq (2, [q2 1 0]) (pca_new (K := Qc_of) (default_amn (K := Qc_of)) None (Q2Qc 1) (Some 3) None))) = (Some XType, None, Some XAssert).
Proof. vm_compute. reflexivity. Qed.
(** var_rel 4/5.  After the second sample the values are 17/3 and 17/3: one component explains at most 4/5 of the total before it (9), two do not *)
Definition qs2r := fst (p_set_init (K := Qc_of) qsq (2, [q2 1 0; q2 0 1]) (pca_new (K := Qc_of) (default_amn (K := Qc_of)) None (Q2Qc (4#5)) None None)).
Example C304_ex : (let s1 := fst (qtrain false [q2 4 0] qs2r) in let s2 := fst (qtrain false [q2 0 4] s1) in
  ((p_red s1, this (p_tot s1), map this (values s1)), (p_red s2, this (p_tot s2), map this (values s2)))) = ((Some 0%nat, 9, [17#2; 1#2]), (Some 1%nat, 34#3, [17#3; 17#3]))%Q.
Proof. vm_compute. reflexivity. Qed.
Example C305_ex : (snd (qtrain false [q2 4 0; q2 0 4] (with_batch qs2)), snd (qtrain false [q2 4 0] (with_batch qs2))) = (Some XValue, None).
Proof. vm_compute. reflexivity. Qed.
Example C306_ex : (let s1 := fst (qtrain true [xw] qw) in let s2 := fst (qtrain true [q2 0 0] s1) in (p_proj s1, option_map pairs (p_deref s1 1), option_map pairs (p_deref s2 1))) = (Some 1%nat, Some [(3#10, 2#5)], Some [(3#5, 4#5)])%Q.
Proof. vm_compute. reflexivity. Qed.
Example C307_ex : (let s1 := fst (qtrain true [xw] qw) in (pairs (p_eigenvectors (K := Qc_of) qsq s1), match p_execute_ (K := Qc_of) [q2 5 0] None s1 with inl [y] => (map this y, pairs [p_inverse_ true y s1]) | _ => ([], []) end)) = ([(3#5, 4#5)], ([3#2], [(9#5, 12#5)]))%Q.
Proof. vm_compute. reflexivity. Qed.
