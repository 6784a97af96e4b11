(** Lemmas about the model of the online nodes (IncModel). *)
From Coq Require Import List Arith Bool Lia Field.
From Verif Require Import OField LinAlg IncModel.
Import ListNotations.
Open Scope nat_scope.

Section Base.
  Context {K : ofield}.
  Add Field Kinc : (fth K).
  Notation vec := (vec (K := K)). Notation mtx := (mtx (K := K)).

  Lemma iszero_spec (a : K) : iszero a = true <-> a = f0.
  Proof.
    unfold iszero. split.
    - intros H. apply andb_true_iff in H as (A & B). apply negb_true_iff in A, B. now apply flt_total.
    - intros ->. now rewrite flt_irrefl.
  Qed.
  Lemma iszero_pos (a : K) : flt f0 a -> iszero a = false.
  Proof. intros H. destruct (iszero a) eqn:E; [|reflexivity]. apply iszero_spec in E. subst. unfold flt in H. now rewrite flt_irrefl in H. Qed.
  Lemma tab_in n (v : vec) i : i < n -> tab n v i = v i.
  Proof. intros H. unfold tab. rewrite (nth_indep _ f0 (v 0)) by (now rewrite map_length, seq_length). rewrite map_nth. now rewrite seq_nth. Qed.
  Lemma dot_tab_l n (v w : vec) : dot n (tab n v) w = dot n v w.
  Proof. apply dot_ext; intros i H; [now apply tab_in|reflexivity]. Qed.
  Lemma dot_tab_r n (v w : vec) : dot n w (tab n v) = dot n w v.
  Proof. apply dot_ext; intros i H; [reflexivity|now apply tab_in]. Qed.
  Lemma dot_add_r n (a b c : vec) : dot n c (fun i => a i + b i)%of = (dot n c a + dot n c b)%of.
  Proof. rewrite dot_sym, dot_add_l. now rewrite (dot_sym n a), (dot_sym n b). Qed.
  Lemma fmul_pos (a b : K) : flt f0 a -> flt f0 b -> flt f0 (a * b)%of. Proof. apply flt_mul. Qed.
  Lemma fdiv_lt (a b : K) : flt f0 a -> flt f0 b -> flt f0 (a / b)%of.
  Proof. intros A B. replace (a / b)%of with (a * finv b)%of by (field; intros E; subst; unfold flt in B; now rewrite flt_irrefl in B). apply flt_mul; [exact A|now apply finv_pos]. Qed.
  Lemma fadd_pos (a b : K) : flt f0 a -> fle f0 b -> flt f0 (a + b)%of.
  Proof. intros A B. apply flt_le_trans with (1 := A). apply fle_sub. replace (a + b - a)%of with b by ring. exact B. Qed.
  Lemma flt_ne0 (a : K) : flt f0 a -> a <> f0. Proof. intros H E. subst. unfold flt in H. now rewrite flt_irrefl in H. Qed.
  Lemma fle_ne_lt (a : K) : fle f0 a -> a <> f0 -> flt f0 a.
  Proof. intros A B. destruct (fle_lt_eq _ _ A) as [H|H]; [exact H|]. now subst. Qed.
  Lemma fsq_pos (a : K) : a <> f0 -> flt f0 (a * a)%of.
  Proof. intros H. apply fle_ne_lt; [apply fsq|]. intros E. apply H. now apply fsq0. Qed.
End Base.

Section Pca.
  Context {K : ofield}.
  Add Field Kinc2 : (fth K).
  Notation vec := (vec (K := K)). Notation mtx := (mtx (K := K)).
  Variable sq : K -> K.
  Definition is_sqrt : Prop := forall a : K, fle f0 a -> fle f0 (sq a) /\ (sq a * sq a)%of = a.
  Notation norm := (norm sq). Notation comps := (comps sq).

  Lemma iszero_false (a : K) : iszero a = false -> a <> f0.
  Proof. intros H E. apply iszero_spec in E. congruence. Qed.

  (** the residual of x after the components vs *)
  Definition resid (n : nat) (vs : list vec) (x : vec) : vec := fold_left (fun r v i => r i - dot n r v * v i)%of vs x.
  Lemma resid_ext n vs : forall x y, (forall i, i < n -> x i = y i) -> forall i, i < n -> resid n vs x i = resid n vs y i.
  Proof.
    induction vs as [|v vs IH]; intros x y H i Hi; [now apply H|]. cbn [resid fold_left]. apply IH; [|exact Hi]. intros k Hk. rewrite (H k Hk). rewrite (dot_ext n x y v v H); [reflexivity|reflexivity].
  Qed.
  Lemma resid_snoc n vs v x : resid n (vs ++ [v]) x = fun i => (resid n vs x i - dot n (resid n vs x) v * v i)%of.
  Proof. unfold resid. now rewrite fold_left_app. Qed.

  Definition nthv k (V : list vec) := nth k V vzero.
  (** what the loop computes *)
  Lemma comps_spec n w1 w2 : forall us ds r vs vns es, length us = length ds -> comps n w1 w2 r us ds = Some (vs, vns, es) ->
    length vs = length us /\ length vns = length us /\ length es = length us /\
    forall j, j < length us -> let rj := resid n (firstn j vns) r in
      (forall i, i < n -> nthv j vs i = (w1 * nthv j us i + w2 * dot n rj (nthv j us) / nth j ds f0 * rj i)%of) /\
      nth j es f0 = norm n (nthv j vs) /\ nth j es f0 <> f0 /\ (forall i, i < n -> nthv j vns i = (nthv j vs i / nth j es f0)%of).
  Proof.
    induction us as [|u us IH]; intros [|d ds] r vs vns es LE; try discriminate.
    - intros H. injection H as <- <- <-. repeat split; cbn in *; lia.
    - cbn [IncModel.comps]. set (v := tab n _). destruct (iszero (norm n v)) eqn:Z; [discriminate|]. set (vn := over n v (norm n v)). set (r' := tab n _).
      destruct (comps n w1 w2 r' us ds) as [[[vs' vns'] es']|] eqn:E; [|discriminate]. intros H. injection H as <- <- <-. destruct (IH ds r' vs' vns' es' ltac:(now injection LE) E) as (L1 & L2 & L3 & IHj).
      cbn [length]. repeat split; try lia.
      all: destruct j as [|j].
      1: intros i Hi; cbn; unfold v; now rewrite tab_in.
      2: reflexivity.
      3: cbn; now apply iszero_false.
      4: intros i Hi; cbn; unfold vn, over; now rewrite tab_in.
      all: cbn [length] in H; assert (Hj : j < length us) by lia; destruct (IHj j Hj) as (A & B & C & D).
      2: exact B. 2: exact C. 2: exact D.
      intros i Hi. change (nthv (S j) (v :: vs')) with (nthv j vs'). rewrite (A i Hi). cbn [firstn nth]. change (nthv (S j) (u :: us)) with (nthv j us).
      assert (RE : forall i, i < n -> resid n (firstn j vns') r' i = resid n (vn :: firstn j vns') r i).
      { intros k Hk. unfold resid at 2. cbn [fold_left]. apply resid_ext; [|exact Hk]. intros m Hm. unfold r'. now rewrite tab_in. }
      rewrite (RE i Hi). now rewrite (dot_ext n _ _ (nthv j us) (nthv j us) RE (fun _ _ => eq_refl)).
  Qed.

  Section Sqrt.
    Hypothesis SQ : is_sqrt.
    Lemma norm_nonneg n v : fle f0 (norm n v). Proof. apply SQ, dot_sq. Qed.
    Lemma norm_sq n v : (norm n v * norm n v)%of = dot n v v. Proof. apply SQ, dot_sq. Qed.
    Lemma norm_pos n v : dot n v v <> f0 -> flt f0 (norm n v).
    Proof. intros H. apply fle_ne_lt; [apply norm_nonneg|]. intros E. apply H. rewrite <- norm_sq, E. ring. Qed.
    Lemma sq_pos a : flt f0 a -> flt f0 (sq a).
    Proof. intros H. destruct (SQ a (flt_le _ _ H)) as (A & B). apply fle_ne_lt; [exact A|]. intros E. rewrite E in B. apply (flt_ne0 a H). rewrite <- B. ring. Qed.
    Lemma unit_norm n v (vn : vec) : norm n v <> f0 -> (forall i, i < n -> vn i = (v i / norm n v)%of) -> dot n vn vn = f1.
    Proof.
      intros NZ H. rewrite (dot_ext n vn (fun i => finv (norm n v) * v i)%of vn (fun i => finv (norm n v) * v i)%of); [|intros i Hi; rewrite (H i Hi); now field ..].
      rewrite dot_scale, dot_scale_l, <- norm_sq. now field.
    Qed.
    (** the new vector has a positive product with the old one *)
    Lemma keep_side n w1 w2 (r u : vec) d (v : vec) : flt f0 w1 -> fle f0 w2 -> flt f0 d -> dot n u u <> f0 -> (forall i, i < n -> v i = (w1 * u i + w2 * dot n r u / d * r i)%of) ->
      flt f0 (dot n v u) /\ dot n v v <> f0.
    Proof.
      intros W1 W2 D U H.
      assert (A : dot n v u = (w1 * dot n u u + w2 * (dot n r u * dot n r u) / d)%of).
      { rewrite (dot_ext n v (fun i => w1 * u i + (w2 * dot n r u / d) * r i)%of u u); [|exact H|reflexivity]. rewrite dot_add_l, !dot_scale_l. field. now apply flt_ne0. }
      assert (P : flt f0 (dot n v u)).
      { rewrite A. apply fadd_pos; [apply flt_mul; [exact W1|apply fle_ne_lt; [apply dot_sq|exact U]]|]. apply fdiv_pos; [|exact D]. apply fle_mul0; [exact W2|apply fsq]. }
      split; [exact P|]. intros E. apply (flt_ne0 _ P). apply fsumn_zero. intros i Hi.
      assert (Z : v i = f0). { apply fsq0. unfold dot, fsumn in E. apply (fsum_map_eq0 (seq 0 n) (fun i => v i * v i)%of); [intros k _; apply fsq|exact E|apply in_seq; lia]. }
      rewrite Z. ring.
    Qed.
    Definition okc n (us : list vec) (ds : list K) : Prop := length us = length ds /\ forall j, j < length us -> nth j ds f0 = norm n (nthv j us) /\ flt f0 (nth j ds f0).
    Lemma comps_ok n w1 w2 : flt f0 w1 -> fle f0 w2 -> forall us ds r, okc n us ds -> exists vs vns es, comps n w1 w2 r us ds = Some (vs, vns, es) /\ okc n vs es.
    Proof.
      intros W1 W2. induction us as [|u us IH]; intros [|d ds] r (LE & OK); try discriminate; [exists [], [], []; split; [reflexivity|split; [reflexivity|cbn; lia]]|].
      cbn [IncModel.comps]. set (v := tab n _). destruct (OK 0 ltac:(cbn; lia)) as (E0 & P0). change (nth 0 (d :: ds) f0) with d in *. change (nthv 0 (u :: us)) with u in E0.
      assert (NV : dot n v v <> f0).
      { apply (keep_side n w1 w2 r u d v W1 W2 P0); [|intros i Hi; unfold v; now rewrite tab_in]. intros E. apply (flt_ne0 d P0). rewrite E0. apply fsq0. now rewrite norm_sq. }
      pose proof (norm_pos n v NV) as PV. rewrite (iszero_pos _ PV). set (r' := tab n _). destruct (IH ds r') as (vs & vns & es & E & L & O).
      { split; [now injection LE|]. intros j Hj. apply (OK (S j)). cbn. lia. }
      rewrite E. do 3 eexists. split; [reflexivity|]. split; [cbn; now rewrite L|]. intros [|j] Hj; [cbn; now split|]. apply O. cbn in Hj. lia.
    Qed.
    (** the energy of the sample *)
    Lemma resid_orth n (v r : vec) : dot n v v = f1 -> dot n (fun i => r i - dot n r v * v i)%of v = f0.
    Proof. intros U. rewrite dot_sub_l, dot_scale_l, U. ring. Qed.
    Lemma resid_energy n (v r : vec) : dot n v v = f1 -> dot n (fun i => r i - dot n r v * v i)%of (fun i => r i - dot n r v * v i)%of = (dot n r r - dot n r v * dot n r v)%of.
    Proof. intros U. rewrite dot_sub_r, dot_scale, (resid_orth n v r U), dot_sub_l, dot_scale_l, (dot_sym n v r). ring. Qed.
  End Sqrt.
End Pca.

Section PcaState.
  Context {K : ofield}.
  Add Field Kinc3 : (fth K).
  Notation vec := (vec (K := K)). Notation mtx := (mtx (K := K)).
  Variable sq : K -> K.
  Hypothesis SQ : is_sqrt sq.
  Notation pca := (pca (K := K)).

  Lemma each_app {S A} (f : A -> S -> out S) l r : forall s, each f (l ++ r) s = bnd (each f l s) (each f r).
  Proof. induction l as [|a l IH]; intros s; [reflexivity|]. cbn [each app bnd]. destruct (f a s) as [s1 [e|]]; [reflexivity|]. cbn [bnd]. apply IH. Qed.

  (** a node whose vectors are there *)
  Definition ready (n o : nat) (s : pca) : Prop :=
    p_in s = Some n /\ p_out s = Some o /\ p_init s <> None /\ p_batch s = false /\
    exists l, p_live s = Some l /\ okc sq n (l_u l) (l_d l) /\ length (l_u l) = o /\ length (l_v l) = o.
  (** the weights of the node stay positive *)
  Definition weights_pos (a : K * K * K * K) : Prop := forall t, exists w1 w2, amnesic a (t + 1) = Some (w1, w2) /\ flt f0 w1 /\ fle f0 w2.

  Definition p_start (s : pca) : pca := mkP (p_amn s) (p_rel s) (p_in s) (p_out s) (p_init s) (p_live s) (p_tot s) (p_red s) (p_iter s) true (p_batch s).
  Definition p_step (white : bool) (r : vec) (s : pca) : out pca := bnd (p_train_ sq white [r] s) (fun s => (p_count 1 s, None)).
  Lemma start_ready n o s : ready n o s -> ready n o (p_start s). Proof. intros H. exact H. Qed.
  Lemma count_ready n o k s : ready n o s -> ready n o (p_count k s). Proof. intros H. exact H. Qed.
  Lemma checks_ready rnd n o m s : ready n o s -> m <> 0 -> p_checks sq rnd n m s = (s, None).
  Proof.
    intros (A & B & C & D & _) M. unfold p_checks, p_check_input. rewrite A. cbn [agree]. rewrite Nat.eqb_refl. apply Nat.eqb_neq in M. rewrite M. cbn [negb andb bnd]. unfold p_check_params. cbn [p_init].
    destruct (p_init s) eqn:I; [|easy]. destruct s; cbn in *. now subst.
  Qed.

  (** one sample *)
  Lemma step_ready (white : bool) n o s r : ready n o s -> weights_pos (p_amn s) -> exists w1 w2 l l' vns, amnesic (p_amn s) (p_iter s + 1) = Some (w1, w2) /\ flt f0 w1 /\ fle f0 w2 /\
    p_live s = Some l /\ comps sq n w1 w2 r (l_u l) (l_d l) = Some (l_u l', vns, l_d l') /\
    l' = (if white then mkLive (l_u l') (l_d l') (l_old l ++ [vns]) (map (fun p => over n (fst p) (sq (snd p))) (combine vns (l_d l'))) else mkLive (l_u l') (l_d l') (l_old l) vns) /\
    p_step white r s = (mkP (p_amn s) (p_rel s) (p_in s) (p_out s) (p_init s) (Some l') (fsum (l_d l')) (Some (reduce (p_rel s) (p_tot s) f0 0 (l_d l'))) (p_iter s + 1) (p_started s) (p_batch s), None) /\
    okc sq n (l_u l') (l_d l') /\ length (l_u l') = o /\ length vns = o /\ length (l_d l') = o.
  Proof.
    intros (A & B & C & D & l & EL & OK & LU & LV) WP. destruct (WP (p_iter s)) as (w1 & w2 & EW & W1 & W2). destruct (comps_ok sq SQ n w1 w2 W1 W2 (l_u l) (l_d l) r OK) as (us & vns & es & EC & OK').
    destruct (comps_spec sq n w1 w2 (l_u l) (l_d l) r us vns es (proj1 OK) EC) as (L1 & L2 & L3 & _).
    exists w1, w2, l, (if white then mkLive us es (l_old l ++ [vns]) (map (fun p => over n (fst p) (sq (snd p))) (combine vns es)) else mkLive us es (l_old l) vns), vns.
    unfold p_step, p_train_. rewrite EW, B, EL, A, EC. cbn [bnd]. destruct white; cbn [l_u l_d]; repeat (split; [first [assumption|reflexivity|congruence]|]); congruence.
  Qed.
  Lemma step_keeps white n o s r : ready n o s -> weights_pos (p_amn s) -> exists s', p_step white r s = (s', None) /\ ready n o s' /\ p_amn s' = p_amn s /\ p_iter s' = p_iter s + 1 /\ p_started s' = p_started s.
  Proof.
    intros R WP. destruct (step_ready white n o s r R WP) as (w1 & w2 & l & l' & vns & EW & W1 & W2 & EL & EC & EL' & ES & OK & L1 & L2 & L3). rewrite ES. eexists. split; [reflexivity|]. cbn [p_amn p_iter p_started].
    destruct R as (A & B & C & D & _). split; [|repeat split]. unfold ready. cbn [p_in p_out p_init p_batch p_live]. split; [exact A|]. split; [exact B|]. split; [exact C|]. split; [exact D|]. exists l'. split; [reflexivity|]. split; [exact OK|]. split; [exact L1|].
    rewrite EL'. destruct white; cbn [l_v]; [|exact L2]. rewrite map_length, combine_length, L2, L3. apply Nat.min_id.
  Qed.
  Lemma steps_keep white n o rs : forall s, ready n o s -> weights_pos (p_amn s) ->
    exists s', each (p_step white) rs s = (s', None) /\ ready n o s' /\ p_amn s' = p_amn s /\ p_iter s' = p_iter s + length rs /\ p_started s' = p_started s.
  Proof.
    induction rs as [|r rs IH]; intros s R WP; [exists s; repeat split; try apply R; cbn; lia|]. destruct (step_keeps white n o s r R WP) as (s1 & E & R1 & A1 & I1 & S1). destruct (IH s1 R1 ltac:(now rewrite A1)) as (s2 & E2 & R2 & A2 & I2 & S2).
    exists s2. cbn [each]. rewrite E. cbn [bnd]. split; [exact E2|]. split; [exact R2|]. split; [congruence|]. split; [cbn; lia|congruence].
  Qed.
  Lemma train_ready rnd white n o s rs : ready n o s -> rs <> [] -> p_train sq rnd white n rs s = each (p_step white) rs (p_start s).
  Proof.
    intros R NE. unfold p_train. rewrite (checks_ready rnd n o (length rs) s R) by (now destruct rs). cbn [bnd]. destruct R as (_ & _ & _ & D & _). cbn [p_batch]. rewrite D. unfold p_start. now rewrite D.
  Qed.
  Lemma start_idem s : p_started s = true -> p_start s = s.
  Proof. destruct s; cbn. now intros ->. Qed.
  (** calls of train on nonempty chunks: only the sequence of samples matters *)
  Lemma trains_ready rnd white n o xss : forall s, ready n o s -> weights_pos (p_amn s) -> Forall (fun x => x <> []) xss -> xss <> [] ->
    each (p_train sq rnd white n) xss s = each (p_step white) (concat xss) (p_start s).
  Proof.
    induction xss as [|x xss IH]; intros s R WP F NE; [easy|]. cbn [each concat]. rewrite (train_ready rnd white n o s x R (Forall_inv F)), each_app.
    destruct (steps_keep white n o x (p_start s) (start_ready n o s R) WP) as (s1 & E & R1 & A1 & I1 & S1). rewrite E. cbn [bnd]. destruct xss as [|y xss]; [reflexivity|].
    rewrite IH; [now rewrite (start_idem s1 S1)|exact R1|now rewrite A1|exact (Forall_inv_tail F)|discriminate].
  Qed.
  (** the first train call of a node without vectors makes them *)
  Lemma set_init_ready s k (cols : list vec) : agree (p_in s) k = true -> agree (p_out s) (length cols) = true -> p_live s = None -> p_batch s = false -> Forall (fun c => dot k c c <> f0) cols ->
    exists s', p_set_init sq (k, cols) s = (s', None) /\ ready k (length cols) s' /\ p_amn s' = p_amn s /\ p_iter s' = p_iter s /\ p_started s' = p_started s /\
      p_live s' = Some (mkLive cols (map (norm sq k) cols) [] (map (fun c => over k c (norm sq k c)) cols)) /\ p_init s' = Some (k, cols) /\ p_rel s' = p_rel s /\ p_tot s' = p_tot s.
  Proof.
    intros A B L D F. unfold p_set_init. rewrite A, B, L. cbn [negb].
    assert (Z : existsb (fun c => iszero (norm sq k c)) cols = false).
    { induction cols as [|c cols IH]; [reflexivity|]. cbn [existsb]. rewrite (iszero_pos _ (norm_pos sq SQ k c (Forall_inv F))). cbn. clear - F IH SQ. assert (F' := Forall_inv_tail F). clear IH F. induction cols as [|c' cols IH]; [reflexivity|]. cbn. rewrite (iszero_pos _ (norm_pos sq SQ k c' (Forall_inv F'))). apply IH. exact (Forall_inv_tail F'). }
    rewrite Z. eexists. split; [reflexivity|].
    assert (EV : map (fun p => over k (fst p) (snd p)) (combine cols (map (norm sq k) cols)) = map (fun c => over k c (norm sq k c)) cols).
    { clear. induction cols as [|c cols IH]; [reflexivity|]. cbn. now rewrite IH. }
    rewrite EV. split; [|repeat split; reflexivity]. split; [reflexivity|]. split; [reflexivity|]. split; [discriminate|]. split; [exact D|]. eexists. split; [reflexivity|]. cbn [l_u l_d l_v]. rewrite map_length. split; [|now split].
    split; [now rewrite map_length|]. intros j Hj. rewrite (nth_indep _ f0 (norm sq k vzero)) by (now rewrite map_length). rewrite map_nth. split; [reflexivity|]. apply (norm_pos sq SQ). rewrite Forall_forall in F. apply F. now apply nth_In.
  Qed.
  Lemma checks_new rnd s n m o : p_init s = None -> p_live s = None -> p_batch s = false -> agree (p_in s) n = true -> m <> 0 -> o = match p_out s with Some o => o | None => n end ->
    length (rnd n o) = o -> Forall (fun c => dot n c c <> f0) (rnd n o) ->
    exists s', p_checks sq rnd n m s = (s', None) /\ ready n o s' /\ p_amn s' = p_amn s /\ p_iter s' = p_iter s /\ p_started s' = p_started s /\
      p_live s' = Some (mkLive (rnd n o) (map (norm sq n) (rnd n o)) [] (map (fun c => over n c (norm sq n c)) (rnd n o))) /\ p_init s' = Some (n, rnd n o) /\ p_rel s' = p_rel s /\ p_tot s' = p_tot s.
  Proof.
    intros I L D A M -> LO F. unfold p_checks, p_check_input. rewrite A. apply Nat.eqb_neq in M. rewrite M. cbn [negb andb bnd]. unfold p_check_params. cbn [p_init p_in p_out]. rewrite I.
    replace (match match p_in s with Some n0 => Some n0 | None => Some n end with Some n0 => n0 | None => 0 end) with n by (destruct (p_in s); [cbn in A; symmetry; now apply Nat.eqb_eq|reflexivity]).
    set (o := match p_out s with Some o => o | None => n end) in *.
    destruct (set_init_ready (mkP (p_amn s) (p_rel s) (match p_in s with Some d => Some d | None => Some n end) (p_out s) None (p_live s) (p_tot s) (p_red s) (p_iter s) (p_started s) (p_batch s)) n (rnd n o)) as (s' & E & H).
    - cbn [p_in]. destruct (p_in s); cbn; [exact A|apply Nat.eqb_refl].
    - cbn [p_out]. rewrite LO. unfold o. destruct (p_out s); cbn; [apply Nat.eqb_refl|reflexivity].
    - exact L.
    - exact D.
    - exact F.
    - exists s'. rewrite LO in H. split; [exact E|exact H].
  Qed.
  Lemma train_checked rnd white n o m s s' rs : p_checks sq rnd n m s = (s', None) -> m = length rs -> ready n o s' -> p_train sq rnd white n rs s = each (p_step white) rs (p_start s').
  Proof. intros E -> R. unfold p_train. rewrite E. cbn [bnd]. destruct R as (_ & _ & _ & D & _). cbn [p_batch]. rewrite D. unfold p_start. now rewrite D. Qed.
End PcaState.
