(** Properties C312-C318: IncSFANode. *)
From Coq Require Import List Arith QArith Qcanon Bool Lia Field.
From Verif Require Import OField LinAlg IncModel IncProofs IncProps IncProps2.
Import ListNotations.
Open Scope nat_scope.

Section Isfa.
  Context {K : ofield}.
  Add Field Kis1 : (fth K).
  Notation vec := (vec (K := K)). Notation isfa := (isfa (K := K)). Notation cent := (cent (K := K)).
  Variable sq : K -> K.
  Variable rnd : nat -> nat -> nat -> list vec.
  Notation i_train := (i_train sq rnd). Notation i_execute := (i_execute sq rnd). Notation i_step := (i_step sq).

  Lemma check_input_keeps w m (s : isfa) : let r := i_check_input w m s in i_avg (fst r) = i_avg s /\ i_init (fst r) = i_init s /\ i_mca (fst r) = i_mca s /\ i_sf (fst r) = i_sf s /\ i_ep (fst r) = i_ep s /\ i_batch (fst r) = i_batch s /\ i_iter (fst r) = i_iter s /\ p_live (i_w (fst r)) = p_live (i_w s) /\ p_init (i_w (fst r)) = p_init (i_w s) /\ p_iter (i_w (fst r)) = p_iter (i_w s) /\ p_started (i_w (fst r)) = p_started (i_w s) /\ p_batch (i_w (fst r)) = p_batch (i_w s) /\ p_amn (i_w (fst r)) = p_amn (i_w s) /\
    (snd r = None -> i_in (fst r) = Some w /\ m <> 0).
  Proof.
    unfold i_check_input. destruct (i_in s) as [n|] eqn:E; cbn.
    - do 13 (split; [reflexivity|]). destruct (n =? w) eqn:N; cbn; [|discriminate]. apply Nat.eqb_eq in N. subst n. destruct (m =? 0) eqn:M; cbn; [discriminate|]. apply Nat.eqb_neq in M. now split.
    - destruct (agree (p_in (i_w s)) w); cbn; [|do 13 (split; [reflexivity|]); discriminate]. do 13 (split; [reflexivity|]). destruct (m =? 0) eqn:M; cbn; [discriminate|]. apply Nat.eqb_neq in M. now split.
  Qed.

  (** ** C312: remove_mean = False *)
  Theorem C312_never : forall (s : isfa), i_avg s = None -> i_init s = None -> forall w x ep, (snd (i_train w x ep s) <> None /\ i_avg (fst (i_train w x ep s)) = None /\ i_init (fst (i_train w x ep s)) = None) /\
    (exists e, snd (i_execute w x s) = inr e) /\ i_avg (fst (i_execute w x s)) = None /\ i_init (fst (i_execute w x s)) = None.
  Proof.
    assert (T : forall (s : isfa), i_avg s = None -> i_init s = None -> forall w x ep, snd (i_train w x ep s) <> None /\ i_avg (fst (i_train w x ep s)) = None /\ i_init (fst (i_train w x ep s)) = None).
    { intros s A I w x ep. unfold IncModel.i_train. destruct (check_input_keeps w (length x) s) as (KA & KI & _ & _ & _ & KB & _). destruct (i_check_input w (length x) s) as [s1 [e|]]; cbn [fst snd bnd] in *; [split; [discriminate|split; congruence]|].
      destruct (i_batch s1 && (length x <? 2)); cbn [fst snd]; [split; [discriminate|split; congruence]|]. unfold i_check_params, i_setup. rewrite KI, I, KA, A. cbn. split; [discriminate|split; congruence]. }
    intros s A I w x ep. split; [now apply T|]. unfold IncModel.i_execute, i_pre. destruct (i_started s).
    - cbn [bnd]. destruct (check_input_keeps w (length x) s) as (KA & KI & _). destruct (i_check_input w (length x) s) as [s1 [e|]]; cbn [fst snd bnd] in *; [split; [eauto|split; congruence]|]. unfold i_check_params, i_setup. rewrite KI, I, KA, A. cbn. split; [eauto|split; congruence].
    - destruct (T s A I w x None) as (T1 & T2 & T3). destruct (i_train w x None s) as [s1 [e|]]; cbn [fst snd bnd] in *; [|easy]. split; [eauto|now split].
  Qed.
  (** a new node without the removal of the mean *)
  Theorem C312_attribute : forall eps wdim avg_n amn ipca imca din dout w x ep, agree din w = true -> x <> [] -> snd (i_train w x ep (isfa_new eps wdim false avg_n amn ipca imca din dout)) = Some XAttr.
  Proof.
    intros eps wdim avg_n amn ipca imca din dout w x ep A NE. destruct x as [|r x]; [easy|]. unfold IncModel.i_train, i_check_input, isfa_new. cbn [i_in i_w p_in pca_new set_dims length Nat.eqb andb negb]. destruct din as [n|]; cbn [agree] in A.
    - rewrite A. reflexivity.
    - reflexivity.
  Qed.
  Theorem C312_refuted : exists (s : isfa), (exists eps wdim, s = isfa_new eps wdim false None default_amn None None None None) /\ forall xs ep w, snd (i_train w (@repeat vec vzero (S xs)) ep s) = Some XAttr.
  Proof. eexists. split; [exists f1, None; reflexivity|]. intros. now apply C312_attribute. Qed.

  (** ** C313: vectors given to the constructor *)
  Lemma checks_given (s : pca (K := K)) M w m : p_init s = Some M -> p_in s = Some w -> m <> 0 -> p_checks sq (rnd 0) w m s = (s, None).
  Proof. intros I N M0. unfold p_checks, p_check_input. rewrite N. cbn [agree]. rewrite Nat.eqb_refl. apply Nat.eqb_neq in M0. rewrite M0. cbn [andb negb bnd]. unfold p_check_params. cbn [p_init]. rewrite I. rewrite <- I, <- N. now destruct s. Qed.
  Lemma setup_avg w x (a : cent) : c_dim a = None -> c_avg a = None -> c_started a = false -> x <> [] -> exists a', bnd (c_checks w (length x) a) (c_pre w x) = (a', None) /\ length (c_execute_ w x a') = length x.
  Proof.
    intros D A S NE. destruct x as [|r x]; [easy|]. unfold c_checks at 1. rewrite D, A. cbn [agree length Nat.eqb andb negb bnd]. unfold c_pre. cbn [c_started]. rewrite S. unfold c_checks at 1. cbn [c_dim agree c_avg c_n c_iter length Nat.eqb]. rewrite Nat.eqb_refl. cbn [andb negb bnd].
    assert (G : forall x (a : cent), c_dim a = Some w -> c_avg a <> None -> exists a', each (c_step w) x a = (a', None) /\ c_dim a' = Some w /\ c_avg a' <> None).
    { clear. induction x as [|r x IH]; intros a D A; cbn [each]; [now exists a|]. unfold c_step at 1. destruct (c_avg a) as [v|]; [|easy]. cbn [bnd]. destruct (IH (mkC (c_n a) (c_dim a) (Some (tab w (fun i => (f1 - cent_alpha a) * v i + cent_alpha a * r i)%of)) (c_iter a + 1) (c_started a)) D ltac:(discriminate)) as (a' & E & P). now exists a'. }
    match goal with |- context [each (c_step w) (r :: x) ?z] => destruct (G (r :: x) z eq_refl ltac:(discriminate)) as (a' & E & D' & A') end. rewrite E. cbn [bnd]. unfold c_checks. rewrite D'. cbn [agree]. rewrite Nat.eqb_refl. cbn [andb negb]. eexists. split; [reflexivity|]. unfold c_execute_. cbn [c_iter]. destruct (c_iter a' <=? 1); [reflexivity|]. now rewrite map_length.
  Qed.
  Theorem C313_pca : forall eps wdim avg_n amn M imca din dout w x ep, weights_pos amn -> agree din w = true -> x <> [] -> snd (i_train w x ep (isfa_new eps wdim true avg_n amn (Some M) imca din dout)) = Some XType.
  Proof.
    intros eps wdim avg_n amn M imca din dout w x ep WP A NE. destruct x as [|r x]; [easy|].
    assert (CI : exists s, i_check_input w (length (r :: x)) (isfa_new eps wdim true avg_n amn (Some M) imca din dout) = (s, None) /\ i_avg s = Some (mkC avg_n None None 0 false) /\ i_init s = None /\ i_batch s = false /\ i_w s = pca_new amn (Some M) f1 (Some w) wdim).
    { unfold i_check_input, isfa_new. cbn [i_in i_w p_in pca_new set_dims length Nat.eqb andb negb]. destruct din as [n|]; cbn [agree] in A; [rewrite A; apply Nat.eqb_eq in A; subst n|]; eexists; split; reflexivity || (repeat split). }
    destruct CI as (s & E & SA & SI & SB & SW). unfold IncModel.i_train. rewrite E. cbn [bnd]. rewrite SB. cbn [andb]. unfold i_check_params, i_setup. rewrite SI, SA. destruct (setup_avg w (r :: x) (mkC avg_n None None 0 false) eq_refl eq_refl eq_refl ltac:(discriminate)) as (a' & EA & LA). rewrite EA. unfold on at 1. cbn [fst snd bnd set_avg i_avg i_w]. rewrite SW.
    set (x' := c_execute_ w (r :: x) a') in *. cbn [length] in LA. rewrite (checks_given _ M) by (reflexivity || (rewrite LA; discriminate)). cbn [bnd]. unfold p_pre. cbn [p_started pca_new]. destruct x' as [|r' x']; [discriminate|].
    destruct (C303_constructor sq true amn M f1 (Some w) wdim (rnd 0) w (r' :: x') WP) as (T & _); [cbn; apply Nat.eqb_refl|discriminate|]. unfold pca_new in T. destruct (p_train sq (rnd 0) true w (r' :: x') _) as [p e]. cbn [snd] in T. subst e. reflexivity.
  Qed.
  (** the minor components: nothing but the first call of train works *)
  Lemma step_mca w r (s : isfa) : m_live (i_mca s) = None -> let q := i_step w r s in m_live (i_mca (fst (fst q))) = None /\ i_ep (fst (fst q)) = i_ep s /\ (i_ep s <> Some true -> snd (fst q) <> None).
  Proof.
    intros L. cbv zeta. set (Q := fun q : out isfa * option K => m_live (i_mca (fst (fst q))) = None /\ i_ep (fst (fst q)) = i_ep s /\ (i_ep s <> Some true -> snd (fst q) <> None)). change (Q (i_step w r s)).
    unfold IncModel.i_step. destruct (match i_avg s with Some a => on (set_avg s) (c_step w r a) | None => (s, None) end) as [s1 [e|]] eqn:E1.
    all: assert (M1 : i_mca s1 = i_mca s /\ i_ep s1 = i_ep s) by (destruct (i_avg s); [unfold on in E1; injection E1 as <- _; now split|injection E1; intros; subst; now split || congruence]); destruct M1 as (M1 & P1).
    { split; [exact (eq_trans (f_equal m_live M1) L)|]. split; [exact P1|discriminate]. }
    match goal with |- context [on (set_w s1) ?z] => destruct z as [p [e|]] end; unfold on at 1; cbn [fst snd]; [split; [exact (eq_trans (f_equal m_live M1) L)|split; [exact P1|discriminate]]|].
    cbn [set_w i_w]. destruct (p_live p) as [l|]; [|split; [exact (eq_trans (f_equal m_live M1) L)|split; [exact P1|discriminate]]].
    cbn [set_td set_w i_ep i_td i_mca]. rewrite P1. destruct (i_ep s) as [[|]|] eqn:EP; [split; [exact (eq_trans (f_equal m_live M1) L)|split; [exact P1|easy]]| |];
      (unfold m_train_; rewrite M1, L; destruct (m_out (i_mca s)); cbn [bnd on fst snd]; (split; [exact L|split; [exact P1|discriminate]])).
  Qed.
  Theorem C313_mca : forall (s : isfa) w x, m_live (i_mca s) = None -> i_init s <> None -> i_ep s <> None -> i_batch s = false -> snd (i_train w x None s) <> None /\ m_live (i_mca (fst (i_train w x None s))) = None.
  Proof.
    intros s w x L I EP B. unfold IncModel.i_train. destruct (check_input_keeps w (length x) s) as (KA & KI & KM & _ & KE & KB & _ & _ & _ & _ & _ & _ & _ & KN). destruct (i_check_input w (length x) s) as [s1 [e|]]; cbn [fst snd bnd] in *; [split; [discriminate|congruence]|]. rewrite KB, B. cbn [andb].
    destruct (KN eq_refl) as (_ & NX). unfold i_check_params. rewrite KI. destruct (i_init s) eqn:EI; [|easy]. cbn [bnd]. destruct x as [|r x]; [easy|]. clear NX KN. cbn [set_run i_flag set_ep i_batch]. rewrite KB, B. cbn [each].
    set (s2 := set_run (i_flag s1) _ true). assert (L2 : m_live (i_mca s2) = None) by (cbn; congruence). assert (E2 : i_ep s2 <> Some true) by (cbn; rewrite KE; destruct (i_ep s) as [[|]|]; [discriminate|discriminate|easy]). unfold IncModel.i_train_ at 1 3. cbn [set_run i_flag set_ep i_batch]. 
    assert (B2 : i_batch s2 = false) by (cbn; congruence). rewrite B2. destruct (step_mca w r s2 L2) as (S1 & S2 & S3). specialize (S3 E2). destruct (i_step w r s2) as [[s3 [e|]] ch]; cbn [fst snd i_end bnd] in *; [split; [discriminate|exact S1]|easy].
  Qed.

  (** what a successful step does *)
  Definition others (s s' : isfa) : Prop := i_in s' = i_in s /\ i_out s' = i_out s /\ i_ep s' = i_ep s /\ i_init s' = i_init s /\ i_change s' = i_change s /\ i_wv s' = i_wv s /\ i_iter s' = i_iter s /\ i_started s' = i_started s /\ i_batch s' = i_batch s.
  Lemma step_shape w r (s s' : isfa) ch : i_step w r s = ((s', None), ch) -> others s s' /\
    (match i_avg s with Some a => exists v, c_avg a = Some v /\ i_avg s' = Some (mkC (c_n a) (c_dim a) (Some (tab w (fun i => (f1 - cent_alpha a) * v i + cent_alpha a * r i)%of)) (c_iter a + 1) (c_started a)) | None => i_avg s' = None end) /\
    p_iter (i_w s') = p_iter (i_w s) + 1 /\ (exists p, p_train_ sq true [match i_avg s' with Some a => hd r (c_execute_ w [r] a) | None => r end] (i_w s) = (p, None) /\ i_w s' = p_count 1 p) /\
    (i_ep s = Some true -> i_mca s' = i_mca s /\ i_sf s' = i_sf s /\ ch = None) /\
    (i_ep s <> Some true -> i_sf s' = Some (mult w (vectors (i_w s')) (mvecs (i_mca s'))) /\ (exists old, i_sf s = Some old /\ ch = Some (sf_dist sq w (mult w (vectors (i_w s')) (mvecs (i_mca s'))) old)) /\
      exists y dx, dx = td_exec (length (vectors (i_w s'))) y (td_step y (i_td s)) /\ y = tab (length (vectors (i_w s'))) (fun k => dot w (match i_avg s' with Some a => hd r (c_execute_ w [r] a) | None => r end) (nth k (vectors (i_w s')) vzero)) /\
        exists m, m_train_ sq dx (i_mca s) = (m, None) /\ i_mca s' = m_count (length dx) m).
  Proof.
    unfold IncModel.i_step. destruct (match i_avg s with Some a => on (set_avg s) (c_step w r a) | None => (s, None) end) as [s1 [e|]] eqn:E1; [intros X; discriminate X|].
    assert (A1 : others s s1 /\ i_w s1 = i_w s /\ i_td s1 = i_td s /\ i_mca s1 = i_mca s /\ i_sf s1 = i_sf s /\ match i_avg s with Some a => exists v, c_avg a = Some v /\ i_avg s1 = Some (mkC (c_n a) (c_dim a) (Some (tab w (fun i => (f1 - cent_alpha a) * v i + cent_alpha a * r i)%of)) (c_iter a + 1) (c_started a)) | None => i_avg s1 = None end).
    { destruct (i_avg s) as [a|] eqn:EA; [unfold on, c_step in E1; destruct (c_avg a) as [v|]; cbn [fst snd] in E1; injection E1 as <-; [repeat split; now exists v|discriminate]|injection E1 as <-; repeat split; exact EA]. }
    destruct A1 as (O1 & W1 & T1 & M1 & F1 & V1). rewrite W1. set (r' := match i_avg s1 with Some a => hd r (c_execute_ w [r] a) | None => r end).
    destruct (p_train_ sq true [r'] (i_w s)) as [p [e|]] eqn:EP; cbn [bnd on fst snd]; [intros X; discriminate X|]. cbn [set_w i_w i_td i_ep]. change (p_live (p_count 1 p)) with (p_live p). destruct (p_live p) as [l|] eqn:EL; [|intros X; discriminate X].
    assert (PI : p_iter p = p_iter (i_w s)). { unfold p_train_ in EP. destruct (amnesic _ _) as [[w1 w2]|]; [|discriminate]. destruct (p_out (i_w s)); [|discriminate]. destruct (p_live (i_w s)) as [l0|]; [|discriminate]. destruct (p_in (i_w s)); [|discriminate]. destruct (comps _ _ _ _ _ _ _) as [[[us vns] ds]|]; [|discriminate]. injection EP as <-. reflexivity. }
    set (y := tab (length (l_v l)) _). rewrite T1. cbn [set_td set_w i_ep i_td i_mca i_sf]. assert (EE : i_ep s1 = i_ep s) by apply O1. rewrite EE.
    assert (VL : forall q : isfa, p_live (i_w q) = Some l -> vectors (i_w q) = l_v l) by (intros q Hq; unfold vectors; now rewrite Hq).
    destruct (i_ep s) as [[|]|] eqn:EPS; [| |].
    - intros X. injection X as <- <-. split; [exact O1|]. cbn [set_td set_w i_avg i_w i_mca i_sf]. split; [exact V1|]. split; [cbn [p_count p_iter]; now rewrite PI|]. split; [now exists p|]. split; [intros _; now rewrite M1, F1|easy].
    - rewrite M1. destruct (m_train_ sq (td_exec (length (l_v l)) y (td_step y (i_td s))) (i_mca s)) as [m [e|]] eqn:EM; cbn [bnd on fst snd]; [intros X; discriminate X|]. cbn [set_mca i_mca i_sf i_init set_td set_w]. change (m_live (m_count (length (td_exec (length (l_v l)) y (td_step y (i_td s)))) m)) with (m_live m). destruct (m_live m) as [[v ds]|] eqn:EV; [|intros X; discriminate X]. rewrite F1. destruct (i_sf s) as [old|] eqn:ES; [|intros X; discriminate X]. intros X. injection X as <- <-.
      split; [exact O1|]. cbn [set_sf set_mca set_td set_w i_avg i_w i_mca i_sf]. split; [exact V1|]. split; [cbn [p_count p_iter]; now rewrite PI|]. split; [now exists p|]. split; [easy|]. intros _. unfold vectors, mvecs. cbn [p_count p_live m_count m_live]. rewrite EL, EV. cbn [fst]. split; [reflexivity|]. split; [now exists old|]. exists y, (td_exec (length (l_v l)) y (td_step y (i_td s))). split; [reflexivity|]. split; [reflexivity|]. now exists m.
    - rewrite M1. destruct (m_train_ sq (td_exec (length (l_v l)) y (td_step y (i_td s))) (i_mca s)) as [m [e|]] eqn:EM; cbn [bnd on fst snd]; [intros X; discriminate X|]. cbn [set_mca i_mca i_sf i_init set_td set_w]. change (m_live (m_count (length (td_exec (length (l_v l)) y (td_step y (i_td s)))) m)) with (m_live m). destruct (m_live m) as [[v ds]|] eqn:EV; [|intros X; discriminate X]. rewrite F1. destruct (i_sf s) as [old|] eqn:ES; [|intros X; discriminate X]. intros X. injection X as <- <-.
      split; [exact O1|]. cbn [set_sf set_mca set_td set_w i_avg i_w i_mca i_sf]. split; [exact V1|]. split; [cbn [p_count p_iter]; now rewrite PI|]. split; [now exists p|]. split; [easy|]. intros _. unfold vectors, mvecs. cbn [p_count p_live m_count m_live]. rewrite EL, EV. cbn [fst]. split; [reflexivity|]. split; [now exists old|]. exists y, (td_exec (length (l_v l)) y (td_step y (i_td s))). split; [reflexivity|]. split; [reflexivity|]. now exists m.
  Qed.

  (** ** C314: the running mean: what the weights add up to *)
  Definition rowsum (x : list vec) : vec := fun i => fsum (map (fun r : vec => r i) x).
  Definition cmean (w N : nat) (S : vec) (a : cent) : Prop := c_n a = None /\ c_iter a = N /\ exists v, c_avg a = Some v /\ forall i, i < w -> (fn N * v i)%of = S i.
  Definition mean_of (w N : nat) (S : vec) (s : isfa) : Prop := (exists a, i_avg s = Some a /\ cmean w N S a) /\ p_iter (i_w s) = N.
  Lemma cmean_step w N S (a : cent) (r v : vec) : cmean w N S a -> c_avg a = Some v -> cmean w (N + 1) (fun i => S i + r i)%of (mkC (c_n a) (c_dim a) (Some (tab w (fun i => (f1 - cent_alpha a) * v i + cent_alpha a * r i)%of)) (c_iter a + 1) (c_started a)).
  Proof.
    intros (C1 & C2 & v' & C3 & C4) E. rewrite C3 in E. injection E as ->. split; [exact C1|]. split; [cbn; now rewrite C2|]. eexists. split; [reflexivity|]. intros i Hi. rewrite tab_in by exact Hi. unfold cent_alpha. rewrite C1, C2. rewrite <- (C4 i Hi). rewrite fn_add. cbn [fn]. assert (NZ : (fn N + f1)%of <> (f0 : K)). { intros Z. apply (fn_ne (K := K) (N + 1)); [lia|]. rewrite fn_add. cbn [fn]. transitivity (fn N + f1 : K)%of; [ring|exact Z]. } field. exact NZ.
  Qed.
  Lemma each_c w x : forall N S (a : cent), cmean w N S a -> exists a', each (c_step w) x a = (a', None) /\ cmean w (N + length x) (fun i => S i + rowsum x i)%of a'.
  Proof.
    induction x as [|r x IH]; intros N S a C; cbn [each].
    - exists a. split; [reflexivity|]. destruct C as (C1 & C2 & v & C3 & C4). split; [exact C1|]. split; [cbn; lia|]. exists v. split; [exact C3|]. intros i Hi. cbn [length]. rewrite Nat.add_0_r, (C4 i Hi). unfold rowsum. cbn. ring.
    - pose proof C as (C1 & C2 & v & C3 & C4). unfold c_step at 1. rewrite C3. cbn [bnd]. destruct (IH _ _ _ (cmean_step w N S a r v C C3)) as (a' & E & P1 & P2 & v' & P3 & P4). exists a'. split; [exact E|]. split; [exact P1|]. split; [cbn [length]; lia|]. exists v'. split; [exact P3|]. intros i Hi. cbn [length]. replace (N + Datatypes.S (length x)) with (N + 1 + length x) by lia. rewrite (P4 i Hi). unfold rowsum. cbn [map fsum]. ring.
  Qed.
  Lemma mean_step w r N S (s s' : isfa) ch : i_step w r s = ((s', None), ch) -> mean_of w N S s -> mean_of w (N + 1) (fun i => S i + r i)%of s'.
  Proof.
    intros E ((a & EA & C) & P). destruct (step_shape w r s s' ch E) as (_ & V & I & _). rewrite EA in V. destruct V as (v & V1 & V2). split; [|now rewrite I, P]. eexists. split; [exact V2|]. now apply cmean_step.
  Qed.
  (** the loop of an incremental call *)
  Definition row w ep (r : vec) (s : isfa) : out isfa := bnd (i_train_ sq w [r] ep s) (fun s => (set_run s (i_iter s + 1) true, None)).
  Lemma row_shape w ep r (s s' : isfa) : i_batch s = false -> row w ep r s = (s', None) -> exists s1 ch, i_step w r (match ep with Some b => set_ep s (Some b) | None => s end) = ((s1, None), ch) /\ s' = set_run (set_res s1 ch (p_proj (i_w s1))) (i_iter s1 + 1) true.
  Proof.
    intros B. unfold row, i_train_. rewrite B. destruct (i_step w r _) as [[s1 [e|]] ch]; cbn [i_end bnd]; [intros X; discriminate X|]. intros X. injection X as <-. now exists s1, ch.
  Qed.
  Lemma row_keeps w ep r (s s' : isfa) : i_batch s = false -> row w ep r s = (s', None) -> i_batch s' = false /\ i_init s' = i_init s /\ i_in s' = i_in s /\ forall N S, mean_of w N S s -> mean_of w (N + 1) (fun i => S i + r i)%of s'.
  Proof.
    intros B E. destruct (row_shape w ep r s s' B E) as (s1 & ch & ES & ->). set (s0 := match ep with Some b => set_ep s (Some b) | None => s end) in *. destruct (step_shape w r s0 s1 ch ES) as ((O1 & _ & _ & O4 & _ & _ & _ & _ & O9) & _). cbn [set_run set_res i_batch i_init i_in].
    assert (Z : i_batch s0 = i_batch s /\ i_init s0 = i_init s /\ i_in s0 = i_in s /\ i_avg s0 = i_avg s /\ i_w s0 = i_w s) by (unfold s0; destruct ep; repeat split). destruct Z as (Z1 & Z2 & Z3 & Z4 & Z5). split; [congruence|]. split; [congruence|]. split; [congruence|]. intros N S M. assert (M0 : mean_of w N S s0) by (unfold mean_of; rewrite Z4, Z5; exact M). exact (mean_step w r N S s0 s1 ch ES M0).
  Qed.
  Lemma rows_keep w ep x : forall (s s' : isfa), i_batch s = false -> each (row w ep) x s = (s', None) -> i_batch s' = false /\ i_init s' = i_init s /\ i_in s' = i_in s /\ forall N S, mean_of w N S s -> mean_of w (N + length x) (fun i => S i + rowsum x i)%of s'.
  Proof.
    induction x as [|r x IH]; intros s s' B E; cbn [each] in E.
    - injection E as <-. split; [exact B|]. split; [reflexivity|]. split; [reflexivity|]. intros N S ((a & EA & C1 & C2 & v & C3 & C4) & P). cbn [length]. rewrite Nat.add_0_r. split; [|exact P]. exists a. split; [exact EA|]. split; [exact C1|]. split; [exact C2|]. exists v. split; [exact C3|]. intros i Hi. rewrite (C4 i Hi). unfold rowsum. cbn. ring.
    - destruct (row w ep r s) as [s1 [e|]] eqn:ER; cbn [bnd] in E; [discriminate|]. destruct (row_keeps w ep r s s1 B ER) as (B1 & I1 & N1 & H1). destruct (IH s1 s' B1 E) as (B2 & I2 & N2 & H2). split; [exact B2|]. split; [congruence|]. split; [congruence|]. intros N S M. destruct (H2 _ _ (H1 _ _ M)) as ((a & EA & C1 & C2 & v & C3 & C4) & P). cbn [length]. replace (N + Datatypes.S (length x)) with (N + 1 + length x) by lia. split; [|exact P].
      exists a. split; [exact EA|]. split; [exact C1|]. split; [exact C2|]. exists v. split; [exact C3|]. intros i Hi. rewrite (C4 i Hi). unfold rowsum. cbn [map fsum]. ring.
  Qed.
  (** how a successful incremental call of train is made up *)
  Lemma train_inv w x ep (s s' : isfa) : i_batch s = false -> i_train w x ep s = (s', None) -> exists s1 s2, i_check_input w (length x) s = (s1, None) /\ i_check_params sq rnd w x s1 = (s2, None) /\ i_batch s2 = false /\ each (row w ep) x (set_run s2 (i_iter s2) true) = (s', None).
  Proof.
    intros B E. unfold IncModel.i_train in E. destruct (check_input_keeps w (length x) s) as (_ & _ & _ & _ & _ & KB & _). destruct (i_check_input w (length x) s) as [s1 [e|]]; cbn [bnd fst] in *; [discriminate|]. rewrite KB, B in E. cbn [andb] in E. exists s1.
    assert (PB : forall r, r = i_check_params sq rnd w x s1 -> snd r = None -> i_batch (fst r) = i_batch s1).
    { intros [q e] EQ. unfold i_check_params in EQ. destruct (i_init s1); cbn [bnd] in EQ; [injection EQ as -> ->; reflexivity|]. unfold i_setup in EQ. destruct (i_avg s1) as [a|]; [|cbn [bnd] in EQ; injection EQ as -> ->; discriminate]. destruct (bnd (c_checks w (length x) a) (c_pre w x)) as [a' [e'|]]; unfold on in EQ; cbn [fst snd bnd] in EQ; [injection EQ as -> ->; discriminate|].
      cbn [set_avg i_avg i_w] in EQ. set (x' := c_execute_ w x a') in *. destruct (bnd (p_checks sq (rnd 0) w (length x') (i_w s1)) (p_pre sq (rnd 0) true w x')) as [p' [e'|]]; cbn [fst snd bnd] in EQ; [injection EQ as -> ->; discriminate|]. cbn [set_w i_w] in EQ. destruct (p_execute_ x' None p') as [y|e']; [|cbn [bnd] in EQ; injection EQ as -> ->; discriminate]. cbn [set_td set_w i_w i_mca i_td set_avg] in EQ.
      destruct (m_checks sq (rnd 1) _ (length x') (i_mca s1)) as [m' [e'|]]; cbn [fst snd bnd] in EQ; [injection EQ as -> ->; discriminate|]. cbn [set_mca i_w i_mca set_td set_w set_avg] in EQ. destruct (p_init p') as [[k u]|]; [|cbn [bnd] in EQ; injection EQ as -> ->; discriminate]. destruct (m_init m') as [[k2 v]|]; [|cbn [bnd] in EQ; injection EQ as -> ->; discriminate]. destruct (negb (length u =? k2)); [cbn [bnd] in EQ; injection EQ as -> ->; discriminate|].
      intros _. cbn [set_sf i_out set_mca set_td set_w set_avg] in EQ. destruct (i_out s1); cbn [bnd] in EQ; injection EQ as -> ->; reflexivity. }
    destruct (i_check_params sq rnd w x s1) as [s2 [e|]]; cbn [bnd] in E; [discriminate|]. specialize (PB _ eq_refl eq_refl). cbn [fst] in PB. exists s2. split; [reflexivity|]. split; [reflexivity|]. split; [congruence|]. cbn [set_run i_batch] in E. rewrite PB, KB, B in E. exact E.
  Qed.
  Lemma params_inited w x (s1 s2 : isfa) : i_init s1 <> None -> i_check_params sq rnd w x s1 = (s2, None) -> s2 = i_flag s1.
  Proof. intros I E. unfold i_check_params in E. destruct (i_init s1); [|easy]. cbn [bnd] in E. now injection E as <-. Qed.
  (** on a node set up before *)
  Lemma mean_more w x ep (s s' : isfa) N S : i_batch s = false -> i_init s <> None -> i_train w x ep s = (s', None) -> mean_of w N S s -> i_batch s' = false /\ i_init s' <> None /\ mean_of w (N + length x) (fun i => S i + rowsum x i)%of s'.
  Proof.
    intros B I E M. destruct (train_inv w x ep s s' B E) as (s1 & s2 & E1 & E2 & B2 & E3). destruct (check_input_keeps w (length x) s) as (KA & KI & _ & _ & _ & KB & _ & _ & _ & KP & _). rewrite E1 in *. cbn [fst] in *. rewrite <- KI in I. pose proof (params_inited w x s1 s2 I E2) as ->.
    destruct (rows_keep w ep x (set_run (i_flag s1) (i_iter (i_flag s1)) true) s' B2 E3) as (B3 & I3 & _ & H3). split; [exact B3|]. split; [rewrite I3; exact I|]. apply H3. unfold mean_of in *. cbn [set_run i_flag set_ep i_avg i_w]. now rewrite KA, KP.
  Qed.
  Lemma checks_iter rn w m (p p' : pca (K := K)) : p_checks sq rn w m p = (p', None) -> p_iter p' = p_iter p /\ p_batch p' = p_batch p /\ p_started p' = p_started p.
  Proof.
    unfold p_checks, p_check_input. destruct (agree (p_in p) w && negb (m =? 0)); cbn [bnd]; [|intros X; discriminate X]. unfold p_check_params. cbn [p_init p_in p_out]. destruct (p_init p); [intros X; injection X as <-; repeat split|]. unfold p_set_init. cbn [p_in p_out p_live p_amn p_rel p_tot p_red p_iter p_started p_batch].
    destruct (negb (agree _ _)); [intros X; discriminate X|]. destruct (negb (agree _ _)); [intros X; discriminate X|]. destruct (p_live p); [intros X; injection X as <-; repeat split|]. destruct (existsb _ _); [intros X; discriminate X|]. intros X; injection X as <-; repeat split.
  Qed.
  Lemma train1_iter white x (p p' : pca (K := K)) : p_train_ sq white x p = (p', None) -> p_iter p' = p_iter p /\ p_batch p' = p_batch p.
  Proof.
    unfold p_train_. destruct (amnesic _ _) as [[w1 w2]|]; [|intros X; discriminate X]. destruct (p_out p); [|intros X; discriminate X]. destruct (p_live p); [|intros X; discriminate X]. destruct x as [|r [|? ?]]; try (intros X; discriminate X). destruct (p_in p); [|intros X; discriminate X]. destruct (comps _ _ _ _ _ _ _) as [[[us vns] ds]|]; [|intros X; discriminate X]. intros X. injection X as <-. split; reflexivity.
  Qed.
  Lemma train_iter rn white w x (p p' : pca (K := K)) : p_batch p = false -> p_train sq rn white w x p = (p', None) -> p_iter p' = p_iter p + length x /\ p_batch p' = false.
  Proof.
    intros B. unfold p_train. destruct (p_checks sq rn w (length x) p) as [p1 [e|]] eqn:E; cbn [bnd]; [intros X; discriminate X|]. destruct (checks_iter rn w (length x) p p1 E) as (I1 & B1 & _). cbn [p_batch]. rewrite B1, B. rewrite <- I1. clear E I1 B1.
    set (q := mkP _ _ _ _ _ _ _ _ _ _ _). change (p_iter p1) with (p_iter q). assert (BQ : p_batch q = false) by reflexivity. clearbody q. revert q BQ. induction x as [|r x IH]; intros q BQ; cbn [each]; [intros X; injection X as <-; cbn; split; [lia|exact BQ]|].
    destruct (p_train_ sq white [r] q) as [q1 [e|]] eqn:E1; cbn [bnd]; [intros X; discriminate X|]. destruct (train1_iter white [r] q q1 E1) as (I1 & B1). intros X. destruct (IH (p_count 1 q1) ltac:(cbn; congruence) X) as (I2 & B2). split; [|exact B2]. rewrite I2. cbn [p_count p_iter length]. lia.
  Qed.
  Lemma pre_iter rn white w x (p p' : pca (K := K)) : p_batch p = false -> p_started p = false -> p_pre sq rn white w x p = (p', None) -> p_iter p' = p_iter p + length x.
  Proof.
    intros B S. unfold p_pre. rewrite S. destruct (p_train sq rn white w x p) as [p1 [e|]] eqn:E; cbn [bnd]; [intros X; discriminate X|]. destruct (train_iter rn white w x p p1 B E) as (I1 & _). destruct (p_checks sq rn w (length x) p1) as [p2 [e|]] eqn:E2; cbn [bnd]; [intros X; discriminate X|]. destruct (checks_iter rn w (length x) p1 p2 E2) as (I2 & _). intros X. injection X as <-. cbn [p_iter]. congruence.
  Qed.
  Lemma mchecks_keep rn w m (q q' : mca (K := K)) : m_checks sq rn w m q = (q', None) -> m_iter q' = m_iter q.
  Proof.
    unfold m_checks, m_check_input. destruct (agree (m_in q) w && negb (m =? 0)); cbn [bnd]; [|intros X; discriminate X]. unfold m_check_params. cbn [m_init m_in m_out]. destruct (m_init q); [intros X; injection X as <-; reflexivity|]. unfold m_set_init. cbn [m_in m_out m_live m_eps m_gamma m_norm m_iter m_started m_batch].
    destruct (negb (agree _ _)); [intros X; discriminate X|]. destruct (negb (agree _ _)); [intros X; discriminate X|]. intros X; injection X as <-; reflexivity.
  Qed.
  Lemma setup_shape w x (s s' : isfa) : x <> [] -> i_init s = None -> i_avg s = Some (mkC None None None 0 false) -> p_iter (i_w s) = 0 -> p_started (i_w s) = false -> p_batch (i_w s) = false -> i_setup sq rnd w x s = (s', None) ->
    mean_of w (length x) (rowsum x) s' /\ i_ep s' = i_ep s /\ m_iter (i_mca s') = m_iter (i_mca s) /\ i_sf s' = i_init s' /\ exists k u k2 v, p_init (i_w s') = Some (k, u) /\ m_init (i_mca s') = Some (k2, v) /\ i_init s' = Some (mult w u v).
  Proof.
    intros NE I A P1 P2 P3 EQ. unfold i_setup in EQ. rewrite A in EQ.
    assert (CC : exists a', bnd (c_checks w (length x) (mkC None None None 0 false)) (c_pre w x) = (a', None) /\ cmean w (length x) (rowsum x) a').
    { assert (M0 : negb (length x =? 0) = true) by (destruct x; [easy|reflexivity]). unfold c_checks at 1. cbn [c_dim agree c_avg c_n c_iter c_started]. rewrite M0. cbn [andb bnd]. unfold c_pre. cbn [c_started]. unfold c_checks at 1. cbn [c_dim agree c_avg c_n c_iter c_started]. rewrite Nat.eqb_refl, M0. cbn [andb bnd c_n c_dim c_avg c_iter].
      set (a0 := mkC None (Some w) (Some (tab w vzero)) 0 true). assert (C0 : cmean w 0 (fun _ => f0) a0) by (split; [reflexivity|split; [reflexivity|exists (tab w vzero); split; [reflexivity|intros i Hi; cbn [fn]; ring]]]). destruct (each_c w x 0 (fun _ => f0) a0 C0) as (a' & EA & CA). rewrite EA. cbn [bnd].
      assert (DA : c_dim a' = Some w). { assert (G : forall x (a b : cent), each (c_step w) x a = (b, None) -> c_dim b = c_dim a). { clear. induction x as [|r x IH]; intros a b E; cbn [each] in E; [now injection E as <-|]. unfold c_step at 1 in E. destruct (c_avg a); cbn [bnd] in E; [|discriminate]. now apply IH in E. } apply G in EA. exact EA. }
      destruct CA as (CA1 & CA2 & v & CA3 & CA4). unfold c_checks. rewrite DA. cbn [agree]. rewrite Nat.eqb_refl, M0. cbn [andb]. eexists. split; [reflexivity|]. split; [exact CA1|]. split; [exact CA2|]. exists v. split; [cbn [c_avg]; now rewrite CA3|]. intros i Hi. change (0 + length x) with (length x) in CA4. rewrite (CA4 i Hi). ring. }
    destruct CC as (a' & EA & CA). rewrite EA in EQ. unfold on in EQ. cbn [fst snd bnd set_avg i_avg i_w] in EQ. set (x' := c_execute_ w x a') in *. assert (LX : length x' = length x) by (unfold x', c_execute_; destruct (c_iter a' <=? 1); [reflexivity|now rewrite map_length]).
    destruct (bnd (p_checks sq (rnd 0) w (length x') (i_w s)) (p_pre sq (rnd 0) true w x')) as [p' [e'|]] eqn:EP; cbn [fst snd bnd] in EQ; [discriminate|]. cbn [set_w i_w] in EQ.
    assert (PI : p_iter p' = length x). { destruct (p_checks sq (rnd 0) w (length x') (i_w s)) as [p1 [e|]] eqn:E1; cbn [bnd] in EP; [discriminate|]. destruct (checks_iter (rnd 0) w (length x') _ p1 E1) as (J1 & J2 & J3). rewrite (pre_iter (rnd 0) true w x' p1 p' ltac:(congruence) ltac:(congruence) EP). lia. }
    destruct (p_execute_ x' None p') as [y|e']; [|discriminate]. cbn [set_td set_w i_w i_mca i_td set_avg] in EQ. destruct (m_checks sq (rnd 1) _ (length x') (i_mca s)) as [m' [e'|]] eqn:EM; cbn [fst snd bnd] in EQ; [discriminate|]. apply mchecks_keep in EM. cbn [set_mca i_w i_mca set_td set_w set_avg] in EQ.
    destruct (p_init p') as [[k u]|] eqn:EU; [|discriminate]. destruct (m_init m') as [[k2 v]|] eqn:EV; [|discriminate]. destruct (negb (length u =? k2)); [discriminate|]. cbn [set_sf i_out set_mca set_td set_w set_avg] in EQ.
    destruct (i_out s); injection EQ as <-; cbn [set_dims set_sf set_mca set_td set_w set_avg i_avg i_w i_ep i_mca i_sf i_init]; (split; [split; [exists a'; split; [reflexivity|exact CA]|exact PI]|split; [reflexivity|split; [exact EM|split; [reflexivity|exists k, u, k2, v; repeat split; assumption]]]]).
  Qed.
  (** a node as it comes out of the constructor *)
  Definition fresh (s : isfa) : Prop := i_init s = None /\ i_avg s = Some (mkC None None None 0 false) /\ p_iter (i_w s) = 0 /\ p_started (i_w s) = false /\ p_batch (i_w s) = false /\ i_ep s = None /\ i_batch s = false /\ m_iter (i_mca s) = 0.
  Lemma new_fresh eps wdim amn ipca imca din dout : fresh (isfa_new eps wdim true None amn ipca imca din dout). Proof. repeat split. Qed.
  Lemma first_inv w x ep (s s' : isfa) : fresh s -> i_train w x ep s = (s', None) -> exists s2, x <> [] /\ mean_of w (length x) (rowsum x) s2 /\ i_ep s2 = Some true /\ m_iter (i_mca s2) = 0 /\ i_sf s2 = i_init s2 /\ i_batch s2 = false /\ i_in s2 = Some w /\
    (exists k u k2 v, p_init (i_w s2) = Some (k, u) /\ m_init (i_mca s2) = Some (k2, v) /\ i_init s2 = Some (mult w u v)) /\ each (row w ep) x s2 = (s', None).
  Proof.
    intros (F1 & F2 & F3 & F4 & F5 & F6 & F7 & F8) E. destruct (train_inv w x ep s s' F7 E) as (s1 & s2 & E1 & E2 & B2 & E3). destruct (check_input_keeps w (length x) s) as (KA & KI & KM & _ & KE & KB & _ & _ & _ & KP & KS & KPB & _ & KN). rewrite E1 in *. cbn [fst snd] in *. destruct (KN eq_refl) as (NW & NX). exists (set_run s2 (i_iter s2) true).
    assert (NE : x <> []) by (destruct x; [easy|discriminate]). split; [exact NE|]. unfold i_check_params in E2. rewrite KI, F1 in E2. destruct (i_setup sq rnd w x s1) as [s3 [e|]] eqn:ES; cbn [bnd] in E2; [discriminate|]. injection E2 as <-.
    destruct (setup_shape w x s1 s3 NE ltac:(congruence) ltac:(congruence) ltac:(congruence) ltac:(congruence) ltac:(congruence) ES) as (S1 & S2 & S3 & S4 & S5).
    assert (IN3 : i_in s3 = Some w). { unfold i_setup in ES. rewrite KA, F2 in ES. destruct (bnd (c_checks _ _ _) _) as [a' [e|]]; unfold on in ES; cbn [fst snd bnd] in ES; [discriminate|]. cbn [set_avg i_avg i_w] in ES. destruct (bnd (p_checks _ _ _ _ _) _) as [p' [e|]]; cbn [fst snd bnd] in ES; [discriminate|]. cbn [set_w i_w] in ES. destruct (p_execute_ _ _ _); [|discriminate]. cbn [set_td set_w i_w i_mca i_td set_avg] in ES. destruct (m_checks _ _ _ _ _) as [m' [e|]]; cbn [fst snd bnd] in ES; [discriminate|]. cbn [set_mca i_w i_mca set_td set_w set_avg] in ES.
      destruct (p_init p') as [[? ?]|]; [|discriminate]. destruct (m_init m') as [[? ?]|]; [|discriminate]. destruct (negb _); [discriminate|]. cbn [set_sf i_out set_mca set_td set_w set_avg] in ES. destruct (i_out s1); injection ES as <-; exact NW. }
    split; [exact S1|]. cbn [set_run i_flag set_ep i_ep i_mca i_sf i_init i_batch i_w i_in]. rewrite S2, KE, F6. split; [reflexivity|]. split; [congruence|]. split; [exact S4|]. split; [exact B2|]. split; [exact IN3|]. split; [exact S5|]. exact E3.
  Qed.
  Theorem C314_mean : forall w eps wdim amn ipca imca din dout x xs s', bnd (i_train w x None (isfa_new eps wdim true None amn ipca imca din dout)) (each (fun x => i_train w x None) xs) = (s', None) ->
    let N := length x + length x + length (concat xs) in p_iter (i_w s') = N /\ exists a v, i_avg s' = Some a /\ c_iter a = N /\ c_avg a = Some v /\ forall i, i < w -> (fn N * v i)%of = (rowsum x i + rowsum x i + rowsum (concat xs) i)%of.
  Proof.
    intros w eps wdim amn ipca imca din dout x xs s' E. destruct (i_train w x None _) as [s1 [e|]] eqn:E1; cbn [bnd] in E; [discriminate|]. destruct (first_inv w x None _ s1 (new_fresh _ _ _ _ _ _ _) E1) as (s2 & NE & M2 & _ & _ & _ & B2 & _ & (k & u & k2 & v & _ & _ & I2) & R). destruct (rows_keep w None x s2 s1 B2 R) as (B3 & I3 & _ & H3). apply H3 in M2. assert (I1 : i_init s1 <> None) by (rewrite I3, I2; discriminate). clear E1 R H3 I2 I3 B2 s2.
    assert (G : forall xs (s s' : isfa) N S, i_batch s = false -> i_init s <> None -> each (fun x => i_train w x None) xs s = (s', None) -> mean_of w N S s -> mean_of w (N + length (concat xs)) (fun i => S i + rowsum (concat xs) i)%of s').
    { clear. induction xs as [|y xs IH]; intros s s' N S B I E M; cbn [each] in E.
      - injection E as <-. destruct M as ((a & EA & C1 & C2 & v & C3 & C4) & P). cbn [concat length]. rewrite Nat.add_0_r. split; [|exact P]. exists a. split; [exact EA|]. split; [exact C1|]. split; [exact C2|]. exists v. split; [exact C3|]. intros i Hi. rewrite (C4 i Hi). unfold rowsum. cbn. ring.
      - destruct (i_train w y None s) as [s1 [e|]] eqn:E1; cbn [bnd] in E; [discriminate|]. destruct (mean_more w y None s s1 N S B I E1 M) as (B1 & I1 & M1). specialize (IH s1 s' _ _ B1 I1 E M1). cbn [concat]. rewrite app_length. replace (N + (length y + length (concat xs))) with (N + length y + length (concat xs)) by lia. destruct IH as ((a & EA & C1 & C2 & v & C3 & C4) & P). split; [|exact P]. exists a. split; [exact EA|]. split; [exact C1|]. split; [exact C2|]. exists v. split; [exact C3|]. intros i Hi. rewrite (C4 i Hi). unfold rowsum. rewrite map_app, fsum_app. ring. }
    destruct (G xs s1 s' _ _ B3 I1 E M2) as ((a & EA & C1 & C2 & v' & C3 & C4) & P). split; [exact P|]. exists a, v'. split; [exact EA|]. split; [exact C2|]. split; [exact C3|exact C4].
  Qed.

  (** ** C315: the first call *)
  Theorem C315_first : forall w x (s s' : isfa), fresh s -> i_train w x None s = (s', None) -> i_sf s' = i_init s' /\ i_init s' <> None /\ i_change s' = None /\ m_iter (i_mca s') = 0 /\ i_ep s' = Some true.
  Proof.
    intros w x s s' F E. destruct (first_inv w x None s s' F E) as (s2 & NE & _ & EP & MI & SF & B2 & _ & (k & u & k2 & v & _ & _ & I2) & R).
    assert (G : forall x (s s' : isfa), i_batch s = false -> i_ep s = Some true -> each (row w None) x s = (s', None) -> i_sf s' = i_sf s /\ i_init s' = i_init s /\ i_mca s' = i_mca s /\ i_ep s' = Some true /\ (x <> [] -> i_change s' = None)).
    { clear. induction x as [|r x IH]; intros s s' B EP E; cbn [each] in E; [injection E as <-; repeat split; [exact EP|easy]|]. destruct (row w None r s) as [s1 [e|]] eqn:ER; cbn [bnd] in E; [discriminate|]. destruct (row_shape w None r s s1 B ER) as (t & ch & ET & ->). destruct (step_shape w r s t ch ET) as ((O1 & O2 & O3 & O4 & _ & _ & _ & _ & O9) & _ & _ & _ & HT & _). destruct (HT EP) as (H1 & H2 & ->).
      pose proof (fun B1 B2 => IH _ s' B1 B2 E) as IHE. destruct (IHE (eq_trans O9 B) (eq_trans O3 EP)) as (G1 & G2 & G3 & G4 & G5). cbn [set_run set_res i_sf i_init i_mca] in *. split; [congruence|]. split; [congruence|]. split; [congruence|]. split; [exact G4|]. intros _. destruct x as [|r2 x]; [cbn [each] in E; injection E as <-; reflexivity|apply G5; discriminate]. }
    destruct (G x s2 s' B2 EP R) as (G1 & G2 & G3 & G4 & G5). split; [congruence|]. split; [rewrite G2, I2; discriminate|]. split; [now apply G5|]. split; [congruence|exact G4].
  Qed.

  (** ** C317: the slow features *)
  Theorem C317_compose : forall w r ep (s s' : isfa), i_batch s = false -> i_init s <> None -> i_train w [r] ep s = (s', None) ->
    match ep with Some b => b = true | None => i_ep s = None end \/ i_sf s' = Some (mult w (vectors (i_w s')) (mvecs (i_mca s'))).
  Proof.
    intros w r ep s s' B I E. destruct (train_inv w [r] ep s s' B E) as (s1 & s2 & E1 & E2 & B2 & E3). destruct (check_input_keeps w (length [r]) s) as (_ & KI & _ & _ & KE & _). rewrite E1 in *. cbn [fst] in *. rewrite <- KI in I. pose proof (params_inited w [r] s1 s2 I E2) as ->. cbn [each] in E3. destruct (row w ep r _) as [s4 [e|]] eqn:ER; cbn [bnd] in E3; [discriminate|]. injection E3 as ->.
    destruct (row_shape w ep r (set_run (i_flag s1) (i_iter (i_flag s1)) true) s' B2 ER) as (t & ch & ET & ->). destruct (step_shape w r _ t ch ET) as (_ & _ & _ & _ & _ & HF).
    assert (EPS : (match ep with Some b => b = true | None => i_ep s = None end) \/ i_ep (match ep with Some b => set_ep (set_run (i_flag s1) (i_iter (i_flag s1)) true) (Some b) | None => set_run (i_flag s1) (i_iter (i_flag s1)) true end) <> Some true).
    { destruct ep as [[|]|]; [now left|right; discriminate|]. cbn [set_run i_flag set_ep i_ep]. rewrite KE. destruct (i_ep s) as [[|]|]; [right; discriminate|right; discriminate|now left]. }
    destruct EPS as [L|N]; [now left|right]. destruct (HF N) as (H & _). exact H.
  Qed.
  (** execute is then the three nodes one after the other *)
  Theorem C317_execute : forall w x (s : isfa) a l q V, i_sf s = Some (mult w (vectors (i_w s)) (mvecs (i_mca s))) -> i_avg s = Some a -> p_live (i_w s) = Some l -> p_in (i_w s) = Some w -> q = length (l_v l) -> m_in (i_mca s) = Some q -> m_live (i_mca s) = Some V ->
    exists y, p_execute_ (c_execute_ w x a) None (i_w s) = inl y /\ i_execute_ w x s = m_execute_ (map (fun r i => nth i r f0) y) (i_mca s).
  Proof.
    intros w x s a l q V SF A L IN Q MI ML. unfold p_execute_. rewrite L, IN. eexists. split; [reflexivity|]. unfold i_execute_, m_execute_. rewrite SF, A, ML, MI. f_equal. rewrite !map_map. apply map_ext. intros r. unfold mult. rewrite map_map. unfold mvecs, vectors. rewrite ML, L. apply map_ext. intros m.
    rewrite (dot_ext w r r _ (fun i => fsumn (length (l_v l)) (fun k => nth k (l_v l) vzero i * m k)%of) (fun _ _ => eq_refl)) by (intros i Hi; now rewrite tab_in). rewrite (dot_fsumn w (length (l_v l)) r (fun k i => nth k (l_v l) vzero i * m k)%of). unfold dot at 2. rewrite Q. apply fsumn_ext. intros k Hk.
    rewrite (nth_indep _ f0 (dot w r vzero)) by (now rewrite map_length). rewrite map_nth. rewrite (dot_ext w r r (fun i => nth k (l_v l) vzero i * m k)%of (fun i => m k * nth k (l_v l) vzero i)%of) by (reflexivity || (intros; ring)). rewrite dot_scale. ring.
  Qed.
  (** at the start of an episode they are not brought up to date *)
  Theorem C317_stale : forall w r (s s' : isfa), i_batch s = false -> i_init s <> None -> i_train w [r] (Some true) s = (s', None) -> i_sf s' = i_sf s /\ i_mca s' = i_mca s /\ i_change s' = None /\ p_iter (i_w s') = p_iter (i_w s) + 1.
  Proof.
    intros w r s s' B I E. destruct (train_inv w [r] (Some true) s s' B E) as (s1 & s2 & E1 & E2 & B2 & E3). destruct (check_input_keeps w (length [r]) s) as (_ & KI & KM & KSF & KE & _ & _ & _ & _ & KP & _). rewrite E1 in *. cbn [fst] in *. rewrite <- KI in I. pose proof (params_inited w [r] s1 s2 I E2) as ->. cbn [each] in E3. destruct (row w (Some true) r _) as [s4 [e|]] eqn:ER; cbn [bnd] in E3; [discriminate|]. injection E3 as ->.
    destruct (row_shape w (Some true) r (set_run (i_flag s1) (i_iter (i_flag s1)) true) s' B2 ER) as (t & ch & ET & ->). destruct (step_shape w r _ t ch ET) as (_ & _ & PI & _ & HT & _). destruct (HT eq_refl) as (H1 & H2 & ->). cbn [set_run set_res set_ep i_flag i_sf i_mca i_change i_w] in *. split; [congruence|]. split; [congruence|]. split; [reflexivity|]. congruence.
  Qed.

  (** ** C318: the inverse; the rows of P are the pseudo inverse: P sf = 1 *)
  Theorem C318_inverse : forall w (s : isfa) a v sf (P : list vec) y, i_avg s = Some a -> c_avg a = Some v -> 2 <= c_iter a -> i_sf s = Some sf -> length P = length sf -> length y = length sf -> (forall j k, j < length sf -> k < length sf -> dot w (nthv j P) (nthv k sf) = delta j k) ->
    exists x, i_inverse_ P y s = inl x /\ i_execute_ w [x] s = inl [y].
  Proof.
    intros w s a v sf P y A CV CI SF LP LY PI. unfold i_inverse_. rewrite A, CV. eexists. split; [reflexivity|]. unfold i_execute_. rewrite SF, A. unfold c_execute_. rewrite (proj2 (Nat.leb_gt _ _)) by lia. cbn [map]. do 2 f_equal. rewrite CV.
    assert (G : forall k, k < length sf -> dot w (tab w (fun i => fsum (map (fun p => (fst p * snd p i)%of) (combine y P)) + v i - v i)%of) (nthv k sf) = nth k y f0).
    { intros k Hk. rewrite (dot_ext w _ (fun i => fsum (map (fun p => (fst p * snd p i)%of) (combine y P))) _ (nthv k sf)); [|intros i Hi; rewrite tab_in by exact Hi; ring|reflexivity]. etransitivity; [apply dot_sym|]. etransitivity; [exact (dot_fsum w (nthv k sf) (combine y P) (fun p i => fst p * snd p i)%of)|].
      assert (S : forall (y : list K) (P : list vec), length y = length P -> fsum (map (fun p => dot w (nthv k sf) (fun i => fst p * snd p i)%of) (combine y P)) = fsumn (length y) (fun j => nth j y f0 * dot w (nthv j P) (nthv k sf))%of).
      { clear. induction y as [|b y IH]; intros [|p P] L; try discriminate; [reflexivity|]. cbn [combine map fsum length fst snd]. rewrite (IH P) by (now injection L). change (S (length y)) with (1 + length y). rewrite fsumn_split. apply f_equal2; [|reflexivity]. unfold fsumn. cbn [map seq fsum nth]. change (nthv 0 (p :: P)) with p. rewrite dot_scale, dot_sym. ring. }
      rewrite S by lia. rewrite LY. rewrite (fsumn_ext _ _ (fun j => nth j y f0 * delta k j)%of); [exact (fsumn_delta (length sf) (fun j => nth j y f0) k Hk)|]. intros j Hj. rewrite (PI j k Hj Hk). f_equal. unfold delta. destruct (Nat.eqb_spec j k), (Nat.eqb_spec k j); congruence. }
    apply (nth_ext _ _ (dot w (tab w (fun i => fsum (map (fun p => (fst p * snd p i)%of) (combine y P)) + v i - v i)%of) vzero) f0); [rewrite map_length; lia|]. intros k Hk. rewrite map_length in Hk. rewrite (map_nth (fun c => dot w _ c)). change (nth k sf vzero) with (nthv k sf). exact (G k Hk).
  Qed.

  (** ** C316: a call in batch mode is the calls with its rows, the first one starting an episode *)
  Definition upd (c : option K) (v : option nat) (k : nat) (st bt : bool) (s : isfa) : isfa := mkI (i_avg s) (i_w s) (i_td s) (i_mca s) (i_in s) (i_out s) (i_ep s) (i_init s) (i_sf s) c v k st bt.
  Definition updr c v k st bt (q : out isfa * option K) : out isfa * option K := ((upd c v k st bt (fst (fst q)), snd (fst q)), snd q).
  Lemma step_upd w r (s : isfa) c v k st bt : i_step w r (upd c v k st bt s) = updr c v k st bt (i_step w r s).
  Proof.
    unfold IncModel.i_step. change (i_avg (upd c v k st bt s)) with (i_avg s). destruct (i_avg s) as [a|] eqn:EA.
    - destruct (c_step w r a) as [a1 [e|]]; cbn [on fst snd]; [reflexivity|]. cbn [set_avg upd i_avg i_w].
      destruct (bnd (p_train_ sq true [hd r (c_execute_ w [r] a1)] (i_w s)) (fun p => (p_count 1 p, None))) as [p [e|]]; cbn [on fst snd]; [reflexivity|]. cbn [set_w set_avg upd i_w i_td i_ep]. destruct (p_live p) as [l|]; [|reflexivity]. cbn [set_td set_w set_avg upd i_ep i_td i_mca].
      (destruct (i_ep s) as [[|]|]; [reflexivity| |]; match goal with |- context [m_train_ sq ?d ?m] => destruct (bnd (m_train_ sq d m) (fun mm => (m_count (length d) mm, None))) as [m' [e|]] end; cbn [on fst snd]; [reflexivity| |reflexivity|]; cbn [set_mca set_td set_w set_avg upd i_mca i_sf]; (destruct (m_live m') as [[v' ds]|]; [|reflexivity]; destruct (i_sf s); reflexivity)).
    - cbn [upd i_avg i_w]. rewrite !EA. destruct (bnd (p_train_ sq true [r] (i_w s)) (fun p => (p_count 1 p, None))) as [p [e|]]; cbn [on fst snd]; [reflexivity|]. cbn [set_w set_avg upd i_w i_td i_ep]. destruct (p_live p) as [l|]; [|reflexivity]. cbn [set_td set_w set_avg upd i_ep i_td i_mca].
      (destruct (i_ep s) as [[|]|]; [reflexivity| |]; match goal with |- context [m_train_ sq ?d ?m] => destruct (bnd (m_train_ sq d m) (fun mm => (m_count (length d) mm, None))) as [m' [e|]] end; cbn [on fst snd]; [reflexivity| |reflexivity|]; cbn [set_mca set_td set_w set_avg upd i_mca i_sf]; (destruct (m_live m') as [[v' ds]|]; [|reflexivity]; destruct (i_sf s); reflexivity)).
  Qed.
  Lemma one_row w r b (u t : isfa) ch : i_init u <> None -> i_in u = Some w -> i_batch u = false -> i_step w r (set_ep u (Some b)) = ((t, None), ch) ->
    i_train w [r] (Some b) u = (upd ch (p_proj (i_w t)) (i_iter u + 1) true false t, None).
  Proof.
    intros I N B E. unfold IncModel.i_train, i_check_input. rewrite N. cbn [length Nat.eqb andb negb]. rewrite Nat.eqb_refl. cbn [andb negb bnd]. rewrite B. cbn [andb]. unfold i_check_params. destruct (i_init u) eqn:EI; [|easy]. cbn [bnd]. cbn [set_run i_flag set_ep i_batch]. rewrite B. cbn [each]. unfold i_train_. match goal with |- context [if i_batch ?z then _ else _] => replace (i_batch z) with false by (symmetry; exact B) end.
    match goal with |- context [i_step w r ?z] => change z with (upd (i_change u) (i_wv u) (i_iter u) true (i_batch u) (set_ep u (Some b))) || replace z with (upd (i_change u) (i_wv u) (i_iter u) true false (set_ep u (Some b))) by (unfold upd, set_ep; cbn; now rewrite ?EI, ?B) end.
    rewrite step_upd, E. unfold updr. cbn [fst snd i_end bnd]. rewrite ?B. cbn. reflexivity.
  Qed.
  Lemma steps_rows w X : forall (s0 s' u : isfa) c v k st ch0 ch, i_steps sq w X s0 ch0 = ((s', None), ch) -> i_ep s0 = Some false -> i_init s0 <> None -> i_in s0 = Some w -> set_ep u (Some false) = upd c v k st false s0 ->
    exists t, each (fun r => i_train w [r] (Some false)) X u = (t, None) /\ (X <> [] -> t = upd ch (p_proj (i_w s')) (k + length X) true false s') /\ (X = [] -> t = u /\ s' = s0 /\ ch = ch0).
  Proof.
    induction X as [|r X IH]; intros s0 s' u c v k st ch0 ch E EP I N U; cbn [i_steps each] in *.
    - injection E as <- <-. exists u. split; [reflexivity|]. split; [easy|]. now repeat split.
    - destruct (i_step w r s0) as [[s1 [e|]] ch1] eqn:E1; [discriminate|]. destruct (step_shape w r s0 s1 ch1 E1) as ((O1 & _ & O3 & O4 & _) & _).
      assert (E2 : i_step w r (set_ep u (Some false)) = ((upd c v k st false s1, None), ch1)) by (rewrite U, step_upd, E1; reflexivity).
      assert (IU : i_init u <> None) by (change (i_init u) with (i_init (set_ep u (Some false))); rewrite U; exact I). assert (NU : i_in u = Some w) by (change (i_in u) with (i_in (set_ep u (Some false))); rewrite U; exact N). assert (BU : i_batch u = false) by (change (i_batch u) with (i_batch (set_ep u (Some false))); rewrite U; reflexivity). assert (KU : i_iter u = k) by (change (i_iter u) with (i_iter (set_ep u (Some false))); rewrite U; reflexivity).
      rewrite (one_row w r false u _ ch1 IU NU BU E2). cbn [bnd]. rewrite KU. change (i_w (upd c v k st false s1)) with (i_w s1). set (u2 := upd ch1 (p_proj (i_w s1)) (k + 1) true false (upd c v k st false s1)).
      destruct (IH (set_ep s1 (Some false)) s' u2 ch1 (p_proj (i_w s1)) (k + 1) true ch1 ch E eq_refl) as (t & T1 & T2 & T3); [cbn [set_ep i_init]; congruence|cbn [set_ep i_in]; congruence|reflexivity|]. exists t. split; [exact T1|]. split; [|easy]. intros _. destruct X as [|r2 X].
      + destruct (T3 eq_refl) as (-> & -> & ->). unfold u2, upd, set_ep. cbn [i_avg i_w i_td i_mca i_in i_out i_ep i_init i_sf length]. rewrite O3, EP. reflexivity.
      + rewrite T2 by discriminate. cbn [length]. f_equal. lia.
  Qed.
  Definition with_type (b : bool) (s : isfa) : isfa := upd (i_change s) (i_wv s) (i_iter s) (i_started s) b s.
  Theorem C316_batch : forall w r1 r2 x ep (s s' : isfa), i_init s <> None -> i_in s = Some w -> i_train w (r1 :: r2 :: x) ep (with_type true s) = (s', None) ->
    exists t, bnd (i_train w [r1] (Some true) (with_type false s)) (each (fun r => i_train w [r] (Some false)) (r2 :: x)) = (t, None) /\ s' = with_type true t.
  Proof.
    intros w r1 r2 x ep s s' I N E. unfold IncModel.i_train in E at 1. unfold i_check_input in E. cbn [with_type upd i_in] in E. rewrite N in E. rewrite Nat.eqb_refl in E. cbn [length Nat.eqb andb negb bnd i_batch Nat.ltb Nat.leb] in E. unfold i_check_params in E. cbn [with_type upd i_init] in E. destruct (i_init s) as [sf0|] eqn:EI; [|easy]. cbn [bnd] in E. cbn [set_run i_flag set_ep i_batch with_type upd] in E. unfold i_train_ in E. cbn [i_batch] in E.
    match goal with H : context [i_steps sq w _ ?z _] |- _ => replace z with (upd (i_change s) (i_wv s) (i_iter s) true true (set_ep s (Some true))) in H by (unfold upd, set_ep; cbn; now rewrite ?EI) end.
    remember (r2 :: x) as X eqn:EX. cbn [i_steps] in E. rewrite step_upd in E. destruct (i_step w r1 (set_ep s (Some true))) as [[s1 [e|]] ch1] eqn:E1; unfold updr in E; cbn [fst snd i_end bnd] in E; [discriminate|]. destruct (step_shape w r1 _ s1 ch1 E1) as ((O1 & _ & O3 & O4 & _) & _). cbn [set_ep i_in i_init] in O1, O4.
    assert (E2 : i_step w r1 (set_ep (with_type false s) (Some true)) = ((upd (i_change s) (i_wv s) (i_iter s) (i_started s) false s1, None), ch1)) by (change (set_ep (with_type false s) (Some true)) with (upd (i_change s) (i_wv s) (i_iter s) (i_started s) false (set_ep s (Some true))); rewrite step_upd, E1; reflexivity).
    rewrite (one_row w r1 true (with_type false s) (upd (i_change s) (i_wv s) (i_iter s) (i_started s) false s1) ch1); [|cbn; congruence|exact N|reflexivity|exact E2]. cbn [bnd]. match goal with |- context [each _ X ?z] => set (u := z) end.
    cbn [andb] in E. change (i_batch (set_run (i_flag (with_type true s)) (i_iter (i_flag (with_type true s))) true)) with true in E. cbv iota in E. destruct (i_steps sq w X (set_ep (upd (i_change s) (i_wv s) (i_iter s) true true s1) (Some false)) ch1) as [[s2 [e|]] ch] eqn:E3; [discriminate|]. cbn [i_end bnd] in E.
    destruct (steps_rows w X (set_ep (upd (i_change s) (i_wv s) (i_iter s) true true s1) (Some false)) s2 u ch1 (p_proj (i_w s1)) (i_iter s + 1) true ch1 ch E3 eq_refl) as (t & T1 & T2 & _); [cbn [set_ep upd i_init]; congruence|cbn [set_ep upd i_in]; congruence|reflexivity|].
    exists t. split; [exact T1|]. rewrite T2 by (rewrite EX; discriminate).
    assert (IT : i_iter s2 = i_iter s /\ i_batch s2 = true). { revert E3. assert (G : forall X (q : isfa) c0 ch, i_steps sq w X q c0 = ((s2, None), ch) -> i_iter s2 = i_iter q /\ i_batch s2 = i_batch q). { clear. induction X as [|r X IH]; intros q c0 ch E; cbn [i_steps] in E; [injection E as <- _; now split|]. destruct (i_step w r q) as [[q1 [e|]] c1] eqn:E1; [discriminate|]. destruct (step_shape w r q q1 c1 E1) as ((_ & _ & _ & _ & _ & _ & O7 & _ & O9) & _). destruct (IH _ _ _ E) as (G1 & G2). cbn [set_ep i_iter i_batch] in *. split; congruence. } exact (G X _ ch1 ch). }
    destruct IT as (IT1 & IT2). injection E as <-. unfold with_type, upd, set_run, set_res. cbn. rewrite IT1, IT2. f_equal. rewrite EX. cbn. lia.
  Qed.
End Isfa.

(** Examples and counterexamples, in one dimension: the random start vectors are 3 (whitening) and 1 (minor components), the learning rate 1/20.  All square roots that are
    taken and used are of squares of rationals, where [qsq] is exact. *)
Definition iq := @isfa Qc_of.
Definition q1 (a : Q) : nat -> Qc := fun i => match i with 0 => Q2Qc a | _ => Q2Qc 0 end.
Definition irnd : nat -> nat -> nat -> list (nat -> Qc) := fun k _ _ => match k with 0 => [q1 3] | _ => [q1 1] end.
Definition itrain (x : list (nat -> Qc)) (ep : option bool) (s : iq) : out iq := i_train (K := Qc_of) qsq irnd 1 x ep s.
Definition inode (rm : bool) (ipca imca : option (nat * list (nat -> Qc))) : iq := isfa_new (K := Qc_of) (Q2Qc (1#20)) None rm None (default_amn (K := Qc_of)) ipca imca None None.
Definition firsts (l : option (list (nat -> Qc))) : option (list Q) := option_map (map (fun v => this (v 0))) l.
Definition ishown (r : out iq) := (firsts (i_sf (fst r)), option_map this (i_change (fst r)), option_map (fun a : cent (K := Qc_of) => option_map (fun v : nat -> Qc => this (v 0)) (c_avg a)) (i_avg (fst r)), map (fun v : nat -> Qc => this (v 0)) (vectors (i_w (fst r))), m_iter (i_mca (fst r)), snd r).
Definition n0 := inode true None None.
Example C312_ex : snd (itrain [q1 3] None (inode false None None)) = Some XAttr /\ snd (itrain [q1 3] None n0) = None.
Proof. split; vm_compute; reflexivity. Qed.
Example C313_ex : snd (itrain [q1 3] None (inode true (Some (1, [q1 3])) None)) = Some XType.
Proof. vm_compute. reflexivity. Qed.
(** the start vectors are the ones the node would have drawn: with them the second call fails *)
Theorem C313_refuted : exists M x y, irnd 1 1 1 = snd M /\ snd (itrain x None (inode true None (Some M))) = None /\ snd (bnd (itrain x None (inode true None (Some M))) (itrain y None)) = Some XType /\ snd (bnd (itrain x None n0) (itrain y None)) = None.
Proof. exists (1, [q1 1]), [q1 3], [q1 6]. split; [reflexivity|]. split; [|split]; vm_compute; reflexivity. Qed.
Example C314_ex : ishown (bnd (itrain [q1 3] None n0) (itrain [q1 6] None)) = (Some [1#2], Some (5#2), Some (Some 4), [1#2], 1%nat, None)%Q.
Proof. vm_compute. reflexivity. Qed.
(** the mean after the samples a and b should be (a + b) / 2 *)
Definition mean_now (s : iq) : option Q := match i_avg s with Some a => option_map (fun v : nat -> Qc => this (v 0)) (c_avg a) | None => None end.
Theorem C314_refuted : exists a b m, let q := bnd (itrain [q1 a] None n0) (itrain [q1 b] None) in snd q = None /\ mean_now (fst q) = Some m /\ (~ m == (a + b) / 2)%Q.
Proof. exists 3%Q, 6%Q, 4%Q. cbv zeta. split; [vm_compute; reflexivity|]. split; [vm_compute; reflexivity|]. vm_compute. discriminate. Qed.
Example C315_ex : ishown (itrain [q1 3; q1 6] None n0) = (Some [3], None, Some (Some (9#2)), [2#3], 0%nat, None)%Q.
Proof. vm_compute. reflexivity. Qed.
(** rows in one call or in two: the second row should be used for an update of the slow features either way *)
Theorem C315_refuted : exists r1 r2, snd (itrain [r1; r2] None n0) = None /\ snd (bnd (itrain [r1] None n0) (itrain [r2] None)) = None /\ m_iter (i_mca (fst (itrain [r1; r2] None n0))) = 0 /\ m_iter (i_mca (fst (bnd (itrain [r1] None n0) (itrain [r2] None)))) = 1.
Proof. exists (q1 3), (q1 6). split; [|split; [|split]]; vm_compute; reflexivity. Qed.
Example C316_ex : ishown (bnd (itrain [q1 3] None n0) (fun s => itrain [q1 6; q1 (20#3)] None (with_type true s))) = (Some [1#2], Some (5#2), Some (Some (14#3)), [1#2], 1%nat, None)%Q /\
  ishown (bnd (itrain [q1 3] None n0) (fun s => bnd (itrain [q1 6] (Some true) s) (itrain [q1 (20#3)] (Some false)))) = (Some [1#2], Some (5#2), Some (Some (14#3)), [1#2], 1%nat, None)%Q /\
  snd (itrain [q1 6] None (with_type true (fst (itrain [q1 3] None n0)))) = Some XTrain.
Proof. split; [|split]; vm_compute; reflexivity. Qed.
Example C317_ex : (let s := fst (bnd (itrain [q1 3] None n0) (itrain [q1 6] None)) in firsts (Some (mult (K := Qc_of) 1 (vectors (i_w s)) (mvecs (i_mca s))))) = Some [1#2]%Q.
Proof. vm_compute. reflexivity. Qed.
(** after the first sample the slow features are the product of the raw start vectors, not of the vectors of the two nodes *)
Theorem C317_refuted : exists r, let q := itrain [r] None n0 in snd q = None /\ firsts (i_sf (fst q)) <> firsts (Some (mult (K := Qc_of) 1 (vectors (i_w (fst q))) (mvecs (i_mca (fst q))))).
Proof. exists (q1 3). cbv zeta. split; [vm_compute; reflexivity|]. vm_compute. discriminate. Qed.
Example C318_ex : (let s := fst (bnd (itrain [q1 3] None n0) (itrain [q1 6] None)) in match i_inverse_ (K := Qc_of) [q1 2] [Q2Qc 1] s with inl x => (this (x 0), match i_execute_ (K := Qc_of) 1 [x] s with inl [[y]] => Some (this y) | _ => None end) | inr _ => (0%Q, None) end) = (6, Some 1)%Q.
Proof. vm_compute. reflexivity. Qed.
