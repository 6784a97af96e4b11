(** Properties of the caching extension (C51, C52, C138-C141). *)
From Coq Require Import List Arith Bool Lia ZArith.
From Verif Require FlowProofs.
From Verif Require Import NodeModel NodeProofs CacheModel.
Import ListNotations.
Local Open Scope nat_scope.

Section Proofs.
  Context {St X Y : Type} (eqS : forall a b : St, {a = b} + {a <> b}) (eqX : forall a b : X, {a = b} + {a <> b}).
  Context (cls : nat -> nat) (pre : nat -> St -> X -> St * bool) (val : nat -> St -> X -> option Y).
  Notation glob := (glob (St := St) (X := X) (Y := Y)). Notation result := (result (Y := Y)).
  Notation original := (original pre val). Notation execute := (execute eqS eqX cls pre val). Notation cached_call := (cached_call eqS eqX cls pre val).
  Notation step := (step eqS eqX cls pre val). Notation run := (run eqS eqX cls pre val). Notation plain := (plain cls pre val). Notation plain_step := (plain_step cls pre val).
  (** the checks that passed once pass again, and do nothing more *)
  Definition settled (c : nat) (s : St) : Prop := forall x, fst (pre c s x) = s.
  Definition settling : Prop := forall c s x s1, pre c s x = (s1, true) -> settled c s1 /\ pre c s1 x = (s1, true).
  Definition sound (t : list ((dir * nat * St * X) * Y)) : Prop := forall d c s x y, In ((d, c, s, x), y) t -> snd (original c s x) = Value y.
  Context (Hset : settling).

  Lemma lookup_in k t (y : Y) : lookup eqS eqX k t = Some y -> In (k, y) t.
  Proof.
    unfold lookup. intro H. destruct (find _ t) as [[k' y']|] eqn:E; [|discriminate]. injection H as <-. apply find_some in E. destruct E as [HI HE]. cbn [fst snd] in *.
    destruct k as [[[d c] s] x], k' as [[[d' c'] s'] x']. unfold key_eqb in HE. destruct (dir_eq_dec d d') as [->|]; [|discriminate]. destruct (Nat.eqb_spec c c') as [->|]; [|discriminate].
    destruct (eqS s s') as [->|]; [|discriminate]. destruct (eqX x x') as [->|]; [|discriminate]. exact HI.
  Qed.
  Lemma lookup_head k (y : Y) t : lookup eqS eqX k ((k, y) :: t) = Some y.
  Proof.
    unfold lookup. cbn [find fst]. assert (E : key_eqb eqS eqX k k = true).
    { destruct k as [[[d c] s] x]. unfold key_eqb. destruct (dir_eq_dec d d), (eqS s s), (eqX x x); try congruence. now rewrite Nat.eqb_refl. }
    now rewrite E.
  Qed.
  Lemma upd_same (f : nat -> St) i s : upd f i s i = s.
  Proof. unfold upd. now rewrite Nat.eqb_refl. Qed.
  Lemma upd_id (f : nat -> St) i j : upd f i (f i) j = f j.
  Proof. unfold upd. destruct (Nat.eqb_spec j i); congruence. Qed.
  Lemma cached_call_ok d i x g : sound (g_store g) -> let '(g', r) := cached_call d i x g in
    r = snd (original (cls i) (g_st g i) x) /\ sound (g_store g').
  Proof.
    intro Hs. unfold CacheModel.cached_call, run_original. destruct (lookup eqS eqX (d, cls i, g_st g i, x) (g_store g)) as [y|] eqn:E.
    - apply lookup_in in E. split; [|exact Hs]. symmetry. eapply Hs, E.
    - destruct (original (cls i) (g_st g i) x) as [s r] eqn:Eo. split; [reflexivity|]. destruct r; cbn; auto.
      intros d0 c0 s0 x0 y0 [H|H]; [injection H as <- <- <- <- <-; now rewrite Eo|eapply Hs, H].
  Qed.
  Lemma original_twice c s x s1 : pre c s x = (s1, true) -> snd (original c s1 x) = snd (original c s x).
  Proof. intro E. unfold CacheModel.original. rewrite E. destruct (Hset c s x s1 E) as [_ ->]. reflexivity. Qed.
  Lemma execute_ok i x g : sound (g_store g) -> let '(g', r) := execute i x g in
    (r = snd (original (cls i) (g_st g i) x) \/ r = AttrError /\ g_memory g = None) /\ sound (g_store g').
  Proof.
    intro Hs. unfold CacheModel.execute. destruct (g_active g && is_cached cls i g).
    - destruct (method i g) as [d|].
      + pose proof (cached_call_ok d i x g Hs) as H. destruct (cached_call d i x g) as [g' r]. destruct H. auto.
      + destruct (g_memory g) as [d|]; [|auto]. cbn [set_methods g_st]. destruct (pre (cls i) (g_st g i) x) as [s ok] eqn:E. destruct ok.
        * set (g1 := set_st _ _). pose proof (cached_call_ok d i x g1 Hs) as H. destruct (cached_call d i x g1) as [g' r]. destruct H as [-> H]. split; [|exact H]. left.
          unfold g1. cbn [set_st g_st]. rewrite upd_same. now apply original_twice.
        * split; [|exact Hs]. left. unfold CacheModel.original. now rewrite E.
    - unfold run_original. destruct (original (cls i) (g_st g i) x) as [s r]. auto.
  Qed.
  Lemma set_cachedir_store d (g : glob) : sound (g_store g) -> sound (g_store (set_cachedir d g)).
  Proof.
    intro Hs. unfold set_cachedir. destruct d as [d|].
    - destruct (match g_dir g with Some d' => _ | None => false end); exact Hs.
    - cbn [g_dir]. assert (H : sound (match g_temp g with Some k => filter (fun e => negb (if dir_eq_dec (fst (fst (fst (fst e)))) (Temp k) then true else false)) (g_store g) | None => g_store g end)).
      { destruct (g_temp g); [|exact Hs]. intros d0 c s x y Hi. apply filter_In in Hi. eapply Hs, Hi. }
      destruct (match g_dir g with Some d' => _ | None => false end); exact H.
  Qed.
  Lemma step_sound o g : sound (g_store g) -> sound (g_store (fst (step o g))).
  Proof.
    intro Hs. destruct o; cbn [CacheModel.step fst]; auto.
    - pose proof (execute_ok i x g Hs) as H. destruct (execute i x g). apply H.
    - now apply set_cachedir_store.
    - now apply set_cachedir_store.
    - unfold set_instance_cache. destruct (g_active g); exact Hs.
  Qed.
  Lemma run_app ops1 ops2 g : fst (run (ops1 ++ ops2) g) = fst (run ops2 (fst (run ops1 g))).
  Proof.
    revert g. induction ops1 as [|o ops1 IH]; intro g; [reflexivity|]. cbn [app CacheModel.run]. destruct (step o g) as [g1 r]. specialize (IH g1).
    destruct (run (ops1 ++ ops2) g1), (run ops1 g1). exact IH.
  Qed.
  Lemma run_sound ops : forall g, sound (g_store g) -> sound (g_store (fst (run ops g))).
  Proof.
    induction ops as [|o ops IH]; intros g Hs; [exact Hs|]. cbn [CacheModel.run]. pose proof (step_sound o g Hs) as H. destruct (step o g) as [g1 r]. specialize (IH g1 H).
    destruct (run ops g1). exact IH.
  Qed.
  (** C51: after any history (also with failed checks, changed nodes, changed directories), whatever was cached in earlier sessions *)
  Theorem C51_values : forall store st ops i x, sound store ->
    let g := fst (run ops (init_glob store st)) in let r := snd (execute i x g) in
    r = snd (original (cls i) (g_st g i) x) \/ r = AttrError /\ g_memory g = None.
  Proof.
    intros store st ops i x Hs g r. pose proof (execute_ok i x g (run_sound ops (init_glob store st) Hs)) as H. unfold r. destruct (execute i x g). apply H.
  Qed.

  (** ** the whole program behaves as without the extension *)
  Definition inv (g : glob) : Prop := sound (g_store g) /\ (g_active g = true -> g_memory g <> None) /\ (g_dir g <> None -> g_memory g <> None) /\
    forall i, method i g <> None -> settled (cls i) (g_st g i).
  (** along the program without the extension: checks fail only on nodes they do not change, other operations do not undo what the
      checks set up, and the extension is not activated by name *)
  Definition safe_step (o : op (St := St) (X := X)) (st : nat -> St) : Prop :=
    match o with
    | Execute i x => snd (pre (cls i) (st i) x) = true \/ settled (cls i) (st i)
    | Change i f => settled (cls i) (st i) -> settled (cls i) (f (st i))
    | ByName act => act = false
    | _ => True
    end.
  Fixpoint safe (ops : list (op (St := St) (X := X))) (st : nat -> St) : Prop :=
    match ops with [] => True | o :: ops => safe_step o st /\ safe ops (fst (plain_step o st)) end.
  Lemma safe_ext ops : forall st st', (forall j, st j = st' j) -> safe ops st -> safe ops st'.
  Proof.
    induction ops as [|o ops IH]; intros st st' H; [auto|]. cbn [safe]. intros [H1 H2]. split.
    - destruct o; cbn [safe_step] in *; rewrite <- ?H; auto.
    - eapply IH; [|exact H2]. intro j. destruct o; cbn [CacheModel.plain_step fst]; auto.
      + rewrite <- H. destruct (original (cls i) (st i) x). cbn [fst]. unfold upd. destruct (j =? i); auto.
      + rewrite <- H. unfold upd. destruct (j =? i); auto.
  Qed.
  Lemma plain_ext ops : forall st st', (forall j, st j = st' j) -> snd (plain ops st) = snd (plain ops st') /\ forall j, fst (plain ops st) j = fst (plain ops st') j.
  Proof.
    induction ops as [|o ops IH]; intros st st' H; [auto|]. cbn [CacheModel.plain].
    assert (E : snd (plain_step o st) = snd (plain_step o st') /\ forall j, fst (plain_step o st) j = fst (plain_step o st') j).
    { destruct o; cbn [CacheModel.plain_step fst snd]; auto; rewrite <- H.
      - destruct (original (cls i) (st i) x). split; [reflexivity|]. intro j. cbn [fst]. unfold upd. destruct (j =? i); auto.
      - split; [reflexivity|]. intro j. unfold upd. destruct (j =? i); auto. }
    destruct (plain_step o st) as [s1 r1], (plain_step o st') as [s2 r2]. cbn [fst snd] in E. destruct E as [-> E]. specialize (IH s1 s2 E).
    destruct (plain ops s1), (plain ops s2). cbn [fst snd] in *. destruct IH as [-> IH]. auto.
  Qed.
  Lemma fst_original c s x : fst (original c s x) = fst (pre c s x).
  Proof. unfold CacheModel.original. destruct (pre c s x) as [s1 []]; reflexivity. Qed.
  Lemma cached_call_settled d i x g : settled (cls i) (g_st g i) -> let g' := fst (cached_call d i x g) in
    (forall j, g_st g' j = g_st g j) /\ g_active g' = g_active g /\ g_memory g' = g_memory g /\ g_dir g' = g_dir g /\ g_methods g' = g_methods g.
  Proof.
    intro H. unfold CacheModel.cached_call, run_original. destruct (lookup _ _ _ _); [cbn; auto|]. destruct (original (cls i) (g_st g i) x) as [s r] eqn:E. cbn [fst].
    assert (s = g_st g i) as -> by (rewrite <- (H x), <- fst_original, E; reflexivity). destruct r; cbn; repeat split; auto; intro j; apply upd_id.
  Qed.
  Lemma method_cons i d (g : glob) j : method j (set_methods ((i, d) :: g_methods g) g) = if j =? i then Some d else method j g.
  Proof. unfold method. cbn [set_methods g_methods find fst]. destruct (Nat.eqb_spec j i); reflexivity. Qed.
  Lemma execute_inv i x g : inv g -> (snd (pre (cls i) (g_st g i) x) = true \/ settled (cls i) (g_st g i)) -> let '(g', r) := execute i x g in
    inv g' /\ r = snd (original (cls i) (g_st g i) x) /\ forall j, g_st g' j = upd (g_st g) i (fst (original (cls i) (g_st g i) x)) j.
  Proof.
    intros (I1 & I2 & I3 & I4) Hsafe. pose proof (execute_ok i x g I1) as HO. rewrite fst_original. unfold CacheModel.execute in *. destruct (g_active g) eqn:Ea.
    2:{ cbn [andb] in *. unfold run_original in *. destruct (original (cls i) (g_st g i) x) as [s r] eqn:E. split; [|split; [reflexivity|]].
        - repeat split; cbn; auto; try (intro; congruence). intros j Hj. unfold upd. destruct (Nat.eqb_spec j i) as [->|]; [|now apply I4]. 
          specialize (I4 i Hj). assert (s = g_st g i) as -> by (rewrite <- (I4 x), <- fst_original, E; reflexivity). exact I4.
        - intro j. cbn. rewrite <- fst_original, E. reflexivity. }
    cbn [andb] in *. specialize (I2 eq_refl). destruct (is_cached cls i g).
    - destruct (method i g) as [d|] eqn:Em.
      + assert (Hst : settled (cls i) (g_st g i)) by (apply I4; congruence). pose proof (cached_call_settled d i x g Hst) as H. destruct (cached_call d i x g) as [g' r]. cbn [fst] in H.
        destruct H as (H1 & H2 & H3 & H4 & H5). destruct HO as [[HO|[_ HO]] Hs']; [|contradiction]. split; [|split; [exact HO|]].
        * repeat split; try congruence; auto. intros j Hj. rewrite H1. apply I4. unfold method in *. now rewrite <- H5.
        * intro j. rewrite H1, (Hst x). symmetry. apply upd_id.
      + destruct (g_memory g) as [d|] eqn:Egm; [|congruence]. cbn [set_methods g_st] in *. destruct (pre (cls i) (g_st g i) x) as [s ok] eqn:E.
        assert (Hst : settled (cls i) s).
        { destruct ok; [eapply Hset, E|]. destruct Hsafe as [H|H]; [discriminate H|]. assert (s = g_st g i) as -> by (rewrite <- (H x), E; reflexivity). exact H. }
        set (g1 := set_st _ _) in *. assert (Hm1 : forall j, method j g1 <> None -> settled (cls j) (g_st g1 j)).
        { intros j Hj. unfold g1. cbn [set_st g_st]. unfold upd. destruct (Nat.eqb_spec j i) as [->|Hn]; [exact Hst|]. apply I4. 
          change (method j (set_methods ((i, d) :: g_methods g) g) <> None) in Hj. rewrite method_cons in Hj. destruct (Nat.eqb_spec j i); [contradiction|exact Hj]. }
        destruct ok.
        * assert (Hst1 : settled (cls i) (g_st g1 i)) by (unfold g1; cbn [set_st g_st]; rewrite upd_same; exact Hst).
          pose proof (cached_call_settled d i x g1 Hst1) as H. destruct (cached_call d i x g1) as [g' r]. cbn [fst] in H. destruct H as (H1 & H2 & H3 & H4 & H5).
          destruct HO as [[HO|[_ HO]] Hs']; [|congruence]. split; [|split; [exact HO|]].
          -- repeat split; auto.
             ++ intros _. rewrite H3. unfold g1. cbn. congruence.
             ++ intros _. rewrite H3. unfold g1. cbn. congruence.
             ++ intros j Hj. rewrite H1. apply Hm1. unfold method in *. now rewrite <- H5.
          -- intro j. rewrite H1. reflexivity.
        * destruct HO as [[HO|[HO _]] Hs']; [|discriminate]. split; [|split; [exact HO|reflexivity]]. repeat split; auto; unfold g1; cbn; congruence.
    - unfold run_original in *. destruct (original (cls i) (g_st g i) x) as [s r] eqn:E. split; [|split; [reflexivity|]].
      + repeat split; cbn; auto. intros j Hj. unfold upd. destruct (Nat.eqb_spec j i) as [->|]; [|now apply I4]. 
        specialize (I4 i Hj). assert (s = g_st g i) as -> by (rewrite <- (I4 x), <- fst_original, E; reflexivity). exact I4.
      + intro j. cbn. rewrite <- fst_original, E. reflexivity.
  Qed.
  Lemma set_cachedir_inv d (g : glob) : inv g -> inv (set_cachedir d g) /\ g_st (set_cachedir d g) = g_st g /\ g_memory (set_cachedir d g) <> None.
  Proof.
    intros (I1 & I2 & I3 & I4). pose proof (set_cachedir_store d g I1) as Hs. unfold inv. split; [|split].
    - split; [exact Hs|]. unfold set_cachedir. destruct d as [d|]; cbn [g_dir].
      + destruct (g_dir g) as [d'|] eqn:Ed; [destruct (dir_eq_dec d d')|]; cbn; repeat split; auto; try congruence; try (intros i Hi; elim Hi; reflexivity); try (intros _; apply I3; congruence).
      + destruct (g_dir g) as [d'|] eqn:Ed; [destruct (dir_eq_dec (Temp (g_fresh g)) d')|]; cbn; repeat split; auto; try congruence; try (intros i Hi; elim Hi; reflexivity); try (intros _; apply I3; congruence).
    - unfold set_cachedir. destruct d as [d|]; cbn [g_dir]; destruct (g_dir g) as [d'|]; try reflexivity; [destruct (dir_eq_dec d d')|destruct (dir_eq_dec (Temp (g_fresh g)) d')]; reflexivity.
    - unfold set_cachedir. destruct d as [d|]; cbn [g_dir]; destruct (g_dir g) as [d'|] eqn:Ed; cbn; try congruence; [destruct (dir_eq_dec d d')|destruct (dir_eq_dec (Temp (g_fresh g)) d')]; cbn; try congruence; apply I3; congruence.
  Qed.
  Lemma step_inv o g : inv g -> safe_step o (g_st g) -> let '(g', r) := step o g in
    inv g' /\ r = snd (plain_step o (g_st g)) /\ forall j, g_st g' j = fst (plain_step o (g_st g)) j.
  Proof.
    intros HI Hs. destruct o; cbn [CacheModel.step CacheModel.plain_step] in *.
    - pose proof (execute_inv i x g HI Hs) as H. destruct (execute i x g) as [g' r]. destruct (original (cls i) (g_st g i) x). cbn [fst snd] in *. destruct H as (H1 & -> & H2). auto.
    - destruct (set_cachedir_inv d g HI) as ((I1 & I2 & I3 & I4) & Hst & Hm). unfold activate. repeat split; cbn; auto. now rewrite Hst.
    - destruct HI as (I1 & I2 & I3 & I4). repeat split; cbn; auto; try discriminate.
    - destruct (set_cachedir_inv d g HI) as (H & Hst & _). rewrite Hst. auto.
    - unfold set_instance_cache. destruct (g_active g) eqn:Ea; [|auto]. destruct HI as (I1 & I2 & I3 & I4). repeat split; cbn; auto.
    - destruct HI as (I1 & I2 & I3 & I4). repeat split; cbn; auto. intros j Hj. unfold upd. destruct (Nat.eqb_spec j i) as [->|]; [apply Hs|]; now apply I4.
    - cbn in Hs. subst act. destruct HI as (I1 & I2 & I3 & I4). repeat split; cbn; auto. discriminate.
  Qed.
  Theorem C51_transparent : forall store st ops, sound store -> safe ops st ->
    snd (run ops (init_glob store st)) = snd (plain ops st) /\ forall j, g_st (fst (run ops (init_glob store st))) j = fst (plain ops st) j.
  Proof.
    intros store st ops Hs Hsafe. assert (HI : inv (init_glob store st)) by (repeat split; cbn; auto; try discriminate; intros i Hi; elim Hi; reflexivity).
    change st with (g_st (init_glob store st)) in Hsafe. change (plain ops st) with (plain ops (g_st (init_glob store st))).
    generalize dependent (init_glob store st). clear Hs. induction ops as [|o ops IH]; intros g HS HI; [cbn; auto|].
    cbn [CacheModel.run CacheModel.plain safe] in *. destruct HS as [S1 S2]. pose proof (step_inv o g HI S1) as H. destruct (step o g) as [g' r]. destruct H as (HI' & -> & Est).
    destruct (plain_step o (g_st g)) as [st1 r1]. cbn [fst snd] in *. assert (S2' : safe ops (g_st g')) by (eapply safe_ext; [|exact S2]; intro j; symmetry; apply Est).
    specialize (IH g' S2' HI'). destruct (plain_ext ops _ _ Est) as [E1 E2]. destruct (run ops g') as [g2 rs], (plain ops (g_st g')) as [p2 ps], (plain ops st1) as [q2 qs]. cbn [fst snd] in *.
    destruct IH as [-> IH]. rewrite E1. split; [reflexivity|]. intro j. now rewrite IH, E2.
  Qed.

  (** ** caching saves the computation *)
  Theorem C51_not_recomputed : forall g i x y g', g_active g = true -> is_cached cls i g = true -> (method i g <> None -> settled (cls i) (g_st g i)) ->
    execute i x g = (g', Value y) -> execute i x g' = (g', Value y).
  Proof.
    assert (CC : forall d i x g y g', settled (cls i) (g_st g i) -> cached_call d i x g = (g', Value y) ->
      cached_call d i x g' = (g', Value y) /\ g_active g' = g_active g /\ is_cached cls i g' = is_cached cls i g /\ g_methods g' = g_methods g).
    { intros d i x g y g' Hst E. unfold CacheModel.cached_call in *. destruct (lookup eqS eqX (d, cls i, g_st g i, x) (g_store g)) as [y'|] eqn:El.
      - injection E as <- <-. rewrite El. auto.
      - unfold run_original in *. destruct (original (cls i) (g_st g i) x) as [s r] eqn:Eo. assert (s = g_st g i) as -> by (rewrite <- (Hst x), <- fst_original, Eo; reflexivity).
        injection E as <- ->. cbn [set_store g_st add_call set_st g_store]. rewrite upd_same, lookup_head. auto. }
    intros g i x y g' Ha Hc Hm E. unfold CacheModel.execute in E. rewrite Ha, Hc in E. cbn [andb] in E. destruct (method i g) as [d|] eqn:Em.
    - destruct (CC d i x g y g' (Hm ltac:(discriminate)) E) as (H1 & H2 & H3 & H4). unfold CacheModel.execute. rewrite H2, H3, Ha, Hc. cbn [andb]. unfold method in *. rewrite H4, Em. exact H1.
    - destruct (g_memory g) as [d|]; [|discriminate]. cbn [set_methods g_st] in E. destruct (pre (cls i) (g_st g i) x) as [s ok] eqn:Ep. destruct ok; [|discriminate].
      set (g1 := set_st _ _) in E. destruct (CC d i x g1 y g') as (H1 & H2 & H3 & H4); [unfold g1; cbn [set_st g_st]; rewrite upd_same; eapply Hset, Ep|exact E|].
      unfold CacheModel.execute. rewrite H2, H3. assert (method i g' = Some d) as -> by (unfold method; rewrite H4; unfold g1; cbn; now rewrite Nat.eqb_refl).
      unfold g1 at 1. cbn [set_st set_methods g_active]. rewrite Ha. unfold is_cached in *. cbn. rewrite Hc. exact H1.
  Qed.
  (** also after leaving the extension and coming back to the same directory *)
  Theorem C51_persistent : forall g i x y g' d cs is, g_active g = true -> is_cached cls i g = true -> (method i g <> None -> settled (cls i) (g_st g i)) -> method i g = None ->
    g_memory g = Some (Named d) -> g_dir g = Some (Named d) -> execute i x g = (g', Value y) ->
    let g2 := activate (Some (Named d)) cs is (deactivate g') in is_cached cls i g2 = true ->
    snd (execute i x g2) = Value y /\ g_calls (fst (execute i x g2)) = g_calls g'.
  Proof.
    intros g i x y g' d cs is Ha Hc _ Em Egm Egd E g2 Hc2. unfold CacheModel.execute in E. rewrite Ha, Hc, Em, Egm in E. cbn [andb] in E.
    cbn [set_methods g_st] in E. destruct (pre (cls i) (g_st g i) x) as [s ok] eqn:Ep. destruct ok; [|discriminate]. set (g1 := set_st _ _) in E. destruct (Hset _ _ _ _ Ep) as [Hst Ep'].
    assert (HG : lookup eqS eqX (Named d, cls i, g_st g' i, x) (g_store g') = Some y /\ g_st g' i = s /\ g_dir g' = Some (Named d) /\ g_memory g' = Some (Named d)).
    { unfold CacheModel.cached_call in E. assert (Es : g_st g1 i = s) by (unfold g1; cbn [set_st g_st]; apply upd_same). rewrite Es in E.
      destruct (lookup eqS eqX (Named d, cls i, s, x) (g_store g1)) as [y'|] eqn:El.
      - injection E as <- <-. rewrite Es. auto.
      - unfold run_original in E. rewrite Es in E. destruct (original (cls i) s x) as [s' r] eqn:Eo. assert (s' = s) as -> by (rewrite <- (Hst x), <- fst_original, Eo; reflexivity).
        injection E as <- ->. cbn [set_store g_st add_call set_st g_store g_dir g_memory]. rewrite upd_same, lookup_head. auto. }
    destruct HG as (HL & Hs & Hd & Hm).
    assert (F : g_active g2 = true /\ method i g2 = None /\ g_memory g2 = Some (Named d) /\ g_st g2 = g_st g' /\ g_store g2 = g_store g' /\ g_calls g2 = g_calls g').
    { unfold g2, activate, set_cachedir. cbn [deactivate set_methods set_flags set_active g_dir]. rewrite Hd. destruct (dir_eq_dec (Named d) (Named d)) as [_|]; [|congruence]. repeat split. exact Hm. }
    destruct F as (F1 & F2 & F3 & F4 & F5 & F6). clearbody g2. unfold CacheModel.execute. rewrite F1, Hc2, F2, F3. cbn [andb set_methods g_st]. rewrite F4, Hs, Ep'.
    unfold CacheModel.cached_call. cbn [set_st g_st g_store set_methods]. rewrite upd_same, F5. rewrite Hs in HL. rewrite HL. split; [reflexivity|exact F6].
  Qed.

  (** ** C52 leaving a context *)
  Theorem C52_leave : forall g : glob, let g' := deactivate g in
    g_active g' = false /\ g_global g' = true /\ g_classes g' = [] /\ g_instances g' = [] /\ g_methods g' = [] /\ g_st g' = g_st g.
  Proof. intro g. repeat split. Qed.
  (** ** C139 what is cached after activation *)
  Theorem C139_selection : forall (g : glob) i d cs is, g_active g = false -> g_classes g = [] -> g_instances g = [] ->
    let g' := activate d cs is g in
    (g_active g' = true /\ is_cached cls i g' = true) <->
    (cs = None /\ is = None) \/ (exists l, cs = Some l /\ In (cls i) l) \/ (exists l, is = Some l /\ In i l).
  Proof.
    intros g i d cs is _ Hc Hi g'.
    assert (Hg : g_active g' = true /\ g_global g' = match cs, is with None, None => true | _, _ => false end /\ g_classes g' = match cs with Some l => l | None => [] end /\ g_instances g' = match is with Some l => l | None => [] end).
    { unfold g', activate, set_cachedir. cbn. repeat split; destruct d as [d|]; cbn [g_dir]; try destruct cs; try destruct is; try reflexivity;
        (destruct (g_dir g) as [d'|]; [match goal with |- context [dir_eq_dec ?a ?b] => destruct (dir_eq_dec a b) end|]; cbn; assumption). }
    destruct Hg as (H1 & H2 & H3 & H4). unfold is_cached. rewrite H1, H2, H3, H4.
    assert (EX : forall a l, existsb (Nat.eqb a) l = true <-> In a l).
    { intros a l. rewrite existsb_exists. split; [intros (b & Hb & E); apply Nat.eqb_eq in E; now subst|]. intro Ha. exists a. now rewrite Nat.eqb_refl. }
    rewrite !orb_true_iff. split.
    - intros [_ [[H|H]|H]].
      + left. destruct cs, is; try discriminate; auto.
      + right. left. destruct cs as [l|]; [|discriminate]. exists l. split; [reflexivity|]. now apply EX.
      + right. right. destruct is as [l|]; [|discriminate]. exists l. split; [reflexivity|]. now apply EX.
    - intros [[-> ->]|[(l & -> & H)|(l & -> & H)]]; split; auto; [left; right|right]; now apply EX.
  Qed.
End Proofs.

(** ** the checks of Node have the property assumed above (NodeModel) *)
Section NodeChecks.
  Variables D A I : Type.
  Variable b : behaviour D A I.
  Variable na : A.
  Theorem C51_node_checks : (b_trainable D A I b = true -> 0 < b_phases D A I b) -> forall s x s1, life_inv D A I b s -> pre_execution_checks D A I b na x s = (s1, Ok tt) ->
    (forall x', fst (pre_execution_checks D A I b na x' s1) = s1) /\ pre_execution_checks D A I b na x s1 = (s1, Ok tt).
  Proof.
    intros Hk s x s1 Hi E. pose proof (pre_exec_life D A I b na Hk x s Hi) as Hl. rewrite E in Hl. cbn [fst] in Hl. pose proof (pre_exec_done D A I b na Hk x s s1 Hi E) as Ht.
    assert (Hg : ((n_phase _ _ _ s1 =? 0)%Z && negb (n_started _ _ _ s1)) = false).
    { destruct Hl as (I1 & I2 & I3 & I4 & I5). rewrite Ht in I3. symmetry in I3. apply Nat.ltb_ge in I3. apply andb_false_iff. left. apply Z.eqb_neq. rewrite I4. unfold nphases in *.
      destruct (b_trainable D A I b) eqn:Hb; [|lia]. specialize (Hk eq_refl). lia. }
    (* what the checks leave behind *)
    assert (HS : a_ndim x = 2 /\ n_in _ _ _ s1 = Some (a_cols x) /\ n_dt _ _ _ s1 <> None /\ n_out _ _ _ s1 <> None /\ a_rows x <> 0).
    { unfold pre_execution_checks, bind at 1 in E. match type of E with context [let '(_, _) := ?t in _] => idtac | _ => idtac end.
      destruct (if (n_phase D A I s =? 0)%Z && negb (n_started D A I s) then _ else _) as [sa [ua|]]; [|discriminate]. unfold bind at 1 in E.
      destruct (if_training_stop_training D A I b na sa) as [sb [ub|]]; [|discriminate]. unfold bind at 1 in E.
      destruct (check_input D A I b x sb) as [sc [uc|]] eqn:Ec; [|discriminate].
      assert (HC : a_ndim x = 2 /\ n_in _ _ _ sc = Some (a_cols x) /\ n_dt _ _ _ sc <> None /\ a_rows x <> 0).
      { destruct uc. destruct (FlowProofs.check_input_ok D A I b x sb sc Ec) as (C1 & C2 & (t & C3) & C4). repeat split; auto. congruence. }
      destruct HC as (C1 & C2 & C3 & C4). destruct (n_out D A I sc) as [o|] eqn:Eo.
      - injection E as <-. repeat split; auto. congruence.
      - rewrite C2 in E. unfold set_output_dim in E. rewrite Eo in E. unfold p_set_output_dim in E. rewrite C2, Nat.eqb_refl in E.
        destruct (b_preserve _ _ _ b); injection E as <-; cbn; repeat split; auto; discriminate. }
    destruct HS as (S1 & S2 & S3 & S4 & S5).
    assert (HE : forall x', pre_execution_checks D A I b na x' s1 = (if negb (Nat.eqb (a_ndim x') 2) then (s1, Err NodeExc) else if Nat.eqb (a_cols x') (a_cols x) then if Nat.eqb (a_rows x') 0 then (s1, Err NodeExc) else (s1, Ok tt) else (s1, Err NodeExc))).
    { intro x'. rewrite (pre_exec_trained D A I b na x' s1 Ht Hg). unfold bind at 1. unfold check_input. destruct (negb (Nat.eqb (a_ndim x') 2)); [reflexivity|].
      unfold bind. rewrite S2. unfold ret. destruct (n_dt D A I s1); [|congruence]. rewrite S2. destruct (Nat.eqb (a_cols x') (a_cols x)); [|reflexivity].
      destruct (Nat.eqb (a_rows x') 0); [reflexivity|]. destruct (n_out D A I s1); [reflexivity|congruence]. }
    split.
    - intro x'. rewrite HE. destruct (negb (a_ndim x' =? 2)); [reflexivity|]. destruct (Nat.eqb (a_cols x') _); [|reflexivity]. destruct (Nat.eqb _ 0); reflexivity.
    - rewrite HE, S1, !Nat.eqb_refl. destruct (Nat.eqb_spec (a_rows x) 0); [contradiction|]. reflexivity.
  Qed.
End NodeChecks.

(** ** a small kind of node: the state is the input dimension; an input is its dimension and value, dimension 0 is refused *)
Definition toy_pre (c : nat) (s : option nat) (x : nat * nat) : option nat * bool :=
  if fst x =? 0 then (s, false) else match s with None => (Some (fst x), true) | Some d => (s, d =? fst x) end.
Definition toy_val (c : nat) (s : option nat) (x : nat * nat) : option nat := Some (c + 10 * snd x).
Definition toy_eqS (a b : option nat) : {a = b} + {a <> b}.
Proof. decide equality. apply Nat.eq_dec. Defined.
Definition toy_eqX (a b : nat * nat) : {a = b} + {a <> b}.
Proof. decide equality; apply Nat.eq_dec. Defined.
Lemma toy_settling : settling toy_pre.
Proof.
  intros c s x s1 E. unfold toy_pre in E. destruct (Nat.eqb_spec (fst x) 0) as [|Hx]; [discriminate|].
  assert (s1 = Some (fst x)) as -> by (destruct s as [d|]; injection E as <-; [apply Nat.eqb_eq in H; congruence|reflexivity]).
  split; [intro x'; unfold toy_pre; destruct (fst x' =? 0); reflexivity|]. unfold toy_pre. destruct (Nat.eqb_spec (fst x) 0); [contradiction|]. now rewrite Nat.eqb_refl.
Qed.
Notation toy_run := (run toy_eqS toy_eqX (fun i => i / 10) toy_pre toy_val).
Notation toy_plain := (plain (fun i => i / 10) toy_pre toy_val).
Notation toy_init := (init_glob [] (fun _ => None)).
(** two nodes of one class share a cached value, a changed directory, instances *)
Example C51_example : let ops := [Activate (Some (Named 1)) None None; Execute 11 (2, 5); Execute 12 (2, 5); Execute 12 (3, 5); Deactivate; Execute 12 (2, 7)] in
  let '(g, rs) := toy_run ops toy_init in rs = [None; Some (Value 51); Some (Value 51); Some CheckRaised; None; Some (Value 71)] /\ rs = snd (toy_plain ops (fun _ => None)) /\ g_calls g = 3.
Proof. vm_compute. auto. Qed.
(** ** C138 a failed check is not repeated: nodes 11 and 12 are alike; both refuse a first input, then node 12 gets its value from
    the cache without ever being set to 2 dimensions, and accepts 3 *)
Theorem C138_failed_check_refuted : exists ops, snd (toy_run ops toy_init) <> snd (toy_plain ops (fun _ => None)).
Proof.
  exists [Activate None None None; Execute 11 (0, 0); Execute 12 (0, 0); Execute 11 (2, 5); Execute 12 (2, 5); Execute 12 (3, 5)].
  vm_compute. discriminate.
Qed.
(** ** C52 contexts do not nest *)
Theorem C52_nested_refuted : exists body : list (op (St := option nat) (X := nat * nat)),
  g_active (fst (toy_run [Activate (Some (Named 1)) None None] toy_init)) = true /\
  g_active (fst (toy_run (Activate (Some (Named 1)) None None :: with_cache (Some (Named 2)) None None body) toy_init)) = false.
Proof. exists []. split; reflexivity. Qed.
(** ** C139 a second activation keeps the classes of the first *)
Theorem C139_reactivation_refuted : exists i, let g := fst (toy_run [Activate None (Some [1]) None; Activate None None (Some [25])] toy_init) in
  is_cached (fun i => i / 10) i g = true /\ i / 10 = 1 /\ i <> 25.
Proof. exists 11. cbn. repeat split; lia. Qed.
(** ** C140 switching the caching of an instance off *)
Theorem C140_instance_refuted : exists i, let g := fst (toy_run [Activate None None (Some [i]); SetInstance i true; SetInstance i false] toy_init) in
  g_active g = true /\ is_cached (fun i => i / 10) i g = true.
Proof. exists 11. split; reflexivity. Qed.
Theorem C140_instance : forall {St X Y : Type} (cls : nat -> nat) (g : glob (St := St) (X := X) (Y := Y)) i, g_active g = true -> g_global g = false -> ~ In (cls i) (g_classes g) -> NoDup (g_instances g) ->
  is_cached cls i (set_instance_cache i true g) = true /\ is_cached cls i (set_instance_cache i false g) = false.
Proof.
  intros St X Y cls g i Ha Hg Hc Hn. unfold set_instance_cache. rewrite Ha. unfold is_cached. cbn. rewrite Hg. cbn [orb].
  assert (E : existsb (Nat.eqb (cls i)) (g_classes g) = false).
  { destruct (existsb _ _) eqn:E; [|reflexivity]. apply existsb_exists in E. destruct E as (c & H1 & H2). apply Nat.eqb_eq in H2. now subst. }
  rewrite E. cbn [orb]. split; [rewrite existsb_app; cbn; rewrite Nat.eqb_refl; apply orb_true_r|].
  induction Hn as [|j l Hj Hn IH]; [reflexivity|]. cbn. destruct (Nat.eqb_spec i j) as [->|Hij].
  - destruct (existsb (Nat.eqb j) l) eqn:E2; [|reflexivity]. apply existsb_exists in E2. destruct E2 as (c & H1 & H2). apply Nat.eqb_eq in H2. now subst.
  - cbn. destruct (Nat.eqb_spec i j); [contradiction|]. exact IH.
Qed.
(** ** C141 activating the extension by its name, as any other extension *)
Theorem C141_by_name_refuted : exists i x, snd (toy_run [ByName true; Execute i x] toy_init) = [None; Some AttrError].
Proof. now exists 1, (2, 3). Qed.
