(** Properties of the extension mechanism (C12-C14, C78-C85). *)
From Coq Require Import List Arith Bool Lia.
From Verif Require Import ExtModel ExtProofs.
Import ListNotations.

(** ** C12: activation and deactivation of one extension, other extensions being active or not *)
(** [restorable] (ExtProofs.v) lists the conditions: no other active extension has changed these attributes of these classes;
    superclasses come first; a class with a registered (or extended) superclass does not define the attribute itself; no static or
    class methods; no class repeats a value of a superclass.  Without them the statement is false (C78-C81 below). *)
Theorem C12_restore : forall mro reg s e x, wf_mro mro -> reg e = Some x -> setup_raises x = false -> teardown_raises x = false ->
  ~ In e (active s) -> restorable mro (dicts s) (entries x) ->
  exists s1 s2,
    activate mro reg s e = (s1, None) /\ active s1 = active s ++ [e] /\
    (forall c a v, In (c, a, v) (entries x) -> dicts s1 c (Attr a) = Some v /\ dicts s1 c (Flag a) = Some (Name e)) /\
    (forall c a, (forall v, ~ In (c, a, v) (entries x)) -> dicts s1 c (Attr a) = dicts s c (Attr a)) /\
    (forall c a v, In (c, a, v) (entries x) -> (forall d w, In (d, a, w) (entries x) -> ~ In d (mro c)) -> lookup mro (dicts s) c (Flag a) = None ->
       getattr mro (dicts s) c (Attr a) <> None -> getattr mro (dicts s1) c (Orig a) = getattr mro (dicts s) c (Attr a)) /\
    deactivate mro reg s1 e = (s2, None) /\ active s2 = active s /\ forall c k, dicts s2 c k = dicts s c k.
Proof.
  intros mro reg s e x W Hr Hs Ht Hn R.
  destruct (act_entries_ok mro (dicts s) e (entries x) W R (entries x) [] (dicts s) eq_refl (inj_nil _ _ _ _)) as (d1 & E1 & D1).
  destruct (deact_entries_ok mro (dicts s) e (entries x) W R (entries x) [] d1 eq_refl D1) as (d2 & E2 & D2).
  pose proof (r_nodup _ _ _ R) as Hnd.
  assert (mem e (active s) = false) as Hm by (apply not_true_iff_false; rewrite mem_spec; exact Hn).
  assert (mem e (active s ++ [e]) = true) as Hm' by (apply mem_spec; apply in_or_app; right; left; reflexivity).
  exists (mkS d1 (active s ++ [e])), (mkS d2 (active s)). cbn [active dicts].
  split; [unfold activate; rewrite Hr, Hm, Hs, E1; reflexivity|]. split; [reflexivity|].
  split. { intros c a v Hi. rewrite !D1. cbn. rewrite (look_in _ _ _ _ Hnd Hi). auto. }
  split. { intros c a Hi. rewrite D1. cbn. rewrite (proj2 (look_none _ _ _) Hi). reflexivity. }
  split. { intros c a v Hi Hsup Hfl Hget.
    assert (lookup mro d1 c (Orig a) = d1 c (Orig a) \/ d1 c (Orig a) = None) as Hl by (unfold lookup; cbn [find]; destruct (d1 c (Orig a)); auto).
    rewrite D1 in Hl. cbn [inj] in Hl. rewrite (look_in _ _ _ _ Hnd Hi) in Hl. revert Hl.
    assert (pinned mro (dicts s) (entries x) c a = true) as ->.
    { unfold pinned. unfold getattr in Hget. destruct (lookup mro (dicts s) c (Attr a)); [|contradiction]. rewrite Hfl.
      apply negb_true_iff, not_true_iff_false. intros H. apply existsb_exists in H as ([[d a'] w] & Hd & H). cbn in H. apply andb_true_iff in H as [H1 H2].
      apply Nat.eqb_eq in H1 as ->. apply mem_spec in H2. exact (Hsup d w Hd H2). }
    unfold getattr in *. destruct (lookup mro (dicts s) c (Attr a)); [|contradiction]. intros [->|H]; [reflexivity|discriminate]. }
  split; [|split; [reflexivity|exact D2]].
  unfold deactivate. cbn [active dicts]. rewrite Hr, Hm'. cbn [negb]. rewrite E2, Ht.
  assert (remove e (active s ++ [e]) = active s) as ->; [|reflexivity].
  unfold remove. rewrite filter_app. cbn. rewrite Nat.eqb_refl. cbn. rewrite app_nil_r. clear - Hn. induction (active s) as [|y l IH]; cbn; [reflexivity|].
  destruct (Nat.eqb_spec y e) as [->|]; cbn; [destruct Hn; left; reflexivity|]. rewrite IH; [reflexivity|]. intros H. apply Hn. right. exact H.
Qed.

(** A hierarchy for examples: 1 and 2 derive from 0, 3 from 1 and 2 (MRO 3, 1, 2, 0). *)
Definition mro4 (c : nat) : list nat := match c with 1 => [0] | 2 => [0] | 3 => [1; 2; 0] | _ => [] end.
Lemma mro4_wf : wf_mro mro4.
Proof.
  intros c. destruct c as [|[|[|[|c]]]]; cbn; (split; [intuition congruence|]); intros x Hx; repeat (destruct Hx as [<-|Hx]; [intros y Hy; cbn in Hy |- *; tauto|]); destruct Hx.
Qed.
Definition dict_of (l : list (nat * nat * val)) : dict := fun c k => match k with Attr a => look l c a | _ => None end.
Definition one (e : ext) : nat -> option ext := fun n => match n with 0 => Some e | _ => None end.
(** Class 0 has method 7; class 2 has its own 8.  The extension overrides 7 in 0 and in 1 (in this order), overrides 8 in 2, adds 9 to 3. *)
Definition ext1 := mkE [(0, 7, Plain 70); (1, 7, Plain 71); (2, 8, Plain 72); (3, 9, Plain 73)] false false.
Definition base1 := dict_of [(0, 7, Plain 1); (2, 8, Plain 2)].
Example C12_example : restorable mro4 base1 (entries ext1) /\
  let s1 := fst (activate mro4 (one ext1) (mkS base1 []) 0) in
  lookup mro4 (dicts s1) 3 (Attr 7) = Some (Plain 71) /\ lookup mro4 (dicts s1) 2 (Attr 7) = Some (Plain 70) /\
  lookup mro4 (dicts s1) 2 (Orig 8) = Some (Plain 2) /\
  let s2 := fst (deactivate mro4 (one ext1) s1 0) in
  lookup mro4 (dicts s2) 3 (Attr 7) = Some (Plain 1) /\ dicts s2 1 (Attr 7) = None /\ dicts s2 2 (Attr 8) = Some (Plain 2).
Proof.
  split; [|vm_compute; auto 10]. constructor.
  - repeat constructor; cbn; intuition congruence.
  - intros c a v _. auto.
  - intros l1 c a v l2 d w H Hd. unfold ext1, entries in H.
    destruct l1 as [|x1 [|x2 [|x3 [|x4 [|x5 l1]]]]]; cbn in H; injection H; intros; subst; cbn in Hd; intuition (try congruence);
      match goal with H : (_, _, _) = (_, _, _) |- _ => injection H; intros; subst; cbn in *; intuition congruence | _ => idtac end; try discriminate.
  - intros c a v Hi [(d & w & Hd & Hm)|Hf].
    + cbn in Hi, Hd. decompose [or] Hi; try contradiction; match goal with H : (_, _, _) = (_, _, _) |- _ => injection H as <- <- <- end; try reflexivity;
        cbn in Hm; decompose [or] Hd; try contradiction; match goal with H : (_, _, _) = (_, _, _) |- _ => injection H; intros; subst end; try congruence; try contradiction.
      destruct Hm as [|[]]; congruence.
    + exfalso. apply Hf. apply find_none. reflexivity.
  - intros c a v u Hi. cbn in Hi. decompose [or] Hi; try contradiction; match goal with H : (_, _, _) = (_, _, _) |- _ => injection H as <- <- <- end; vm_compute; intros H1; inversion H1; exact I.
  - intros c a v u x Hi. cbn in Hi. decompose [or] Hi; try contradiction; match goal with H : (_, _, _) = (_, _, _) |- _ => injection H as <- <- <- end;
      intros Hu Hx; try discriminate Hu; cbn in Hx; decompose [or] Hx; try contradiction; subst; vm_compute; discriminate.
Qed.

(** The conditions matter. *)
Definition roundtrip mro reg d e := dicts (fst (deactivate mro reg (fst (activate mro reg (mkS d []) e)) e)).
(** C78: superclass and subclass registered, the subclass has its own method: it is lost. *)
Theorem C78_override_refuted : exists mro reg d, wf_mro mro /\ d 1 (Attr 7) = Some (Plain 2) /\
  snd (activate mro reg (mkS d []) 0) = None /\ lookup mro (roundtrip mro reg d 0) 1 (Attr 7) = Some (Plain 1).
Proof.
  exists mro4, (one (mkE [(0, 7, Plain 70); (1, 7, Plain 71)] false false)), (dict_of [(0, 7, Plain 1); (1, 7, Plain 2)]).
  split; [exact mro4_wf|]. vm_compute. auto.
Qed.
(** C79: a subclass registered before its superclass: the inherited method gets copied into the subclass, which changes what a further
    class inherits (class 3 used to get the method of class 2). *)
Theorem C79_order_refuted : exists mro reg d, wf_mro mro /\ d 1 (Attr 7) = None /\ lookup mro d 3 (Attr 7) = Some (Plain 2) /\
  snd (activate mro reg (mkS d []) 0) = None /\ roundtrip mro reg d 0 1 (Attr 7) = Some (Plain 1) /\
  lookup mro (roundtrip mro reg d 0) 3 (Attr 7) = Some (Plain 1).
Proof.
  exists mro4, (one (mkE [(1, 7, Plain 71); (0, 7, Plain 70)] false false)), (dict_of [(0, 7, Plain 1); (2, 7, Plain 2)]).
  split; [exact mro4_wf|]. vm_compute. auto 10.
Qed.
(** C80: a static method comes back as a plain function, a class method as a method bound to that class, also for its subclasses. *)
Theorem C80_classmethod_refuted : exists mro reg d, wf_mro mro /\ d 1 (Attr 7) = Some (Static 1) /\ d 1 (Attr 8) = Some (ClassM 2) /\
  getattr mro d 3 (Attr 8) = Some (Bound 3 2) /\ snd (activate mro reg (mkS d []) 0) = None /\
  roundtrip mro reg d 0 1 (Attr 7) = Some (Plain 1) /\ getattr mro (roundtrip mro reg d 0) 3 (Attr 8) = Some (Bound 1 2).
Proof.
  exists mro4, (one (mkE [(1, 7, Plain 71); (1, 8, Plain 72)] false false)), (dict_of [(1, 7, Static 1); (1, 8, ClassM 2)]).
  split; [exact mro4_wf|]. vm_compute. auto 10.
Qed.
(** C81: a class that sets an attribute to the value of a remoter superclass loses it. *)
Theorem C81_reexposed_refuted : exists mro reg d, wf_mro mro /\ lookup mro d 3 (Attr 7) = Some (Plain 1) /\
  snd (activate mro reg (mkS d []) 0) = None /\ lookup mro (roundtrip mro reg d 0) 3 (Attr 7) = Some (Plain 2).
Proof.
  exists mro4, (one (mkE [(3, 7, Plain 71)] false false)), (dict_of [(3, 7, Plain 1); (1, 7, Plain 2); (0, 7, Plain 1)]).
  split; [exact mro4_wf|]. vm_compute. auto.
Qed.
(** C84: with a registered superclass the prefixed name need not give the original method of the class. *)
Theorem C84_original_refuted : exists mro reg d, wf_mro mro /\ lookup mro d 3 (Attr 7) = Some (Plain 2) /\
  snd (activate mro reg (mkS d []) 0) = None /\ lookup mro (dicts (fst (activate mro reg (mkS d []) 0))) 3 (Attr 7) = Some (Plain 71) /\
  lookup mro (dicts (fst (activate mro reg (mkS d []) 0))) 3 (Orig 7) = Some (Plain 1).
Proof.
  exists mro4, (one (mkE [(0, 7, Plain 70); (3, 7, Plain 71)] false false)), (dict_of [(0, 7, Plain 1); (1, 7, Plain 2)]).
  split; [exact mro4_wf|]. vm_compute. auto.
Qed.

(** ** C82: independent extensions, any calls in any order *)
Inductive eop := OActivate (e : nat) | ODeactivate (e : nat) | OActivates (es : list nat) | ODeactivates (es : list nat).
Definition estep mro reg order (s : est) (o : eop) : est :=
  match o with
  | OActivate e => fst (activate mro reg s e)
  | ODeactivate e => fst (deactivate mro reg s e)
  | OActivates es => fst (activates mro reg order s es)
  | ODeactivates es => fst (deactivates mro reg s es)
  end.
(** What a class dictionary contains: for an active extension the registered value, else the original. *)
Definition expected reg (b : dict) (act : list nat) (c a : nat) (v : option val) : Prop :=
  (exists e w, In e act /\ entry reg e c a w /\ v = Some w) \/ ((forall e w, In e act -> ~ entry reg e c a w) /\ v = b c (Attr a)).

Lemma good_deactivates mro reg b es : wf_mro mro -> independent mro reg b -> forall s, good mro reg b s -> good mro reg b (fst (deactivates mro reg s es)).
Proof.
  intros W I. induction es as [|e es IH]; intros s G; cbn [deactivates]; [exact G|].
  destruct (reg e) eqn:Er; [|unfold deactivate; rewrite Er; exact G].
  destruct (deactivate_good mro reg b W I s e G) as (s' & E & G' & _); [congruence|]. rewrite E. apply IH. exact G'.
Qed.
Lemma good_activates_loop mro reg b es : wf_mro mro -> independent mro reg b -> forall s, good mro reg b s -> good mro reg b (fst (activates_loop mro reg s es)).
Proof.
  intros W I. induction es as [|e es IH]; intros s G; cbn [activates_loop]; [exact G|].
  destruct (reg e) eqn:Er; [|unfold activate; rewrite Er; exact G].
  destruct (activate_good mro reg b W I s e G) as (s' & E & G' & _); [congruence|]. rewrite E. apply IH. exact G'.
Qed.
Lemma good_step mro reg order b s o : wf_mro mro -> independent mro reg b -> good mro reg b s -> good mro reg b (estep mro reg order s o).
Proof.
  intros W I G. destruct o as [e|e|es|es]; cbn.
  - destruct (reg e) eqn:Er; [|unfold activate; rewrite Er; exact G].
    destruct (activate_good mro reg b W I s e G) as (s' & E & G' & _); [congruence|]. rewrite E. exact G'.
  - destruct (reg e) eqn:Er; [|unfold deactivate; rewrite Er; exact G].
    destruct (deactivate_good mro reg b W I s e G) as (s' & E & G' & _); [congruence|]. rewrite E. exact G'.
  - unfold activates. pose proof (good_activates_loop mro reg b es W I s G) as G1. destruct (activates_loop mro reg s es) as [s1 [ex|]]; [|exact G1].
    pose proof (good_deactivates mro reg b (order (active s1)) W I s1 G1) as G2. destruct (deactivates mro reg s1 (order (active s1))) as [s2 [ex'|]]; exact G2.
  - apply good_deactivates; assumption.
Qed.
Lemma good_start mro reg b : wf_mro mro -> independent mro reg b -> good mro reg b (mkS b []).
Proof.
  intros W I. split; [constructor|]. split; [intros e []|]. intros c k. cbn. destruct k; cbn; try reflexivity; [destruct (i_clean _ _ _ I c a)|destruct (i_clean _ _ _ I c a)]; assumption.
Qed.

Theorem C82_any_order : forall mro reg order b ops, wf_mro mro -> independent mro reg b ->
  let s := fold_left (estep mro reg order) ops (mkS b []) in
  (forall c a, expected reg b (active s) c a (dicts s c (Attr a))) /\
  (forall c a, dicts s c (Flag a) <> None <-> exists e w, In e (active s) /\ entry reg e c a w) /\
  (active s = [] -> forall c k, dicts s c k = b c k).
Proof.
  intros mro reg order b ops W I s.
  assert (good mro reg b s) as (G1 & G2 & G3).
  { unfold s. clear s. generalize (good_start mro reg b W I). generalize (mkS b []). induction ops as [|o ops IH]; intros s G; cbn; [exact G|].
    apply IH. apply good_step; assumption. }
  split; [|split].
  - intros c a. rewrite G3. cbn. destruct (ovA reg (active s) c a) as [[e w]|] eqn:E.
    + left. apply ovA_some in E as [Hi He]. exists e, w. auto.
    + right. split; [|reflexivity]. intros e w Hi He. rewrite (ovA_in mro reg b I _ _ _ _ _ Hi He) in E. discriminate.
  - intros c a. rewrite G3. cbn. destruct (ovA reg (active s) c a) as [[e w]|] eqn:E.
    + split; [|discriminate]. intros _. apply ovA_some in E as [Hi He]. exists e, w. auto.
    + split; [congruence|]. intros (e & w & Hi & He). rewrite (ovA_in mro reg b I _ _ _ _ _ Hi He) in E. discriminate.
  - intros Ha c k. rewrite G3, Ha. destruct (i_clean _ _ _ I c 0). destruct k; cbn; try reflexivity; symmetry; apply I.
Qed.

(** Two extensions on unrelated classes 1 and 2, and on different attributes. *)
Definition reg2 (e : nat) : option ext :=
  match e with
  | 0 => Some (mkE [(1, 7, Plain 71); (0, 8, Plain 72)] false false)
  | 1 => Some (mkE [(2, 7, Plain 81); (3, 9, Plain 82)] false false)
  | _ => None
  end.
Definition base2 := dict_of [(0, 7, Plain 1); (2, 7, Plain 2); (3, 8, Plain 3)].
Lemma reg2_independent : independent mro4 reg2 base2.
Proof.
  assert (forall e c a v, entry reg2 e c a v -> (e, c, a, v) = (0, 1, 7, Plain 71) \/ (e, c, a, v) = (0, 0, 8, Plain 72) \/ (e, c, a, v) = (1, 2, 7, Plain 81) \/ (e, c, a, v) = (1, 3, 9, Plain 82)) as Hall.
  { intros e c a v (x & Hr & Hi). destruct e as [|[|e]]; cbn in Hr; try discriminate; injection Hr as <-; cbn in Hi; decompose [or] Hi; try contradiction;
      match goal with H : (_, _, _) = (_, _, _) |- _ => injection H as <- <- <- end; auto. }
  constructor.
  - intros e x Hr. destruct e as [|[|e]]; cbn in Hr; try discriminate; injection Hr as <-; cbn; repeat split; repeat constructor; cbn; intuition congruence.
  - intros e1 e2 c d a v w H1 H2. apply Hall in H1, H2. decompose [or] H1; decompose [or] H2; clear H1 H2;
      repeat match goal with H : (_, _, _, _) = (_, _, _, _) |- _ => injection H; clear H; intros; subst end; try discriminate; cbn; split; intuition congruence.
  - auto.
  - intros e c a v u H. apply Hall in H. decompose [or] H; clear H; match goal with H : (_, _, _, _) = (_, _, _, _) |- _ => injection H; clear H; intros; subst end;
      match goal with H : lookup _ _ _ _ = _ |- _ => vm_compute in H; inversion H; exact Logic.I end.
  - intros e c a v u x H Hu Hx. apply Hall in H. decompose [or] H; clear H; match goal with H : (_, _, _, _) = (_, _, _, _) |- _ => injection H; clear H; intros; subst end;
      vm_compute in Hu; try discriminate; injection Hu as <-; cbn in Hx; decompose [or] Hx; try contradiction; subst; vm_compute; discriminate.
Qed.
Example C82_example :
  let s := fold_left (estep mro4 reg2 (fun l => l)) [OActivate 0; OActivate 1; ODeactivate 0; OActivate 1] (mkS base2 []) in
  active s = [1] /\ dicts s 1 (Attr 7) = None /\ dicts s 2 (Attr 7) = Some (Plain 81) /\ dicts s 0 (Attr 8) = None /\ dicts s 3 (Attr 8) = Some (Plain 3).
Proof. vm_compute. auto. Qed.

(** ** C13: contexts and decorated functions *)
Fixpoint names_known (reg : nat -> option ext) (p : prog) : Prop :=
  match p with
  | PSkip | PRaise => True
  | PSeq p q => names_known reg p /\ names_known reg q
  | PContext names p => (forall e, In e names -> reg e <> None) /\ names_known reg p
  | PDecorated e p => reg e <> None /\ names_known reg p
  end.
Fixpoint body_raises (p : prog) : bool :=
  match p with
  | PSkip => false
  | PRaise => true
  | PSeq p q => body_raises p || body_raises q
  | PContext _ p | PDecorated _ p => body_raises p
  end.

Lemma remove_last e l : ~ In e l -> remove e (l ++ [e]) = l.
Proof.
  intros Hn. unfold remove. rewrite filter_app. cbn. rewrite Nat.eqb_refl. cbn. rewrite app_nil_r. induction l as [|y l IH]; cbn; [reflexivity|].
  destruct (Nat.eqb_spec y e) as [->|]; cbn; [destruct Hn; left; reflexivity|]. rewrite IH; [reflexivity|]. intros H. apply Hn. right. exact H.
Qed.

Lemma exec_ok mro reg order b : wf_mro mro -> independent mro reg b -> forall p s, good mro reg b s -> names_known reg p ->
  exists s', exec mro reg order s p = (s', if body_raises p then Some EBody else None) /\ good mro reg b s' /\ active s' = active s.
Proof.
  intros W I. induction p as [| |p IHp q IHq|names p IH|e p IH]; intros s G Hk; cbn [exec body_raises].
  - exists s. auto.
  - exists s. auto.
  - destruct Hk as [K1 K2]. destruct (IHp s G K1) as (s1 & E1 & G1 & A1). rewrite E1. destruct (body_raises p); cbn [orb]; [exists s1; auto|].
    destruct (IHq s1 G1 K2) as (s2 & E2 & G2 & A2). exists s2. rewrite A2. auto.
  - destruct Hk as [K1 K2]. unfold activates. destruct (activates_good mro reg b W I names s G K1) as (s1 & B & E1 & G1 & A1 & I1 & D1). rewrite E1.
    destruct (IH s1 G1 K2) as (s2 & E2 & G2 & A2). rewrite E2.
    destruct (deactivates_good mro reg b W I (filter (fun e => negb (mem e (active s))) names) s2 G2) as (s3 & E3 & G3 & A3).
    { intros e He. apply filter_In in He as [He _]. auto. }
    rewrite E3. exists s3. split; [reflexivity|]. split; [exact G3|]. rewrite A3, A2, A1, filter_app.
    assert (forall e, In e (filter (fun e => negb (mem e (active s))) names) <-> In e names /\ ~ In e (active s)) as Hf.
    { intros e. rewrite filter_In, negb_true_iff, <- (mem_spec e (active s)). destruct (mem e (active s)); intuition congruence. }
    assert (forall l, (forall e, In e l -> ~ In e (filter (fun e => negb (mem e (active s))) names)) ->
              filter (fun e => negb (mem e (filter (fun e => negb (mem e (active s))) names))) l = l) as Hkeep.
    { induction l as [|y l IHl]; intros H; [reflexivity|]. cbn.
      destruct (mem y (filter (fun e => negb (mem e (active s))) names)) eqn:Em; [apply mem_spec in Em; destruct (H y (or_introl eq_refl) Em)|].
      cbn. rewrite IHl; [reflexivity|]. intros e He. apply H. right. exact He. }
    assert (forall l, (forall e, In e l -> In e (filter (fun e => negb (mem e (active s))) names)) ->
              filter (fun e => negb (mem e (filter (fun e => negb (mem e (active s))) names))) l = []) as Hdrop.
    { induction l as [|y l IHl]; intros H; [reflexivity|]. cbn. rewrite (proj2 (mem_spec y _)) by (apply H; left; reflexivity). cbn.
      apply IHl. intros e He. apply H. right. exact He. }
    rewrite Hkeep, Hdrop, app_nil_r; [reflexivity| |].
    + intros e He. apply Hf. auto.
    + intros e He H. apply Hf in H. tauto.
  - destruct Hk as [K1 K2]. destruct (mem e (active s)) eqn:Em; cbn [negb]; [apply IH; assumption|].
    destruct (activate_good mro reg b W I s e G K1) as (s1 & E1 & G1 & A1). rewrite E1. rewrite Em in A1.
    destruct (IH s1 G1 K2) as (s2 & E2 & G2 & A2). rewrite E2.
    destruct (deactivate_good mro reg b W I s2 e G2 K1) as (s3 & E3 & G3 & A3). rewrite E3. exists s3. split; [reflexivity|]. split; [exact G3|].
    rewrite A3, A2, A1. apply remove_last. intros H. apply mem_spec in H. congruence.
Qed.

Theorem C13_contexts : forall mro reg order b ops p, wf_mro mro -> independent mro reg b -> names_known reg p ->
  let s := fold_left (estep mro reg order) ops (mkS b []) in
  exists s', exec mro reg order s p = (s', if body_raises p then Some EBody else None) /\
    active s' = active s /\ forall c k, dicts s' c k = dicts s c k.
Proof.
  intros mro reg order b ops p W I Hk s.
  assert (good mro reg b s) as G.
  { unfold s. clear s. generalize (good_start mro reg b W I). generalize (mkS b []). induction ops as [|o ops IH]; intros s G; cbn; [exact G|].
    apply IH. apply good_step; assumption. }
  destruct (exec_ok mro reg order b W I p s G Hk) as (s' & E & (G1 & G2 & G3) & A). exists s'. split; [exact E|]. split; [exact A|].
  intros c k. rewrite G3, A. symmetry. apply G.
Qed.
Example C13_example :
  let p := PContext [1; 0] (PSeq (PDecorated 0 (PContext [0] PSkip)) PRaise) in
  let s := fst (activate mro4 reg2 (mkS base2 []) 1) in
  names_known reg2 p /\ snd (exec mro4 reg2 (fun l => l) s p) = Some EBody /\ active (fst (exec mro4 reg2 (fun l => l) s p)) = [1].
Proof. split; [cbn; repeat split; intuition (subst; discriminate)|vm_compute; auto]. Qed.

(** Entering a context that fails deactivates also the extensions that were active before. *)
Theorem C13_failing_enter_refuted : exists mro reg order b p, wf_mro mro /\ independent mro reg b /\
  active (fst (activate mro reg (mkS b []) 0)) = [0] /\ active (fst (exec mro reg order (fst (activate mro reg (mkS b []) 0)) p)) = [].
Proof.
  exists mro4, reg2, (fun l => l), base2, (PContext [5] PSkip). split; [exact mro4_wf|]. split; [exact reg2_independent|]. vm_compute. auto.
Qed.
(** C83: a context with several extensions deactivates them in the order of activation; when a class and its superclass get the same
    attribute from different extensions, the subclass is left changed although each extension alone, and nested contexts, restore it. *)
Definition reg3 (e : nat) : option ext :=
  match e with 0 => Some (mkE [(1, 7, Plain 71)] false false) | 1 => Some (mkE [(0, 7, Plain 70)] false false) | _ => None end.
Theorem C83_list_context_refuted : exists mro reg b, wf_mro mro /\ b 1 (Attr 7) = None /\
  snd (exec mro reg (fun l => l) (mkS b []) (PContext [0; 1] PSkip)) = None /\
  dicts (fst (exec mro reg (fun l => l) (mkS b []) (PContext [0; 1] PSkip))) 1 (Attr 7) = Some (Plain 1) /\
  dicts (fst (exec mro reg (fun l => l) (mkS b []) (PContext [0] (PContext [1] PSkip)))) 1 (Attr 7) = None.
Proof. exists mro4, reg3, (dict_of [(0, 7, Plain 1)]). split; [exact mro4_wf|]. vm_compute. auto. Qed.

(** ** C14: failing activations *)
(** Whenever an activation fails because of a name clash, the attribute injected by the other extension is gone afterwards, although
    that extension stays active: a failed activation always leaves a trace. *)
Lemma deact_entry_flags mro d x d' : deact_entry mro d x = (d', None) ->
  d' (fst (fst x)) (Flag (snd (fst x))) = None /\ forall c a, d c (Flag a) = None -> d' c (Flag a) = None.
Proof.
  destruct x as [[c0 a0] v0]. cbn [fst snd]. unfold deact_entry.
  assert (forall d1 : dict, (forall c a, d1 c (Flag a) = d c (Flag a)) ->
     dset (dset d1 c0 (Orig a0) None) c0 (Flag a0) None c0 (Flag a0) = None /\
     forall c a, d c (Flag a) = None -> dset (dset d1 c0 (Orig a0) None) c0 (Flag a0) None c (Flag a) = None) as H.
  { intros d1 H1. split; [apply dset_same|]. intros c a Ha. destruct (Nat.eq_dec c c0) as [->|], (Nat.eq_dec a a0) as [->|];
      try (rewrite !dset_other by (first [left; congruence|right; congruence]); rewrite H1; exact Ha). apply dset_same. }
  destruct (d c0 (Orig a0)).
  - destruct (d c0 (Attr a0)); [|discriminate]. intros [= <-]. apply H. intros c a.
    destruct (forallb _ _); rewrite !dset_other by (right; discriminate); reflexivity.
  - intros [= <-]. split; [apply dset_same|]. intros c a Ha. destruct (Nat.eq_dec c c0) as [->|], (Nat.eq_dec a a0) as [->|];
      try (rewrite !dset_other by (first [left; congruence|right; congruence]); exact Ha). apply dset_same.
Qed.
Lemma deact_entries_flags mro l : forall d d', deact_entries mro d l = (d', None) ->
  (forall c a v, In (c, a, v) l -> d' c (Flag a) = None) /\ (forall c a, d c (Flag a) = None -> d' c (Flag a) = None).
Proof.
  induction l as [|x l IH]; intros d d'; cbn [deact_entries].
  - intros [= <-]. split; [intros c a v []|auto].
  - destruct (deact_entry mro d x) as [d1 [ex|]] eqn:E; [discriminate|]. intros H. destruct (deact_entry_flags _ _ _ _ E) as [F1 F2].
    destruct (IH _ _ H) as [I1 I2]. split; [|auto]. intros c a v [->|Hi]; [apply I2; exact F1|eapply I1; exact Hi].
Qed.
Lemma act_entries_collision mro e l : forall d d' ex, act_entries mro d e l = (d', Some ex) -> NoDup (map ekey l) ->
  ex = ECollision /\ exists c a v, In (c, a, v) l /\ d c (Flag a) <> None.
Proof.
  induction l as [|[[c a] v] l IH]; intros d d' ex; cbn [act_entries]; [discriminate|].
  destruct (act_entry mro d e (c, a, v)) as [d1 [ex1|]] eqn:E.
  - intros [= <- <-] _. unfold act_entry in E. destruct (lookup mro d c (Attr a)); [|discriminate].
    destruct (d c (Flag a)) eqn:Ef; [|discriminate]. injection E as _ <-. split; [reflexivity|]. exists c, a, v. split; [left; reflexivity|congruence].
  - intros H Hn. inversion Hn; subst. destruct (IH _ _ _ H H3) as (-> & c' & a' & v' & Hi & Hf). split; [reflexivity|].
    exists c', a', v'. split; [right; exact Hi|]. intros H0. apply Hf.
    assert ((c', a') <> (c, a)) as Hne. { intros [= -> ->]. apply H2. apply (in_map ekey) in Hi. exact Hi. }
    unfold act_entry in E.
    assert (forall d0 : dict, d0 c' (Flag a') = d c' (Flag a') ->
              dset (dset d0 c (Attr a) (Some v)) c (Flag a) (Some (Name e)) c' (Flag a') = None) as Hset.
    { intros d0 Hd0. rewrite dset_other; [rewrite dset_other by (right; discriminate); congruence|].
      destruct (Nat.eq_dec c' c); [right|left]; congruence. }
    destruct (lookup mro d c (Attr a)).
    + destruct (d c (Flag a)); [discriminate|]. injection E as <-. apply Hset. destruct (lookup mro d c (Flag a)); [reflexivity|].
      apply dset_other. right. discriminate.
    + injection E as <-. apply Hset. reflexivity.
Qed.

Theorem C14_collision_leaves_trace : forall mro reg s e s', activate mro reg s e = (s', Some ECollision) ->
  (forall x, reg e = Some x -> NoDup (map ekey (entries x))) ->
  exists c a, dicts s c (Flag a) <> None /\ dicts s' c (Flag a) = None.
Proof.
  intros mro reg s e s' H Hn. unfold activate in H. destruct (reg e) as [x|] eqn:Er; [|discriminate]. specialize (Hn x eq_refl).
  destruct (mem e (active s)) eqn:Em; [discriminate|]. destruct (setup_raises x) eqn:Es.
  { destruct (deactivate mro reg _ e) as [s2 [ex|]] eqn:Ed in H; [|discriminate]. injection H as <- ->. unfold deactivate in Ed. rewrite Er in Ed.
    destruct (negb _) in Ed; [discriminate|]. destruct (deact_entries mro _ _) as [d2 [ex|]] eqn:E2 in Ed.
    - exfalso. assert (forall l d d' ex', deact_entries mro d l = (d', Some ex') -> ex' = EAttribute) as Hx.
      { clear. induction l as [|[[c a] v] l IH]; intros d d' ex'; cbn [deact_entries]; [discriminate|].
        destruct (deact_entry mro d (c, a, v)) as [d1 [e1|]] eqn:E1; [|apply IH]. intros [= <- <-]. unfold deact_entry in E1.
        destruct (d c (Orig a)); [destruct (d c (Attr a)); [discriminate|]; congruence|discriminate]. }
      apply Hx in E2. congruence.
    - destruct (teardown_raises x); discriminate. }
  destruct (act_entries mro (dicts s) e (entries x)) as [d1 [ex|]] eqn:E1; [|discriminate].
  destruct (act_entries_collision _ _ _ _ _ _ E1 Hn) as (-> & c & a & v & Hi & Hf). exists c, a. split; [exact Hf|].
  destruct (deactivate mro reg (mkS d1 (active s ++ [e])) e) as [s2 [ex|]] eqn:Ed.
  - (* an exception of the clean-up is not a collision *)
    exfalso. injection H as _ ->. unfold deactivate in Ed. rewrite Er in Ed. destruct (negb _) in Ed; [discriminate|].
    destruct (deact_entries mro _ _) as [d2 [ex|]] eqn:E2 in Ed.
    + assert (forall l d d' ex', deact_entries mro d l = (d', Some ex') -> ex' = EAttribute) as Hx.
      { clear. induction l as [|[[c a] v] l IH]; intros d d' ex'; cbn [deact_entries]; [discriminate|].
        destruct (deact_entry mro d (c, a, v)) as [d1 [e1|]] eqn:E1; [|apply IH]. intros [= <- <-]. unfold deact_entry in E1.
        destruct (d c (Orig a)); [destruct (d c (Attr a)); [discriminate|]; congruence|discriminate]. }
      apply Hx in E2. congruence.
    + destruct (teardown_raises x); discriminate.
  - injection H as <-. unfold deactivate in Ed. rewrite Er in Ed. cbn [active dicts] in Ed.
    assert (mem e (active s ++ [e]) = true) as Hm by (apply mem_spec; apply in_or_app; right; left; reflexivity). rewrite Hm in Ed. cbn [negb] in Ed.
    destruct (deact_entries mro d1 (entries x)) as [d2 [ex|]] eqn:E2; [discriminate|]. destruct (teardown_raises x); [discriminate|]. injection Ed as <-. cbn.
    apply (proj1 (deact_entries_flags _ _ _ _ E2) c a v Hi).
Qed.
Theorem C14_refuted : exists mro reg b e1 e2, wf_mro mro /\
  snd (activate mro reg (fst (activate mro reg (mkS b []) e1)) e2) = Some ECollision /\
  active (fst (activate mro reg (fst (activate mro reg (mkS b []) e1)) e2)) = [e1] /\
  dicts (fst (activate mro reg (mkS b []) e1)) 1 (Attr 7) = Some (Plain 71) /\
  dicts (fst (activate mro reg (fst (activate mro reg (mkS b []) e1)) e2)) 1 (Attr 7) = Some (Plain 1).
Proof.
  exists mro4, (fun e => Some (mkE [(1, 7, Plain (71 + e))] false false)), (dict_of [(1, 7, Plain 1)]), 0, 1.
  split; [exact mro4_wf|]. vm_compute. auto.
Qed.
(** C85: when the setup function raises, the clean-up deletes the classes' own methods. *)
Theorem C85_setup_failure_refuted : exists mro reg b, wf_mro mro /\ b 1 (Attr 7) = Some (Plain 1) /\
  snd (activate mro reg (mkS b []) 0) = Some ESetup /\ active (fst (activate mro reg (mkS b []) 0)) = [] /\
  dicts (fst (activate mro reg (mkS b []) 0)) 1 (Attr 7) = None.
Proof.
  exists mro4, (one (mkE [(1, 7, Plain 71)] true false)), (dict_of [(1, 7, Plain 1)]). split; [exact mro4_wf|]. vm_compute. auto.
Qed.
(** It leaves no trace if no registered class defines the attribute itself (and no other extension is involved). *)
Theorem C85_setup_failure_clean : forall mro reg s e x, reg e = Some x -> ~ In e (active s) -> setup_raises x = true -> teardown_raises x = false ->
  (forall c a v k, In (c, a, v) (entries x) -> k = Attr a \/ k = Orig a \/ k = Flag a -> dicts s c k = None) ->
  exists s', activate mro reg s e = (s', Some ESetup) /\ active s' = active s /\ forall c k, dicts s' c k = dicts s c k.
Proof.
  intros mro reg s e x Hr Hn Hs Ht Hfree. unfold activate. rewrite Hr.
  assert (mem e (active s) = false) as -> by (apply not_true_iff_false; rewrite mem_spec; exact Hn). rewrite Hs.
  unfold deactivate. cbn [active dicts]. rewrite Hr. rewrite (proj2 (mem_spec e (active s ++ [e]))) by (apply in_or_app; right; left; reflexivity). cbn [negb].
  assert (forall l d, incl l (entries x) -> deq d (dicts s) -> exists d', deact_entries mro d l = (d', None) /\ deq d' (dicts s)) as K.
  { induction l as [|[[c a] v] l IH]; intros d Hl Hd; [exists d; auto|]. cbn [deact_entries deact_entry].
    assert (In (c, a, v) (entries x)) as Hi by (apply Hl; left; reflexivity).
    rewrite Hd, (Hfree c a v (Orig a) Hi) by auto. apply IH; [intros y Hy; apply Hl; right; exact Hy|].
    intros c' k'. unfold dset. destruct (Nat.eqb_spec c' c) as [->|]; cbn [andb]; [|apply Hd].
    destruct (key_eqb_spec k' (Flag a)) as [->|]; [symmetry; apply (Hfree c a v); auto|].
    destruct (key_eqb_spec k' (Attr a)) as [->|]; [symmetry; apply (Hfree c a v); auto|apply Hd]. }
  destruct (K (entries x) (dicts s)) as (d' & E & D); [intros y Hy; exact Hy|intros c k; reflexivity|].
  rewrite E, Ht. exists (mkS d' (remove e (active s ++ [e]))). split; [reflexivity|]. split; [apply remove_last; exact Hn|exact D].
Qed.
Example C85_example :
  let r := activate mro4 (one (mkE [(1, 7, Plain 71); (3, 9, Plain 5)] true false)) (mkS (dict_of [(0, 7, Plain 1)]) []) 0 in
  snd r = Some ESetup /\ lookup mro4 (dicts (fst r)) 3 (Attr 7) = Some (Plain 1) /\ dicts (fst r) 3 (Attr 9) = None.
Proof. vm_compute. auto. Qed.
