(** Proofs about ExtModel. *)
From Coq Require Import List Arith Bool Lia.
From Verif Require Import ExtModel.
Import ListNotations.

Lemma key_eqb_spec x y : reflect (x = y) (key_eqb x y).
Proof. destruct x, y; cbn; try (constructor; congruence); destruct (Nat.eqb_spec a a0); constructor; congruence. Qed.
Lemma val_eqb_spec x y : reflect (x = y) (val_eqb x y).
Proof.
  destruct x, y; cbn; try (constructor; congruence);
    try (match goal with |- reflect _ (?a =? ?b) => destruct (Nat.eqb_spec a b); constructor; congruence end).
  destruct (Nat.eqb_spec c c0), (Nat.eqb_spec n n0); cbn; constructor; congruence.
Qed.
Lemma oval_eqb_spec x y : reflect (x = y) (oval_eqb x y).
Proof. destruct x, y; cbn; try (constructor; congruence). destruct (val_eqb_spec v v0); constructor; congruence. Qed.

Definition deq (d d' : dict) : Prop := forall c k, d c k = d' c k.

Lemma dset_same d c k v : dset d c k v c k = v.
Proof. unfold dset. rewrite Nat.eqb_refl. destruct (key_eqb_spec k k); [reflexivity|congruence]. Qed.
Lemma dset_other d c k v c' k' : c' <> c \/ k' <> k -> dset d c k v c' k' = d c' k'.
Proof. intros H. unfold dset. destruct (Nat.eqb_spec c' c), (key_eqb_spec k' k); cbn; try reflexivity. destruct H; contradiction. Qed.

Lemma find_ext d d' l k : (forall c, In c l -> d c k = d' c k) -> find d l k = find d' l k.
Proof.
  induction l as [|c l IH]; intros H; cbn; [reflexivity|]. rewrite (H c) by (left; reflexivity). destruct (d' c k); [reflexivity|].
  apply IH. intros x Hx. apply H. right. exact Hx.
Qed.
Lemma find_none d l k : find d l k = None <-> forall c, In c l -> d c k = None.
Proof.
  induction l as [|c l IH]; cbn; [split; auto; intros _ x []|]. destruct (d c k) eqn:E.
  - split; [discriminate|]. intros H. rewrite (H c) in E by auto. discriminate.
  - rewrite IH. split; [intros H x [<-|Hx]; auto|intros H x Hx; apply H; auto].
Qed.
Lemma find_some d l k v : find d l k = Some v -> exists c, In c l /\ d c k = Some v.
Proof.
  induction l as [|c l IH]; cbn; [discriminate|]. destruct (d c k) eqn:E; [intros [= ->]; exists c; auto|].
  intros H. destruct (IH H) as (x & Hx & Ex). exists x. auto.
Qed.
Lemma find_some_ex d l k c v : In c l -> d c k = Some v -> find d l k <> None.
Proof. intros Hc E H. rewrite find_none in H. rewrite (H c Hc) in E. discriminate. Qed.

Definition is_plain (v : val) : Prop := match v with Static _ | ClassM _ => False | _ => True end.
Lemma bind_plain c v : is_plain v -> bind c v = v.
Proof. destruct v; cbn; tauto. Qed.

Definition ekey (x : nat * nat * val) : nat * nat := fst x.
Definition wf_mro (mro : nat -> list nat) : Prop := forall c, ~ In c (mro c) /\ forall x, In x (mro c) -> incl (mro x) (mro c).

(** Value injected for [c], [a] by the entries [L]. *)
Fixpoint look (L : list (nat * nat * val)) (c a : nat) : option val :=
  match L with [] => None | (c', a', v) :: L => if (c' =? c) && (a' =? a) then Some v else look L c a end.
Lemma look_none L c a : look L c a = None <-> forall v, ~ In (c, a, v) L.
Proof.
  induction L as [|[[c' a'] v'] L IH]; cbn; [split; auto|]. destruct (Nat.eqb_spec c' c) as [->|Hc], (Nat.eqb_spec a' a) as [->|Ha]; cbn.
  - split; [discriminate|]. intros H. destruct (H v'). left. reflexivity.
  - rewrite IH. split; intros H v; [intros [E|Hi]; [congruence|exact (H v Hi)]|intros Hi; apply (H v); auto].
  - rewrite IH. split; intros H v; [intros [E|Hi]; [congruence|exact (H v Hi)]|intros Hi; apply (H v); auto].
  - rewrite IH. split; intros H v; [intros [E|Hi]; [congruence|exact (H v Hi)]|intros Hi; apply (H v); auto].
Qed.
Lemma look_some L c a v : look L c a = Some v -> In (c, a, v) L.
Proof.
  induction L as [|[[c' a'] v'] L IH]; cbn; [discriminate|]. destruct (Nat.eqb_spec c' c) as [->|Hc], (Nat.eqb_spec a' a) as [->|Ha]; cbn; auto.
  intros [= ->]. left. reflexivity.
Qed.
Lemma look_in L c a v : NoDup (map ekey L) -> In (c, a, v) L -> look L c a = Some v.
Proof.
  intros Hn Hi. destruct (look L c a) as [w|] eqn:E; [|exfalso; exact (proj1 (look_none L c a) E v Hi)].
  apply look_some in E. f_equal. clear - Hn Hi E. induction L as [|x L IH]; [destruct Hi|]. inversion Hn; subst.
  destruct Hi as [->|Hi], E as [E|E]; subst; auto; try congruence.
  - exfalso. apply H1. apply (in_map ekey) in E. exact E.
  - exfalso. apply H1. apply (in_map ekey) in Hi. exact Hi.
Qed.
Lemma look_app L1 L2 c a : look (L1 ++ L2) c a = match look L1 c a with Some v => Some v | None => look L2 c a end.
Proof. induction L1 as [|[[c' a'] v'] L IH]; cbn; [reflexivity|]. destruct ((c' =? c) && (a' =? a)); [reflexivity|exact IH]. Qed.

Section Restore.
  Variable mro : nat -> list nat.
  Variable s : dict.
  Variable e : nat.
  Variable E : list (nat * nat * val).

  (** Conditions under which activating the entries E and deactivating them restores all dictionaries. *)
  Record restorable : Prop := {
    r_nodup : NoDup (map ekey E);
    (* no active extension has changed these attributes in these classes *)
    r_free : forall c a v, In (c, a, v) E -> s c (Flag a) = None /\ s c (Orig a) = None;
    (* superclasses are registered before their subclasses *)
    r_order : forall l1 c a v l2 d w, E = l1 ++ (c, a, v) :: l2 -> In (d, a, w) l2 -> ~ In d (mro c);
    (* a class below another registered or extended class does not define the attribute itself *)
    r_own : forall c a v, In (c, a, v) E -> ((exists d w, In (d, a, w) E /\ In d (mro c)) \/ find s (mro c) (Flag a) <> None) -> s c (Attr a) = None;
    (* neither static nor class methods *)
    r_plain : forall c a v u, In (c, a, v) E -> lookup mro s c (Attr a) = Some u -> is_plain u;
    (* the class does not define what one of its superclasses has anyway *)
    r_new : forall c a v u x, In (c, a, v) E -> s c (Attr a) = Some u -> In x (mro c) -> getattr mro s x (Attr a) <> Some u }.

  Definition pinned (c a : nat) : bool :=
    match lookup mro s c (Attr a), lookup mro s c (Flag a) with
    | Some _, None => negb (existsb (fun x => (snd (fst x) =? a) && existsb (Nat.eqb (fst (fst x))) (mro c)) E)
    | _, _ => false
    end.
  Definition inj (L : list (nat * nat * val)) : dict := fun c k =>
    match k with
    | Attr a => match look L c a with Some v => Some v | None => s c k end
    | Flag a => match look L c a with Some _ => Some (Name e) | None => s c k end
    | Orig a => match look L c a with Some _ => if pinned c a then lookup mro s c (Attr a) else s c k | None => s c k end
    end.

  Hypothesis W : wf_mro mro.
  Hypothesis R : restorable.

  Lemma not_pinned c a : pinned c a = false ->
    lookup mro s c (Attr a) = None \/ lookup mro s c (Flag a) <> None \/ exists d w, In (d, a, w) E /\ In d (mro c).
  Proof.
    unfold pinned. destruct (lookup mro s c (Attr a)); [|auto]. destruct (lookup mro s c (Flag a)); [right; left; discriminate|].
    intros H. apply negb_false_iff, existsb_exists in H as ([[d a'] w] & Hi & H). cbn in H. apply andb_true_iff in H as [H1 H2].
    apply Nat.eqb_eq in H1 as ->. apply existsb_exists in H2 as (y & Hy & Ey). apply Nat.eqb_eq in Ey as ->. right. right. eauto.
  Qed.
  Lemma is_pinned c a : pinned c a = true ->
    lookup mro s c (Attr a) <> None /\ lookup mro s c (Flag a) = None /\ forall d w, In (d, a, w) E -> ~ In d (mro c).
  Proof.
    unfold pinned. destruct (lookup mro s c (Attr a)); [|discriminate]. destruct (lookup mro s c (Flag a)); [discriminate|].
    intros H. apply negb_true_iff in H. split; [discriminate|]. split; [reflexivity|]. intros d w Hi Hd.
    assert (existsb (fun x => (snd (fst x) =? a) && existsb (Nat.eqb (fst (fst x))) (mro c)) E = true) as H'; [|congruence].
    apply existsb_exists. exists (d, a, w). cbn. rewrite Nat.eqb_refl. split; [exact Hi|]. apply existsb_exists. exists d. split; [exact Hd|apply Nat.eqb_refl].
  Qed.

  Lemma key_once L c a v Q : E = L ++ (c, a, v) :: Q -> look L c a = None /\ look Q c a = None.
  Proof.
    intros HE. pose proof (r_nodup R) as Hn. rewrite HE, map_app in Hn. cbn in Hn. apply NoDup_remove_2 in Hn. rewrite in_app_iff in Hn.
    split; apply look_none; intros w Hw; apply Hn; [left|right]; apply (in_map ekey) in Hw; exact Hw.
  Qed.

  (** Final form of the dictionaries after one entry. *)
  Lemma act_step L c a v Q d : E = L ++ (c, a, v) :: Q -> deq d (inj L) ->
    exists d', act_entry mro d e (c, a, v) = (d', None) /\ deq d' (inj (L ++ [(c, a, v)])).
  Proof.
    intros HE Hd. destruct (key_once L c a v Q HE) as [HL HQ]. destruct (W c) as [Wc Ws].
    assert (In (c, a, v) E) as Hin by (rewrite HE; apply in_or_app; right; left; reflexivity).
    destruct (r_free R c a v Hin) as [F1 F2].
    assert (d c (Flag a) = None) as HF by (rewrite Hd; cbn; rewrite HL; exact F1).
    (* the result, given whether the original is stored *)
    assert (forall d0, (forall c' k', (c', k') <> (c, Orig a) -> d0 c' k' = d c' k') -> d0 c (Orig a) = (if pinned c a then lookup mro s c (Attr a) else s c (Orig a)) ->
            deq (dset (dset d0 c (Attr a) (Some v)) c (Flag a) (Some (Name e))) (inj (L ++ [(c, a, v)]))) as Hres.
    { intros d0 H0 H1 c' k'. unfold inj.
      destruct (Nat.eq_dec c' c) as [->|Hc].
      - destruct k' as [b|b|b].
        + rewrite dset_other by (right; discriminate). destruct (Nat.eq_dec b a) as [->|Hb].
          * rewrite dset_same, look_app, HL. cbn. rewrite !Nat.eqb_refl. reflexivity.
          * rewrite dset_other by (right; congruence). rewrite H0 by congruence. rewrite Hd. cbn. rewrite look_app. destruct (look L c b); [reflexivity|].
            cbn. destruct (Nat.eqb_spec a b); [congruence|]. rewrite andb_false_r. reflexivity.
        + rewrite !dset_other by (right; discriminate). destruct (Nat.eq_dec b a) as [->|Hb].
          * rewrite look_app, HL. cbn. rewrite !Nat.eqb_refl. exact H1.
          * rewrite H0 by congruence. rewrite Hd. cbn. rewrite look_app. destruct (look L c b); [reflexivity|].
            cbn. destruct (Nat.eqb_spec a b); [congruence|]. rewrite andb_false_r. reflexivity.
        + destruct (Nat.eq_dec b a) as [->|Hb].
          * rewrite dset_same, look_app, HL. cbn. rewrite !Nat.eqb_refl. reflexivity.
          * rewrite !dset_other by (right; congruence). rewrite H0 by congruence. rewrite Hd. cbn. rewrite look_app. destruct (look L c b); [reflexivity|].
            cbn. destruct (Nat.eqb_spec a b); [congruence|]. rewrite andb_false_r. reflexivity.
      - rewrite !dset_other by (left; exact Hc). rewrite H0 by congruence. rewrite Hd. unfold inj.
        destruct k' as [b|b|b]; rewrite look_app; destruct (look L c' b); try reflexivity; cbn; (destruct (Nat.eqb_spec c c'); [congruence|]); reflexivity. }
    unfold act_entry. rewrite HF. destruct (pinned c a) eqn:Ep.
    - destruct (is_pinned c a Ep) as (P1 & P2 & P3).
      assert (forall x, In x (c :: mro c) -> look L x a = None) as HLx.
      { intros x [<-|Hx]; [exact HL|]. apply look_none. intros w Hw. apply (P3 x w); [rewrite HE; apply in_or_app; auto|exact Hx]. }
      assert (lookup mro d c (Attr a) = lookup mro s c (Attr a)) as E1.
      { apply find_ext. intros x Hx. rewrite Hd. cbn. rewrite HLx by exact Hx. reflexivity. }
      assert (lookup mro d c (Flag a) = None) as E2.
      { rewrite <- P2. apply find_ext. intros x Hx. rewrite Hd. cbn. rewrite HLx by exact Hx. reflexivity. }
      rewrite E1, E2. unfold getattr. rewrite E1.
      destruct (lookup mro s c (Attr a)) as [u|] eqn:Eu; [|contradiction]. eexists. split; [reflexivity|]. apply Hres.
      + intros c' k' Hne. apply dset_other. destruct (Nat.eq_dec c' c); [right|left]; congruence.
      + rewrite dset_same. cbn. rewrite bind_plain; [reflexivity|]. exact (r_plain R c a v u Hin Eu).
    - (* no original stored *)
      assert (lookup mro d c (Attr a) <> None -> lookup mro d c (Flag a) <> None) as Hflag.
      { intros Hl. destruct (not_pinned c a Ep) as [P|[P|P]].
        - assert (exists x, In x (c :: mro c) /\ look L x a <> None) as (x & Hx & Hlx).
          { destruct (lookup mro d c (Attr a)) as [u|] eqn:Eu; [|congruence]. apply find_some in Eu as (x & Hx & Ex). exists x. split; [exact Hx|].
            unfold lookup in P. rewrite find_none in P. rewrite Hd in Ex. cbn in Ex. rewrite (P x Hx) in Ex. destruct (look L x a); [discriminate|congruence]. }
          destruct (look L x a) as [w|] eqn:Ew; [|congruence]. eapply find_some_ex; [exact Hx|]. rewrite Hd. cbn. rewrite Ew. reflexivity.
        - destruct (lookup mro s c (Flag a)) as [u|] eqn:Eu; [|congruence]. apply find_some in Eu as (x & Hx & Ex).
          destruct (look L x a) as [w|] eqn:Ew; (eapply find_some_ex; [exact Hx|]); rewrite Hd; cbn; rewrite Ew; [reflexivity|exact Ex].
        - destruct P as (d0 & w & Hi & Hm). rewrite HE in Hi. apply in_app_or in Hi as [Hi|[Hi|Hi]].
          + assert (look L d0 a <> None) as Hl0 by (intros H; exact (proj1 (look_none L d0 a) H w Hi)).
            destruct (look L d0 a) as [w'|] eqn:Ew; [|congruence]. eapply find_some_ex; [right; exact Hm|]. rewrite Hd. cbn. rewrite Ew. reflexivity.
          + injection Hi as <- _. contradiction.
          + destruct (r_order R L c a v Q d0 w HE Hi Hm). }
      assert (deq (dset (dset d c (Attr a) (Some v)) c (Flag a) (Some (Name e))) (inj (L ++ [(c, a, v)]))) as Hr.
      { apply Hres; [auto|]. rewrite Hd. cbn. rewrite HL. reflexivity. }
      destruct (lookup mro d c (Attr a)); [|eauto]. destruct (lookup mro d c (Flag a)) eqn:Ef; [eauto|]. exfalso. apply Hflag; congruence.
  Qed.

  Lemma deact_step P c a v Q d : E = P ++ (c, a, v) :: Q -> deq d (inj ((c, a, v) :: Q)) ->
    exists d', deact_entry mro d (c, a, v) = (d', None) /\ deq d' (inj Q).
  Proof.
    intros HE Hd. destruct (key_once P c a v Q HE) as [HP HQ]. destruct (W c) as [Wc Ws].
    assert (In (c, a, v) E) as Hin by (rewrite HE; apply in_or_app; right; left; reflexivity).
    destruct (r_free R c a v Hin) as [F1 F2].
    assert (d c (Attr a) = Some v) as HA by (rewrite Hd; cbn; rewrite !Nat.eqb_refl; reflexivity).
    assert (d c (Orig a) = if pinned c a then lookup mro s c (Attr a) else None) as HO.
    { rewrite Hd. cbn. rewrite !Nat.eqb_refl. cbn. rewrite F2. reflexivity. }
    assert (forall c' k', c' <> c \/ (k' <> Attr a /\ k' <> Orig a /\ k' <> Flag a) -> d c' k' = inj Q c' k') as Hother.
    { intros c' k' H. rewrite Hd. unfold inj. cbn [look].
      assert (forall b, c' <> c \/ b <> a -> (c =? c') && (a =? b) = false) as Hf.
      { intros b Hb. apply andb_false_iff. destruct Hb; [left|right]; apply Nat.eqb_neq; congruence. }
      destruct k' as [b|b|b]; rewrite Hf; auto; destruct H as [H|(H1 & H2 & H3)]; auto; right; congruence. }
    assert (forall d', (forall c' k', c' <> c \/ (k' <> Attr a /\ k' <> Orig a /\ k' <> Flag a) -> d' c' k' = d c' k') ->
            d' c (Attr a) = s c (Attr a) -> d' c (Orig a) = None -> d' c (Flag a) = None -> deq d' (inj Q)) as Hres.
    { intros d' H1 H2 H3 H4 c' k'. destruct (Nat.eq_dec c' c) as [->|Hc]; [|rewrite H1 by auto; apply Hother; auto].
      destruct (key_eqb_spec k' (Attr a)) as [->|N1]; [rewrite H2; cbn; rewrite HQ; reflexivity|].
      destruct (key_eqb_spec k' (Orig a)) as [->|N2]; [rewrite H3; cbn; rewrite HQ; congruence|].
      destruct (key_eqb_spec k' (Flag a)) as [->|N3]; [rewrite H4; cbn; rewrite HQ; congruence|].
      rewrite H1 by auto. apply Hother. auto. }
    unfold deact_entry. rewrite HO, HA. destruct (pinned c a) eqn:Ep.
    - destruct (is_pinned c a Ep) as (P1 & P2 & P3). destruct (lookup mro s c (Attr a)) as [u|] eqn:Eu; [|contradiction].
      pose proof (r_plain R c a v u Hin Eu) as Hpl.
      set (d1 := dset d c (Attr a) None).
      assert (getattr mro d1 c (Orig a) = Some u) as ->.
      { unfold getattr, lookup. cbn [find]. unfold d1 at 1. rewrite dset_other by (right; discriminate). rewrite HO. cbn. rewrite bind_plain by exact Hpl. reflexivity. }
      assert (forall x, In x (mro c) -> getattr mro d1 x (Attr a) = getattr mro s x (Attr a)) as Hsup.
      { intros x Hx. unfold getattr. f_equal. apply find_ext. intros y Hy.
        assert (In y (mro c)) as Hy' by (destruct Hy as [<-|Hy]; [exact Hx|exact (Ws x Hx y Hy)]).
        unfold d1. rewrite dset_other by (left; intros ->; contradiction). rewrite Hother by (left; intros ->; contradiction).
        cbn. destruct (look Q y a) as [w|] eqn:Ew; [|reflexivity]. apply look_some in Ew. exfalso. apply (P3 y w); [|exact Hy'].
        rewrite HE. apply in_or_app. right. right. exact Ew. }
      destruct (s c (Attr a)) as [u0|] eqn:Eo.
      + assert (u0 = u) as -> by (unfold lookup in Eu; cbn in Eu; rewrite Eo in Eu; congruence).
        assert (forallb (fun x => negb (oval_eqb (getattr mro d1 x (Attr a)) (Some u))) (mro c) = true) as ->.
        { apply forallb_forall. intros x Hx. rewrite Hsup by exact Hx. destruct (oval_eqb_spec (getattr mro s x (Attr a)) (Some u)) as [Eq|]; [|reflexivity].
          exfalso. exact (r_new R c a v u x Hin Eo Hx Eq). }
        eexists. split; [reflexivity|]. apply Hres.
        * intros c' k' H. unfold d1. rewrite !dset_other by tauto. reflexivity.
        * rewrite !dset_other by (right; discriminate). rewrite dset_same. reflexivity.
        * rewrite dset_other by (right; discriminate). apply dset_same.
        * apply dset_same.
      + assert (forallb (fun x => negb (oval_eqb (getattr mro d1 x (Attr a)) (Some u))) (mro c) = false) as ->.
        { unfold lookup in Eu. cbn in Eu. rewrite Eo in Eu. clear - Eu Hsup W Hpl Ws.
          assert (exists x, In x (mro c) /\ lookup mro s x (Attr a) = Some u) as (x & Hx & Ex).
          { apply find_some in Eu as (x & Hx & Ex). exists x. split; [exact Hx|]. unfold lookup. cbn. rewrite Ex. reflexivity. }
          apply not_true_iff_false. rewrite forallb_forall. intros H. specialize (H x Hx). rewrite Hsup in H by exact Hx.
          unfold getattr in H. rewrite Ex in H. cbn in H. rewrite bind_plain in H by exact Hpl. destruct (val_eqb_spec u u); [discriminate|congruence]. }
        eexists. split; [reflexivity|]. apply Hres.
        * intros c' k' H. unfold d1. rewrite !dset_other by tauto. reflexivity.
        * unfold d1. rewrite !dset_other by (right; discriminate). apply dset_same.
        * rewrite dset_other by (right; discriminate). apply dset_same.
        * apply dset_same.
    - assert (s c (Attr a) = None) as Hs0.
      { destruct (not_pinned c a Ep) as [P0|[P0|P0]].
        - unfold lookup in P0. rewrite find_none in P0. apply P0. left. reflexivity.
        - apply (r_own R c a v Hin). right. unfold lookup in P0. cbn in P0. rewrite F1 in P0. exact P0.
        - apply (r_own R c a v Hin). left. exact P0. }
      eexists. split; [reflexivity|]. apply Hres.
      + intros c' k' H. rewrite !dset_other by tauto. reflexivity.
      + rewrite dset_other by (right; discriminate). rewrite dset_same. symmetry. exact Hs0.
      + rewrite !dset_other by (right; discriminate). exact HO.
      + apply dset_same.
  Qed.

  Lemma act_entries_ok : forall Q L d, E = L ++ Q -> deq d (inj L) -> exists d', act_entries mro d e Q = (d', None) /\ deq d' (inj E).
  Proof.
    induction Q as [|[[c a] v] Q IH]; intros L d HE Hd.
    - rewrite app_nil_r in HE. subst L. exists d. auto.
    - destruct (act_step L c a v Q d HE Hd) as (d1 & E1 & D1). cbn [act_entries]. rewrite E1. apply (IH (L ++ [(c, a, v)])); [rewrite <- app_assoc; exact HE|exact D1].
  Qed.
  Lemma deact_entries_ok : forall Q P d, E = P ++ Q -> deq d (inj Q) -> exists d', deact_entries mro d Q = (d', None) /\ deq d' s.
  Proof.
    induction Q as [|[[c a] v] Q IH]; intros P d HE Hd.
    - exists d. split; [reflexivity|]. intros c k. rewrite Hd. destruct k; reflexivity.
    - destruct (deact_step P c a v Q d HE Hd) as (d1 & E1 & D1). cbn [deact_entries]. rewrite E1. apply (IH (P ++ [(c, a, v)])); [rewrite <- app_assoc; exact HE|exact D1].
  Qed.
  Lemma inj_nil : deq s (inj []).
  Proof. intros c k. destruct k; reflexivity. Qed.
End Restore.

(** ** Any order of activations and deactivations of independent extensions *)
Section Canon.
  Variable mro : nat -> list nat.
  Variable reg : nat -> option ext.
  Variable b : dict.

  Definition entry (e c a : nat) (v : val) : Prop := exists x, reg e = Some x /\ In (c, a, v) (entries x).
  Record independent : Prop := {
    i_nodup : forall e x, reg e = Some x -> NoDup (map ekey (entries x)) /\ setup_raises x = false /\ teardown_raises x = false;
    (* different entries for an attribute are for classes that are not related *)
    i_apart : forall e1 e2 c d a v w, entry e1 c a v -> entry e2 d a w -> (c = d -> e1 = e2) /\ ~ In d (mro c);
    i_clean : forall c a, b c (Flag a) = None /\ b c (Orig a) = None;
    i_plain : forall e c a v u, entry e c a v -> lookup mro b c (Attr a) = Some u -> is_plain u;
    i_new : forall e c a v u x, entry e c a v -> b c (Attr a) = Some u -> In x (mro c) -> getattr mro b x (Attr a) <> Some u }.

  Definition overlay := nat -> nat -> option (nat * val).
  Definition canon (ov : overlay) : dict := fun c k =>
    match k with
    | Attr a => match ov c a with Some (_, v) => Some v | None => b c k end
    | Flag a => match ov c a with Some (e, _) => Some (Name e) | None => None end
    | Orig a => match ov c a with Some _ => lookup mro b c (Attr a) | None => None end
    end.
  Definition oupd (ov : overlay) (c a : nat) (v : option (nat * val)) : overlay := fun c' a' => if (c' =? c) && (a' =? a) then v else ov c' a'.

  Hypothesis W : wf_mro mro.
  Hypothesis I : independent.

  Lemma canon_ext ov ov' : (forall c a, ov c a = ov' c a) -> deq (canon ov) (canon ov').
  Proof. intros H c k. destruct k; cbn; rewrite H; reflexivity. Qed.

  Lemma canon_restorable ov e c a v : entry e c a v -> (forall x, In x (c :: mro c) -> ov x a = None) -> restorable mro (canon ov) [(c, a, v)].
  Proof.
    intros He Hov.
    assert (forall x, In x (c :: mro c) -> lookup mro (canon ov) x (Attr a) = lookup mro b x (Attr a)) as Hl.
    { intros x Hx. apply find_ext. intros y Hy. cbn. rewrite Hov; [reflexivity|]. destruct Hx as [<-|Hx]; [exact Hy|].
      right. destruct Hy as [<-|Hy]; [exact Hx|]. eapply (proj2 (W c)); eassumption. }
    constructor.
    - repeat constructor; intros [].
    - intros c' a' v' [[= <- <- <-]|[]]. cbn. rewrite Hov by (left; reflexivity). auto.
    - intros l1 c' a' v' l2 d w HE. destruct l1 as [|y l1]; [|destruct l1; discriminate]. injection HE as <- <- <- <-. intros [].
    - intros c' a' v' [[= <- <- <-]|[]] [(d & w & [[= <- _]|[]] & Hm)|Hf].
      + destruct (proj1 (W c) Hm).
      + exfalso. apply Hf. apply find_none. intros x Hx. cbn. rewrite Hov by (right; exact Hx). reflexivity.
    - intros c' a' v' u [[= <- <- <-]|[]]. rewrite Hl by (left; reflexivity). eapply (i_plain I); eassumption.
    - intros c' a' v' u x [[= <- <- <-]|[]] Hu Hx. cbn in Hu. rewrite Hov in Hu by (left; reflexivity).
      unfold getattr. rewrite Hl by (right; exact Hx). eapply (i_new I); eassumption.
  Qed.
  Lemma canon_inj ov e c a v : entry e c a v -> (forall x, In x (c :: mro c) -> ov x a = None) ->
    deq (inj mro (canon ov) e [(c, a, v)] [(c, a, v)]) (canon (oupd ov c a (Some (e, v)))).
  Proof.
    intros He Hov c' k. destruct (W c) as [Wc _].
    assert (lookup mro (canon ov) c (Attr a) = lookup mro b c (Attr a)) as Hl.
    { apply find_ext. intros y Hy. cbn. rewrite Hov by exact Hy. reflexivity. }
    assert (pinned mro (canon ov) [(c, a, v)] c a = match lookup mro b c (Attr a) with Some _ => true | None => false end) as Hp.
    { unfold pinned. rewrite Hl. destruct (lookup mro b c (Attr a)); [|reflexivity].
      assert (lookup mro (canon ov) c (Flag a) = None) as -> by (apply find_none; intros x Hx; cbn; rewrite Hov by exact Hx; reflexivity).
      cbn. rewrite Nat.eqb_refl. cbn. rewrite orb_false_r. destruct (existsb (Nat.eqb c) (mro c)) eqn:Ex; [|reflexivity].
      apply existsb_exists in Ex as (y & Hy & Ey). apply Nat.eqb_eq in Ey as ->. contradiction. }
    assert (ov c a = None) as Ho by (apply Hov; left; reflexivity).
    unfold inj. cbn [look].
    destruct k as [a'|a'|a'].
    - cbn [canon]. unfold oupd. rewrite (Nat.eqb_sym c' c), (Nat.eqb_sym a' a). destruct ((c =? c') && (a =? a')); reflexivity.
    - cbn [canon]. unfold oupd. rewrite (Nat.eqb_sym c' c), (Nat.eqb_sym a' a). destruct (Nat.eqb_spec c c') as [<-|], (Nat.eqb_spec a a') as [<-|]; cbn [andb]; try reflexivity.
      rewrite Hp, Hl, Ho. destruct (lookup mro b c (Attr a)); reflexivity.
    - cbn [canon]. unfold oupd. rewrite (Nat.eqb_sym c' c), (Nat.eqb_sym a' a). destruct ((c =? c') && (a =? a')); reflexivity.
  Qed.

  (** The entries depend on the state only through the values of the dictionaries. *)
  Lemma act_canon ov e c a v d : entry e c a v -> (forall x, In x (c :: mro c) -> ov x a = None) -> deq d (canon ov) ->
    exists d', act_entry mro d e (c, a, v) = (d', None) /\ deq d' (canon (oupd ov c a (Some (e, v)))).
  Proof.
    intros He Hov Hd. destruct (act_step mro (canon ov) e [(c, a, v)] W (canon_restorable ov e c a v He Hov) [] c a v [] d eq_refl) as (d' & E & D).
    - intros c' k'. rewrite Hd. apply inj_nil.
    - exists d'. split; [exact E|]. intros c' k'. rewrite D. apply canon_inj; assumption.
  Qed.
  Lemma deact_canon ov e c a v d : entry e c a v -> (forall x, In x (mro c) -> ov x a = None) -> ov c a = Some (e, v) -> deq d (canon ov) ->
    exists d', deact_entry mro d (c, a, v) = (d', None) /\ deq d' (canon (oupd ov c a None)).
  Proof.
    intros He Hov Hc Hd. set (ov0 := oupd ov c a None).
    assert (forall x, In x (c :: mro c) -> ov0 x a = None) as H0.
    { intros x Hx. unfold ov0, oupd. rewrite Nat.eqb_refl, andb_true_r. destruct (Nat.eqb_spec x c); [reflexivity|].
      destruct Hx as [<-|Hx]; [congruence|auto]. }
    destruct (deact_step mro (canon ov0) e [(c, a, v)] W (canon_restorable ov0 e c a v He H0) [] c a v [] d eq_refl) as (d' & E & D).
    - intros c' k'. rewrite Hd. rewrite (canon_inj ov0 e c a v He H0). apply canon_ext. intros c1 a1. unfold ov0, oupd.
      destruct (Nat.eqb_spec c1 c) as [->|], (Nat.eqb_spec a1 a) as [->|]; cbn; congruence.
    - exists d'. split; [exact E|]. intros c' k'. rewrite D. symmetry. apply inj_nil.
  Qed.

  (** Overlay of a list of active extensions. *)
  Fixpoint ovA (A : list nat) (c a : nat) : option (nat * val) :=
    match A with
    | [] => None
    | e :: A => match reg e with
                | Some x => match look (entries x) c a with Some v => Some (e, v) | None => ovA A c a end
                | None => ovA A c a
                end
    end.
  Lemma ovA_some A c a e v : ovA A c a = Some (e, v) -> In e A /\ entry e c a v.
  Proof.
    induction A as [|e' A IH]; cbn; [discriminate|]. destruct (reg e') as [x|] eqn:Er; [|intros H; destruct (IH H); auto].
    destruct (look (entries x) c a) as [w|] eqn:El; [|intros H; destruct (IH H); auto].
    intros [= <- <-]. split; [auto|]. exists x. split; [exact Er|]. apply look_some. exact El.
  Qed.
  Lemma ovA_in A c a e v : In e A -> entry e c a v -> ovA A c a = Some (e, v).
  Proof.
    intros Hi He. destruct (ovA A c a) as [[e' v']|] eqn:E.
    - apply ovA_some in E as [_ E]. assert (e' = e) as -> by (apply (proj1 (i_apart I _ _ _ _ _ _ _ E He)); reflexivity).
      destruct He as (x & Hr & Hx), E as (x' & Hr' & Hx'). rewrite Hr in Hr'. injection Hr' as <-.
      pose proof (proj1 (i_nodup I e x Hr)) as Hn. apply (look_in _ _ _ _ Hn) in Hx, Hx'. congruence.
    - exfalso. induction A as [|e' A IH]; [destruct Hi|]. cbn in E. destruct Hi as [->|Hi].
      + destruct He as (x & Hr & Hx). rewrite Hr in E. rewrite (look_in _ _ _ _ (proj1 (i_nodup I e x Hr)) Hx) in E. discriminate.
      + apply IH; [exact Hi|]. destruct (reg e'); [|exact E]. destruct (look (entries e0) c a); [discriminate|exact E].
  Qed.
  Lemma ovA_none A c a : (forall e v, In e A -> ~ entry e c a v) -> ovA A c a = None.
  Proof. intros H. destruct (ovA A c a) as [[e v]|] eqn:E; [|reflexivity]. apply ovA_some in E as [Hi He]. destruct (H e v Hi He). Qed.
  Lemma ovA_same A A' c a : (forall e, In e A <-> In e A') -> ovA A c a = ovA A' c a.
  Proof.
    intros H. destruct (ovA A' c a) as [[e v]|] eqn:E.
    - apply ovA_some in E as [Hi He]. apply ovA_in; [apply H; exact Hi|exact He].
    - apply ovA_none. intros e v Hi He. apply H in Hi. rewrite (ovA_in A' c a e v Hi He) in E. discriminate.
  Qed.

  (** Part L of the entries of e on top of the active extensions A. *)
  Definition ovL (A : list nat) (e : nat) (L : list (nat * nat * val)) : overlay := fun c a =>
    match look L c a with Some v => Some (e, v) | None => ovA A c a end.

  Lemma ovL_mro A e x L c a v : reg e = Some x -> In (c, a, v) (entries x) -> incl L (entries x) -> forall y, In y (mro c) -> ovL A e L y a = None.
  Proof.
    intros Hr Hi HL y Hy. assert (entry e c a v) as He by (exists x; auto). unfold ovL.
    destruct (look L y a) as [w|] eqn:El.
    - apply look_some, HL in El. exfalso. apply (proj2 (i_apart I e e c y a v w He (ex_intro _ x (conj Hr El)))). exact Hy.
    - apply ovA_none. intros e' w _ He'. exact (proj2 (i_apart I e e' c y a v w He He') Hy).
  Qed.

  Lemma act_entries_canon A e x : reg e = Some x -> ~ In e A -> forall Q L d, entries x = L ++ Q -> deq d (canon (ovL A e L)) ->
    exists d', act_entries mro d e Q = (d', None) /\ deq d' (canon (ovL A e (entries x))).
  Proof.
    intros Hr Hn. pose proof (proj1 (i_nodup I e x Hr)) as Hnd.
    induction Q as [|[[c a] v] Q IH]; intros L d HE Hd.
    - rewrite app_nil_r in HE. subst L. exists d. auto.
    - assert (In (c, a, v) (entries x)) as Hi by (rewrite HE; apply in_or_app; right; left; reflexivity).
      assert (entry e c a v) as He by (exists x; auto).
      assert (look L c a = None) as HL.
      { apply look_none. intros w Hw. rewrite HE, map_app in Hnd. cbn in Hnd. apply NoDup_remove_2 in Hnd. apply Hnd. apply in_or_app. left.
        apply (in_map ekey) in Hw. exact Hw. }
      destruct (act_canon (ovL A e L) e c a v d He) as (d1 & E1 & D1); [|exact Hd|].
      + intros y [<-|Hy].
        * unfold ovL. rewrite HL. apply ovA_none. intros e' w Hi' He'. apply Hn. rewrite (proj1 (i_apart I e e' c c a v w He He') eq_refl). exact Hi'.
        * eapply ovL_mro; [exact Hr|exact Hi| |exact Hy]. rewrite HE. intros z Hz. apply in_or_app. auto.
      + cbn [act_entries]. rewrite E1. apply (IH (L ++ [(c, a, v)])); [rewrite <- app_assoc; exact HE|].
        intros c' k'. rewrite D1. apply canon_ext. intros c1 a1. unfold oupd, ovL. rewrite look_app.
        destruct (Nat.eqb_spec c1 c) as [->|], (Nat.eqb_spec a1 a) as [->|]; cbn.
        * rewrite HL, !Nat.eqb_refl. reflexivity.
        * destruct (look L c a1); [reflexivity|]. destruct (Nat.eqb_spec a a1); [congruence|]. rewrite andb_false_r. reflexivity.
        * destruct (look L c1 a); [reflexivity|]. destruct (Nat.eqb_spec c c1); [congruence|]. reflexivity.
        * destruct (look L c1 a1); [reflexivity|]. destruct (Nat.eqb_spec c c1); [congruence|]. reflexivity.
  Qed.
  Lemma deact_entries_canon A e x : reg e = Some x -> ~ In e A -> forall Q P d, entries x = P ++ Q -> deq d (canon (ovL A e Q)) ->
    exists d', deact_entries mro d Q = (d', None) /\ deq d' (canon (ovA A)).
  Proof.
    intros Hr Hn. pose proof (proj1 (i_nodup I e x Hr)) as Hnd.
    induction Q as [|[[c a] v] Q IH]; intros P d HE Hd.
    - exists d. split; [reflexivity|]. intros c k. rewrite Hd. apply canon_ext. reflexivity.
    - assert (In (c, a, v) (entries x)) as Hi by (rewrite HE; apply in_or_app; right; left; reflexivity).
      assert (entry e c a v) as He by (exists x; auto).
      assert (look Q c a = None) as HQ.
      { apply look_none. intros w Hw. rewrite HE, map_app in Hnd. cbn in Hnd. apply NoDup_remove_2 in Hnd. apply Hnd. apply in_or_app. right.
        apply (in_map ekey) in Hw. exact Hw. }
      destruct (deact_canon (ovL A e ((c, a, v) :: Q)) e c a v d He) as (d1 & E1 & D1); [| |exact Hd|].
      + intros y Hy. eapply ovL_mro; [exact Hr|exact Hi| |exact Hy]. rewrite HE. intros z Hz. apply in_or_app. auto.
      + unfold ovL. cbn. rewrite !Nat.eqb_refl. reflexivity.
      + cbn [deact_entries]. rewrite E1. apply (IH (P ++ [(c, a, v)])); [rewrite <- app_assoc; exact HE|].
        intros c' k'. rewrite D1. apply canon_ext. intros c1 a1. unfold oupd, ovL. cbn [look].
        destruct (Nat.eqb_spec c1 c) as [->|], (Nat.eqb_spec a1 a) as [->|]; cbn.
        * rewrite HQ. symmetry. apply ovA_none. intros e' w Hi' He'. apply Hn. rewrite (proj1 (i_apart I e e' c c a v w He He') eq_refl). exact Hi'.
        * destruct (Nat.eqb_spec a a1); [congruence|]. rewrite andb_false_r. reflexivity.
        * destruct (Nat.eqb_spec c c1); [congruence|]. reflexivity.
        * destruct (Nat.eqb_spec c c1); [congruence|]. reflexivity.
  Qed.

  Definition good (s : est) : Prop := NoDup (active s) /\ (forall e, In e (active s) -> reg e <> None) /\ deq (dicts s) (canon (ovA (active s))).

  Lemma mem_spec e l : mem e l = true <-> In e l.
  Proof. unfold mem. rewrite existsb_exists. split; [intros (y & Hy & Ey); apply Nat.eqb_eq in Ey; subst; exact Hy|]. intros H. exists e. rewrite Nat.eqb_refl. auto. Qed.
  Lemma in_remove e x l : In x (remove e l) <-> In x l /\ x <> e.
  Proof. unfold remove. rewrite filter_In. destruct (Nat.eqb_spec x e); cbn; intuition congruence. Qed.

  Lemma activate_good s e : good s -> reg e <> None ->
    exists s', activate mro reg s e = (s', None) /\ good s' /\ active s' = if mem e (active s) then active s else active s ++ [e].
  Proof.
    intros (G1 & G2 & G3) Hr. unfold activate. destruct (reg e) as [x|] eqn:Er; [|congruence].
    destruct (mem e (active s)) eqn:Em; [exists s; repeat split; auto|].
    assert (~ In e (active s)) as Hn by (intros H; apply mem_spec in H; congruence).
    destruct (i_nodup I e x Er) as (N1 & N2 & N3). rewrite N2.
    destruct (act_entries_canon (active s) e x Er Hn (entries x) [] (dicts s) eq_refl) as (d' & E & D).
    { intros c k. rewrite G3. apply canon_ext. reflexivity. }
    rewrite E. eexists. split; [reflexivity|]. cbn. split; [|reflexivity]. split; [|split]; cbn.
    - clear - G1 Hn. induction (active s) as [|y l IH]; cbn; [repeat constructor; intros []|]. inversion G1; subst. constructor.
      + intros Hi. apply in_app_or in Hi as [Hi|[<-|[]]]; [contradiction|]. apply Hn. left. reflexivity.
      + apply IH; [assumption|]. intros Hi. apply Hn. right. exact Hi.
    - intros e' Hi. apply in_app_or in Hi as [Hi|[<-|[]]]; [auto|congruence].
    - intros c k. rewrite D. apply canon_ext. intros c1 a1. unfold ovL. destruct (look (entries x) c1 a1) as [v|] eqn:El.
      + symmetry. apply ovA_in; [apply in_or_app; right; left; reflexivity|]. exists x. split; [exact Er|apply look_some; exact El].
      + destruct (ovA (active s) c1 a1) as [[e' w]|] eqn:Eo.
        * apply ovA_some in Eo as [Hi He]. symmetry. apply ovA_in; [apply in_or_app; auto|exact He].
        * symmetry. apply ovA_none. intros e' w Hi He. apply in_app_or in Hi as [Hi|[<-|[]]].
          -- rewrite (ovA_in _ _ _ _ _ Hi He) in Eo. discriminate.
          -- destruct He as (x' & Er' & Hx). rewrite Er in Er'. injection Er' as <-. exact (proj1 (look_none _ _ _) El w Hx).
  Qed.
  Lemma deactivate_good s e : good s -> reg e <> None ->
    exists s', deactivate mro reg s e = (s', None) /\ good s' /\ active s' = remove e (active s).
  Proof.
    intros (G1 & G2 & G3) Hr. unfold deactivate. destruct (reg e) as [x|] eqn:Er; [|congruence].
    destruct (mem e (active s)) eqn:Em; cbn [negb].
    - destruct (i_nodup I e x Er) as (N1 & N2 & N3).
      destruct (deact_entries_canon (remove e (active s)) e x Er) with (Q := entries x) (P := @nil (nat * nat * val)) (d := dicts s) as (d' & E & D); auto.
      { intros H. apply in_remove in H. tauto. }
      { intros c k. rewrite G3. apply canon_ext. intros c1 a1. unfold ovL. destruct (look (entries x) c1 a1) as [v|] eqn:El.
        - apply ovA_in; [apply mem_spec; exact Em|]. exists x. split; [exact Er|apply look_some; exact El].
        - destruct (ovA (remove e (active s)) c1 a1) as [[e' w]|] eqn:Eo.
          + apply ovA_some in Eo as [Hi He]. apply in_remove in Hi as [Hi _]. apply ovA_in; assumption.
          + apply ovA_none. intros e' w Hi He. destruct (Nat.eq_dec e' e) as [->|Hne].
            * destruct He as (x' & Er' & Hx). rewrite Er in Er'. injection Er' as <-. exact (proj1 (look_none _ _ _) El w Hx).
            * rewrite (ovA_in (remove e (active s)) c1 a1 e' w) in Eo; [discriminate| |exact He]. apply in_remove. auto. }
      rewrite E, N3. eexists. split; [reflexivity|]. cbn. split; [|reflexivity]. split; [|split]; cbn.
      + apply NoDup_filter. exact G1.
      + intros e' Hi. apply in_remove in Hi as [Hi _]. auto.
      + exact D.
    - exists s. split; [reflexivity|]. split; [repeat split; auto|].
      assert (~ In e (active s)) as Hn by (intros H; apply mem_spec in H; congruence). clear - Hn. unfold remove.
      induction (active s) as [|y l IH]; cbn; [reflexivity|]. destruct (Nat.eqb_spec y e) as [->|]; cbn; [destruct Hn; left; reflexivity|].
      rewrite <- IH; [reflexivity|]. intros H. apply Hn. right. exact H.
  Qed.
  Lemma activates_good es : forall s, good s -> (forall e, In e es -> reg e <> None) ->
    exists s' B, activates_loop mro reg s es = (s', None) /\ good s' /\ active s' = active s ++ B /\ incl B es /\ (forall e, In e B -> ~ In e (active s)).
  Proof.
    induction es as [|e es IH]; intros s G Hr; cbn [activates_loop].
    - exists s, []. rewrite app_nil_r. split; [reflexivity|]. split; [exact G|]. split; [reflexivity|]. split; intros e [].
    - destruct (activate_good s e G) as (s1 & E1 & G1 & A1); [apply Hr; left; reflexivity|]. rewrite E1.
      destruct (IH s1 G1) as (s2 & B & E2 & G2 & A2 & I2 & D2); [intros e' He; apply Hr; right; exact He|]. rewrite E2.
      destruct (mem e (active s)) eqn:Em.
      + exists s2, B. rewrite A2, A1. rewrite A1 in D2. split; [reflexivity|]. split; [exact G2|]. split; [reflexivity|]. split; [intros y Hy; right; auto|exact D2].
      + exists s2, (e :: B). rewrite A2, A1, <- app_assoc. split; [reflexivity|]. split; [exact G2|]. split; [reflexivity|].
        split; [intros y [<-|Hy]; [left; reflexivity|right; auto]|]. intros y [<-|Hy] Hi; [apply mem_spec in Hi; congruence|].
        apply (D2 y Hy). rewrite A1. apply in_or_app. auto.
  Qed.
  Lemma deactivates_good es : forall s, good s -> (forall e, In e es -> reg e <> None) ->
    exists s', deactivates mro reg s es = (s', None) /\ good s' /\ active s' = filter (fun e => negb (mem e es)) (active s).
  Proof.
    induction es as [|e es IH]; intros s G Hr; cbn [deactivates].
    - exists s. split; [reflexivity|]. split; [exact G|]. cbn. clear. induction (active s); cbn; congruence.
    - destruct (deactivate_good s e G) as (s1 & E1 & G1 & A1); [apply Hr; left; reflexivity|]. rewrite E1.
      destruct (IH s1 G1) as (s2 & E2 & G2 & A2); [intros e' He; apply Hr; right; exact He|]. rewrite E2. exists s2. split; [reflexivity|]. split; [exact G2|].
      rewrite A2, A1. unfold remove. clear. induction (active s) as [|y l IH]; cbn; [reflexivity|].
      destruct (Nat.eqb_spec y e) as [->|]; cbn; [exact IH|]. rewrite IH. reflexivity.
  Qed.
End Canon.
