(** Properties C328-C334: registration of extensions. *)
From Coq Require Import List Arith Bool Lia.
From Verif Require Import ExtModel ExtProofs ExtProps ExtRegModel.
Import ListNotations.

(** ** Dictionaries *)
Lemma aget_aset {V} k k' (v : V) d : aget k (aset k' v d) = if k =? k' then Some v else aget k d.
Proof.
  induction d as [|(k2, v2) d IH]; cbn; [reflexivity|]. destruct (k' =? k2) eqn:E; cbn.
  - apply Nat.eqb_eq in E. subst k2. destruct (k =? k'); reflexivity.
  - destruct (k =? k2) eqn:E2; [|exact IH]. destruct (k =? k') eqn:E3; [|reflexivity]. apply Nat.eqb_eq in E2, E3. apply Nat.eqb_neq in E. congruence.
Qed.
Lemma aget_in {V} k (v : V) d : aget k d = Some v -> In (k, v) d.
Proof. induction d as [|(k2, v2) d IH]; cbn; [discriminate|]. destruct (Nat.eqb_spec k k2) as [->|]; [intros [= ->]; now left|]. intros H. right. auto. Qed.
Lemma in_aget {V} k (v : V) d : NoDup (map fst d) -> In (k, v) d -> aget k d = Some v.
Proof.
  induction d as [|(k2, v2) d IH]; cbn; [easy|]. intros N [[= -> ->]|H]; [now rewrite Nat.eqb_refl|]. inversion N; subst. destruct (Nat.eqb_spec k k2) as [->|]; [|auto]. exfalso. apply H2. apply in_map_iff. now exists (k2, v).
Qed.
Lemma aset_in {V} k (v : V) d p : In p (aset k v d) -> p = (k, v) \/ In p d.
Proof. induction d as [|(k2, v2) d IH]; cbn; [intuition|]. destruct (k =? k2); cbn; intuition. Qed.
Lemma aset_keys {V} k (v : V) d : NoDup (map fst d) -> NoDup (map fst (aset k v d)).
Proof.
  induction d as [|(k2, v2) d IH]; cbn; intros N; [repeat constructor; easy|]. inversion N; subst. destruct (Nat.eqb_spec k k2) as [->|NE]; cbn; [exact N|]. constructor; [|auto]. intros H. apply in_map_iff in H as ((k3, v3) & E & H). cbn in E. subst k3. apply aset_in in H as [[= -> _]|H]; [easy|]. apply H1. apply in_map_iff. now exists (k2, v3).
Qed.

(** the value registered for an attribute *)
Definition cval (x : eentry) (c a : nat) : option val := aget a (cattrs c x).
Definition rval (r : registry) (e c a : nat) : option val := match aget e r with Some x => cval x c a | None => None end.
Definition rset (r : registry) (e : nat) : option nat := match aget e r with Some x => r_setup x | None => None end.
Definition rtear (r : registry) (e : nat) : option nat := match aget e r with Some x => r_tear x | None => None end.
Definition known (r : registry) (e : nat) : Prop := aget e r <> None.

Lemma cval_put c a v x c' a' : cval (put_attr c a v x) c' a' = if (c' =? c) && (a' =? a) then Some v else cval x c' a'.
Proof.
  unfold cval, put_attr, cattrs. cbn. rewrite aget_aset. destruct (Nat.eqb_spec c' c) as [->|NE]; cbn; [|reflexivity]. rewrite aget_aset. reflexivity.
Qed.
Lemma cval_ensure c x c' a' : cval (ensure_cls c x) c' a' = cval x c' a'.
Proof. unfold cval, ensure_cls, cattrs. destruct (aget c (r_cls x)) eqn:E; [reflexivity|]. cbn. rewrite aget_aset. destruct (Nat.eqb_spec c' c) as [->|]; [now rewrite E|reflexivity]. Qed.
Lemma rval_ensure e r e' c a : rval (ensure e r) e' c a = rval r e' c a.
Proof. unfold rval, ensure. destruct (aget e r) eqn:E; [reflexivity|]. rewrite aget_aset. destruct (Nat.eqb_spec e' e) as [->|]; [now rewrite E|reflexivity]. Qed.
Lemma ensure_known e r : exists x, aget e (ensure e r) = Some x.
Proof. unfold ensure. destruct (aget e r) eqn:E; [now exists e0|]. exists fresh. rewrite aget_aset. now rewrite Nat.eqb_refl. Qed.

(** registries in which every key occurs once, as in a dictionary *)
Definition wfx (x : eentry) : Prop := NoDup (map fst (r_cls x)) /\ forall c l, In (c, l) (r_cls x) -> NoDup (map fst l).
Definition wfr (r : registry) : Prop := NoDup (map fst r) /\ forall e x, In (e, x) r -> wfx x.
Lemma wf_put c a v x : wfx x -> wfx (put_attr c a v x).
Proof.
  intros (A & B). split; cbn; [now apply aset_keys|]. intros c' l H. apply aset_in in H as [[= -> ->]|H]; [|eauto]. apply aset_keys. unfold cattrs. destruct (aget c (r_cls x)) eqn:E; [|constructor]. apply aget_in in E. eauto.
Qed.
Lemma wf_ensure_cls c x : wfx x -> wfx (ensure_cls c x).
Proof. intros (A & B). unfold ensure_cls. destruct (aget c (r_cls x)); [now split|]. split; cbn; [now apply aset_keys|]. intros c' l H. apply aset_in in H as [[= -> ->]|H]; [constructor|eauto]. Qed.
Lemma wf_aset e x r : wfr r -> wfx x -> wfr (aset e x r).
Proof. intros (A & B) X. split; [now apply aset_keys|]. intros e' x' H. apply aset_in in H as [[= -> ->]|H]; eauto. Qed.
Lemma wf_fresh : wfx fresh. Proof. split; [constructor|]. intros c l []. Qed.
Lemma wf_get e x r : wfr r -> aget e r = Some x -> wfx x. Proof. intros (A & B) H. apply aget_in in H. eauto. Qed.
Lemma wf_ensure e r : wfr r -> wfr (ensure e r).
Proof. intros W. unfold ensure. destruct (aget e r); [exact W|]. apply wf_aset; [exact W|apply wf_fresh]. Qed.
Lemma wf_funcs f g x : wfx x -> wfx (mkR f g (r_cls x)). Proof. now intros. Qed.

(** ** C328: extension_method registers one attribute and touches nothing else *)
Theorem C328_method : forall e c a v r, let r' := reg_method e c a v r in
  (forall e' c' a', rval r' e' c' a' = if (e' =? e) && (c' =? c) && (a' =? a) then Some v else rval r e' c' a') /\
  known r' e /\ (forall e', known r' e' <-> e' = e \/ known r e') /\ forall e', rset r' e' = rset r e' /\ rtear r' e' = rtear r e'.
Proof.
  intros e c a v r r'. unfold r', reg_method. destruct (ensure_known e r) as (x & X). rewrite X.
  assert (R0 : forall e' c' a', rval (ensure e r) e' c' a' = rval r e' c' a') by (intros; apply rval_ensure).
  split; [|split; [|split]].
  - intros e' c' a'. rewrite <- R0. unfold rval. rewrite aget_aset. destruct (Nat.eqb_spec e' e) as [->|NE]; cbn [andb]; [|reflexivity]. rewrite X, cval_put, cval_ensure. reflexivity.
  - unfold known. rewrite aget_aset, Nat.eqb_refl. discriminate.
  - intros e'. unfold known. rewrite aget_aset. destruct (Nat.eqb_spec e' e) as [->|NE]; [intuition discriminate|]. unfold ensure. destruct (aget e r); [intuition congruence|]. rewrite aget_aset. destruct (Nat.eqb_spec e' e); [contradiction|]. intuition congruence.
  - intros e'. unfold rset, rtear. rewrite aget_aset. destruct (Nat.eqb_spec e' e) as [->|NE].
    + cbn. assert (S : r_setup (ensure_cls c x) = r_setup x /\ r_tear (ensure_cls c x) = r_tear x) by (unfold ensure_cls; destruct (aget c (r_cls x)); now split). destruct S as (-> & ->). unfold ensure in X. destruct (aget e r) eqn:E; [rewrite E in X|rewrite aget_aset, Nat.eqb_refl in X]; injection X as <-; now split.
    + unfold ensure. destruct (aget e r); [now split|]. rewrite aget_aset. destruct (Nat.eqb_spec e' e); [contradiction|]. now split.
Qed.

(** ** C329: a registered setup function stays, a second one is refused *)
(** the registrations a program can do; a class definition comes with all the classes there are then *)
Inductive regop := OMethod (e c a : nat) (v : val) | OSetup (e f : nat) | OTear (e f : nat) | ODefine (classes : nat -> cls) (k : nat) (bases : list nat).
Definition reg_run (o : regop) (r : registry) : registry * option rexn :=
  match o with OMethod e c a v => (reg_method e c a v r, None) | OSetup e f => reg_setup e f r | OTear e f => reg_teardown e f r | ODefine cl k b => define cl k b r end.
Definition reg_runs (l : list regop) (r : registry) : registry := fold_left (fun r o => fst (reg_run o r)) l r.

(** what a class definition does to the entry of its extension *)
Lemma reg_attr_keeps mro c x p : r_setup (reg_attr mro c x p) = r_setup x /\ r_tear (reg_attr mro c x p) = r_tear x /\ (forall c' a', cval x c' a' <> None -> cval (reg_attr mro c x p) c' a' <> None) /\ (wfx x -> wfx (reg_attr mro c x p)).
Proof.
  unfold reg_attr. destruct (already mro x (fst p) (snd p)); [tauto|]. split; [reflexivity|]. split; [reflexivity|]. split; [|apply wf_put]. intros c' a' H. rewrite cval_put. destruct ((c' =? c) && (a' =? fst p)); [discriminate|exact H].
Qed.
Lemma reg_all_keeps classes mro c x : r_setup (reg_all classes mro c x) = r_setup x /\ r_tear (reg_all classes mro c x) = r_tear x /\ (forall c' a', cval x c' a' <> None -> cval (reg_all classes mro c x) c' a' <> None) /\ (wfx x -> wfx (reg_all classes mro c x)).
Proof.
  unfold reg_all. generalize (after_root (rev mro)). intros l. revert x. induction l as [|b l IH]; intros x; cbn [fold_left]; [tauto|].
  assert (S : forall x, r_setup (reg_class classes mro c x b) = r_setup x /\ r_tear (reg_class classes mro c x b) = r_tear x /\ (forall c' a', cval x c' a' <> None -> cval (reg_class classes mro c x b) c' a' <> None) /\ (wfx x -> wfx (reg_class classes mro c x b))).
  { clear. intros x. unfold reg_class. destruct (under classes b); [|tauto]. generalize (c_dict (classes b)). intros d. revert x. induction d as [|p d IH]; intros x; cbn [fold_left]; [tauto|]. destruct (IH (reg_attr mro c x p)) as (A & B & C & D). destruct (reg_attr_keeps mro c x p) as (A2 & B2 & C2 & D2). rewrite A, B. repeat split; auto; now apply D, D2. }
  destruct (IH (reg_class classes mro c x b)) as (A & B & C & D). destruct (S x) as (A2 & B2 & C2 & D2). rewrite A, B. repeat split; auto; now apply D, D2.
Qed.
Lemma ensure_cls_keeps c x : r_setup (ensure_cls c x) = r_setup x /\ r_tear (ensure_cls c x) = r_tear x.
Proof. unfold ensure_cls. destruct (aget c (r_cls x)); now split. Qed.
(** no operation loses anything *)
Definition keeps (r r' : registry) : Prop :=
  (forall e, known r e -> known r' e) /\ (forall e f, rset r e = Some f -> rset r' e = Some f) /\ (forall e f, rtear r e = Some f -> rtear r' e = Some f) /\ (forall e c a, rval r e c a <> None -> rval r' e c a <> None).
Lemma keeps_refl r : keeps r r. Proof. repeat split; auto. Qed.
Lemma keeps_trans r1 r2 r3 : keeps r1 r2 -> keeps r2 r3 -> keeps r1 r3. Proof. intros (A & B & C & D) (A2 & B2 & C2 & D2). repeat split; auto. Qed.
Lemma keeps_aset e x y r : aget e r = Some x -> (forall f, r_setup x = Some f -> r_setup y = Some f) -> (forall f, r_tear x = Some f -> r_tear y = Some f) -> (forall c a, cval x c a <> None -> cval y c a <> None) -> keeps r (aset e y r).
Proof.
  intros X S T V. unfold keeps, known, rset, rtear, rval. split; [|split; [|split]]; [intros e'|intros e' f|intros e' f|intros e' c a]; rewrite aget_aset; destruct (Nat.eqb_spec e' e) as [->|NE]; try easy; rewrite X; auto.
Qed.
Lemma keeps_new e x r : aget e r = None -> keeps r (aset e x r).
Proof. intros X. unfold keeps, known, rset, rtear, rval. split; [|split; [|split]]; [intros e'|intros e' f|intros e' f|intros e' c a]; rewrite aget_aset; destruct (Nat.eqb_spec e' e) as [->|NE]; try easy; rewrite X; easy. Qed.
Lemma keeps_ensure e r : keeps r (ensure e r).
Proof. unfold ensure. destruct (aget e r) eqn:E; [apply keeps_refl|now apply keeps_new]. Qed.
Lemma run_keeps o r : keeps r (fst (reg_run o r)) /\ (wfr r -> wfr (fst (reg_run o r))).
Proof.
  destruct o as [e c a v|e f|e f|cl k bases]; cbn [reg_run].
  - cbn [fst]. unfold reg_method. destruct (ensure_known e r) as (x & X). rewrite X. split.
    + apply (keeps_trans r (ensure e r)); [apply keeps_ensure|]. destruct (ensure_cls_keeps c x) as (A & B). apply (keeps_aset e x); [exact X|cbn; congruence|cbn; congruence|]. intros c' a' H. rewrite cval_put, cval_ensure. destruct ((c' =? c) && (a' =? a)); [discriminate|exact H].
    + intros W. apply wf_aset; [now apply wf_ensure|]. apply wf_put, wf_ensure_cls. now apply (wf_get e x (ensure e r)); [apply wf_ensure|].
  - unfold reg_setup. destruct (ensure_known e r) as (x & X). rewrite X. destruct (r_setup x) eqn:S; cbn [fst]; (split; [|intros W; apply wf_ensure with (e := e) in W]); [apply keeps_ensure|exact W| |].
    + apply (keeps_trans r (ensure e r)); [apply keeps_ensure|]. apply (keeps_aset e x); [exact X|congruence|auto|auto].
    + apply wf_aset; [exact W|]. apply wf_funcs. now apply (wf_get e x (ensure e r)).
  - unfold reg_teardown. destruct (ensure_known e r) as (x & X). rewrite X. destruct (r_tear x) eqn:S; cbn [fst]; (split; [|intros W; apply wf_ensure with (e := e) in W]); [apply keeps_ensure|exact W| |].
    + apply (keeps_trans r (ensure e r)); [apply keeps_ensure|]. apply (keeps_aset e x); [exact X|auto|congruence|auto].
    + apply wf_aset; [exact W|]. apply wf_funcs. now apply (wf_get e x (ensure e r)).
  - unfold define. set (named := if existsb _ _ then _ else _). assert (N : keeps r (fst named) /\ (wfr r -> wfr (fst named))).
    { unfold named. destruct (existsb (Nat.eqb root) bases); [|split; [apply keeps_refl|auto]]. destruct (c_name (cl k)) as [[e|]|]; try (split; [apply keeps_refl|auto]). destruct (aget e r) eqn:E; [split; [apply keeps_refl|auto]|]. split; [now apply keeps_new|]. intros W. apply wf_aset; [exact W|apply wf_fresh]. }
    destruct named as (r1, [ex|]); cbn [fst] in *; [exact N|]. destruct (filter (fun b => negb (is_ext (cl b))) bases) as [|c [|c2 l]]; cbn [fst]; try exact N.
    destruct (ext_name cl (c_mro (cl k))) as [e|]; [|exact N]. destruct (aget e r1) as [x|] eqn:X; [|exact N]. cbn [fst]. destruct (reg_all_keeps cl (c_mro (cl k)) c (ensure_cls c x)) as (A & B & C & D). destruct (ensure_cls_keeps c x) as (A2 & B2). destruct N as (N1 & N2). split.
    + apply (keeps_trans r r1); [exact N1|]. apply (keeps_aset e x); [exact X|congruence|congruence|]. intros c' a' H. apply C. now rewrite cval_ensure.
    + intros W. apply wf_aset; [auto|]. apply D, wf_ensure_cls. exact (wf_get e x r1 (N2 W) X).
Qed.
Lemma runs_keeps l : forall r, keeps r (reg_runs l r) /\ (wfr r -> wfr (reg_runs l r)).
Proof.
  induction l as [|o l IH]; intros r; cbn; [split; [apply keeps_refl|auto]|]. destruct (run_keeps o r) as (A & B), (IH (fst (reg_run o r))) as (C & D). split; [exact (keeps_trans _ _ _ A C)|auto].
Qed.
Theorem C329_kept : forall l r, (forall e, known r e -> known (reg_runs l r) e) /\ (forall e f, rset r e = Some f -> rset (reg_runs l r) e = Some f) /\ (forall e f, rtear r e = Some f -> rtear (reg_runs l r) e = Some f) /\
  (forall e c a, rval r e c a <> None -> rval (reg_runs l r) e c a <> None).
Proof. intros l r. exact (proj1 (runs_keeps l r)). Qed.
Theorem C329_second : forall e f r, (rset r e = None -> snd (reg_setup e f r) = None /\ rset (fst (reg_setup e f r)) e = Some f) /\ (forall g, rset r e = Some g -> reg_setup e f r = (r, Some RExtension)) /\
  (rtear r e = None -> snd (reg_teardown e f r) = None /\ rtear (fst (reg_teardown e f r)) e = Some f) /\ (forall g, rtear r e = Some g -> reg_teardown e f r = (r, Some RExtension)).
Proof.
  intros e f r. unfold rset, rtear, reg_setup, reg_teardown. unfold ensure. destruct (aget e r) as [x|] eqn:E.
  - rewrite E. destruct (r_setup x), (r_tear x); repeat split; try discriminate; cbn; try (now rewrite aget_aset, Nat.eqb_refl); intros; reflexivity.
  - rewrite aget_aset, Nat.eqb_refl. cbn. repeat split; try discriminate; rewrite aget_aset, Nat.eqb_refl; reflexivity.
Qed.

(** ** C330: an activated extension has all the attributes which are registered *)
Lemma flat_in c a v x : In (c, a, v) (flat x) <-> exists l, In (c, l) (r_cls x) /\ In (a, v) l.
Proof.
  unfold flat. rewrite in_flat_map. split.
  - intros ((c', l) & H & I). cbn in I. apply in_map_iff in I as ((a', v') & [= -> -> ->] & I). now exists l.
  - intros (l & H & I). exists (c, l). split; [exact H|]. apply in_map_iff. now exists (a, v).
Qed.
Lemma flat_val x c a v : wfx x -> (In (c, a, v) (flat x) <-> cval x c a = Some v).
Proof.
  intros (A & B). rewrite flat_in. unfold cval, cattrs. split.
  - intros (l & H & I). rewrite (in_aget c l _ A H). apply in_aget; [eauto|exact I].
  - destruct (aget c (r_cls x)) as [l|] eqn:E; [|discriminate]. intros H. exists l. split; apply aget_in; assumption.
Qed.
Lemma nodup_app {A} (l1 l2 : list A) : NoDup l1 -> NoDup l2 -> (forall z, In z l1 -> ~ In z l2) -> NoDup (l1 ++ l2).
Proof. induction l1 as [|y l1 IH]; cbn; intros H1 H2 H3; [exact H2|]. inversion H1; subst. constructor; [rewrite in_app_iff; intros [|]; [contradiction|exact (H3 y (or_introl eq_refl) H)]|]. apply IH; auto. Qed.
Lemma flat_nodup x : wfx x -> NoDup (map ekey (flat x)).
Proof.
  intros (A & B). unfold flat. revert A B. generalize (r_cls x). intros d. induction d as [|(c, l) d IH]; intros A B; cbn; [constructor|]. rewrite map_app. inversion A; subst. cbn in *.
  assert (L : NoDup (map fst l)) by (apply (B c); now left). assert (R : NoDup (map ekey (flat_map (fun p : nat * list (nat * val) => map (fun q => (fst p, fst q, snd q)) (snd p)) d))) by (apply IH; [assumption|intros; eapply B; right; eassumption]).
  rewrite map_map. cbn. apply nodup_app; [|exact R|].
  - clear - L. induction l as [|(a, v) l IH]; cbn; [constructor|]. inversion L; subst. constructor; [|now apply IH]. intros H. apply in_map_iff in H as ((a', v') & [= ->] & H). apply H1. apply in_map_iff. now exists (a, v').
  - intros z H I. apply in_map_iff in H as ((a, v) & <- & H). apply in_map_iff in I as (((c', a'), v') & [= -> ->] & I). apply in_flat_map in I as ((c2, l2) & I & J). cbn in J. apply in_map_iff in J as (? & [= -> _ _] & J). apply H1. apply in_map_iff. now exists (c, l2).
Qed.
Lemma act_fresh mro e l : forall d, NoDup (map ekey l) -> (forall c a v, In (c, a, v) l -> d c (Flag a) = None) ->
  exists d', act_entries mro d e l = (d', None) /\ (forall c a v, In (c, a, v) l -> d' c (Attr a) = Some v) /\ (forall c a, (forall v, ~ In (c, a, v) l) -> d' c (Attr a) = d c (Attr a)).
Proof.
  induction l as [|((c, a), v) l IH]; intros d N F; [exists d; cbn; repeat split; easy|]. inversion N; subst. cbn [act_entries].
  assert (S : exists d1, act_entry mro d e (c, a, v) = (d1, None) /\ d1 c (Attr a) = Some v /\ (forall c' a', (c', a') <> (c, a) -> d1 c' (Attr a') = d c' (Attr a') /\ d1 c' (Flag a') = d c' (Flag a'))).
  { unfold act_entry. rewrite (F c a v) by (now left). assert (P : forall d0, (dset (dset d0 c (Attr a) (Some v)) c (Flag a) (Some (Name e))) c (Attr a) = Some v /\ (forall c' a', (c', a') <> (c, a) -> (dset (dset d0 c (Attr a) (Some v)) c (Flag a) (Some (Name e))) c' (Attr a') = d0 c' (Attr a') /\ (dset (dset d0 c (Attr a) (Some v)) c (Flag a) (Some (Name e))) c' (Flag a') = d0 c' (Flag a'))).
    { intros d0. split; [rewrite dset_other by (right; discriminate); apply dset_same|]. intros c' a' NE. assert (D : c' <> c \/ a' <> a) by (destruct (Nat.eq_dec c' c) as [->|]; [right; intros ->; now apply NE|now left]). split; (rewrite !dset_other by (destruct D; [left|right]; congruence)); reflexivity. }
    destruct (lookup mro d c (Attr a)); eexists; (split; [reflexivity|]); [|apply P]. destruct (P (match lookup mro d c (Flag a) with None => dset d c (Orig a) (getattr mro d c (Attr a)) | Some _ => d end)) as (P1 & P2). split; [exact P1|]. intros c' a' NE. destruct (P2 c' a' NE) as (-> & ->). destruct (lookup mro d c (Flag a)); [now split|]. now rewrite !dset_other by (right; discriminate). }
  destruct S as (d1 & -> & V & O). destruct (IH d1) as (d' & E & I1 & I2); [assumption| |].
  - intros c' a' v' I. destruct (O c' a') as (_ & ->); [|apply (F c' a' v'); now right]. intros [= -> ->]. apply H1. apply in_map_iff. now exists (c, a, v').
  - exists d'. split; [exact E|]. split.
    + intros c' a' v' [[= <- <- <-]|I]; [|now apply I1]. rewrite I2; [exact V|]. intros w I. apply H1. apply in_map_iff. now exists (c, a, w).
    + intros c' a' NI. rewrite I2 by (intros w I; apply (NI w); now right). apply O. intros [= -> ->]. apply (NI v). now left.
Qed.
(** from a state where no extension is active, after any registrations *)
Theorem C330_activation : forall raises mro ops e s, let r := reg_runs ops [] in known r e -> active s = [] -> (forall c a, dicts s c (Flag a) = None) -> (forall f, rset r e = Some f -> raises f = false) ->
  exists s', activate mro (as_reg raises r) s e = (s', None) /\ active s' = [e] /\
    (forall c a, dicts s' c (Attr a) = match rval r e c a with Some v => Some v | None => dicts s c (Attr a) end) /\
    (forall c a v, rval r e c a = Some v -> getattr mro (dicts s') c (Attr a) = Some (bind c v)).
Proof.
  intros raises mro ops e s r KN AC FL SF. assert (W : wfr r) by (apply (runs_keeps ops []); split; [constructor|intros ? ? []]). unfold known in KN. destruct (aget e r) as [x|] eqn:X; [|easy]. pose proof (wf_get e x r W X) as WX.
  destruct (act_fresh mro e (flat x) (dicts s) (flat_nodup x WX)) as (d' & E & I1 & I2); [intros; apply FL|].
  assert (G : forall c a, d' c (Attr a) = match rval r e c a with Some v => Some v | None => dicts s c (Attr a) end). { intros c a. unfold rval. rewrite X. destruct (cval x c a) as [v|] eqn:V; [apply I1; now apply flat_val|]. apply I2. intros v H. apply (flat_val x c a v WX) in H. congruence. }
  exists (mkS d' [e]). unfold activate, as_reg. rewrite X. cbn [option_map as_ext setup_raises entries]. rewrite AC. cbn [mem existsb app]. unfold rset in SF. rewrite X in SF. replace (match r_setup x with Some f => raises f | None => false end) with false by (destruct (r_setup x); [symmetry; now apply SF|reflexivity]). rewrite E. cbn [dicts active]. split; [reflexivity|]. split; [reflexivity|]. split; [exact G|].
  intros c a v V. unfold getattr, lookup. cbn [find]. rewrite G, V. reflexivity.
Qed.

(** ** C331: the attributes of an extension node *)
(** the value which the extension classes of the MRO, up to ExtensionNode, give to an attribute *)
Fixpoint ext_value (classes : nat -> cls) (l : list nat) (a : nat) : option val :=
  match l with
  | [] => None
  | b :: l => if b =? root then None else match (if under classes b then aget a (c_dict (classes b)) else None) with Some v => Some v | None => ext_value classes l a end
  end.
Definition reg_val (classes : nat -> cls) (l : list nat) (a : nat) (d : option val) : option val :=
  fold_left (fun o b => match (if under classes b then aget a (c_dict (classes b)) else None) with Some v => Some v | None => o end) l d.
Lemma after_root_app l m : ~ In root l -> after_root (l ++ root :: m) = m.
Proof. induction l as [|b l IH]; cbn [app after_root]; intros H; [now rewrite Nat.eqb_refl|]. cbn in H. destruct (Nat.eqb_spec b root); [tauto|]. apply IH. tauto. Qed.
Lemma ext_value_app classes l m a : ~ In root l -> ext_value classes (l ++ root :: m) a = reg_val classes (rev l) a None.
Proof.
  induction l as [|b l IH]; cbn [app ext_value rev]; intros H; [now rewrite Nat.eqb_refl|]. cbn in H. destruct (Nat.eqb_spec b root); [tauto|]. rewrite IH by tauto. unfold reg_val. rewrite fold_left_app. cbn [fold_left]. reflexivity.
Qed.
Lemma reg_attr_val mro c x p a : In c mro -> (forall bb, In bb mro -> bb <> c -> cval x bb a = None) ->
  (forall c' a', c' <> c -> cval (reg_attr mro c x p) c' a' = cval x c' a') /\ cval (reg_attr mro c x p) c a = if fst p =? a then Some (snd p) else cval x c a.
Proof.
  intros CM O. unfold reg_attr. destruct (already mro x (fst p) (snd p)) eqn:AL.
  - split; [reflexivity|]. destruct (Nat.eqb_spec (fst p) a) as [E|]; [|reflexivity]. unfold already in AL. apply existsb_exists in AL as (bb & B & H). change (match cval x bb (fst p) with Some w => val_eqb w (snd p) | None => false end = true) in H || idtac.
    assert (H2 : cval x bb (fst p) = Some (snd p)). { unfold cval, cattrs. destruct (aget bb (r_cls x)) as [d|]; [|discriminate]. destruct (aget (fst p) d) as [w|]; [|discriminate]. destruct (val_eqb_spec w (snd p)); [now subst|discriminate]. }
    rewrite E in H2. destruct (Nat.eq_dec bb c) as [->|NE]; [exact H2|]. rewrite (O bb B NE) in H2. discriminate.
  - split.
    + intros c' a' NE. rewrite cval_put. destruct (Nat.eqb_spec c' c); [contradiction|reflexivity].
    + rewrite cval_put, Nat.eqb_refl. cbn. rewrite (Nat.eqb_sym a). reflexivity.
Qed.
Lemma reg_class_val classes mro c x b a : NoDup (map fst (c_dict (classes b))) -> In c mro -> (forall bb, In bb mro -> bb <> c -> cval x bb a = None) ->
  (forall c' a', c' <> c -> cval (reg_class classes mro c x b) c' a' = cval x c' a') /\ cval (reg_class classes mro c x b) c a = match (if under classes b then aget a (c_dict (classes b)) else None) with Some v => Some v | None => cval x c a end.
Proof.
  intros ND CM. unfold reg_class. destruct (under classes b); [|now split]. revert ND. generalize (c_dict (classes b)). intros d. revert x. induction d as [|(a1, v1) d IH]; intros x ND O; [now split|]. inversion ND; subst. cbn [fold_left aget].
  destruct (reg_attr_val mro c x (a1, v1) a CM O) as (A & B). cbn [fst snd] in B. destruct (IH (reg_attr mro c x (a1, v1))) as (C & D); [assumption|intros; rewrite A by assumption; now apply O|]. split; [intros; rewrite C, A by assumption; reflexivity|].
  rewrite D, B. rewrite (Nat.eqb_sym a a1). destruct (Nat.eqb_spec a1 a) as [->|]; [|reflexivity]. destruct (aget a d) as [w|] eqn:W; [|reflexivity]. exfalso. apply aget_in in W. apply H1. apply in_map_iff. now exists (a, w).
Qed.
Lemma reg_all_val classes mro c x a : (forall b, NoDup (map fst (c_dict (classes b)))) -> In c mro -> (forall bb, In bb mro -> bb <> c -> cval x bb a = None) ->
  cval (reg_all classes mro c x) c a = reg_val classes (after_root (rev mro)) a (cval x c a).
Proof.
  intros ND CM. unfold reg_all, reg_val. generalize (after_root (rev mro)). intros l. revert x. induction l as [|b l IH]; intros x O; [reflexivity|]. cbn [fold_left]. destruct (reg_class_val classes mro c x b a (ND b) CM O) as (A & B). rewrite IH by (intros; rewrite A by assumption; now apply O). now rewrite B.
Qed.
Lemma reg_val_some classes l a : forall d, reg_val classes l a d = match reg_val classes l a None with Some v => Some v | None => d end.
Proof.
  induction l as [|b l IH] using rev_ind; intros d; [reflexivity|]. unfold reg_val in *. rewrite !fold_left_app. cbn [fold_left]. destruct (if under classes b then aget a (c_dict (classes b)) else None); [reflexivity|apply IH].
Qed.
(** the class k, an extension node for the node class c; no other class of its MRO has the attribute in the extension *)
Theorem C331_defined : forall classes k bases r r' c e a, (forall b, NoDup (map fst (c_dict (classes b)))) -> define classes k bases r = (r', None) ->
  let mro := c_mro (classes k) in filter (fun b => negb (is_ext (classes b))) bases = [c] -> ext_name classes mro = Some e -> In c mro -> NoDup mro -> In root mro ->
  (forall bb, In bb mro -> bb <> c -> rval r e bb a = None) ->
  rval r' e c a = match ext_value classes mro a with Some v => Some v | None => rval r e c a end.
Proof.
  intros classes k bases r r' c e a ND D mro NO EN CM NM RM O. unfold define in D. rewrite NO in D. fold mro in D. rewrite EN in D.
  set (named := if existsb _ _ then _ else _) in D. assert (N : forall e c a, rval (fst named) e c a = rval r e c a).
  { intros e' c' a'. unfold named. destruct (existsb (Nat.eqb root) bases); [|reflexivity]. destruct (c_name (classes k)) as [[e2|]|]; try reflexivity. destruct (aget e2 r) eqn:E2; [reflexivity|]. cbn [fst]. unfold rval. rewrite aget_aset. destruct (Nat.eqb_spec e' e2) as [->|]; [now rewrite E2|reflexivity]. }
  destruct named as (r1, [ex|]); [discriminate|]. cbn [fst] in N. destruct (aget e r1) as [x|] eqn:X; [|discriminate]. injection D as <-.
  assert (CX : forall c' a', cval (ensure_cls c x) c' a' = rval r e c' a') by (intros; rewrite cval_ensure, <- N; unfold rval; now rewrite X).
  unfold rval at 1. rewrite aget_aset, Nat.eqb_refl. rewrite (reg_all_val classes mro c _ a ND CM) by (intros; rewrite CX; now apply O). rewrite CX.
  apply in_split in RM as (l1 & l2 & EM). rewrite EM in *. pose proof (NoDup_remove_2 _ _ _ NM) as NR. rewrite in_app_iff in NR. rewrite (ext_value_app classes l1 l2 a) by tauto. rewrite rev_app_distr. cbn [rev]. rewrite <- app_assoc. cbn [app]. rewrite after_root_app by (rewrite <- in_rev; tauto). apply reg_val_some.
Qed.

(** Classes for the examples: 10 a node class, 11 derived from it, 12 from 11; the extension 5 with the class 1 (a default implementation for 10), the extension
    nodes 2 (for 11) and 3 (for 12), 4 derived from 1 without a node class, 6 derived from 4 for 11 *)
Definition cl (k : nat) : cls :=
  match k with
  | 0 => mkC true [0] [] (Some None)
  | 1 => mkC true [1; 0; 10] [(7, Plain 70)] (Some (Some 5))
  | 2 => mkC true [2; 1; 0; 11; 10] [(7, Plain 71); (8, Plain 80)] None
  | 3 => mkC true [3; 1; 0; 12; 11; 10] [(9, Plain 90)] None
  | 4 => mkC true [4; 1; 0; 10] [(7, Plain 72)] None
  | 6 => mkC true [6; 4; 1; 0; 11; 10] [(7, Plain 70)] None
  | 11 => mkC false [11; 10] [(7, Plain 2)] None
  | 12 => mkC false [12; 11; 10] [] None
  | _ => mkC false [10] [(7, Plain 1)] None
  end.
Definition below (c : nat) : list nat := tl (c_mro (cl c)).
Definition def1 := ODefine cl 1 [0; 10]. Definition def2 := ODefine cl 2 [1; 11]. Definition def3 := ODefine cl 3 [1; 12]. Definition def4 := ODefine cl 4 [1]. Definition def6 := ODefine cl 6 [4; 11].
Definition classes0 : dict := fun c k => match k with Attr a => aget a (c_dict (cl c)) | _ => None end.
Definition noraise (f : nat) := false.
Example C328_ex : (let r := reg_method 5 12 7 (Plain 75) (reg_runs [def1] []) in (rval r 5 12 7, rval r 5 10 7, rval r 5 11 7)) = (Some (Plain 75), Some (Plain 70), None).
Proof. reflexivity. Qed.
Example C329_ex : (let r := reg_runs [OSetup 5 1; OMethod 5 10 7 (Plain 1); OTear 5 2] [] in (snd (reg_run (OSetup 5 3) r), snd (reg_run (OTear 5 3) r), snd (reg_run (OSetup 4 3) r), rset (reg_runs [OSetup 5 3; def2] r) 5)) = (Some RExtension, Some RExtension, None, Some 1).
Proof. reflexivity. Qed.
Example C330_ex : (let s := fst (activate below (as_reg noraise (reg_runs [def1; def2; def3] [])) (mkS classes0 []) 5) in map (fun c => getattr below (dicts s) c (Attr 7)) [10; 11; 12] ++ map (fun c => getattr below (dicts s) c (Attr 9)) [11; 12]) =
  [Some (Plain 70); Some (Plain 71); Some (Plain 71); None; Some (Plain 90)].
Proof. reflexivity. Qed.
Example C331_ex : (let r := reg_runs [def1; def2] [] in (rval r 5 11 7, ext_value cl [2; 1; 0; 11; 10] 7, rval r 5 11 8, snd (reg_run def2 (reg_runs [def1] [])))) = (Some (Plain 71), Some (Plain 71), Some (Plain 80), None).
Proof. reflexivity. Qed.
(** the extension node 6 defines the attribute 7 itself, but with the extension active the node class has the function of the superclass 4 *)
Theorem C331_refuted : exists classes ops k bases c a v, let mro c := tl (c_mro (classes c)) in let r := reg_runs ops [] in aget a (c_dict (classes k)) = Some v /\ filter (fun b => negb (is_ext (classes b))) bases = [c] /\ ext_value classes (c_mro (classes k)) a = Some v /\
  snd (define classes k bases r) = None /\
  exists w, w <> v /\ getattr mro (dicts (fst (activate mro (as_reg noraise (fst (define classes k bases r))) (mkS (fun c k => match k with Attr a => aget a (c_dict (classes c)) | _ => None end) []) 5))) c (Attr a) = Some w.
Proof. exists cl, [def1; def2; def4], 6, [4; 11], 11, 7, (Plain 70). cbv zeta. repeat (split; [reflexivity|]). exists (Plain 72). split; [discriminate|reflexivity]. Qed.
(** the extension node 3 inherits the attribute 7 from 1, its node class gets that of another extension node *)
Theorem C331_refuted_inherited : exists classes ops k bases c a v, let mro c := tl (c_mro (classes c)) in let r := reg_runs ops [] in filter (fun b => negb (is_ext (classes b))) bases = [c] /\ ext_value classes (c_mro (classes k)) a = Some v /\
  snd (define classes k bases r) = None /\
  exists w, w <> v /\ getattr mro (dicts (fst (activate mro (as_reg noraise (fst (define classes k bases r))) (mkS (fun c k => match k with Attr a => aget a (c_dict (classes c)) | _ => None end) []) 5))) c (Attr a) = Some w.
Proof. exists cl, [def1; def2], 3, [1; 12], 12, 7, (Plain 70). cbv zeta. repeat (split; [reflexivity|]). exists (Plain 71). split; [discriminate|reflexivity]. Qed.

(** ** C332: the class of an extension comes first *)
Theorem C332_taken : forall classes k bases r e, In root bases -> c_name (classes k) = Some (Some e) -> known r e -> define classes k bases r = (r, Some RExtension).
Proof.
  intros classes k bases r e B N KN. unfold define. replace (existsb (Nat.eqb root) bases) with true by (symmetry; apply existsb_exists; exists root; now rewrite Nat.eqb_refl). rewrite N. unfold known in KN. destruct (aget e r); [reflexivity|easy].
Qed.
(** a method, a setup or a teardown function registered before *)
Theorem C332_refuted : exists o e, In o [OMethod e 10 8 (Plain 3); OSetup e 1; OTear e 1] /\ snd (reg_run o []) = None /\ snd (reg_run def1 (fst (reg_run o []))) = Some RExtension /\ snd (reg_run def1 []) = None /\ snd (reg_run o (fst (reg_run def1 []))) = None.
Proof. exists (OMethod 5 10 8 (Plain 3)), 5. split; [now left|]. repeat split. Qed.
Theorem C332_first : forall classes k bases r o, snd (define classes k bases r) = None -> match o with OMethod _ _ _ _ => True | OSetup e _ => rset r e = None | OTear e _ => rtear r e = None | _ => False end -> snd (reg_run o (fst (define classes k bases r))) = None.
Proof.
  intros classes k bases r o D H. destruct o as [e c a v|e f|e f|]; [reflexivity| | |easy]; cbn [reg_run].
  - apply C329_second. unfold rset in *. unfold define in *. set (named := if existsb _ _ then _ else _) in *. assert (N : rset (fst named) e = None). { unfold named, rset. destruct (existsb (Nat.eqb root) bases); [|exact H]. destruct (c_name (classes k)) as [[e2|]|]; try exact H. destruct (aget e2 r) eqn:E2; [exact H|]. cbn [fst]. rewrite aget_aset. destruct (e =? e2); [reflexivity|exact H]. }
    destruct named as (r1, [ex|]); [discriminate|]. cbn [fst] in N. destruct (filter _ bases) as [|c [|c2 l]]; [exact N| |discriminate]. destruct (ext_name classes (c_mro (classes k))) as [e2|]; [|discriminate]. destruct (aget e2 r1) as [x|] eqn:X; [|discriminate]. cbn [fst]. rewrite aget_aset. unfold rset in N. destruct (Nat.eqb_spec e e2) as [->|]; [|exact N]. rewrite X in N. destruct (reg_all_keeps classes (c_mro (classes k)) c (ensure_cls c x)) as (-> & _). now rewrite (proj1 (ensure_cls_keeps c x)).
  - apply C329_second. unfold rtear in *. unfold define in *. set (named := if existsb _ _ then _ else _) in *. assert (N : rtear (fst named) e = None). { unfold named, rtear. destruct (existsb (Nat.eqb root) bases); [|exact H]. destruct (c_name (classes k)) as [[e2|]|]; try exact H. destruct (aget e2 r) eqn:E2; [exact H|]. cbn [fst]. rewrite aget_aset. destruct (e =? e2); [reflexivity|exact H]. }
    destruct named as (r1, [ex|]); [discriminate|]. cbn [fst] in N. destruct (filter _ bases) as [|c [|c2 l]]; [exact N| |discriminate]. destruct (ext_name classes (c_mro (classes k))) as [e2|]; [|discriminate]. destruct (aget e2 r1) as [x|] eqn:X; [|discriminate]. cbn [fst]. rewrite aget_aset. unfold rtear in N. destruct (Nat.eqb_spec e e2) as [->|]; [|exact N]. rewrite X in N. destruct (reg_all_keeps classes (c_mro (classes k)) c (ensure_cls c x)) as (_ & -> & _). now rewrite (proj2 (ensure_cls_keeps c x)).
Qed.
Example C332_ex : (snd (reg_run def1 (reg_runs [OSetup 5 1] [])), snd (reg_run (OSetup 5 1) (reg_runs [def1] []))) = (Some RExtension, None).
Proof. reflexivity. Qed.

(** ** C333: a refused definition *)
Theorem C333_refused : forall classes k bases r r' ex, define classes k bases r = (r', Some ex) -> r' = r \/ exists e, In root bases /\ c_name (classes k) = Some (Some e) /\ ~ known r e /\ r' = aset e fresh r.
Proof.
  intros classes k bases r r' ex D. unfold define in D. destruct (existsb (Nat.eqb root) bases) eqn:EB.
  - apply existsb_exists in EB as (b & B & E). apply Nat.eqb_eq in E. subst b. destruct (c_name (classes k)) as [[e|]|] eqn:N; [|left; congruence|left; congruence]. destruct (aget e r) eqn:KN; [left; congruence|]. right. exists e. split; [exact B|]. split; [reflexivity|]. split; [unfold known; now rewrite KN|].
    destruct (filter _ bases) as [|c [|c2 l]]; [discriminate| |congruence]. destruct (ext_name classes (c_mro (classes k))) as [e2|]; [|congruence]. destruct (aget e2 _); [discriminate|congruence].
  - left. destruct (filter _ bases) as [|c [|c2 l]]; [discriminate| |congruence]. destruct (ext_name classes (c_mro (classes k))) as [e2|]; [|congruence]. destruct (aget e2 _); [discriminate|congruence].
Qed.
(** a definition with two node classes is refused, and the corrected one then, too *)
Theorem C333_refuted : exists classes k bases bases', snd (define classes k bases []) = Some RExtension /\ snd (define classes k bases' []) = None /\ snd (define classes k bases' (fst (define classes k bases []))) = Some RExtension.
Proof. exists cl, 1, [0; 10; 11], [0; 10]. repeat split. Qed.
Example C333_ex : define cl 2 [1; 11; 12] (reg_runs [def1] []) = (reg_runs [def1] [], Some RExtension) /\ known (fst (define cl 1 [0; 10; 11] [])) 5.
Proof. split; [reflexivity|discriminate]. Qed.

(** ** C334: registration while the extension is active *)
Lemma deact_entry_ext mro d d' x : deq d d' -> let p := deact_entry mro d x in let q := deact_entry mro d' x in deq (fst p) (fst q) /\ snd p = snd q.
Proof.
  intros H. destruct x as ((c, a), v). cbn. unfold deact_entry. rewrite <- (H c (Orig a)), <- (H c (Attr a)).
  assert (S : forall d d' c k v, deq d d' -> deq (dset d c k v) (dset d' c k v)) by (intros d1 d2 c1 k1 v1 H1 c2 k2; unfold dset; now destruct ((c2 =? c1) && key_eqb k2 k1)).
  assert (G : forall d d' c k, deq d d' -> getattr mro d c k = getattr mro d' c k) by (intros d1 d2 c1 k1 H1; unfold getattr, lookup; now rewrite (find_ext d1 d2)).
  destruct (d c (Orig a)) as [o|]; [|cbn; split; [apply S, S, H|reflexivity]]. destruct (d c (Attr a)) as [o2|]; [|now split]. cbn. split; [|reflexivity]. apply S, S.
  rewrite (G _ (dset d' c (Attr a) None) c (Orig a)) by (apply S, H).
  replace (forallb (fun x => negb (oval_eqb (getattr mro (dset d' c (Attr a) None) x (Attr a)) (getattr mro (dset d' c (Attr a) None) c (Orig a)))) (mro c)) with (forallb (fun x => negb (oval_eqb (getattr mro (dset d c (Attr a) None) x (Attr a)) (getattr mro (dset d' c (Attr a) None) c (Orig a)))) (mro c)).
  - destruct (forallb _ _); [apply S, S, H|apply S, H].
  - induction (mro c) as [|y l IH]; [reflexivity|]. cbn. rewrite IH. now rewrite (G (dset d c (Attr a) None) (dset d' c (Attr a) None)) by (apply S, H).
Qed.
Lemma deact_entries_ext mro l : forall d d', deq d d' -> deq (fst (deact_entries mro d l)) (fst (deact_entries mro d' l)) /\ snd (deact_entries mro d l) = snd (deact_entries mro d' l).
Proof.
  induction l as [|x l IH]; intros d d' H; cbn; [now split|]. destruct (deact_entry_ext mro d d' x H) as (A & B). cbn in A, B. destruct (deact_entry mro d x) as (d1, [ex|]), (deact_entry mro d' x) as (d2, [ex2|]); cbn in *; try discriminate; [now split|]. now apply IH.
Qed.
(** only the keys matter, not the values *)
Lemma deact_keys mro l : forall l' d, map ekey l = map ekey l' -> deact_entries mro d l = deact_entries mro d l'.
Proof.
  induction l as [|((c, a), v) l IH]; intros [|((c', a'), v') l'] d E; cbn in E; try discriminate; [reflexivity|]. injection E as -> -> E. cbn [deact_entries]. replace (deact_entry mro d (c', a', v')) with (deact_entry mro d (c', a', v)) by reflexivity. destruct (deact_entry mro d (c', a', v)) as (d1, [ex|]); [reflexivity|]. now apply IH.
Qed.
Lemma deact_entry_other mro d x c a : fst x <> (c, a) -> let d' := fst (deact_entry mro d x) in d' c (Attr a) = d c (Attr a) /\ d' c (Orig a) = d c (Orig a) /\ d' c (Flag a) = d c (Flag a).
Proof.
  destruct x as ((c1, a1), v). cbn [fst]. intros NE. assert (D : c <> c1 \/ a <> a1) by (destruct (Nat.eq_dec c c1) as [->|]; [right; intros ->; now apply NE|now left]).
  assert (S : forall d k v, (k = Attr a1 \/ k = Orig a1 \/ k = Flag a1) -> dset d c1 k v c (Attr a) = d c (Attr a) /\ dset d c1 k v c (Orig a) = d c (Orig a) /\ dset d c1 k v c (Flag a) = d c (Flag a)).
  { intros d0 k w HK. repeat split; apply dset_other; (destruct D as [D|D]; [now left|right; intros <-; destruct HK as [HK|[HK|HK]]; congruence]). }
  unfold deact_entry. destruct (d c1 (Orig a1)); [|cbn; destruct (S (dset d c1 (Attr a1) None) (Flag a1) None) as (-> & -> & ->); [tauto|]; apply S; tauto]. destruct (d c1 (Attr a1)); [|now cbn]. cbn.
  match goal with |- dset (dset ?x _ _ _) _ _ _ _ _ = _ /\ _ => set (d2 := x) end. destruct (S (dset d2 c1 (Orig a1) None) (Flag a1) None) as (-> & -> & ->); [tauto|]. destruct (S d2 (Orig a1) None) as (-> & -> & ->); [tauto|]. unfold d2. destruct (forallb _ _); [|apply S; tauto]. destruct (S (dset d c1 (Attr a1) None) (Attr a1) (getattr mro (dset d c1 (Attr a1) None) c1 (Orig a1))) as (-> & -> & ->); [tauto|]. apply S; tauto.
Qed.
Lemma deact_insert mro c a v l2 l1 : forall d, (forall x, In x l1 -> fst x <> (c, a)) -> d c (Attr a) = None -> d c (Orig a) = None -> d c (Flag a) = None ->
  deq (fst (deact_entries mro d (l1 ++ (c, a, v) :: l2))) (fst (deact_entries mro d (l1 ++ l2))) /\ snd (deact_entries mro d (l1 ++ (c, a, v) :: l2)) = snd (deact_entries mro d (l1 ++ l2)).
Proof.
  induction l1 as [|x l1 IH]; intros d NI A O F; cbn [app deact_entries].
  - unfold deact_entry. rewrite O. apply deact_entries_ext. intros c' k. unfold dset. destruct (Nat.eqb_spec c' c) as [->|]; cbn; [|reflexivity]. destruct (key_eqb_spec k (Flag a)) as [->|]; [now rewrite F|]. destruct (key_eqb_spec k (Attr a)) as [->|]; [now rewrite A|reflexivity].
  - pose proof (deact_entry_other mro d x c a (NI x (or_introl eq_refl))) as OT. destruct (deact_entry mro d x) as (d1, [ex|]); cbn in *; [now split|]. destruct OT as (E1 & E2 & E3). apply IH; [intros y Y; apply NI; now right|congruence|congruence|congruence].
Qed.
(** the entries after the registration of a method *)
Lemma aset_split {V} k (v : V) d : (exists w l1 l2, d = l1 ++ (k, w) :: l2 /\ aset k v d = l1 ++ (k, v) :: l2 /\ aget k d = Some w) \/ (aget k d = None /\ aset k v d = d ++ [(k, v)]).
Proof.
  induction d as [|(k2, v2) d IH]; [right; now split|]. cbn. destruct (Nat.eqb_spec k k2) as [<-|NE]; [left; now exists v2, [], d|]. destruct IH as [(w & l1 & l2 & -> & E & G)|(G & E)]; [left; exists w, ((k2, v2) :: l1), l2; cbn; now rewrite E|right; now rewrite E].
Qed.
Lemma flat_split x l1 c w l2 : r_cls x = l1 ++ (c, w) :: l2 -> flat x = flat (mkR None None l1) ++ map (fun q => (c, fst q, snd q)) w ++ flat (mkR None None l2).
Proof. intros E. unfold flat. rewrite E. cbn [r_cls]. now rewrite flat_map_app. Qed.
Lemma flat_put c a v x : let y := put_attr c a v (ensure_cls c x) in
  (cval x c a <> None -> map ekey (flat y) = map ekey (flat x)) /\ (cval x c a = None -> exists l1 l2, flat x = l1 ++ l2 /\ flat y = l1 ++ (c, a, v) :: l2).
Proof.
  intros y. unfold y, put_attr. unfold ensure_cls, cval, cattrs. destruct (aget c (r_cls x)) as [l|] eqn:L.
  - rewrite L. destruct (aset_split c (aset a v l) (r_cls x)) as [(w & l1 & l2 & E1 & E2 & G)|(G & _)]; [|congruence]. rewrite L in G. injection G as <-. rewrite (flat_split x l1 c l l2 E1). rewrite (flat_split (mkR (r_setup x) (r_tear x) (aset c (aset a v l) (r_cls x))) l1 c (aset a v l) l2 E2). destruct (aset_split a v l) as [(w & m1 & m2 & F1 & F2 & G)|(G & F2)]; rewrite F2; split.
    + intros _. rewrite F1. rewrite !map_app, !map_map. cbn. reflexivity.
    + rewrite G. discriminate.
    + now rewrite G.
    + intros _. exists (flat (mkR None None l1) ++ map (fun q => (c, fst q, snd q)) l), (flat (mkR None None l2)). rewrite map_app, <- !app_assoc. split; reflexivity.
  - split; [now cbn|]. intros _. cbn [r_cls]. rewrite aget_aset, Nat.eqb_refl. cbn [aset]. destruct (aset_split c ([] : list (nat * val)) (r_cls x)) as [(w & l1 & l2 & _ & _ & G)|(_ & E)]; [congruence|].
    destruct (aset_split c [(a, v)] (aset c [] (r_cls x))) as [(w & l1 & l2 & E1 & E2 & G)|(G & _)]; [|rewrite aget_aset, Nat.eqb_refl in G; discriminate]. rewrite aget_aset, Nat.eqb_refl in G. injection G as <-.
    exists (flat (mkR None None l1)), (flat (mkR None None l2)). cbn [r_cls] in *. split.
    + transitivity (flat (mkR None None (aset c [] (r_cls x)))); [unfold flat; cbn [r_cls]; rewrite E, flat_map_app; cbn; now rewrite app_nil_r|]. now rewrite (flat_split (mkR None None (aset c [] (r_cls x))) l1 c [] l2 E1).
    + exact (flat_split (mkR (r_setup x) (r_tear x) (aset c [(a, v)] (aset c [] (r_cls x)))) l1 c [(a, v)] l2 E2).
Qed.
(** nothing is different after deactivation if the attribute was registered already, or if the class does not define it itself *)
Theorem C334_active : forall raises mro r e c a v s, wfr r -> known r e -> rval r e c a <> None \/ (dicts s c (Attr a) = None /\ dicts s c (Orig a) = None /\ dicts s c (Flag a) = None) ->
  let p := deactivate mro (as_reg raises (reg_method e c a v r)) s e in let q := deactivate mro (as_reg raises r) s e in
  snd p = snd q /\ active (fst p) = active (fst q) /\ forall c' k, dicts (fst p) c' k = dicts (fst q) c' k.
Proof.
  intros raises mro r e c a v s W KN H p q. unfold p, q, deactivate, as_reg, reg_method. unfold known in KN. unfold rval in H. unfold ensure. destruct (aget e r) as [x|] eqn:X; [|easy]. rewrite X, aget_aset, Nat.eqb_refl. cbn [option_map]. destruct (negb (mem e (active s))); [repeat split|].
  unfold as_ext. cbn [entries teardown_raises put_attr r_tear]. rewrite (proj2 (ensure_cls_keeps c x)). fold (put_attr c a v (ensure_cls c x)). destruct (flat_put c a v x) as (F1 & F2).
  assert (D : deq (fst (deact_entries mro (dicts s) (flat (put_attr c a v (ensure_cls c x))))) (fst (deact_entries mro (dicts s) (flat x))) /\ snd (deact_entries mro (dicts s) (flat (put_attr c a v (ensure_cls c x)))) = snd (deact_entries mro (dicts s) (flat x))).
  { destruct (cval x c a) as [w|] eqn:CV.
    - rewrite (deact_keys mro _ (flat x)) by (apply F1; discriminate). now split.
    - destruct H as [H|(A & O & F)]; [easy|]. destruct (F2 eq_refl) as (l1 & l2 & EX & E2). rewrite E2. rewrite EX. apply deact_insert; try assumption. intros ((c', a'), w) I [= -> ->]. assert (I2 : In (c, a, w) (flat x)) by (rewrite EX; apply in_or_app; now left). apply (flat_val x c a w (wf_get e x r W X)) in I2. congruence. }
  destruct D as (D1 & D2). destruct (deact_entries mro (dicts s) (flat (put_attr c a v (ensure_cls c x)))) as (d1, e1), (deact_entries mro (dicts s) (flat x)) as (d2, e2). cbn [fst snd] in *. subst e2. destruct e1 as [ex|]; [repeat split; exact D1|]. destruct (match r_tear x with Some f => raises f | None => false end); repeat split; exact D1.
Qed.
(** a method registered for a class which has a method of this name: deactivation removes the own method of the class *)
Theorem C334_refuted : exists r e c a v (d : dict), wfr r /\ let s1 := fst (activate below (as_reg noraise r) (mkS d []) e) in let q := deactivate below (as_reg noraise (reg_method e c a v r)) s1 e in
  active s1 = [e] /\ snd q = None /\ d c (Attr a) <> None /\ dicts (fst (deactivate below (as_reg noraise r) s1 e)) c (Attr a) = d c (Attr a) /\ dicts (fst q) c (Attr a) = None.
Proof.
  exists (reg_runs [def1] []), 5, 11, 7, (Plain 75), classes0. split; [apply (runs_keeps [def1] []); split; [constructor|intros ? ? []]|]. cbv zeta. repeat split; try reflexivity. discriminate.
Qed.
Example C334_ex : (let r := reg_runs [def1] [] in let s1 := fst (activate below (as_reg noraise r) (mkS classes0 []) 5) in let s2 := fst (deactivate below (as_reg noraise (reg_method 5 12 7 (Plain 75) r)) s1 5) in
  (map (fun c => getattr below (dicts s1) c (Attr 7)) [10; 11; 12], map (fun c => getattr below (dicts s2) c (Attr 7)) [10; 11; 12])) = ([Some (Plain 70); Some (Plain 2); Some (Plain 2)], [Some (Plain 1); Some (Plain 2); Some (Plain 2)]).
Proof. reflexivity. Qed.
