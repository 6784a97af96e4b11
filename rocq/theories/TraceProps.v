(** Properties of the tracing wrappers: C501-C503 *)
From Coq Require Import List Arith Bool Lia.
From Verif Require Import TraceModel.
Import ListNotations.

Section Trace.
  Variables D A V : Type. Variable cls : nat -> A -> D -> act D A V. Variable names : list nat.
  Hypothesis ND : NoDup names.
  Notation call := (call D A V cls). Notation decorate := (decorate names). Notation undecorate := (undecorate names). Notation out := (option (D * res V * list (nat * A * V))).
  Lemma name_eqb_spec a b : reflect (a = b) (name_eqb a b).
  Proof using. destruct a, b; cbn; try (constructor; congruence); destruct (Nat.eqb_spec m m0) || destruct (Nat.eqb_spec n n0); constructor; congruence. Qed.
  (** an instance which does not hide methods of its class, and is not decorated *)
  Definition plain (s : attrs) : Prop := (forall m, s (NMeth m) = None /\ s (NOrig m) = None) /\ s NFlag = None /\ s NGet = None.
  Lemma fold_deco l : forall s, NoDup l -> (forall m, In m l -> s (NMeth m) = None) -> forall n, fold_left deco_method l s n =
    match n with NMeth m => if in_dec Nat.eq_dec m l then Some (VWrap m) else s n | NOrig m => if in_dec Nat.eq_dec m l then Some (VMeth m) else s n | _ => s n end.
  Proof using. clear cls; clear D A V.
    induction l as [|m l IH]; intros s N P n; [destruct n; reflexivity|]. cbn [fold_left]. inversion N as [|? ? NI N']; subst. rewrite IH; [|exact N'|].
    - unfold deco_method, aget. rewrite (P m) by now left. unfold aset. destruct n as [k|k| | |k]; cbn [name_eqb]; try reflexivity.
      + destruct (in_dec Nat.eq_dec k l) as [I|I], (in_dec Nat.eq_dec k (m :: l)) as [J|J]; cbn in J; try tauto; destruct (Nat.eqb_spec k m) as [->|]; try tauto; firstorder congruence.
      + destruct (in_dec Nat.eq_dec k l) as [I|I], (in_dec Nat.eq_dec k (m :: l)) as [J|J]; cbn in J; try tauto; destruct (Nat.eqb_spec k m) as [->|]; try tauto; firstorder congruence.
    - intros k I. unfold deco_method, aget. rewrite (P m) by now left. unfold aset. cbn [name_eqb]. destruct (Nat.eqb_spec k m) as [->|]; [contradiction|]. apply P. now right.
  Qed.
  Lemma deco_spec s n : plain s -> decorate s n = match n with NMeth m => if in_dec Nat.eq_dec m names then Some (VWrap m) else s n | NOrig m => if in_dec Nat.eq_dec m names then Some (VMeth m) else s n | NFlag => Some (VAny 1) | NGet => Some (VAny 2) | _ => s n end.
  Proof using ND. clear cls; clear D A V.
    intros [P _]. unfold TraceModel.decorate. unfold aset at 1. destruct (name_eqb_spec n NGet) as [->|N1]; [reflexivity|]. rewrite fold_deco; [|exact ND|intros m _; exact (proj1 (P m))].
    destruct n; cbn; try reflexivity; try congruence.
  Qed.
  (** the calls of the methods, seen from outside: those of the tree, and a record of the traced ones *)
  Definition tree (c : nat -> A -> D -> out) : act D A V -> out := fix go (t : act D A V) : out :=
    match t with
    | Done _ _ _ r d => Some (d, r, [])
    | Call _ _ _ m a d k => match c m a d with None => None | Some (d, r, ev) => match go (k r d) with None => None | Some (d, r, ev') => Some (d, r, ev ++ ev') end end
    end.
  Lemma call_S fuel s n a d : call (S fuel) s n a d =
    match aget s n with
    | Some (VMeth m) => tree (fun m a d => call fuel s (NMeth m) a d) (cls m a d)
    | Some (VWrap m) => match call fuel s (NOrig m) a d with Some (d, ROk _ v, ev) => Some (d, ROk _ v, ev ++ [(m, a, v)]) | r => r end
    | Some (VAny _) | None => Some (d, RErr _ 0, [])
    end.
  Proof. reflexivity. Qed.
  Lemma tree_mono (c c' : nat -> A -> D -> out) : (forall m a d r, c m a d = Some r -> c' m a d = Some r) -> forall t r, tree c t = Some r -> tree c' t = Some r.
  Proof.
    intros H. induction t as [r d|m a d k IH]; intros x E; cbn in *; [exact E|]. destruct (c m a d) as [[[d1 r1] ev]|] eqn:E1; [|discriminate]. rewrite (H _ _ _ _ E1). destruct (tree c (k r1 d1)) as [[[d2 r2] ev2]|] eqn:E2; [|discriminate]. now rewrite (IH _ _ _ E2).
  Qed.
  Lemma call_mono s : forall f n a d r, call f s n a d = Some r -> call (S f) s n a d = Some r.
  Proof.
    induction f as [|f IH]; intros n a d r E; [discriminate|]. rewrite call_S in E. rewrite call_S. destruct (aget s n) as [[m|m|m]|]; try exact E.
    - refine (tree_mono _ _ _ _ _ E). intros. now apply IH.
    - destruct (call f s (NOrig m) a d) as [[[d1 r1] ev]|] eqn:E1; [|discriminate]. now rewrite (IH _ _ _ _ E1).
  Qed.
  Fixpoint spec (fuel : nat) (m : nat) (a : A) (d : D) : out :=
    match fuel with
    | O => None
    | S fuel => match tree (spec fuel) (cls m a d) with Some (d, ROk _ v, ev) => Some (d, ROk _ v, ev ++ if in_dec Nat.eq_dec m names then [(m, a, v)] else []) | r => r end
    end.
  Definition erase (o : out) : out := match o with Some (d, r, _) => Some (d, r, []) | None => None end.
  Lemma tree_erase (c c' : nat -> A -> D -> out) : (forall m a d, c m a d = erase (c' m a d)) -> forall t, tree c t = erase (tree c' t).
  Proof.
    intros H. induction t as [r d|m a d k IH]; [reflexivity|]. cbn. rewrite H. destruct (c' m a d) as [[[d1 r1] ev]|]; [|reflexivity]. cbn. rewrite IH. destruct (tree c' (k r1 d1)) as [[[d2 r2] ev2]|]; reflexivity.
  Qed.
  Lemma call_plain s : plain s -> forall f m a d, call f s (NMeth m) a d = erase (spec f m a d).
  Proof.
    intros [P _]. induction f as [|f IH]; intros m a d; [reflexivity|]. rewrite call_S. unfold aget. rewrite (proj1 (P m)). cbn [spec]. rewrite (tree_erase _ (spec f)) by (intros; apply IH).
    destruct (tree (spec f) (cls m a d)) as [[[d1 [v|e]] ev]|]; reflexivity.
  Qed.
  Lemma aget_deco s m : plain s -> aget (decorate s) (NMeth m) = Some (if in_dec Nat.eq_dec m names then VWrap m else VMeth m) /\ (In m names -> aget (decorate s) (NOrig m) = Some (VMeth m)).
  Proof using ND. clear cls; clear D A V.
    intros P. unfold aget. rewrite !deco_spec by exact P. destruct (in_dec Nat.eq_dec m names) as [I|I]; split; try reflexivity; try tauto. now rewrite (proj1 (proj1 P m)).
  Qed.
  Lemma call_up s f n a d r k : call f s n a d = Some r -> call (k + f) s n a d = Some r.
  Proof. intros E. induction k as [|k IH]; [exact E|]. now apply call_mono. Qed.
  Lemma spec_deco s : plain s -> forall f m a d r, spec f m a d = Some r -> call (2 * f) (decorate s) (NMeth m) a d = Some r.
  Proof.
    intros P. induction f as [|f IH]; intros m a d r E; [discriminate|]. cbn [spec] in E. destruct (aget_deco s m P) as [G1 G2]. destruct (tree (spec f) (cls m a d)) as [[[d1 r1] ev]|] eqn:T; [|discriminate].
    apply (tree_mono _ (fun m a d => call (2 * f) (decorate s) (NMeth m) a d)) in T; [|intros; now apply IH]. destruct (in_dec Nat.eq_dec m names) as [I|I].
    - replace (2 * S f) with (S (S (2 * f))) by lia. rewrite call_S, G1. rewrite call_S, G2 by exact I. rewrite T. destruct r1; exact E.
    - replace (2 * S f) with (1 + S (2 * f)) by lia. apply call_up. rewrite call_S, G1, T. rewrite app_nil_r in E. destruct r1; exact E.
  Qed.
  Lemma deco_spec_back s : plain s -> forall f m a d r, (call f (decorate s) (NMeth m) a d = Some r -> spec f m a d = Some r) /\
    (In m names -> forall d' q ev, call f (decorate s) (NOrig m) a d = Some (d', q, ev) -> spec f m a d = Some (d', q, ev ++ match q with ROk _ v => [(m, a, v)] | RErr _ _ => [] end)).
  Proof.
    intros P. assert (SM : forall f m a d r, spec f m a d = Some r -> spec (S f) m a d = Some r).
    { induction f as [|f IH]; intros m a d r E; [discriminate|]. cbn [spec] in E. remember (S f) as g eqn:Eg. cbn [spec]. destruct (tree (spec f) (cls m a d)) as [[[d1 r1] ev]|] eqn:T; [|discriminate]. rewrite (tree_mono (spec f) (spec g) IH _ _ T). exact E. }
    induction f as [|f IH]; intros m a d r; [split; discriminate|]. destruct (aget_deco s m P) as [G1 G2].
    assert (TB : forall t x, tree (fun m a d => call f (decorate s) (NMeth m) a d) t = Some x -> tree (spec f) t = Some x) by (intros t x; apply tree_mono; intros; now apply (IH m0 a0 d0 r0)).
    split.
    - rewrite call_S, G1. destruct (in_dec Nat.eq_dec m names) as [I|I].
      + destruct (call f (decorate s) (NOrig m) a d) as [[[d1 r1] ev]|] eqn:E; [|discriminate]. apply (proj2 (IH m a d r) I) in E. intros H. apply SM. rewrite E. destruct r1; [exact H|]. now rewrite app_nil_r.
      + intros H. apply TB in H. cbn [spec]. rewrite H. destruct r as [[d1 [v|e]] ev]; [|reflexivity]. destruct (in_dec Nat.eq_dec m names); [contradiction|]. now rewrite app_nil_r.
    - intros I d' q ev. rewrite call_S, G2 by exact I. intros H. apply TB in H. cbn [spec]. rewrite H. destruct q; [destruct (in_dec Nat.eq_dec m names); [reflexivity|contradiction]|now rewrite app_nil_r].
  Qed.
  (** ** C501: a decorated node does the same, and reports its calls *)
  (** a method of a decorated node returns if and only if it returns without the decoration, with the same result and the same data; the report has one entry for every traced call which
      returned a value, at the time it returned *)
  Theorem C501_transparent : forall s m a d d' r, plain s -> ((exists f, call f s (NMeth m) a d = Some (d', r, [])) <-> exists f ev, call f (decorate s) (NMeth m) a d = Some (d', r, ev)).
  Proof.
    intros s m a d d' r P. split.
    - intros (f & E). rewrite call_plain in E by exact P. destruct (spec f m a d) as [[[d1 r1] ev]|] eqn:Es; [|discriminate]. injection E as -> ->. exists (2 * f), ev. now apply spec_deco.
    - intros (f & ev & E). apply (proj1 (deco_spec_back s P f m a d _)) in E. exists f. rewrite call_plain by exact P. now rewrite E.
  Qed.
  Theorem C501_report : forall s m a d f d' r ev, plain s -> call f (decorate s) (NMeth m) a d = Some (d', r, ev) -> spec f m a d = Some (d', r, ev).
  Proof. intros s m a d f d' r ev P. apply deco_spec_back. exact P. Qed.
  Theorem C501_silent : forall s m a d f d' r ev, plain s -> call f s (NMeth m) a d = Some (d', r, ev) -> ev = [].
  Proof. intros s m a d f d' r ev P E. rewrite call_plain in E by exact P. destruct (spec f m a d) as [[[d1 r1] ev1]|]; [|discriminate]. now injection E as _ _ <-. Qed.
  Lemma fold_del l : forall s : attrs, NoDup l -> (forall m, In m l -> s (NMeth m) <> None /\ s (NOrig m) <> None) -> exists s', fold_left (fun s m => del_ (del_ s (NMeth m)) (NOrig m)) l (Some s) = Some s' /\
    forall n, s' n = match n with NMeth m | NOrig m => if in_dec Nat.eq_dec m l then None else s n | _ => s n end.
  Proof using. clear cls; clear D A V.
    induction l as [|m l IH]; intros s N P; [exists s; split; [reflexivity|]; now intros []|]. inversion N as [|? ? NI N']; subst. destruct (P m (or_introl eq_refl)) as [P1 P2].
    assert (E : del_ (del_ (Some s) (NMeth m)) (NOrig m) = Some (adel (adel s (NMeth m)) (NOrig m))).
    { unfold del_ at 2. destruct (s (NMeth m)); [|contradiction]. unfold del_. replace (adel s (NMeth m) (NOrig m)) with (s (NOrig m)) by reflexivity. destruct (s (NOrig m)); [reflexivity|contradiction]. }
    cbn [fold_left]. rewrite E.
    destruct (IH (adel (adel s (NMeth m)) (NOrig m)) N') as (s' & F & H).
    - intros k I. unfold adel. cbn. destruct (Nat.eqb_spec k m) as [->|]; [contradiction|]. apply P. now right.
    - exists s'. split; [exact F|]. intros n. rewrite H. unfold adel. destruct n as [k|k| | |k]; cbn [name_eqb]; try reflexivity; destruct (in_dec Nat.eq_dec k l) as [I|I], (in_dec Nat.eq_dec k (m :: l)) as [J|J]; cbn in J; try tauto; destruct (Nat.eqb_spec k m) as [->|]; try tauto; firstorder congruence.
  Qed.
  (** ** C502: undecorating restores the node *)
  Theorem C502_restored : forall s, plain s -> exists s', undecorate (decorate s) = Some s' /\ forall n, s' n = s n.
  Proof using ND. clear cls; clear D A V.
    intros s P. unfold TraceModel.undecorate. assert (Fl : decorate s NFlag = Some (VAny 1)) by (now rewrite deco_spec by exact P). assert (E : del_ (Some (decorate s)) NFlag = Some (adel (decorate s) NFlag)) by (unfold del_; now rewrite Fl). rewrite Fl, E. clear E. destruct (fold_del names (adel (decorate s) NFlag) ND) as (s' & F & H).
    - intros m I. unfold adel. cbn [name_eqb]. rewrite !deco_spec by exact P. destruct (in_dec Nat.eq_dec m names); [split; discriminate|contradiction].
    - rewrite F. assert (E : s' NGet = Some (VAny 2)) by (rewrite H; unfold adel; cbn [name_eqb]; now rewrite deco_spec by exact P). exists (adel s' NGet). split; [unfold del_; now rewrite E|]. intros n. unfold adel at 1. destruct (name_eqb_spec n NGet) as [->|N1]; [symmetry; apply P|].
      rewrite H. unfold adel. destruct n as [k|k| | |k]; cbn [name_eqb]; rewrite ?deco_spec by exact P; try reflexivity; try congruence.
      + destruct (in_dec Nat.eq_dec k names); [symmetry; apply P|reflexivity].
      + destruct (in_dec Nat.eq_dec k names); [symmetry; apply P|reflexivity].
      + symmetry. apply P.
  Qed.
  Theorem C502_untouched : forall s, s NFlag = None -> undecorate s = Some s.
  Proof using. intros s E. unfold TraceModel.undecorate. now rewrite E. Qed.
  (** ** C503: a node which is decorated twice: the wrapper calls itself and never returns. This is a node which occurs twice in the flow, or any node after a trace that failed *)
  Lemma twice_orig s m : plain s -> In m names -> exists s2, decorate (decorate s) = s2 /\ aget s2 (NMeth m) = Some (VWrap m) /\ aget s2 (NOrig m) = Some (VWrap m).
  Proof using ND. clear cls; clear D A V.
    intros P I. eexists. split; [reflexivity|]. set (s1 := decorate s). assert (W : forall k, In k names -> s1 (NMeth k) = Some (VWrap k)) by (intros k Ik; unfold s1; rewrite deco_spec by exact P; destruct (in_dec Nat.eq_dec k names); [reflexivity|contradiction]).
    assert (G : forall l s, (forall k, In k l -> s (NMeth k) = Some (VWrap k)) -> (forall k, s (NMeth k) = Some (VWrap k) -> fold_left deco_method l s (NMeth k) = Some (VWrap k)) /\ (forall k, s (NOrig k) = Some (VWrap k) \/ In k l -> fold_left deco_method l s (NOrig k) = Some (VWrap k))).
    { induction l as [|q l IH]; intros x Hx; [split; [auto|intros k [H|[]]; exact H]|]. cbn [fold_left]. assert (Q : x (NMeth q) = Some (VWrap q)) by (apply Hx; now left).
      assert (E1 : forall k, x (NMeth k) = Some (VWrap k) -> deco_method x q (NMeth k) = Some (VWrap k)) by (intros k Ek; unfold deco_method, aget; rewrite Q; unfold aset; cbn [name_eqb]; destruct (Nat.eqb_spec k q) as [->|]; [reflexivity|exact Ek]).
      destruct (IH (deco_method x q)) as [I1 I2]; [intros k Ik; apply E1, Hx; now right|]. split; [intros k Ek; apply I1, E1, Ek|]. intros k Hk. apply I2. destruct Hk as [Hk|[->|Hk]]; [left|left|right; exact Hk]; unfold deco_method, aget; rewrite Q; unfold aset; cbn [name_eqb]; [destruct (Nat.eqb_spec k q) as [->|]; [reflexivity|exact Hk]|now rewrite Nat.eqb_refl]. }
    destruct (G names (aset s1 NFlag (VAny 1))) as [G1 G2]; [intros k Ik; unfold aset; cbn [name_eqb]; now apply W|]. unfold TraceModel.decorate at 1 2. unfold aget. unfold aset at 1 3. cbn [name_eqb]. rewrite G1, G2; [split; reflexivity|now right|]. unfold aset. cbn [name_eqb]. now apply W.
  Qed.
  Theorem C503_twice : forall s m, plain s -> In m names -> forall f a d, call f (decorate (decorate s)) (NMeth m) a d = None.
  Proof using ND.
    intros s m P I f a d. destruct (twice_orig s m P I) as (s2 & -> & G1 & G2). assert (O : forall f a d, call f s2 (NOrig m) a d = None) by (induction f0 as [|f0 IH]; intros; [reflexivity|]; rewrite call_S, G2, IH; reflexivity).
    destruct f as [|f]; [reflexivity|]. rewrite call_S, G1, O. reflexivity.
  Qed.
End Trace.
(** ** Flows *)
Section Flow.
  Variable names : list nat. Hypothesis ND : NoDup names.
  Fixpoint leaves (n : hnode) : list nat := match n with HLeaf o => [o] | HGroup l => flat_map leaves l end.
  Fixpoint hnode_ind' (P : hnode -> Prop) (F : forall o, P (HLeaf o)) (G : forall l, Forall P l -> P (HGroup l)) (n : hnode) : P n :=
    match n with HLeaf o => F o | HGroup l => G l ((fix go (l : list hnode) : Forall P l := match l with [] => Forall_nil _ | n :: l => Forall_cons _ (hnode_ind' P F G n) (go l) end) l) end.
  Lemma visit_leaves n : forall h, visit names n h = fold_left (fun h o => hset h o (decorate names (h o))) (leaves n) h.
  Proof.
    induction n as [o|l IH] using hnode_ind'; intros h; [reflexivity|]. cbn. revert h. induction IH as [|n l Hn _ IHl]; intros h; [reflexivity|]. cbn [flat_map]. rewrite fold_left_app, <- Hn. apply IHl.
  Qed.
  Definition unstep (h : option heap) (o : nat) : option heap := match h with Some h => match undecorate names (h o) with Some s => Some (hset h o s) | None => None end | None => None end.
  Lemma unstep_none l : fold_left unstep l None = None. Proof. induction l; auto. Qed.
  Lemma unvisit_leaves n : forall h, unvisit names n h = fold_left unstep (leaves n) (Some h).
  Proof.
    induction n as [o|l IH] using hnode_ind'; intros h; [reflexivity|]. cbn. revert h. induction IH as [|n l Hn _ IHl]; intros h; [reflexivity|]. cbn [flat_map]. rewrite fold_left_app, <- Hn. destruct (unvisit names n h); [apply IHl|symmetry; apply unstep_none].
  Qed.
  Lemma visit_at l : forall h o, NoDup l -> fold_left (fun h o => hset h o (decorate names (h o))) l h o = if in_dec Nat.eq_dec o l then decorate names (h o) else h o.
  Proof.
    induction l as [|p l IH]; intros h o N; [reflexivity|]. inversion N as [|? ? NI N']; subst. cbn [fold_left]. rewrite IH by exact N'. unfold hset. destruct (in_dec Nat.eq_dec o l) as [I|I], (in_dec Nat.eq_dec o (p :: l)) as [J|J]; cbn in J; try tauto; destruct (Nat.eqb_spec o p) as [->|]; try tauto; firstorder congruence.
  Qed.
  (** all nodes are different objects and the execution succeeds: every node is as before *)
  Theorem C502_flow : forall T flow (run : heap -> option T) (h : heap) r, NoDup (leaves flow) -> (forall o, In o (leaves flow) -> plain (h o)) -> run (visit names flow h) = Some r ->
    exists h', trace_execution names flow false run h = Some (h', Some r) /\ forall o n, h' o n = h o n.
  Proof.
    intros T flow run h r N P E. unfold trace_execution. rewrite E, unvisit_leaves. assert (G : forall l (h2 : heap), NoDup l -> (forall o, In o l -> h2 o = decorate names (h o)) -> (forall o, In o l -> plain (h o)) -> exists h3, fold_left unstep l (Some h2) = Some h3 /\
      forall o n, (In o l -> h3 o n = h o n) /\ (~ In o l -> h3 o n = h2 o n)).
    { induction l as [|p l IH]; intros h2 Nl H2 Pl; [exists h2; split; [reflexivity|]; intros; split; [intros []|reflexivity]|]. inversion Nl as [|? ? NI N']; subst. cbn [fold_left]. unfold unstep at 2. rewrite (H2 p (or_introl eq_refl)).
      destruct (C502_restored names ND (h p) (Pl p (or_introl eq_refl))) as (s' & -> & Hs). destruct (IH (hset h2 p s') N') as (h3 & F & H3); [|intros o I; apply Pl; now right|].
      - intros o I. unfold hset. destruct (Nat.eqb_spec o p) as [->|]; [contradiction|]. apply H2. now right.
      - exists h3. split; [exact F|]. intros o n. destruct (H3 o n) as [A B]. split.
        + intros [->|I]; [|now apply A]. rewrite B by exact NI. unfold hset. now rewrite Nat.eqb_refl, Hs.
        + intros NIo. cbn in NIo. rewrite B by tauto. unfold hset. destruct (Nat.eqb_spec o p) as [->|]; [tauto|reflexivity]. }
    destruct (G (leaves flow) (visit names flow h) N) as (h3 & -> & H3); [intros o I; rewrite visit_leaves, visit_at by exact N; destruct (in_dec Nat.eq_dec o (leaves flow)); [reflexivity|contradiction]|exact P|].
    exists h3. split; [reflexivity|]. intros o n. destruct (H3 o n) as [A B]. destruct (in_dec Nat.eq_dec o (leaves flow)) as [I|I]; [now apply A|]. rewrite B by exact I. rewrite visit_leaves, visit_at by exact N. destruct (in_dec Nat.eq_dec o (leaves flow)); [contradiction|reflexivity].
  Qed.
  (** if the execution raises (or a msg is given for a Flow), the nodes stay decorated, and calls of their methods in the next trace never return *)
  Theorem C503_refuted : forall D A V (cls : nat -> A -> D -> act D A V) T flow bad (run : heap -> option T) (h : heap), NoDup (leaves flow) -> (forall o, In o (leaves flow) -> plain (h o)) -> bad = true \/ run (visit names flow h) = None ->
    exists h', trace_execution names flow bad run h = Some (h', None) /\ forall o m, In o (leaves flow) -> In m names -> forall f a d, call D A V cls f (visit names flow h' o) (NMeth m) a d = None.
  Proof.
    intros D A V cls T flow bad run h N P B. exists (visit names flow h). split; [unfold trace_execution; destruct bad; [reflexivity|destruct B as [B|B]; [discriminate|now rewrite B]]|].
    intros o m I Im f a d. rewrite !visit_leaves, !visit_at by exact N. destruct (in_dec Nat.eq_dec o (leaves flow)); [|contradiction]. apply C503_twice; auto.
  Qed.
End Flow.
(** a node with three methods, train (1) calls execute (0); a flow with two nodes in a layer *)
Definition ex_cls (m : nat) (a d : nat) : act nat nat nat :=
  match m with 0 => Done _ _ _ (ROk _ (a + d)) d | 1 => Call _ _ _ 0 a (d + 1) (fun r d => Done _ _ _ r (d + 10)) | _ => Done _ _ _ (RErr _ 7) d end.
Example ex_C501 : call nat nat nat ex_cls 5 (decorate [0; 1; 2] (fun _ => None)) (NMeth 1) 3 4 = Some (15, ROk _ 8, [(0, 3, 8); (1, 3, 8)]) /\ call nat nat nat ex_cls 5 (fun _ => None) (NMeth 1) 3 4 = Some (15, ROk _ 8, []).
Proof. split; reflexivity. Qed.
(** the same node twice in a flow *)
Example ex_C503 : call nat nat nat ex_cls 1000 (visit [0; 1; 2] (HGroup [HLeaf 5; HLeaf 5]) (fun _ _ => None) 5) (NMeth 0) 3 4 = None.
Proof. vm_compute. reflexivity. Qed.
(** ** C504: training a CloneLayer while it is traced *)
Section Clone.
  Variables D X : Type. Variable train : X -> D -> D. Variable d0 : D.
  Lemma upd_skip (i : nat) f (l : list D) : i < length l -> nth i (upd D i f l) d0 = f (nth i l d0) /\ length (upd D i f l) = length l /\ forall j, j <> i -> nth j (upd D i f l) d0 = nth j l d0.
  Proof.
    revert i. induction l as [|x l IH]; intros [|i] L; cbn in L; try lia; unfold upd; cbn [firstn skipn app].
    - repeat split. intros [|j] N; [lia|reflexivity].
    - destruct (IH i ltac:(lia)) as (H1 & H2 & H3). repeat split; cbn; [exact H1|now rewrite <- H2|]. intros [|j] N; [reflexivity|]. apply H3. lia.
  Qed.
  (** without tracing all nodes are the same object, which is trained with the data of all of them *)
  Theorem C504_plain : forall d xs, xs <> [] -> states D d0 (clone_train D X train (clone_new D d (length xs)) xs) = repeat (fold_left (fun d x => train x d) xs d) (length xs).
  Proof.
    intros d xs _. unfold states, clone_train, clone_new. cbn [l_obj l_nodes l_node]. assert (E : forall xs d, fold_left (fun o (p : nat * X) => upd D (fst p) (train (snd p)) o) (combine (repeat 0 (length xs)) xs) [d] = [fold_left (fun d x => train x d) xs d]) by (induction xs0 as [|x xs0 IH]; intros e; [reflexivity|]; cbn; apply IH).
    rewrite E. generalize (fold_left (fun d x => train x d) xs d) as e. intros e. induction (length xs) as [|n IH]; [reflexivity|]. cbn. now f_equal.
  Qed.
  (** traced, all nodes are afterwards the one which has seen only the data of the first *)
  Theorem C504_refuted : forall d x xs, states D d0 (traced_train D X train d0 (clone_new D d (length (x :: xs))) (x :: xs)) = repeat (train x d) (length (x :: xs)).
  Proof.
    intros d x xs. unfold states, traced_train, clone_undecorate, clone_train, clone_decorate, clone_new. cbn [l_obj l_nodes l_node length repeat hd tl app nth combine fold_left fst snd map].
    assert (E : forall xs o, length o = 2 -> nth 1 (fold_left (fun o (p : nat * X) => upd D (fst p) (train (snd p)) o) (combine (repeat 0 (length xs)) xs) o) d0 = nth 1 o d0).
    { induction xs0 as [|y ys IH]; intros o L; [reflexivity|]. cbn [length repeat combine fold_left fst snd]. destruct (upd_skip 0 (train y) o ltac:(lia)) as (_ & L' & H). rewrite IH by congruence. apply H. lia. }
    specialize (E xs (upd D 1 (train x) [d; d]) eq_refl). change (nth 1 (upd D 1 (train x) [d; d]) d0) with (train x d) in E. rewrite E. f_equal. rewrite repeat_length. set (o := fold_left _ _ _) in *. clearbody o.
    induction (length xs) as [|n IH]; [reflexivity|]. cbn [repeat map]. f_equal; [exact E|exact IH].
  Qed.
End Clone.
(** summing nodes: three channels with 1, 2 and 3 *)
Example ex_C504 : states nat 0 (clone_train nat nat Nat.add (clone_new nat 10 3) [1; 2; 3]) = [16; 16; 16] /\ states nat 0 (traced_train nat nat Nat.add 0 (clone_new nat 10 3) [1; 2; 3]) = [11; 11; 11].
Proof. split; reflexivity. Qed.
