(** Properties of fixup_namespace *)
From Coq Require Import List Arith Bool Lia.
From Verif Require Import FixModel.
Import ListNotations.

Section Fix.
  Variables (old : list nat) (settable : nat -> bool) (func : nat -> option nat) (dirl : nat -> list nat) (attr : nat -> nat -> option nat) (dunder under : nat -> bool) (modname_ : nat -> nat).
  Notation item := (item old settable func dirl attr dunder under). Notation items := (items old settable func dirl attr dunder under). Notation private := (private old). Notation modof := (modof func).
  Notation subitems := (subitems dirl dunder under). Notation fixup := (fixup old settable func dirl attr dunder under modname_).
  (** a bound method is no object with a __module__ of its own *)
  Hypothesis methods : forall o f, func o = Some f -> settable o = false /\ func f = None.

  (** a state is reached from another: the only change is that private modules become the module of the package *)
  Definition step (st st' : mods) : Prop := forall o, st' o = st o \/ private (st o) = true /\ st' o = Some MSelf.
  Lemma step_refl st : step st st. Proof. intros o. now left. Qed.
  Lemma step_trans a b c : step a b -> step b c -> step a c.
  Proof. intros H1 H2 o. destruct (H2 o) as [->|[P ->]]; [apply H1|]. destruct (H1 o) as [E|[P' E]]; [right; rewrite <- E; auto|right; auto]. Qed.
  Lemma set_step st o : private (st o) = true -> step st (set_mod st o MSelf).
  Proof. intros P p. unfold set_mod. destruct (Nat.eqb_spec p o) as [->|]; auto. Qed.
  (** nothing is left to do for an object *)
  Definition clean (st : mods) (o : nat) : Prop :=
    match func o with None => settable o = true -> private (st o) = false | Some f => settable f = true -> private (st f) = false end.
  Lemma step_clean st st' o : step st st' -> clean st o -> clean st' o.
  Proof. unfold clean. intros H C. destruct (func o) as [f|]; intros S; [destruct (H f) as [->|[P _]]|destruct (H o) as [->|[P _]]]; auto; rewrite C in P by exact S; discriminate. Qed.
  Definition sub_clean (st : mods) (o n : nat) : Prop := forall q, attr o n = Some q -> clean st q.

  (** what one call does *)
  Definition good (st st' : mods) : Prop := step st st' /\ forall o, func o = None -> settable o = true -> private (st o) = true -> private (st' o) = false -> (forall n, In n (subitems o) -> sub_clean st' o n) \/ exists f m, func m = Some f /\ f = o.
  Lemma good_refl st : good st st. Proof. split; [apply step_refl|]. intros o _ _ P Q. congruence. Qed.
  Lemma good_trans a b c : good a b -> good b c -> good a c.
  Proof.
    intros [S1 G1] [S2 G2]. split; [exact (step_trans _ _ _ S1 S2)|]. intros o F S P Q. destruct (private (b o)) eqn:E.
    - exact (G2 o F S E Q).
    - destruct (G1 o F S P E) as [H|H]; [left|right; exact H]. intros n I q A. exact (step_clean _ _ _ S2 (H n I q A)).
  Qed.
  Lemma private_self : private (Some MSelf) = false. Proof. reflexivity. Qed.
  Lemma item_good : forall fuel st parent name st', item fuel st parent name = (st', None) -> good st st' /\ sub_clean st' parent name.
  Proof.
    induction fuel as [|fuel IH]; intros st parent name st' E; [discriminate|]. cbn [FixModel.item] in E. unfold sub_clean. destruct (attr parent name) as [o|]; [|destruct (dunder name); [|discriminate]; injection E as <-; split; [apply good_refl|discriminate]].
    destruct (private (modof st o)) eqn:P.
    - destruct (settable o) eqn:S.
      + assert (Fo : func o = None) by (destruct (func o) as [f|] eqn:F; [destruct (methods o f F); congruence|reflexivity]). unfold FixModel.modof in P. rewrite Fo in P.
        match type of E with ?L _ _ = _ => set (loop := L) in * end.
        assert (LP : forall l st st', loop l st = (st', None) -> good st st' /\ forall n, In n l -> sub_clean st' o n).
        { induction l as [|n l IHl]; intros s s' El; cbn in El; [injection El as <-; split; [apply good_refl|intros ? []]|].
          destruct (item fuel s o n) as [s1 [e|]] eqn:E1; [discriminate|]. destruct (IH _ _ _ _ E1) as [G1 C1]. destruct (IHl _ _ El) as [G2 C2]. split; [exact (good_trans _ _ _ G1 G2)|].
          intros k [<-|I]; [|exact (C2 k I)]. intros q A. exact (step_clean _ _ _ (proj1 G2) (C1 q A)). }
        destruct (LP _ _ _ E) as [[S2 G2] C2]. pose proof (set_step st o P) as S1.
        assert (Qo : private (st' o) = false). { destruct (S2 o) as [->|[Px Ex]]; [unfold set_mod; rewrite Nat.eqb_refl; reflexivity|]. rewrite Ex. reflexivity. }
        split; [split; [exact (step_trans _ _ _ S1 S2)|]|].
        * intros p F Sp Pp Qp. destruct (Nat.eq_dec p o) as [->|Np]; [left; intros n I; apply C2; exact I|]. apply G2; auto. unfold set_mod. destruct (Nat.eqb_spec p o); [contradiction|exact Pp].
        * intros q [= <-]. unfold clean. rewrite Fo. intros _. exact Qo.
      + destruct (func o) as [f|] eqn:F.
        * injection E as <-. unfold FixModel.modof in P. rewrite F in P. destruct (settable f) eqn:Sf.
          -- split; [split; [now apply set_step|]|].
             ++ intros p Fp Sp Pp Qp. unfold set_mod in Qp. destruct (Nat.eqb_spec p f) as [->|]; [right; eauto|congruence].
             ++ intros q [= <-]. unfold clean. rewrite F. intros _. unfold set_mod. rewrite Nat.eqb_refl. reflexivity.
          -- split; [apply good_refl|]. intros q [= <-]. unfold clean. rewrite F, Sf. discriminate.
        * injection E as <-. split; [apply good_refl|]. intros q [= <-]. unfold clean. rewrite F, S. discriminate.
    - injection E as <-. split; [apply good_refl|]. intros q [= <-]. unfold clean. unfold FixModel.modof in P. destruct (func o); intros _; exact P.
  Qed.
  Lemma items_good fuel parent l : forall st st', items fuel parent l st = (st', None) -> good st st' /\ forall n, In n l -> sub_clean st' parent n.
  Proof.
    induction l as [|n l IHl]; intros s s' El; cbn in El; [injection El as <-; split; [apply good_refl|intros ? []]|].
    destruct (item fuel s parent n) as [s1 [e|]] eqn:E1; [discriminate|]. destruct (item_good _ _ _ _ _ E1) as [G1 C1]. destruct (IHl _ _ El) as [G2 C2]. split; [exact (good_trans _ _ _ G1 G2)|].
    intros k [<-|I]; [|exact (C2 k I)]. intros q A. exact (step_clean _ _ _ (proj1 G2) (C1 q A)).
  Qed.
  Lemma item_step : forall fuel st parent name st' e, item fuel st parent name = (st', e) -> step st st'.
  Proof.
    induction fuel as [|fuel IH]; intros st parent name st' e E; [injection E as <- <-; apply step_refl|]. cbn [FixModel.item] in E. destruct (attr parent name) as [o|]; [|destruct (dunder name); injection E as <- <-; apply step_refl].
    destruct (private (modof st o)) eqn:P; [|injection E as <- <-; apply step_refl]. destruct (settable o) eqn:S.
    - assert (Fo : func o = None) by (destruct (func o) as [f|] eqn:F; [destruct (methods o f F); congruence|reflexivity]). unfold FixModel.modof in P. rewrite Fo in P. match type of E with ?L _ _ = _ => set (loop := L) in * end.
      assert (LP : forall l st st' e, loop l st = (st', e) -> step st st').
      { induction l as [|n l IHl]; intros s s' e' El; cbn in El; [injection El as <- <-; apply step_refl|]. destruct (item fuel s o n) as [s1 [e1|]] eqn:E1; [injection El as <- <-; exact (IH _ _ _ _ _ E1)|]. exact (step_trans _ _ _ (IH _ _ _ _ _ E1) (IHl _ _ _ El)). }
      exact (step_trans _ _ _ (set_step st o P) (LP _ _ _ _ E)).
    - destruct (func o) as [f|] eqn:F; [|injection E as <- <-; apply step_refl]. injection E as <- <-. unfold FixModel.modof in P. rewrite F in P. destruct (settable f); [now apply set_step|apply step_refl].
  Qed.
  Lemma items_step fuel parent l : forall st st' e, items fuel parent l st = (st', e) -> step st st'.
  Proof. induction l as [|n l IHl]; intros s s' e El; cbn in El; [injection El as <- <-; apply step_refl|]. destruct (item fuel s parent n) as [s1 [e1|]] eqn:E1; [injection El as <- <-; exact (item_step _ _ _ _ _ _ E1)|]. exact (step_trans _ _ _ (item_step _ _ _ _ _ _ E1) (IHl _ _ _ El)). Qed.

  (** ** C497: which __module__ attributes are changed *)
  (** only private modules are changed, to the module of the package, also if an exception is raised *)
  Theorem C497_only : forall fuel module names keep space st st' sp e o, fixup fuel module names keep space st = (st', sp, e) -> st' o <> st o -> private (st o) = true /\ st' o = Some MSelf.
  Proof.
    intros fuel module names keep space st st' sp e o E N. unfold FixModel.fixup in E. destruct (items _ _ _ st) as [s1 [x|]] eqn:E1; injection E as <- <- <-; destruct (items_step _ _ _ _ _ _ E1 o); tauto.
  Qed.
  Definition exported (module : nat) (names : option (list nat)) : list nat := match names with None => filter (fun n => negb (under n)) (dirl module) | Some l => l end.
  (** reachable through public or special attributes of objects which were private; functions which also occur as __func__ are not followed *)
  Inductive reach (st : mods) (module : nat) (names : option (list nat)) : nat -> Prop :=
    | r_top : forall n o, In n (exported module names) -> attr module n = Some o -> reach st module names o
    | r_sub : forall p n o, reach st module names p -> func p = None -> settable p = true -> private (st p) = true -> (forall m, func m <> Some p) -> In n (dirl p) -> dunder n = true \/ under n = false -> attr p n = Some o -> reach st module names o.
  Theorem C497_all : forall fuel module names keep space st st' sp o, fixup fuel module names keep space st = (st', sp, None) -> reach st module names o ->
    (func o = None -> settable o = true -> private (st o) = true -> st' o = Some MSelf) /\ (forall f, func o = Some f -> settable f = true -> private (st f) = true -> st' f = Some MSelf).
  Proof.
    intros fuel module names keep space st st' sp o E R. unfold FixModel.fixup in E. change (match names with Some l => l | None => filter (fun n => negb (under n)) (dirl module) end) with (exported module names) in E.
    destruct (items fuel module (exported module names) st) as [s1 [x|]] eqn:E1; [discriminate|]. injection E as <- <-. destruct (items_good _ _ _ _ _ E1) as [[S G] C].
    assert (Cl : clean s1 o).
    { induction R as [n o I A|p n o Rp IHp Fp Sp Pp Np I D A]; [exact (C n I o A)|]. assert (Q : private (s1 p) = false) by (unfold clean in IHp; rewrite Fp in IHp; now apply IHp).
      destruct (G p Fp Sp Pp Q) as [H|(f & m & Fm & ->)]; [|now apply Np in Fm]. apply (H n); [|exact A]. unfold FixModel.subitems. apply filter_In. split; [exact I|]. destruct D as [-> | ->]; [reflexivity|apply orb_true_r]. }
    unfold clean in Cl. split.
    - intros F So Po. rewrite F in Cl. specialize (Cl So). destruct (S o) as [Eo|[_ Eo]]; [rewrite Eo in Cl; congruence|exact Eo].
    - intros f F So Po. rewrite F in Cl. specialize (Cl So). destruct (S f) as [Eo|[_ Eo]]; [rewrite Eo in Cl; congruence|exact Eo].
  Qed.
  (** ** C498: termination, and the names which are removed *)
  (** the objects are finitely many; the recursion is not deeper than the number of private ones *)
  Definition count (univ : list nat) (st : mods) : nat := length (filter (fun o => private (st o)) univ).
  Lemma count_step univ st st' : step st st' -> count univ st' <= count univ st.
  Proof.
    intros H. unfold count. induction univ as [|o l IH]; [reflexivity|]. cbn. destruct (H o) as [->|[P ->]]; [destruct (private (st o)); cbn; lia|]. rewrite P, private_self. cbn. lia.
  Qed.
  Lemma count_set univ st o : In o univ -> private (st o) = true -> count univ (set_mod st o MSelf) < count univ st.
  Proof.
    intros I P. unfold count. induction univ as [|q l IH]; [destruct I|]. pose proof (count_step l st _ (set_step st o P)) as C. unfold count in C. cbn [filter]. destruct (Nat.eq_dec q o) as [->|N].
    - rewrite P. replace (set_mod st o MSelf o) with (Some MSelf) by (unfold set_mod; now rewrite Nat.eqb_refl). rewrite private_self. cbn [length]. lia.
    - destruct I as [->|I]; [contradiction|]. specialize (IH I). replace (set_mod st o MSelf q) with (st q) by (unfold set_mod; destruct (Nat.eqb_spec q o); [contradiction|reflexivity]). destruct (private (st q)); cbn [length]; lia.
  Qed.
  Lemma item_fuel univ : (forall o n q, attr o n = Some q -> In q univ) -> forall fuel st parent name st', count univ st < fuel -> item fuel st parent name <> (st', Some FFuel).
  Proof.
    intros U. induction fuel as [|fuel IH]; intros st parent name st' L E; [lia|]. cbn [FixModel.item] in E. destruct (attr parent name) as [o|] eqn:A; [|destruct (dunder name); discriminate].
    destruct (private (modof st o)) eqn:P; [|discriminate]. destruct (settable o) eqn:S; [|destruct (func o); discriminate].
    assert (Fo : func o = None) by (destruct (func o) as [f|] eqn:F; [destruct (methods o f F); congruence|reflexivity]). unfold FixModel.modof in P. rewrite Fo in P. match type of E with ?L _ _ = _ => set (loop := L) in * end.
    pose proof (count_set univ st o (U _ _ _ A) P) as C.
    assert (LP : forall l st, count univ st < fuel -> loop l st <> (st', Some FFuel)).
    { induction l as [|n l IHl]; intros s Ls El; cbn in El; [discriminate|]. destruct (item fuel s o n) as [s1 [e1|]] eqn:E1; [injection El as -> ->; exact (IH _ _ _ _ Ls E1)|].
      refine (IHl s1 _ El). pose proof (count_step univ _ _ (item_step _ _ _ _ _ _ E1)). lia. }
    refine (LP _ _ _ E). lia.
  Qed.
  Lemma count_le univ st : count univ st <= length univ.
  Proof. unfold count. induction univ as [|o l IH]; cbn; [lia|]. destruct (private (st o)); cbn; lia. Qed.
  Theorem C498_terminates : forall univ, (forall o n q, attr o n = Some q -> In q univ) -> forall fuel module names keep space st st' sp, length univ < fuel -> fixup fuel module names keep space st <> (st', sp, Some FFuel).
  Proof.
    intros univ U fuel module names keep space st st' sp L E. unfold FixModel.fixup in E. set (l := match names with Some l => l | None => _ end) in E. destruct (items fuel module l st) as [s1 [x|]] eqn:E1; [|discriminate]. injection E as -> _ ->.
    revert st E1. induction l as [|n l IH]; intros st E1; cbn in E1; [discriminate|]. destruct (item fuel st module n) as [s2 [e|]] eqn:E2; [|exact (IH _ E1)]. injection E1 as -> ->.
    refine (item_fuel univ U fuel st module n st' _ E2). pose proof (count_le univ st). lia.
  Qed.
  Theorem C498_removed : forall fuel module names keep space st st' sp n, fixup fuel module names keep space st = (st', sp, None) -> (In n sp <-> In n space /\ ~ exists f, In f old /\ ~ In f keep /\ n = modname_ f).
  Proof.
    intros fuel module names keep space st st' sp n E. unfold FixModel.fixup in E. destruct (items _ _ _ st) as [s1 [x|]]; [discriminate|]. injection E as _ <-. generalize old as l. intros l. revert space. induction l as [|f l IH]; intros space; cbn [fold_left].
    - split; [intros H; split; [exact H|intros (f & [] & _)]|tauto].
    - rewrite IH. assert (X : existsb (Nat.eqb f) keep = true <-> In f keep). { rewrite existsb_exists. split; [intros (y & I & Ey); apply Nat.eqb_eq in Ey; now subst|intros I; exists f; split; [exact I|apply Nat.eqb_refl]]. }
      destruct (existsb (Nat.eqb f) keep) eqn:Ex.
      + split; intros [A B]; (split; [exact A|]); intros (g & I & K & En); apply B; [destruct I as [<-|I]; [exfalso; apply K; now apply X|]|]; exists g; cbn; auto.
      + assert (Nk : ~ In f keep) by (intros I; apply X in I; congruence). rewrite filter_In, negb_true_iff, Nat.eqb_neq. split.
        * intros [[A N] B]. split; [exact A|]. intros (g & [<-|I] & K & En); [contradiction|]. apply B. eauto.
        * intros [A B]. split; [split; [exact A|]|]; [intros ->; apply B; exists f; cbn; auto|]. intros (g & I & K & En). apply B. exists g. cbn. auto.
  Qed.
End Fix.
(** "for each name in names, if <mname>.<name> is accessible": a name which is not there raises AttributeError, the other names are not treated and the modules not removed *)
Theorem C498_refuted : exists settable dirl attr dunder under st names space, fixup [5] settable (fun _ => None) dirl attr dunder under (fun f => f) 10 0 (Some names) [] space st = (st, space, Some FAttr) /\ In 5 space /\ exists n o, In n names /\ attr 0 n = Some o /\ settable o = true /\ st o = Some (MSub 5).
Proof.
  exists (fun _ => true), (fun _ => []), (fun o n => if n =? 2 then Some 7 else None), (fun _ => false), (fun _ => false), (fun o => if o =? 7 then Some (MSub 5) else None), [1; 2], [5]. split; [reflexivity|]. split; [left; reflexivity|]. exists 2, 7. cbn. auto.
Qed.
(** a class (object 1) of the private module 5 with a method (function 2), which refers to the class; a class of another module (object 3) *)
Definition ex_attr (o n : nat) : option nat := match o, n with 0, 1 => Some 1 | 0, 3 => Some 3 | 1, 2 => Some 2 | 2, 1 => Some 1 | _, _ => None end.
Definition ex_dir (o : nat) : list nat := match o with 0 => [1; 3; 5] | 1 => [2] | 2 => [1] | _ => [] end.
Definition ex_st : mods := fun o => match o with 1 | 2 => Some (MSub 5) | 3 => Some (MSub 6) | _ => None end.
Example ex_C497 : let r := fixup [5] (fun _ => true) (fun _ => None) ex_dir ex_attr (fun _ => false) (fun n => n =? 5) (fun f => f) 5 0 None [] [1; 3; 5] ex_st in
  map (fst (fst r)) [1; 2; 3] = [Some MSelf; Some MSelf; Some (MSub 6)] /\ snd (fst r) = [1; 3] /\ snd r = None.
Proof. vm_compute. auto. Qed.
