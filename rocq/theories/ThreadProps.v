(** Properties C33, C107 and C108 (thread scheduler). *)
From Coq Require Import List Arith ZArith Lia Bool Permutation.
From Verif Require Import SchedModel SchedProofs ProcProofs ProcProps ThreadModel.
Import ListNotations.
Open Scope nat_scope.

Section T.
  Variables (D C R : Type) (fork : C -> C) (call : C -> D -> option R) (n : nat).
  Notation st := (st D C R). Notation step := (step D C R fork call n). Notation reachable := (reachable D C R fork call n). Notation thr := (thr D C R).
  Notation r_idx := (r_idx D C R). Notation r_pc := (r_pc D C R). Notation r_data := (r_data D C R). Notation r_call := (r_call D C R).
  Notation results := (results D C R). Notation thrs := (thrs D C R). Notation subs := (subs D C R). Notation failed := (failed D C R). Notation base := (base D C R).
  Notation counter := (counter D C R). Notation n_open := (n_open D C R). Notation active := (active D C R). Notation cl := (cl D C R).

  Definition tact (t : thr) : list nat := match r_pc t with Dec _ => [] | _ => [r_idx t] end.
  Definition tpend (c : client D C) : list nat := match c with Pend _ _ _ _ i => [i] | _ => [] end.
  Definition running (s : st) : nat := length (filter (fun t => match r_pc t with Run _ => true | _ => false end) (thrs s)).
  Record inv (s : st) : Prop := {
    i_tasks : forall x, cnt x (map snd (results s)) + cnt x (tpend (cl s)) + cnt x (flat_map tact (thrs s)) + cnt x (failed s) = if (base s <? x) && (x <=? counter s) then 1 else 0;
    i_open : n_open s = length (tpend (cl s)) + length (flat_map tact (thrs s)) + length (failed s);
    i_base : base s <= counter s;
    i_subs : map (fun x => fst (fst x)) (subs s) = seq 1 (counter s);
    i_pend : match cl s with Pend _ _ d c i => In (i, d, c) (subs s) | _ => True end;
    i_thr : forall t, In t (thrs s) -> In (r_idx t, r_data t, r_call t) (subs s) /\ forall r, r_pc t = Store _ r -> call (fork (r_call t)) (r_data t) = Some r;
    i_results : forall r i, In (r, i) (results s) -> exists d c, In (i, d, c) (subs s) /\ call (fork c) d = Some r;
    i_active : (active s <= 0)%Z }.
  Lemma mid (l1 l2 : list thr) t t' : In t' (l1 ++ t :: l2) <-> In t' (l1 ++ l2) \/ t' = t.
  Proof. rewrite !in_app_iff. cbn. split; intros H; intuition congruence. Qed.
  Ltac cr := repeat (rewrite ?map_app, ?app_length, ?flat_map_app, ?cnt_app, ?cnt_cons, ?cnt_nil in *; cbn [map length app tpend ThreadModel.results ThreadModel.thrs ThreadModel.subs ThreadModel.failed ThreadModel.base ThreadModel.counter ThreadModel.n_open ThreadModel.active ThreadModel.cl flat_map fst snd] in *).
  Lemma inv_start : inv (start D C R).
  Proof. constructor; cbn -[Nat.ltb Nat.leb]; try tauto; try lia. intros x. rewrite !cnt_nil. destruct (Nat.ltb_spec 0 x), (Nat.leb_spec x 0); cbn; lia. Qed.
  Lemma inv_step s s' : step s s' -> inv s -> inv s'.
  Proof.
    intros Hs [H1 H2 H3 H4 H5 H6 H7 H8]. destruct Hs; constructor; cr; auto; try lia.
    all: try (intros x; specialize (H1 x); cr; cbn [tact ThreadModel.r_pc ThreadModel.r_idx] in *; unfold add_result; cr; lia).
    all: try (unfold tact at 2; unfold tact at 2 in H2; cbn in *; lia).
    all: try (intros t Ht; apply mid in Ht; destruct Ht as [Ht| ->]; [apply H6; apply mid; auto|]).
    all: try (intros x; specialize (H1 x); cr; destruct (Nat.eqb_spec (S k) x), (Nat.ltb_spec b x), (Nat.leb_spec x k), (Nat.leb_spec x (S k)); cbn [andb] in *; lia).
    all: try (rewrite H4, seq_S; reflexivity).
    all: try (apply in_or_app; right; left; reflexivity).
    all: try (intros t Ht; destruct (H6 t Ht); split; [apply in_or_app; auto|auto]).
    all: try (intros r0 i0 Hi; destruct (H7 r0 i0 Hi) as (d0 & c1 & A & B); exists d0, c1; split; [apply in_or_app; auto|exact B]).
    - intros x. assert (flat_map tact ts = []) as -> by (destruct (flat_map tact ts); [auto|cbn in H2; lia]). assert (f = []) as -> by (destruct f; [auto|cbn in H2; lia]).
      rewrite !cnt_nil. destruct (Nat.ltb_spec k x), (Nat.leb_spec x k); cbn; lia.
    - intros r i [].
    - cbn in *. lia.
    - intros t Ht. apply in_app_or in Ht. destruct Ht as [Ht|[<-|[]]]; [auto|]. split; [exact H5|discriminate].
    - cbn. destruct (H6 (mkT D C R d c i (Run R))) as [A _]; [apply mid; auto|]. split; [exact A|]. intros r0 [= <-]. exact H.
    - cbn in *. lia.
    - intros t Ht. apply H6. apply mid. auto.
    - cbn. destruct (H6 (mkT D C R d c i (Store R r))) as [A _]; [apply mid; auto|]. split; [exact A|discriminate].
    - unfold add_result. intros r0 i0 Hi. apply in_app_or in Hi. destruct Hi as [Hi|[Hi|[]]]; [eauto|]. injection Hi as <- <-. destruct (H6 (mkT D C R d c i (Store R r))) as [A B]; [apply mid; auto|]. cbn in *. eauto.
    - intros t Ht. apply H6. apply mid. auto.
  Qed.
  Lemma inv_reach s : reachable s -> inv s.
  Proof. induction 1; [apply inv_start|eapply inv_step; eauto]. Qed.

  (** C107.  In every interleaving: when no task is open, get_results returns the results of all tasks added since the last get_results, in order of
      submission, each computed by a fork of the callable of its task. *)
  Theorem C107_thread_results s : reachable s -> n_open s = 0 ->
    map Some (map fst (sort R (results s))) = map (fun x => call (fork (snd x)) (snd (fst x))) (skipn (base s) (subs s)).
  Proof.
    intros Hr Ho. pose proof (inv_reach s Hr) as HI.
    assert (map snd (sort R (results s)) = seq (S (base s)) (counter s - base s)) as Hk.
    { apply sort_keys. apply cnt_perm. intros x. rewrite cnt_seq. pose proof (i_tasks _ HI x) as H. pose proof (i_base _ HI). pose proof (i_open _ HI) as Hop. rewrite Ho in Hop.
      destruct (tpend (cl s)); [|cbn in Hop; lia]. destruct (flat_map tact (thrs s)); [|cbn in Hop; lia]. destruct (failed s); [|cbn in Hop; lia]. rewrite !cnt_nil in H.
      destruct (Nat.ltb_spec (base s) x), (Nat.leb_spec x (counter s)), (Nat.leb_spec (S (base s)) x), (Nat.ltb_spec x (S (base s) + (counter s - base s))); cbn [andb] in *; lia. }
    assert (map (fun x => fst (fst x)) (skipn (base s) (subs s)) = seq (S (base s)) (counter s - base s)) as Hs by (rewrite <- skipn_map, (i_subs _ HI), skipn_seq; reflexivity).
    assert (forall x, In x (skipn (base s) (subs s)) -> In x (subs s)) as Hin. { intros x Hx. rewrite <- (firstn_skipn (base s)). apply in_or_app. right. exact Hx. }
    assert (NoDup (map (fun x => fst (fst x)) (subs s))) as Hn by (rewrite (i_subs _ HI); apply seq_NoDup).
    assert (forall i d d' c c', In (i, d, c) (subs s) -> In (i, d', c') (subs s) -> d = d' /\ c = c') as Hu.
    { clear -Hn. revert Hn. generalize (subs s) as l. induction l as [|[[j e] f] l IH]; [intros _ ? ? ? ? ? []|]. cbn. intros Hn i d d' c c' H1 H2. inversion Hn as [|? ? A B]; subst.
      destruct H1 as [H1|H1], H2 as [H2|H2]; [split; congruence| | |eapply IH; eauto].
      - injection H1 as -> -> ->. exfalso. apply A. apply (in_map (fun x => fst (fst x))) in H2. exact H2.
      - injection H2 as -> -> ->. exfalso. apply A. apply (in_map (fun x => fst (fst x))) in H1. exact H1. }
    assert (forall r i, In (r, i) (sort R (results s)) -> exists d c, In (i, d, c) (subs s) /\ call (fork c) d = Some r) as Hres.
    { intros r i H. apply (i_results _ HI). apply (Permutation_in _ (Permutation_sym (sort_perm R _))). exact H. }
    rewrite <- Hs in Hk. clear -Hk Hin Hu Hres. revert Hk Hin Hres. generalize (skipn (base s) (subs s)) as l. generalize (sort R (results s)) as m.
    induction m as [|[r i] m IH]; intros [|[[j d] c] l] Hk Hin Hres; try discriminate; [reflexivity|]. cbn in *. injection Hk as <- Hk. f_equal; [|apply IH; auto].
    destruct (Hres r i (or_introl eq_refl)) as (d0 & c0 & A & B). destruct (Hu i d d0 c c0 (Hin _ (or_introl eq_refl)) A) as [-> ->]. symmetry. exact B.
  Qed.

  (** ... and if no task raises, the threads finish and get_results returns *)
  Definition trank (t : thr) : nat := match r_pc t with Run _ => 3 | Store _ _ => 2 | Dec _ => 1 end.
  Theorem C107_answered s : (forall c d, call c d <> None) -> reachable s ->
    failed s = [] /\ (lock D C R s = false -> cl s = Idle D C -> exists s', reachable s' /\ cl s' = Idle D C /\ subs s' = subs s /\ base s' = base s /\ n_open s' = 0).
  Proof.
    intros Hc. assert (forall s, reachable s -> failed s = []) as Hf. { induction 1 as [|s0 s1 Hr IH Hs]; [reflexivity|]. destruct Hs; cbn in *; auto. destruct (Hc _ _ H). }
    intros Hr. split; [auto|]. remember (list_sum (map trank (thrs s))) as m. revert s Heqm Hr. induction m as [m IH] using lt_wf_ind. intros s -> Hr Hl Hcl.
    destruct s as [lk op k la rs a c0 ts sb f b]. cbn in Hl, Hcl. subst lk c0. destruct ts as [|[d c i p] ts].
    - exists (mkS D C R false op k la rs a (Idle D C) [] sb f b). repeat split; auto. pose proof (i_open _ (inv_reach _ Hr)) as H. pose proof (Hf _ Hr) as H0. cbn in *. rewrite H0 in H. exact H.
    - assert (forall s1, step (mkS D C R false op k la rs a (Idle D C) (mkT D C R d c i p :: ts) sb f b) s1 -> list_sum (map trank (thrs s1)) < list_sum (map trank (mkT D C R d c i p :: ts)) -> lock D C R s1 = false -> cl s1 = Idle D C -> subs s1 = sb -> base s1 = b ->
        exists s', reachable s' /\ cl s' = Idle D C /\ subs s' = sb /\ base s' = b /\ n_open s' = 0) as K.
      { intros s1 H1 H2 H3 H4 H5 H6. destruct (IH _ H2 s1 eq_refl) as (s' & A & B & E & F & G); auto; [eapply r_step; eauto|]. exists s'. repeat split; auto; congruence. }
      cbn. destruct p as [|r|].
      + destruct (call (fork c) d) as [r|] eqn:E; [|destruct (Hc _ _ E)]. eapply K; [apply (t_run _ _ _ _ _ _ false op k la rs a (Idle D C) [] d c i ts sb f b r E)|cbn; lia|reflexivity..].
      + eapply K; [apply (t_store _ _ _ _ _ _ op k la rs a (Idle D C) [] d c i r ts sb f b)|cbn; lia|reflexivity..].
      + eapply K; [apply (t_dec _ _ _ _ _ _ false op k la rs a (Idle D C) [] d c i ts sb f b)|cbn; lia|reflexivity..].
  Qed.

  (** C33.  _n_active_threads is only ever decreased, so add_task never waits ... *)
  Theorem C33_never_waits s : reachable s -> 0 < n -> (active s <= 0)%Z /\ ~ (Z.of_nat n <= active s)%Z.
  Proof. intros Hr Hn. pose proof (i_active _ (inv_reach s Hr)). lia. Qed.
  (** ... and for each n_threads any number of threads can run at the same time. *)
  Theorem C33_n_threads_refuted (d : D) (c : C) : 0 < n -> forall m, exists s, reachable s /\ running s = m.
  Proof.
    intros Hn m. assert (exists k ts sb la, reachable (mkS D C R false m k la [] 0 (Idle D C) ts sb [] 0) /\ length (filter (fun t => match r_pc t with Run _ => true | _ => false end) ts) = m) as (k & ts & sb & la & H & E); [|eauto].
    induction m as [|m IH]; [exists 0, [], [], None; split; [apply r_start|reflexivity]|]. destruct IH as (k & ts & sb & la & H & E).
    eexists _, _, _, _. split; [eapply r_step; [eapply r_step; [exact H|apply (s_add _ _ _ _ _ _ m k la [] 0 ts sb [] 0 d c)]|apply s_spawn; lia]|]. rewrite filter_app, app_length, E. cbn. lia.
  Qed.
  (** C108.  A task that raises stays open forever. *)
  Theorem C108_failed_blocks s s' : reachable s -> failed s <> [] -> step s s' -> failed s' <> [] /\ 0 < n_open s'.
  Proof.
    intros Hr Hf Hs. assert (failed s' <> []) as Hf'. { destruct Hs; cbn in *; auto. destruct f; discriminate. }
    split; [exact Hf'|]. rewrite (i_open _ (inv_reach _ (r_step _ _ _ _ _ _ _ _ Hr Hs))). destruct (failed s'); [contradiction|cbn; lia].
  Qed.
  Theorem C108_raise_refuted d c : 0 < n -> call (fork c) d = None -> exists s, reachable s /\ cl s = Idle D C /\ thrs s = [] /\ subs s = [(1, d, c)] /\ failed s = [1] /\ n_open s = 1.
  Proof.
    intros Hn E. eexists. split.
    - eapply r_step; [eapply r_step; [eapply r_step; [apply r_start|apply (s_add _ _ _ _ _ _ 0 0 None [] 0 [] [] [] 0 d c)]|apply s_spawn; lia]|]. apply (t_raise _ _ _ _ _ _ _ _ _ _ _ _ _ [] d c 1 [] _ _ _ E).
    - repeat split; reflexivity.
  Qed.
End T.
Print Assumptions C107_thread_results.
Print Assumptions C107_answered.
Print Assumptions C33_never_waits.
Print Assumptions C33_n_threads_refuted.
Print Assumptions C108_failed_blocks.
Print Assumptions C108_raise_refuted.

(** Two tasks, two callables, results coming in in reverse order *)
Example C107_case : exists s, reachable nat nat (nat * nat) S (fun c d => Some (c, d)) 1 s /\ n_open _ _ _ s = 0 /\ map snd (results _ _ _ s) = [2; 1] /\ map fst (sort _ (results _ _ _ s)) = [(11, 5); (21, 6)].
Proof.
  eexists. split.
  - pose proof (r_start nat nat (nat * nat) S (fun c d => Some (c, d)) 1) as H. unfold start in H.
    eapply r_step in H; [|eapply s_add with (d := 5) (c := 10)]. eapply r_step in H; [|eapply s_spawn; lia]. cbn in H.
    eapply r_step in H; [|eapply s_add with (d := 6) (c := 20)]. eapply r_step in H; [|eapply s_spawn; lia]. cbn in H.
    eapply r_step in H; [|eapply t_run with (l1 := [mkT _ _ _ 5 10 1 (Run _)]); reflexivity]. cbn in H.
    eapply r_step in H; [|eapply t_run with (l1 := []); reflexivity]. cbn in H.
    eapply r_step in H; [|eapply t_store with (l1 := [mkT _ _ _ 5 10 1 (Store _ (11, 5))])]. cbn in H.
    eapply r_step in H; [|eapply t_store with (l1 := [])]. exact H.
  - repeat split; reflexivity.
Qed.
