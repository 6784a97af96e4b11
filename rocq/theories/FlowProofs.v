From Coq Require Import List Arith ZArith Lia Bool.
From Verif Require Import NodeModel NodeSpec NodeProofs FlowModel FlowSpec.
Import ListNotations.
Open Scope nat_scope.

Ltac split_pair s u e E :=
  match goal with |- context [match ?m with pair _ _ => _ end] => destruct m as [s [u|e]] eqn:E end.

Section NodeLevel.
  Variables (D A I : Type) (b : behaviour D A I) (na : A).
  Hypothesis Hk : b_trainable _ _ _ b = true -> 0 < b_phases _ _ _ b.
  Notation node := (node D A I).

  (** Two states of a node that differ at most by dims becoming known and by the trace. *)
  Definition later (s s' : node) : Prop :=
    n_training _ _ _ s' = n_training _ _ _ s /\ n_phase _ _ _ s' = n_phase _ _ _ s /\
    n_started _ _ _ s' = n_started _ _ _ s /\ n_int _ _ _ s' = n_int _ _ _ s /\
    keeps D A I s s'.

  Lemma later_refl s : later s s.
  Proof. repeat split; auto. Qed.
  Lemma later_trans s1 s2 s3 : later s1 s2 -> later s2 s3 -> later s1 s3.
  Proof.
    intros (A1 & A2 & A3 & A4 & A5) (B1 & B2 & B3 & B4 & B5).
    repeat split; try congruence; destruct A5 as (K1 & K2 & K3), B5 as (L1 & L2 & L3); auto.
  Qed.

  Lemma int_set_in n s : n_int _ _ _ (fst (set_input_dim D A I b n s)) = n_int _ _ _ s.
  Proof.
    unfold set_input_dim, p_set_input_dim. destruct n; [|reflexivity].
    destruct (n_in D A I s); [destruct (Nat.eqb _ _)|]; destruct (b_preserve D A I b); destruct (n_out D A I s); try destruct (Nat.eqb _ _); reflexivity.
  Qed.
  Lemma int_set_out n s : n_int _ _ _ (fst (set_output_dim D A I b n s)) = n_int _ _ _ s.
  Proof.
    unfold set_output_dim, p_set_output_dim. destruct n; [|reflexivity].
    destruct (n_out D A I s); [destruct (Nat.eqb _ _)|]; destruct (b_preserve D A I b); destruct (n_in D A I s); try destruct (Nat.eqb _ _); reflexivity.
  Qed.
  Lemma int_set_dt n s : n_int _ _ _ (fst (set_dtype D A I b n s)) = n_int _ _ _ s.
  Proof.
    unfold set_dtype. destruct n; [|reflexivity].
    destruct (n_dt D A I s); [destruct (Nat.eqb _ _)|]; try destruct (b_supported _ _ _ _ _); reflexivity.
  Qed.
  Lemma int_bind {R T} (m : M D A I R) (f : R -> M D A I T) s :
    n_int _ _ _ (fst (m s)) = n_int _ _ _ s -> (forall r s', n_int _ _ _ (fst (f r s')) = n_int _ _ _ s') ->
    n_int _ _ _ (fst (bind D A I m f s)) = n_int _ _ _ s.
  Proof.
    intros H1 H2. unfold bind. destruct (m s) as [s1 [r|e]]; cbn in *; [|assumption]. rewrite H2. exact H1.
  Qed.
  Lemma int_check_input x s : n_int _ _ _ (fst (check_input D A I b x s)) = n_int _ _ _ s.
  Proof.
    unfold check_input. destruct (negb _); [reflexivity|].
    apply int_bind. { destruct (n_in D A I s); [reflexivity|apply int_set_in]. }
    intros _ s1. apply int_bind. { destruct (n_dt D A I s1); [reflexivity|apply int_set_dt]. }
    intros _ s2. apply int_bind. { destruct (n_in D A I s2); [destruct (Nat.eqb _ _)|]; reflexivity. }
    intros _ s3. destruct (Nat.eqb _ _); reflexivity.
  Qed.

  (** What a successful _check_input leaves behind. *)
  Lemma check_input_ok x s s' : check_input D A I b x s = (s', Ok tt) ->
    a_ndim x = 2 /\ n_in _ _ _ s' = Some (a_cols x) /\ (exists t, n_dt _ _ _ s' = Some t) /\ a_rows x <> 0.
  Proof.
    unfold check_input. destruct (Nat.eqb_spec (a_ndim x) 2) as [E|E]; cbn [negb]; [|discriminate].
    unfold bind. split_pair s1 u1 e1 E1; [|discriminate].
    split_pair s2 u2 e2 E2; [|discriminate].
    destruct (n_in D A I s2) as [d|] eqn:Ei; [|discriminate].
    destruct (Nat.eqb_spec (a_cols x) d) as [E3|E3]; [|discriminate].
    destruct (Nat.eqb_spec (a_rows x) 0) as [E4|E4]; [discriminate|]. intros [= <-].
    repeat split; auto; try congruence.
    destruct (n_dt D A I s1) as [t|] eqn:Et.
    - injection E2 as <-. eauto.
    - unfold set_dtype in E2. rewrite Et in E2. destruct (b_supported _ _ _ _ _); [|discriminate].
      injection E2 as <-. cbn. eauto.
  Qed.

  Lemma check_input_again x s d t : a_ndim x = 2 -> n_in _ _ _ s = Some d -> a_cols x = d ->
    n_dt _ _ _ s = Some t -> a_rows x <> 0 -> check_input D A I b x s = (s, Ok tt).
  Proof.
    intros H1 H2 H3 H4 H5. unfold check_input. rewrite H1. cbn [Nat.eqb negb].
    unfold bind, ret. rewrite H2, H4, H2, H3, Nat.eqb_refl.
    destruct (Nat.eqb_spec (a_rows x) 0); [contradiction|reflexivity].
  Qed.

  Lemma guard_trained s : life_inv D A I b s -> n_training _ _ _ s = false ->
    ((n_phase _ _ _ s =? 0)%Z && negb (n_started _ _ _ s)) = false.
  Proof.
    intros (I1 & I2 & I3 & I4 & I5) Ht. rewrite Ht in I3. symmetry in I3. apply Nat.ltb_ge in I3.
    apply andb_false_iff. left. apply Z.eqb_neq. rewrite I4. unfold nphases in *.
    destruct (b_trainable D A I b) eqn:Hb; [|lia]. specialize (Hk eq_refl). lia.
  Qed.

  (** Executing a trained node. *)
  Lemma execute_trained x a s : life_inv D A I b s -> pure b -> n_training _ _ _ s = false ->
    forall s' r, execute D A I b na x a s = (s', r) ->
    life_inv D A I b s' /\ later s s' /\ trains (n_trace _ _ _ s') = trains (n_trace _ _ _ s) /\
    (forall y, r = Ok y -> forall s2, later s' s2 -> exists s3, execute D A I b na x a s2 = (s3, Ok y)).
  Proof.
    intros Hi Hp Ht s' r E.
    pose proof (execute_life D A I b na Hk x a s Hi) as Hi'. rewrite E in Hi'. cbn [fst] in Hi'.
    split; [exact Hi'|].
    pose proof (good_execute D A I b na x a s) as [Hg _]. rewrite E in Hg. cbn [fst] in Hg.
    pose proof (guard_trained s Hi Ht) as Hgd.
    unfold execute in E. rewrite bind_eq in E.
    rewrite (pre_exec_trained D A I b na x s Ht Hgd) in E. rewrite bind_eq in E.
    pose proof (book_check_input D A I b x s) as Hb1. pose proof (int_check_input x s) as Hn1.
    destruct (check_input D A I b x s) as [s1 [[]|e]] eqn:Ec; cbn [fst] in *.
    2:{ injection E as <- <-. injection Hb1 as B1 B2 B3 B4.
        split; [unfold later; repeat split; try congruence; apply Hg|]. split; [congruence|discriminate]. }
    destruct (check_input_ok x s s1 Ec) as (C1 & C2 & (t & C3) & C4).
    injection Hb1 as B1 B2 B3 B4.
    assert (exists s2 r2, (match n_out D A I s1 with Some _ => (s1, Ok tt) | None => set_output_dim D A I b (n_in D A I s1) s1 end) = (s2, r2)
             /\ book D A I s2 = book D A I s1 /\ n_int _ _ _ s2 = n_int _ _ _ s1) as (s2 & r2 & E2 & Hb2 & Hn2).
    { destruct (n_out D A I s1) eqn:Eo.
      - exists s1, (Ok tt). repeat split.
      - pose proof (book_set_out D A I b (n_in D A I s1) s1). pose proof (int_set_out (n_in D A I s1) s1).
        destruct (set_output_dim D A I b (n_in D A I s1) s1) as [s2 r2]. exists s2, r2. repeat split; auto. }
    rewrite E2 in E. injection Hb2 as F1 F2 F3 F4.
    destruct r2 as [[]|e2].
    2:{ injection E as <- <-.
        split; [unfold later; repeat split; try congruence; apply Hg|]. split; [congruence|discriminate]. }
    destruct (Hp (view_of D A I s2) (refcast D (n_dt D A I s2) x) a) as [rr Hr].
    rewrite Hr in E. cbn [run_prog] in E. injection E as <- <-.
    split; [unfold later; cbn in *; repeat split; try congruence; apply Hg|].
    split.
    { cbn. unfold trains. rewrite filter_app. cbn. rewrite app_nil_r. congruence. }
    intros y Hy s3 Hl. subst rr.
    assert (n_in _ _ _ s2 = Some (a_cols x) /\ n_dt _ _ _ s2 = Some t /\ exists o, n_out _ _ _ s2 = Some o) as (G1 & G2 & o & G3).
    { destruct (n_out D A I s1) as [o|] eqn:Eo.
      - injection E2 as <-. eauto.
      - rewrite C2 in E2. unfold set_output_dim in E2. rewrite Eo in E2. unfold p_set_output_dim in E2.
        rewrite C2 in E2. rewrite Nat.eqb_refl in E2. destruct (b_preserve D A I b); injection E2 as <-; cbn; eauto. }
    destruct Hl as (L1 & L2 & L3 & L4 & L5 & L6 & L7). cbn in *.
    specialize (L5 _ G1). specialize (L6 _ G3). specialize (L7 _ G2).
    assert (n_training _ _ _ s3 = false) as Ht3 by congruence.
    assert (((n_phase _ _ _ s3 =? 0)%Z && negb (n_started _ _ _ s3)) = false) as Hg3.
    { rewrite L2, L3. rewrite F3, B3, F2, B2. exact Hgd. }
    eexists. unfold execute. rewrite bind_eq. rewrite (pre_exec_trained D A I b na x s3 Ht3 Hg3). rewrite bind_eq.
    rewrite (check_input_again x s3 (a_cols x) t C1 L5 eq_refl L7 C4). rewrite L6.
    assert (view_of D A I s3 = view_of D A I s2) as ->.
    { unfold view_of. rewrite L5, L6, L7, L4, G1, G2, G3. reflexivity. }
    rewrite L7. rewrite G2 in Hr. rewrite Hr. cbn [run_prog]. reflexivity.
  Qed.

  (** A node in the last phase, with data: execute closes that phase first. *)
  Lemma execute_open x a s : life_inv D A I b s -> n_training _ _ _ s = true -> n_started _ _ _ s = true ->
    remaining _ _ _ b s = 1%Z ->
    execute D A I b na x a s =
    match stop_training D A I b na s with
    | (s1, Ok _) => execute D A I b na x a s1
    | (s1, Err e) => (s1, Err e)
    end.
  Proof.
    intros Hi Ht Hs Hr.
    pose proof (stop_life D A I b Hk na s Hi) as Hl.
    pose proof (stop_ok_phase D A I b na s) as Hsp.
    unfold execute. rewrite bind_eq. unfold pre_execution_checks at 1. rewrite bind_eq. rewrite Hs.
    rewrite andb_false_r. rewrite bind_eq. unfold if_training_stop_training at 1. rewrite Ht. rewrite bind_eq.
    destruct (stop_training D A I b na s) as [s1 [[]|e]]; cbn [fst] in Hl; [|reflexivity].
    destruct (Hsp s1 Hi eq_refl) as [P1 P2].
    assert (remaining _ _ _ b s1 = 0%Z) as R1.
    { unfold remaining in *. destruct (b_trainable D A I b); lia. }
    rewrite R1. cbn [Z.ltb Z.compare].
    assert (n_training _ _ _ s1 = false) as Ht1.
    { destruct Hl as (I1 & I2 & I3 & I4 & I5). rewrite I3. unfold remaining in R1, Hr. unfold nphases.
      destruct (b_trainable D A I b); [|lia]. apply Nat.ltb_ge. lia. }
    symmetry. rewrite bind_eq. rewrite (pre_exec_trained D A I b na x s1 Ht1 (guard_trained s1 Hl Ht1)).
    rewrite bind_eq. reflexivity.
  Qed.

  Lemma stop_training_ok a s s' : life_inv D A I b s -> stop_training D A I b a s = (s', Ok tt) ->
    life_inv D A I b s' /\ keeps D A I s s' /\ trains (n_trace _ _ _ s') = trains (n_trace _ _ _ s) /\
    n_phase _ _ _ s' = (n_phase _ _ _ s + 1)%Z.
  Proof.
    intros Hi E. pose proof (stop_life D A I b Hk a s Hi) as Hl. rewrite E in Hl.
    pose proof (good_stop D A I b a s) as [Hg _]. rewrite E in Hg.
    pose proof (stop_ok_trace D A I b Hk a s s' Hi E) as Ht.
    destruct (stop_ok_phase D A I b a s s' Hi E) as [P1 P2].
    repeat split; try apply Hl; try apply Hg; auto.
    rewrite Ht. unfold trains. rewrite filter_app. cbn. apply app_nil_r.
  Qed.

  Lemma keeps_prog {R} (p : prog I R) s : keeps D A I s (fst (run_prog D A I b p s)).
  Proof. apply (good_prog D A I b p s). Qed.

  (** A successful train call. *)
  Lemma train_ok x a s s' : life_inv D A I b s -> train D A I b x a s = (s', Ok tt) ->
    life_inv D A I b s' /\ keeps D A I s s' /\ n_training _ _ _ s' = true /\ n_started _ _ _ s' = true /\
    n_phase _ _ _ s' = n_phase _ _ _ s /\ (exists t, n_dt _ _ _ s' = Some t) /\
    n_trace _ _ _ s' = n_trace _ _ _ s ++ [EvTrain D A (closed (n_trace _ _ _ s)) (refcast D (n_dt _ _ _ s') x) a].
  Proof.
    intros Hi E. pose proof (train_life D A I b Hk x a s Hi) as Hl. rewrite E in Hl.
    pose proof (good_train D A I b x a s) as [Hg _]. rewrite E in Hg. cbn [fst] in *.
    destruct (train_ok_phase D A I b Hk x a s s' Hi E) as (P1 & P2 & P3).
    do 5 (split; [assumption|]).
    revert E. unfold train. destruct (negb (b_trainable _ _ _ b)); [discriminate|].
    destruct (n_training _ _ _ s) eqn:Ht; cbn [negb]; [|discriminate].
    rewrite bind_eq. pose proof (book_check_input D A I b x s) as Hc.
    destruct (check_input D A I b x s) as [s1 [[]|e]] eqn:Ec; [|discriminate]. cbn [fst] in Hc.
    destruct (check_input_ok x s s1 Ec) as (C1 & C2 & (t & C3) & C4).
    pose proof (life_inv_book D A I b _ _ Hc Hi) as Hi1.
    injection Hc as B1 B2 B3 B4. rewrite bind_eq.
    destruct (b_check_args _ _ _ b (view_of D A I s1) x a) as [e|]; [discriminate|]. rewrite bind_eq.
    destruct (phase_index_inv D A I b Hk s1 Hi1) as (Hpi & _ & _); [congruence|].
    assert (phase_index D A I b (set_n_started D A I s1 true) = phase_index D A I b s1) as -> by reflexivity.
    rewrite Hpi. cbn zeta.
    match goal with |- run_prog _ _ _ _ ?p ?st = _ -> _ => pose proof (book_prog D A I b p st) as Hb; pose proof (keeps_prog p st) as Hk2 end.
    intros E. rewrite E in Hb, Hk2. injection Hb as D1 D2 D3 D4. destruct Hk2 as (_ & _ & K3). cbn in *.
    rewrite (K3 _ C3). split; [eauto|]. rewrite D4, B4, C3. reflexivity.
  Qed.

  (** Training is refused with TrainingFinished exactly when training is over, provided the hooks never raise it. *)
  Lemma run_prog_nf {R} (p : prog I R) : never_finished p -> forall s s', run_prog D A I b p s <> (s', Err TrainingFinished).
  Proof.
    induction p as [r|i k IH|q k IH]; cbn; intros H s s'.
    - congruence.
    - apply IH. exact H.
    - destruct q as [n|n|t].
      + destruct (set_input_dim D A I b (Some n) s) as [s1 [u|e]] eqn:E; [apply IH; exact H|].
        unfold set_input_dim, p_set_input_dim in E.
        destruct (n_in D A I s); [destruct (Nat.eqb _ _)|]; destruct (b_preserve D A I b); destruct (n_out D A I s);
          try destruct (Nat.eqb _ _); congruence.
      + destruct (set_output_dim D A I b (Some n) s) as [s1 [u|e]] eqn:E; [apply IH; exact H|].
        unfold set_output_dim, p_set_output_dim in E.
        destruct (n_out D A I s); [destruct (Nat.eqb _ _)|]; destruct (b_preserve D A I b); destruct (n_in D A I s);
          try destruct (Nat.eqb _ _); congruence.
      + destruct (set_dtype D A I b (Some t) s) as [s1 [u|e]] eqn:E; [apply IH; exact H|].
        unfold set_dtype in E.
        destruct (n_dt D A I s); [destruct (Nat.eqb _ _)|]; try destruct (b_supported _ _ _ _ _); congruence.
  Qed.

  Lemma check_input_nf x s s' : check_input D A I b x s <> (s', Err TrainingFinished).
  Proof.
    unfold check_input. destruct (negb _); [discriminate|]. unfold bind.
    split_pair s1 u1 e1 E1.
    - split_pair s2 u2 e2 E2.
      + destruct (n_in D A I s2); [destruct (Nat.eqb _ _)|]; try discriminate. destruct (Nat.eqb _ _); discriminate.
      + destruct (n_dt D A I s1) eqn:Et; [discriminate|]. unfold set_dtype in E2. rewrite Et in E2.
        destruct (b_supported _ _ _ _ _); congruence.
    - destruct (n_in D A I s) eqn:Ei; [discriminate|]. unfold set_input_dim, p_set_input_dim in E1. rewrite Ei in E1.
      destruct (b_preserve D A I b); [destruct (n_out D A I s); [destruct (Nat.eqb _ _)|]|]; congruence.
  Qed.

  Lemma train_finished x a s s' : no_finished_exc b -> train D A I b x a s = (s', Err TrainingFinished) ->
    s' = s /\ n_training _ _ _ s = false /\ b_trainable _ _ _ b = true.
  Proof.
    intros (N1 & N2 & N3). unfold train. destruct (b_trainable _ _ _ b) eqn:Hb; cbn [negb]; [|discriminate].
    destruct (n_training _ _ _ s) eqn:Ht; cbn [negb]; [|intros [= <-]; auto].
    rewrite bind_eq. pose proof (check_input_nf x s) as Hc.
    destruct (check_input D A I b x s) as [s1 [[]|e]]; [|intros [= -> ->]; destruct (Hc s' eq_refl)].
    rewrite bind_eq. specialize (N1 (view_of D A I s1) x a).
    destruct (b_check_args _ _ _ b (view_of D A I s1) x a) as [e|]; [intros [= -> ->]; congruence|]. rewrite bind_eq.
    destruct (phase_index _ _ _ _ _); [|discriminate].
    intros E. apply run_prog_nf in E; [contradiction|apply N2].
  Qed.

  Lemma stop_finished a s s' : no_finished_exc b -> stop_training D A I b a s = (s', Err TrainingFinished) ->
    s' = s /\ n_training _ _ _ s = false.
  Proof.
    intros (N1 & N2 & N3). unfold stop_training.
    destruct (n_training _ _ _ s) eqn:Ht; cbn [andb negb].
    - destruct (negb _); [discriminate|]. destruct (phase_index _ _ _ _ _) as [p|]; [|discriminate].
      pose proof (run_prog_nf (b_stop _ _ _ b p (view_of D A I s) a) (N3 _ _ _) s) as Hn.
      destruct (run_prog D A I b (b_stop _ _ _ b p (view_of D A I s) a) s) as [s1 [u|e]].
      + destruct (Z.eqb _ _); discriminate.
      + intros [= <- ->]. destruct (Hn s1 eq_refl).
    - intros [= <-]. auto.
  Qed.
End NodeLevel.
Arguments later {D A I} _ _.

Section FlowLevel.
  Variables (D A I : Type) (na : A) (arglen : A -> nat).
  Notation fnode := (fnode D A I).
  Notation f_b := (f_b D A I). Notation f_s := (f_s D A I). Notation f_nargs := (f_nargs D A I).
  Notation with_s := (with_s D A I).
  Notation exec_seq := (exec_seq D A I na).
  Notation update := (update D A I).

  Definition wf (f : fnode) : Prop :=
    life_inv D A I (f_b f) (f_s f) /\ (b_trainable _ _ _ (f_b f) = true -> 0 < b_phases _ _ _ (f_b f)) /\
    pure (f_b f) /\ no_finished_exc (f_b f).
  Definition isdone (f : fnode) : Prop := n_training _ _ _ (f_s f) = false.
  Definition open_last (f : fnode) : Prop :=
    n_training _ _ _ (f_s f) = true /\ n_started _ _ _ (f_s f) = true /\ remaining _ _ _ (f_b f) (f_s f) = 1%Z.
  Definition ready (f : fnode) : Prop := wf f /\ (isdone f \/ open_last f).
  Definition ftrains (f : fnode) := trains (n_trace _ _ _ (f_s f)).

  (** The same node later on: behaviour unchanged, train calls unchanged, dims kept, and if it was trained then nothing
      relevant changed. *)
  Definition grown (f f' : fnode) : Prop :=
    f_b f' = f_b f /\ f_nargs f' = f_nargs f /\ ftrains f' = ftrains f /\
    keeps D A I (f_s f) (f_s f') /\ (isdone f -> later (f_s f) (f_s f')).
  Definition flater (f f' : fnode) : Prop := f_b f' = f_b f /\ later (f_s f) (f_s f').

  Lemma mk_grown f s' : keeps D A I (f_s f) s' -> trains (n_trace _ _ _ s') = trains (n_trace _ _ _ (f_s f)) ->
    (isdone f -> later (f_s f) s') -> grown f (with_s f s').
  Proof. intros H1 H2 H3. split; [reflexivity|]. split; [reflexivity|]. split; [exact H2|]. split; assumption. Qed.
  Lemma grown_refl f : grown f f.
  Proof. repeat split; auto. Qed.
  Lemma later_isdone f f' : grown f f' -> isdone f -> isdone f'.
  Proof. intros (_ & _ & _ & _ & H) Hd. destruct (H Hd) as (H1 & _). unfold isdone in *. congruence. Qed.
  Lemma grown_trans f1 f2 f3 : grown f1 f2 -> grown f2 f3 -> grown f1 f3.
  Proof.
    intros H1 H2. pose proof (later_isdone f1 f2 H1) as Hd.
    destruct H1 as (A1 & A2 & A3 & A4 & A5), H2 as (B1 & B2 & B3 & B4 & B5).
    repeat split; try congruence; try (eapply keeps_trans; eassumption).
    all: specialize (A5 H); specialize (B5 (Hd H)); eapply later_trans; eassumption.
  Qed.
  Lemma F2_refl {T} (R : T -> T -> Prop) : (forall x, R x x) -> forall l, Forall2 R l l.
  Proof. intros H l; induction l; constructor; auto. Qed.
  Lemma F2_trans {T} (R : T -> T -> Prop) : (forall x y z, R x y -> R y z -> R x z) ->
    forall l1 l2 l3, Forall2 R l1 l2 -> Forall2 R l2 l3 -> Forall2 R l1 l3.
  Proof.
    intros Ht l1 l2 l3 H1. revert l3. induction H1; intros l3 H2; inversion H2; subst; constructor; eauto.
  Qed.

  Lemma exec_seq_app : forall pre i post x,
    exec_seq (length pre) i (pre ++ post) x =
    (let (pre', r) := exec_seq (length pre) i pre x in (pre' ++ post, r)).
  Proof.
    induction pre as [|f pre IH]; intros i post x; cbn; [reflexivity|].
    destruct (execute D A I (f_b f) na x na (f_s f)) as [s' [y|e]]; [|reflexivity].
    rewrite IH. destruct (exec_seq (length pre) (S i) pre y). reflexivity.
  Qed.

  (** Execution of one ready node. *)
  Lemma exec_ready f x s' y : ready f -> execute D A I (f_b f) na x na (f_s f) = (s', Ok y) ->
    ready (with_s f s') /\ isdone (with_s f s') /\ grown f (with_s f s') /\
    forall s2, later s' s2 -> exists s3, execute D A I (f_b f) na x na s2 = (s3, Ok y).
  Proof.
    intros (Hw & Hd) E. pose proof Hw as (Hi & Hk & Hp & Hn).
    destruct Hd as [Hd|Ho].
    - destruct (execute_trained D A I (f_b f) na Hk x na (f_s f) Hi Hp Hd s' (Ok y) E) as (H1 & H2 & H3 & H4).
      assert (isdone (with_s f s')) as Hd' by (unfold isdone; cbn; destruct H2 as (H2 & _); congruence).
      split; [split; [split; [exact H1|split; [exact Hk|split; assumption]]|left; exact Hd']|].
      split; [exact Hd'|]. split; [|exact (H4 y eq_refl)].
      apply mk_grown; [apply H2|exact H3|intros _; exact H2].
    - destruct Ho as (O1 & O2 & O3). rewrite (execute_open D A I (f_b f) na Hk x na (f_s f) Hi O1 O2 O3) in E.
      destruct (stop_training D A I (f_b f) na (f_s f)) as [s1 [[]|e]] eqn:Es; [|discriminate].
      destruct (stop_training_ok D A I (f_b f) Hk na (f_s f) s1 Hi Es) as (S1 & S2 & S3 & S4).
      assert (n_training _ _ _ s1 = false) as Ht1.
      { destruct S1 as (I1 & I2 & I3 & I4 & I5). rewrite I3. unfold remaining in O3. unfold nphases.
        destruct (b_trainable D A I (f_b f)); [|discriminate]. apply Nat.ltb_ge. lia. }
      destruct (execute_trained D A I (f_b f) na Hk x na s1 S1 Hp Ht1 s' (Ok y) E) as (H1 & H2 & H3 & H4).
      assert (isdone (with_s f s')) as Hd' by (unfold isdone; cbn; destruct H2 as (H2 & _); congruence).
      split; [split; [split; [exact H1|split; [exact Hk|split; assumption]]|left; exact Hd']|].
      split; [exact Hd'|]. split.
      + apply mk_grown; [eapply keeps_trans; [exact S2|apply H2]|congruence|].
        unfold isdone. congruence.
      + exact (H4 y eq_refl).
  Qed.

  Lemma exec_pre : forall pre i x pre' y, Forall ready pre ->
    exec_seq (length pre) i pre x = (pre', FOk y) ->
    Forall ready pre' /\ Forall isdone pre' /\ Forall2 grown pre pre' /\
    forall pre2, Forall2 flater pre' pre2 -> through na pre2 x = Some y.
  Proof.
    induction pre as [|f pre IH]; intros i x pre' y Hr; cbn [length FlowModel.exec_seq].
    - intros [= <- <-]. repeat split; auto. intros pre2 H. inversion H. reflexivity.
    - inversion Hr as [|? ? Hr1 Hr2]; subst.
      destruct (execute D A I (f_b f) na x na (f_s f)) as [s' [z|e]] eqn:E; [|discriminate].
      destruct (exec_seq (length pre) (S i) pre z) as [pre1 r1] eqn:E1. intros [= <- ->].
      destruct (IH (S i) z pre1 y Hr2 E1) as (A1 & A2 & A3 & A4).
      destruct (exec_ready f x s' z Hr1 E) as (B1 & B2 & B3 & B4).
      repeat split; try (constructor; assumption).
      intros pre2 H. inversion H as [|? g ? pre2' (Hg1 & Hg2) Hg3]; subst. cbn.
      rewrite Hg1. cbn [FlowModel.f_b with_s]. destruct (B4 (f_s g) Hg2) as [s3 E3]. cbn in E3 |- *. rewrite E3. cbn.
      apply A4. exact Hg3.
  Qed.

  Lemma update_app pre f post g : update (pre ++ f :: post) (length pre) g = pre ++ g :: post.
  Proof. induction pre; cbn; [reflexivity|]. rewrite IHpre. reflexivity. Qed.
  Lemma nth_app (pre : list fnode) f post : nth_error (pre ++ f :: post) (length pre) = Some f.
  Proof. induction pre; cbn; auto. Qed.

  Definition evs (p : nat) (dt : option dtype) (els : list (elt D A)) (ys : list (array D)) : list (event D A) :=
    map (fun q => EvTrain D A p (refcast D dt (snd q)) (snd (fst q))) (combine els ys).

  Lemma closed_trains_snoc tr p x a : trains (tr ++ [EvTrain D A p x a]) = trains tr ++ [EvTrain D A p x a].
  Proof. unfold trains. rewrite filter_app. reflexivity. Qed.

  (** One pass over a data iterable. *)
  Lemma chunks_ok : forall els pre f post fs', Forall ready pre -> wf f ->
    train_chunks D A I na arglen (length pre) (pre ++ f :: post) els = (fs', TOk) ->
    exists pre' f' ys, fs' = pre' ++ f' :: post /\ Forall ready pre' /\ Forall2 grown pre pre' /\ wf f' /\
      f_b f' = f_b f /\ f_nargs f' = f_nargs f /\ keeps D A I (f_s f) (f_s f') /\
      n_phase _ _ _ (f_s f') = n_phase _ _ _ (f_s f) /\
      length ys = length els /\
      ftrains f' = ftrains f ++ evs (closed (n_trace _ _ _ (f_s f))) (n_dt _ _ _ (f_s f')) els ys /\
      closed (n_trace _ _ _ (f_s f')) = closed (n_trace _ _ _ (f_s f)) /\
      (els = [] -> f' = f /\ pre' = pre) /\
      (els <> [] -> Forall isdone pre' /\ n_training _ _ _ (f_s f') = true /\ n_started _ _ _ (f_s f') = true /\
                    (exists t, n_dt _ _ _ (f_s f') = Some t)) /\
      (forall pre2, Forall2 flater pre' pre2 -> Forall2 (fun e y => through na pre2 (fst e) = Some y) els ys).
  Proof.
    induction els as [|[x a] els IH]; intros pre f post fs' Hr Hw; cbn [train_chunks].
    - intros [= <-]. exists pre, f, []. split; [reflexivity|]. split; [exact Hr|].
      split; [apply F2_refl, grown_refl|]. split; [exact Hw|]. split; [reflexivity|]. split; [reflexivity|].
      split; [apply keeps_refl|]. split; [reflexivity|]. split; [reflexivity|].
      split; [cbn; rewrite app_nil_r; reflexivity|]. split; [reflexivity|].
      split; [auto|]. split; [congruence|]. intros; constructor.
    - rewrite nth_app. destruct (negb (f_nargs f =? 0) && negb (f_nargs f =? arglen a)); [discriminate|].
      rewrite exec_seq_app. destruct (exec_seq (length pre) 0 pre x) as [pre1 [y|e]] eqn:Ex; [|discriminate].
      destruct (exec_pre pre 0 x pre1 y Hr Ex) as (A1 & A2 & A3 & A4).
      assert (length pre1 = length pre) as Hlen by (clear - A3; induction A3; cbn; congruence).
      destruct (train D A I (f_b f) y a (f_s f)) as [s' [[]|e]] eqn:Et.
      2:{ unfold of_exn. destruct e; discriminate. }
      rewrite <- Hlen at 2. rewrite update_app. rewrite <- Hlen.
      pose proof Hw as (W1 & W2 & W3 & W4).
      destruct (train_ok D A I (f_b f) W2 y a (f_s f) s' W1 Et) as (B1 & B2 & B3 & B4 & B5 & B6 & B7).
      intros E. destruct (IH pre1 (with_s f s') post fs') as
        (pre' & f' & ys & C1 & C2 & C3 & C4 & C5 & C6 & C7 & C8 & C9 & C10 & C11 & C12 & C13 & C14);
        [exact A1|repeat split; try apply B1; try apply W2; try apply W4; assumption|exact E|].
      assert (closed (n_trace _ _ _ s') = closed (n_trace _ _ _ (f_s f))) as Hc.
      { rewrite B7, closed_app. unfold closed at 2. cbn. lia. }
      assert (n_dt _ _ _ (f_s f') = n_dt _ _ _ s') as Hdt.
      { destruct B6 as [t B6]. rewrite B6. destruct C7 as (_ & _ & C7). apply C7. exact B6. }
      exists pre', f', (y :: ys). split; [exact C1|]. split; [exact C2|].
      split; [eapply F2_trans; [apply grown_trans|exact A3|exact C3]|]. split; [exact C4|]. split; [exact C5|].
      split; [exact C6|]. split; [eapply keeps_trans; [exact B2|exact C7]|]. split; [cbn in C8; congruence|].
      split; [cbn; congruence|]. split.
      { rewrite C10. cbn [evs combine map fst snd]. unfold ftrains. cbn [FlowModel.f_s with_s].
        rewrite B7, closed_trains_snoc. rewrite <- B7, Hc, Hdt, <- app_assoc. reflexivity. }
      split; [cbn in C11; congruence|]. split; [discriminate|].
      assert (Forall isdone pre') as Hdone.
      { destruct els as [|e els]; [destruct (C12 eq_refl) as [_ ->]; exact A2|]. apply C13. discriminate. }
      split.
      { intros _. split; [exact Hdone|].
        destruct els as [|e els].
        - destruct (C12 eq_refl) as [-> _]. cbn. auto.
        - destruct C13 as (_ & D1 & D2 & D3); [discriminate|]. auto. }
      intros pre2 H2. constructor; [|apply C14; exact H2].
      cbn. apply A4. clear - A2 C3 H2. revert pre2 H2. induction C3 as [|g g' l l' Hg Hl IHl]; intros pre2 H2.
      + inversion H2. constructor.
      + inversion H2 as [|? g2 ? l2 Hg2 Hl2]; subst. inversion A2; subst. constructor; [|apply IHl; assumption].
        destruct Hg as (G1 & _ & _ & _ & G5), Hg2 as (G6 & G7). split; [congruence|].
        eapply later_trans; [apply G5; assumption|exact G7].
  Qed.

  Lemma chunks_finished : forall els pre f post fs', Forall ready pre -> wf f ->
    train_chunks D A I na arglen (length pre) (pre ++ f :: post) els = (fs', TFinished) ->
    n_training _ _ _ (f_s f) = false /\ exists pre', fs' = pre' ++ f :: post /\ Forall ready pre' /\ Forall2 grown pre pre'.
  Proof.
    induction els as [|[x a] els IH]; intros pre f post fs' Hr Hw; cbn [train_chunks]; [discriminate|].
    rewrite nth_app. destruct (negb (f_nargs f =? 0) && negb (f_nargs f =? arglen a)); [discriminate|].
    rewrite exec_seq_app. destruct (exec_seq (length pre) 0 pre x) as [pre1 [y|e]] eqn:Ex; [|discriminate].
    destruct (exec_pre pre 0 x pre1 y Hr Ex) as (A1 & A2 & A3 & A4).
    assert (length pre1 = length pre) as Hlen by (clear - A3; induction A3; cbn; congruence).
    destruct (train D A I (f_b f) y a (f_s f)) as [s' [[]|e]] eqn:Et.
    - rewrite <- Hlen at 2. rewrite update_app. rewrite <- Hlen. intros E.
      pose proof Hw as (W1 & W2 & W3 & W4).
      destruct (train_ok D A I (f_b f) W2 y a (f_s f) s' W1 Et) as (B1 & B2 & B3 & B4 & B5 & B6 & B7).
      destruct (IH pre1 (with_s f s') post fs') as (C1 & _);
        [exact A1|split; [exact B1|split; [exact W2|split; assumption]]|exact E|]. cbn in C1. congruence.
    - rewrite <- Hlen. rewrite update_app. destruct Hw as (W1 & W2 & W3 & W4).
      intros E. destruct e; try discriminate. injection E as <-.
      destruct (train_finished D A I (f_b f) W2 y a (f_s f) s' W4 Et) as (-> & F1 & F2).
      split; [exact F1|]. exists pre1. split; [destruct f; reflexivity|]. split; assumption.
  Qed.

  Definition nph (f : fnode) := nphases D A I (f_b f).
  Definition cl (f : fnode) := closed (n_trace _ _ _ (f_s f)).
  Definition expected (f0 : fnode) (dt : option dtype) (it : iterable D A) (outs : nat -> list (array D)) : list (event D A) :=
    flat_map (fun q => evs (cl f0 + q) dt (it q) (outs q)) (seq 0 (nph f0 - cl f0)).

  Lemma training_lt f : wf f -> n_training _ _ _ (f_s f) = true -> cl f < nph f /\ b_trainable _ _ _ (f_b f) = true /\
     remaining _ _ _ (f_b f) (f_s f) = Z.of_nat (nph f - cl f).
  Proof.
    intros ((I1 & I2 & I3 & I4 & I5) & Hk & _) Ht. rewrite Ht in I3. symmetry in I3. apply Nat.ltb_lt in I3.
    split; [exact I3|]. unfold nph, cl, remaining, nphases in *.
    destruct (b_trainable D A I (f_b f)); [|lia]. split; [reflexivity|]. lia.
  Qed.
  Lemma not_training_eq f : wf f -> n_training _ _ _ (f_s f) = false -> cl f = nph f.
  Proof.
    intros ((I1 & I2 & I3 & I4 & I5) & Hk & _) Ht. rewrite Ht in I3. symmetry in I3. apply Nat.ltb_ge in I3.
    unfold cl, nph. lia.
  Qed.

  Lemma evs_ext p dt els ys q dt' : p = q -> dt = dt' -> evs p dt els ys = evs q dt' els ys.
  Proof. intros -> ->. reflexivity. Qed.

  Lemma flat_map_seq_S {T} (g : nat -> list T) n : flat_map g (seq 0 (S n)) = g 0 ++ flat_map (fun q => g (S q)) (seq 0 n).
  Proof.
    cbn [seq flat_map]. f_equal. rewrite <- seq_shift, !flat_map_concat_map, map_map. reflexivity.
  Qed.

  Lemma passes_ok : forall fuel j pre f post fs' it, Forall ready pre -> wf f ->
    train_passes D A I na arglen fuel (length pre) j (pre ++ f :: post) it = (fs', TOk) ->
    exists pre' f' outs, fs' = pre' ++ f' :: post /\ Forall ready pre' /\ Forall2 grown pre pre' /\ wf f' /\ open_last f' /\
      f_b f' = f_b f /\ f_nargs f' = f_nargs f /\ keeps D A I (f_s f) (f_s f') /\
      ftrains f' = ftrains f ++ expected f (n_dt _ _ _ (f_s f')) (fun q => it (j + q)) outs /\
      Forall isdone pre' /\ (exists t, n_dt _ _ _ (f_s f') = Some t) /\
      (forall pre2, Forall2 flater pre' pre2 -> forall q, q < nph f - cl f ->
         Forall2 (fun e y => through na pre2 (fst e) = Some y) (it (j + q)) (outs q)).
  Proof.
    induction fuel as [|fuel IH]; intros j pre f post fs' it Hr Hw; cbn [train_passes]; [discriminate|].
    destruct (train_chunks D A I na arglen (length pre) (pre ++ f :: post) (it j)) as [fs1 [| | |p]] eqn:Ec; try discriminate.
    destruct (chunks_ok (it j) pre f post fs1 Hr Hw Ec) as
      (pre1 & f1 & ys & C1 & C2 & C3 & C4 & C5 & C6 & C7 & C8 & C9 & C10 & C11 & C12 & C13 & C14).
    destruct (it j) as [|e0 els0] eqn:Eit; [discriminate|]. rewrite <- Eit in *.
    destruct C13 as (C13 & T1 & T2 & t & T3); [rewrite Eit; discriminate|].
    assert (length pre1 = length pre) as Hlen by (clear - C3; induction C3; cbn; congruence).
    subst fs1. rewrite <- Hlen. rewrite nth_app.
    assert (nph f1 = nph f) as Hnph by (unfold nph; rewrite C5; reflexivity).
    destruct (training_lt f1 C4 T1) as (L1 & L2 & L3). rewrite L3.
    assert (cl f1 = cl f) as Hcl by exact C11. rewrite Hcl, Hnph in *.
    destruct (Z.ltb_spec 1 (Z.of_nat (nph f - cl f))) as [Hrem|Hrem].
    - destruct (stop_training D A I (f_b f1) na (f_s f1)) as [s2 [[]|e]] eqn:Es.
      2:{ unfold of_exn. destruct e; discriminate. }
      rewrite update_app. intros E.
      pose proof C4 as (W1 & W2 & W3 & W4).
      destruct (stop_training_ok D A I (f_b f1) W2 na (f_s f1) s2 W1 Es) as (S1 & S2 & S3 & S4).
      assert (wf (with_s f1 s2)) as Hw2 by (split; [exact S1|split; [exact W2|split; assumption]]).
      assert (cl (with_s f1 s2) = S (cl f)) as Hcl2.
      { pose proof W1 as (_ & _ & _ & W14 & _). destruct S1 as (_ & _ & _ & S14 & _). rewrite L2 in *.
        unfold cl in *. cbn. lia. }
      destruct (IH (S j) pre1 (with_s f1 s2) post fs' it C2 Hw2 E) as
        (pre' & f' & outs & D1 & D2 & D3 & D4 & D5 & D6 & D7 & D8 & D9 & D10 & D11 & D12).
      assert (n_dt _ _ _ (f_s f') = Some t) as Hdt.
      { destruct D8 as (_ & _ & D8). apply D8. destruct S2 as (_ & _ & S2). apply S2. exact T3. }
      assert (nph (with_s f1 s2) = nph f) as Hnph2 by exact Hnph.
      assert (nph f - cl f = S (nph f - S (cl f))) as Hsub by lia.
      exists pre', f', (fun q => match q with O => ys | S q => outs q end).
      split; [exact D1|]. split; [exact D2|]. split; [eapply F2_trans; [apply grown_trans|exact C3|exact D3]|].
      split; [exact D4|]. split; [exact D5|]. split; [cbn in D6; congruence|]. split; [cbn in D7; congruence|].
      split; [eapply keeps_trans; [exact C7|eapply keeps_trans; [exact S2|exact D8]]|].
      split.
      { rewrite D9. assert (ftrains (with_s f1 s2) = ftrains f1) as -> by exact S3. rewrite C10, <- app_assoc. f_equal.
        unfold expected. rewrite Hcl2, Hnph2, Hsub, flat_map_seq_S. f_equal.
        { rewrite !Nat.add_0_r. apply evs_ext; [reflexivity|]. congruence. }
        apply flat_map_ext. intros q. replace (S j + q) with (j + S q) by lia. apply evs_ext; [lia|reflexivity]. }
      split; [exact D10|]. split; [eauto|].
      intros pre2 H2 [|q] Hq.
      + rewrite Nat.add_0_r. apply C14. clear - C13 D3 H2. revert pre2 H2.
        induction D3 as [|g g' l l' Hg Hl IHl]; intros pre2 H2.
        * inversion H2. constructor.
        * inversion H2 as [|? g2 ? l2 Hg2 Hl2]; subst. inversion C13; subst. constructor; [|apply IHl; assumption].
          destruct Hg as (G1 & _ & _ & _ & G5), Hg2 as (G6 & G7). split; [congruence|].
          eapply later_trans; [apply G5; assumption|exact G7].
      + replace (j + S q) with (S j + q) by lia. apply (D12 pre2 H2). rewrite Hcl2, Hnph2. lia.
    - intros [= <-]. assert (nph f - cl f = 1) as H1 by lia.
      exists pre1, f1, (fun _ => ys). split; [reflexivity|]. split; [exact C2|]. split; [exact C3|]. split; [exact C4|].
      split. { split; [exact T1|]. split; [exact T2|]. rewrite L3, H1. reflexivity. }
      split; [exact C5|]. split; [exact C6|]. split; [exact C7|]. split.
      { rewrite C10. f_equal. unfold expected. rewrite H1. cbn. rewrite app_nil_r, !Nat.add_0_r. reflexivity. }
      split; [exact C13|]. split; [eauto|].
      intros pre2 H2 q Hq. replace q with 0 by lia. rewrite Nat.add_0_r. apply C14. exact H2.
  Qed.

  Lemma passes_finished : forall fuel j pre f post fs' it, Forall ready pre -> wf f ->
    train_passes D A I na arglen fuel (length pre) j (pre ++ f :: post) it = (fs', TFinished) ->
    n_training _ _ _ (f_s f) = false /\ exists pre', fs' = pre' ++ f :: post /\ Forall ready pre' /\ Forall2 grown pre pre'.
  Proof.
    induction fuel as [|fuel IH]; intros j pre f post fs' it Hr Hw; cbn [train_passes]; [discriminate|].
    destruct (train_chunks D A I na arglen (length pre) (pre ++ f :: post) (it j)) as [fs1 [| | |p]] eqn:Ec; try discriminate.
    2:{ intros [= <-]. eapply chunks_finished; eassumption. }
    destruct (chunks_ok (it j) pre f post fs1 Hr Hw Ec) as
      (pre1 & f1 & ys & C1 & C2 & C3 & C4 & C5 & C6 & C7 & C8 & C9 & C10 & C11 & C12 & C13 & C14).
    destruct (it j) as [|e0 els0] eqn:Eit; [discriminate|]. rewrite <- Eit in *.
    destruct C13 as (C13 & T1 & T2 & t & T3); [rewrite Eit; discriminate|].
    assert (length pre1 = length pre) as Hlen by (clear - C3; induction C3; cbn; congruence).
    subst fs1. rewrite <- Hlen. rewrite nth_app.
    destruct (training_lt f1 C4 T1) as (L1 & L2 & L3). rewrite L3.
    destruct (Z.ltb_spec 1 (Z.of_nat (nph f1 - cl f1))) as [Hrem|Hrem]; [|discriminate].
    pose proof C4 as (W1 & W2 & W3 & W4).
    destruct (stop_training D A I (f_b f1) na (f_s f1)) as [s2 [[]|e]] eqn:Es.
    - rewrite update_app. intros E. exfalso.
      destruct (stop_training_ok D A I (f_b f1) W2 na (f_s f1) s2 W1 Es) as (S1 & S2 & S3 & S4).
      assert (wf (with_s f1 s2)) as Hw2 by (split; [exact S1|split; [exact W2|split; assumption]]).
      destruct (IH (S j) pre1 (with_s f1 s2) post fs' it C2 Hw2 E) as (F1 & _).
      pose proof (not_training_eq _ Hw2 F1) as F2.
      pose proof W1 as (_ & _ & _ & W14 & _). destruct S1 as (_ & _ & _ & S14 & _). rewrite L2 in *.
      unfold cl, nph in *. cbn in *. lia.
    - intros E. exfalso. destruct e; try discriminate.
      destruct (stop_finished D A I (f_b f1) na (f_s f1) s2 W4 Es) as (_ & F1). congruence.
  Qed.

  Definition passes (d : option (iterable D A)) : iterable D A := fun q => match d with Some it => it q | None => [] end.

  (** What the flow training did to a node. *)
  Definition nodefact (f0 f : fnode) (d : option (iterable D A)) (prefix : list fnode) : Prop :=
    f_b f = f_b f0 /\ f_nargs f = f_nargs f0 /\ keeps D A I (f_s f0) (f_s f) /\
    exists outs, ftrains f = ftrains f0 ++ expected f0 (n_dt _ _ _ (f_s f)) (passes d) outs /\
      (nph f0 - cl f0 = 0 \/ (Forall isdone prefix /\ exists t, n_dt _ _ _ (f_s f) = Some t)) /\
      forall pre2, Forall2 flater prefix pre2 -> forall q, q < nph f0 - cl f0 ->
        Forall2 (fun e y => through na pre2 (fst e) = Some y) (passes d q) (outs q).

  Lemma flater_grown prefix prefix' pre2 : Forall isdone prefix -> Forall2 grown prefix prefix' ->
    Forall2 flater prefix' pre2 -> Forall2 flater prefix pre2.
  Proof.
    intros Hd Hg. revert pre2. induction Hg as [|g g' l l' Hg Hl IHl]; intros pre2 H2.
    - inversion H2. constructor.
    - inversion H2 as [|? g2 ? l2 Hg2 Hl2]; subst. inversion Hd; subst. constructor; [|apply IHl; assumption].
      destruct Hg as (G1 & _ & _ & _ & G5), Hg2 as (G6 & G7). split; [congruence|].
      eapply later_trans; [apply G5; assumption|exact G7].
  Qed.

  Lemma nodefact_grown f0 f d prefix f' prefix' : nodefact f0 f d prefix -> grown f f' -> Forall2 grown prefix prefix' ->
    nodefact f0 f' d prefix'.
  Proof.
    intros (F1 & F2 & F3 & outs & F4 & F5 & F6) G Hp. pose proof G as (G1 & G2 & G3 & G4 & G5).
    split; [congruence|]. split; [congruence|]. split; [eapply keeps_trans; eassumption|].
    exists outs. rewrite G3, F4. destruct F5 as [F5|(F5 & t & F7)].
    - unfold expected. rewrite F5. cbn. split; [reflexivity|]. split; [auto|]. intros; lia.
    - assert (n_dt _ _ _ (f_s f') = Some t) as Hdt by (destruct G4 as (_ & _ & G4); auto).
      split; [congruence|]. split.
      + right. split; [|eauto]. clear - F5 Hp. induction Hp; inversion F5; subst; constructor; auto.
        eapply later_isdone; eassumption.
      + intros pre2 H2 q Hq. apply F6; [|exact Hq]. eapply flater_grown; eassumption.
  Qed.

  Lemma train_node_ok pre f post fs' d : Forall ready pre -> wf f ->
    train_node D A I na arglen (pre ++ f :: post) (length pre) d = (fs', FOk tt) ->
    exists pre' f', fs' = pre' ++ f' :: post /\ Forall ready pre' /\ Forall2 grown pre pre' /\ ready f' /\ nodefact f f' d pre' /\
      (cl f < nph f -> d <> None /\ Forall isdone pre').
  Proof.
    intros Hr Hw. unfold train_node. rewrite nth_app.
    assert (n_training _ _ _ (f_s f) = false -> ready f /\ forall pre', nodefact f f d pre') as Htriv.
    { intros Ht. split; [split; [exact Hw|left; exact Ht]|]. intros pre'. pose proof (not_training_eq f Hw Ht) as He.
      split; [reflexivity|]. split; [reflexivity|]. split; [apply keeps_refl|]. exists (fun _ => []).
      unfold expected. rewrite He, Nat.sub_diag. cbn. rewrite app_nil_r. split; [reflexivity|]. split; [auto|]. intros; lia. }
    assert (b_trainable _ _ _ (f_b f) = false -> n_training _ _ _ (f_s f) = false) as Hnt.
    { intros Hb. destruct (n_training D A I (f_s f)) eqn:E; [|reflexivity].
      destruct (training_lt f Hw E) as (_ & L & _). congruence. }
    assert (n_training _ _ _ (f_s f) = false -> cl f < nph f -> False) as Habs.
    { intros Ht Hlt. pose proof (not_training_eq f Hw Ht). lia. }
    destruct d as [it|].
    - destruct (b_trainable _ _ _ (f_b f)) eqn:Hb; cbn [negb].
      + destruct (train_passes D A I na arglen (S (b_phases D A I (f_b f))) (length pre) 0 (pre ++ f :: post) it) as [fs1 [| | |p]] eqn:E;
          try discriminate; intros [= <-].
        * destruct (passes_ok _ _ _ _ _ _ _ Hr Hw E) as (pre' & f' & outs & D1 & D2 & D3 & D4 & D5 & D6 & D7 & D8 & D9 & D10 & D11 & D12).
          exists pre', f'. split; [exact D1|]. split; [exact D2|]. split; [exact D3|]. split; [split; auto|].
          split; [|intros _; split; [discriminate|exact D10]].
          split; [exact D6|]. split; [exact D7|]. split; [exact D8|]. exists outs. split; [exact D9|].
          split; [right; split; assumption|exact D12].
        * destruct (passes_finished _ _ _ _ _ _ _ Hr Hw E) as (F1 & pre' & F2 & F3 & F4).
          destruct (Htriv F1) as [T1 T2].
          exists pre', f. split; [exact F2|]. split; [exact F3|]. split; [exact F4|]. split; [exact T1|]. split; [apply T2|].
          intros Hlt. destruct (Habs F1 Hlt).
      + intros [= <-]. destruct (Htriv (Hnt eq_refl)) as [T1 T2].
        exists pre, f. split; [reflexivity|]. split; [exact Hr|]. split; [apply F2_refl, grown_refl|]. split; [exact T1|]. split; [apply T2|].
        intros Hlt. destruct (Habs (Hnt eq_refl) Hlt).
    - destruct (n_training D A I (f_s f)) eqn:Ht; [discriminate|].
      destruct (negb (b_trainable D A I (f_b f))); [|discriminate]. intros [= <-].
      destruct (Htriv eq_refl) as [T1 T2].
      exists pre, f. split; [reflexivity|]. split; [exact Hr|]. split; [apply F2_refl, grown_refl|]. split; [exact T1|]. split; [apply T2|].
      intros Hlt. destruct (Habs eq_refl Hlt).
  Qed.

  (** A checkpoint function that at most closes the training of the node it is given. *)
  Definition cp_ok (c : checkpoint D A I) : Prop :=
    forall f s', c f = (s', true) -> s' = f_s f \/ stop_training D A I (f_b f) na (f_s f) = (s', Ok tt).

  Lemma stop_ready f s' : ready f -> stop_training D A I (f_b f) na (f_s f) = (s', Ok tt) ->
    ready (with_s f s') /\ isdone (with_s f s') /\ grown f (with_s f s').
  Proof.
    intros (Hw & Hd) E. pose proof Hw as (W1 & W2 & W3 & W4).
    destruct (stop_training_ok D A I (f_b f) W2 na (f_s f) s' W1 E) as (S1 & S2 & S3 & S4).
    destruct Hd as [Hd|(O1 & O2 & O3)].
    - unfold isdone in Hd. rewrite (finished_stop D A I (f_b f) na (f_s f) Hd) in E. discriminate.
    - destruct (training_lt f Hw O1) as (L1 & L2 & L3).
      assert (isdone (with_s f s')) as Hd.
      { unfold isdone. cbn. pose proof S1 as (I1 & I2 & I3 & I4 & I5). rewrite I3. apply Nat.ltb_ge.
        pose proof W1 as (_ & _ & _ & W14 & _). rewrite L2 in *. unfold cl, nph in *. lia. }
      split; [split; [split; [exact S1|split; [exact W2|split; assumption]]|left; exact Hd]|]. split; [exact Hd|].
      apply mk_grown; [exact S2|exact S3|]. unfold isdone. congruence.
  Qed.

  Definition facts (fs0 pre : list fnode) (data : list (option (iterable D A))) : Prop :=
    forall i f0 d f, nth_error fs0 i = Some f0 -> nth_error data i = Some d -> nth_error pre i = Some f ->
      nodefact f0 f d (firstn i pre).
  Definition donefacts (fs0 pre : list fnode) : Prop :=
    forall i j g0 f, i < j -> nth_error fs0 j = Some g0 -> j < length pre -> cl g0 < nph g0 ->
      nth_error pre i = Some f -> isdone f.

  Lemma F2_nth (R : fnode -> fnode -> Prop) l l' : Forall2 R l l' -> forall i f', nth_error l' i = Some f' ->
    exists f, nth_error l i = Some f /\ R f f'.
  Proof.
    induction 1 as [|g g' l l' Hg Hl IH]; intros [|i] f' E; cbn in *; try discriminate.
    - injection E as <-. eauto.
    - eauto.
  Qed.
  Lemma F2_firstn (R : fnode -> fnode -> Prop) l l' : Forall2 R l l' -> forall i, Forall2 R (firstn i l) (firstn i l').
  Proof. induction 1; intros [|i]; cbn; constructor; auto. Qed.
  Lemma F2_len (R : fnode -> fnode -> Prop) l l' : Forall2 R l l' -> length l' = length l.
  Proof. induction 1; cbn; congruence. Qed.

  Lemma facts_grown fs0 pre pre' data : facts fs0 pre data -> Forall2 grown pre pre' -> facts fs0 pre' data.
  Proof.
    intros Hf Hg i f0 d f' H1 H2 H3. destruct (F2_nth _ _ _ Hg i f' H3) as (f & H4 & H5).
    eapply nodefact_grown; [eapply Hf; eassumption|exact H5|apply F2_firstn; exact Hg].
  Qed.
  Lemma donefacts_grown fs0 pre pre' : donefacts fs0 pre -> Forall2 grown pre pre' -> donefacts fs0 pre'.
  Proof.
    intros Hf Hg i j g0 f' H1 H2 H3 H4 H5. destruct (F2_nth _ _ _ Hg i f' H5) as (f & H6 & H7).
    eapply later_isdone; [exact H7|]. apply (Hf i j g0 f H1 H2); [rewrite <- (F2_len _ _ _ Hg); exact H3|exact H4|exact H6].
  Qed.

  Definition cp_log (fs0 : list fnode) (data : list (option (iterable D A))) (i : nat) (fs : list fnode) : Prop :=
    skipn (S i) fs = skipn (S i) fs0 /\ facts fs0 (firstn (S i) fs) data /\
    exists f, nth_error fs i = Some f /\ ready f.

  Fixpoint cp_indices (i : nat) (cps : list (option (checkpoint D A I))) : list nat :=
    match cps with [] => [] | Some _ :: cps => i :: cp_indices (S i) cps | None :: cps => cp_indices (S i) cps end.

  Lemma train_nodes_ok : forall todo fs0 data pre cps log fs' log',
    Forall wf fs0 -> length data = length fs0 ->
    length pre + length todo = length fs0 -> todo = skipn (length pre) data ->
    Forall ready pre -> facts fs0 pre data -> donefacts fs0 pre ->
    (cps = [] \/ length cps = length todo) -> Forall (fun c => match c with Some c => cp_ok c | None => True end) cps ->
    train_nodes D A I na arglen (length pre) (pre ++ skipn (length pre) fs0) todo cps log = (fs', FOk tt, log') ->
    length fs' = length fs0 /\ Forall ready fs' /\ facts fs0 fs' data /\ donefacts fs0 fs' /\
    exists new, log' = log ++ new /\ map fst new = cp_indices (length pre) cps /\ Forall (fun e => cp_log fs0 data (fst e) (snd e)) new.
  Proof.
    induction todo as [|d todo IH]; intros fs0 data pre cps log fs' log' Hwf Hlen Hl2 Htodo Hr Hf Hdf Hcl Hcps; cbn [train_nodes].
    - intros [= <- <-]. cbn in Hl2. rewrite skipn_all2 by lia. rewrite app_nil_r.
      split; [lia|]. split; [exact Hr|]. split; [exact Hf|]. split; [exact Hdf|]. exists []. rewrite app_nil_r.
      split; [reflexivity|]. split; [|constructor]. destruct Hcl as [->|Hcl]; [reflexivity|]. destruct cps; [reflexivity|discriminate].
    - cbn [length] in Hl2.
      assert (length pre < length fs0) as Hlt by lia.
      destruct (nth_error fs0 (length pre)) as [f0|] eqn:Ef0; [|apply nth_error_None in Ef0; lia].
      assert (skipn (length pre) fs0 = f0 :: skipn (S (length pre)) fs0) as Hsk.
      { clear - Ef0. revert Ef0. generalize (length pre). induction fs0 as [|g l IH]; intros [|n] E; cbn in *; try discriminate.
        - injection E as ->. reflexivity.
        - apply IH. exact E. }
      assert (nth_error data (length pre) = Some d /\ todo = skipn (S (length pre)) data) as [Hd Htodo'].
      { clear - Htodo. revert Htodo. generalize (length pre). induction data as [|g l IH]; intros [|n] E; cbn in *; try discriminate.
        - injection E as -> ->. auto.
        - apply IH. exact E. }
      rewrite Hsk.
      assert (wf f0) as Hw0. { rewrite Forall_forall in Hwf. apply Hwf. eapply nth_error_In; eassumption. }
      destruct (train_node D A I na arglen (pre ++ f0 :: skipn (S (length pre)) fs0) (length pre) d) as [fs1 [[]|e]] eqn:Et; [|discriminate].
      destruct (train_node_ok _ _ _ _ _ Hr Hw0 Et) as (pre1 & f1 & E1 & E2 & E3 & E4 & E5 & E6). subst fs1.
      pose proof (F2_len _ _ _ E3) as Hlp.
      pose proof (facts_grown _ _ _ _ Hf E3) as Hf1. pose proof (donefacts_grown _ _ _ Hdf E3) as Hdf1.
      (* the next state for any f2 grown from f1 *)
      assert (forall f2, ready f2 -> grown f1 f2 ->
        Forall ready (pre1 ++ [f2]) /\ facts fs0 (pre1 ++ [f2]) data /\ donefacts fs0 (pre1 ++ [f2])) as Hnext.
      { intros f2 R2 G2. split; [apply Forall_app; split; [exact E2|constructor; [exact R2|constructor]]|]. split.
        - intros i g0 e g H1 H2 H3.
          destruct (Nat.lt_ge_cases i (length pre1)) as [Hi|Hi].
          + rewrite nth_error_app1 in H3 by exact Hi. rewrite firstn_app. replace (i - length pre1) with 0 by lia. cbn. rewrite app_nil_r.
            eapply Hf1; eassumption.
          + rewrite nth_error_app2 in H3 by exact Hi. destruct (i - length pre1) as [|n] eqn:En; [|destruct n; discriminate].
            injection H3 as <-. assert (i = length pre1) as -> by lia. rewrite Hlp in H1, H2. rewrite Ef0 in H1. rewrite Hd in H2.
            injection H1 as <-. injection H2 as <-. rewrite firstn_app, Nat.sub_diag, firstn_all. cbn. rewrite app_nil_r.
            eapply nodefact_grown; [exact E5|exact G2|apply F2_refl, grown_refl].
        - intros i j g0 g Hij H1 H2 H3 H4. rewrite app_length in H2. cbn in H2.
          destruct (Nat.lt_ge_cases i (length pre1)) as [Hi|Hi].
          + rewrite nth_error_app1 in H4 by exact Hi.
            destruct (Nat.lt_ge_cases j (length pre1)) as [Hj|Hj]; [exact (Hdf1 i j g0 g Hij H1 Hj H3 H4)|].
            assert (j = length pre1) as -> by lia. rewrite Hlp, Ef0 in H1. injection H1 as <-.
            destruct (E6 H3) as [_ Hd1]. rewrite Forall_forall in Hd1. apply Hd1. eapply nth_error_In; eassumption.
          + exfalso. lia. }
      rewrite <- Hlp. rewrite nth_app.
      assert (forall f2 cps2 log2, ready f2 -> grown f1 f2 -> (cps2 = [] \/ length cps2 = length todo) ->
         Forall (fun c => match c with Some c => cp_ok c | None => True end) cps2 ->
         train_nodes D A I na arglen (S (length pre1)) (pre1 ++ f2 :: skipn (S (length pre1)) fs0) todo cps2 log2 = (fs', FOk tt, log') ->
         length fs' = length fs0 /\ Forall ready fs' /\ facts fs0 fs' data /\ donefacts fs0 fs' /\
         exists new, log' = log2 ++ new /\ map fst new = cp_indices (S (length pre1)) cps2 /\ Forall (fun e => cp_log fs0 data (fst e) (snd e)) new) as Hgo.
      { intros f2 cps2 log2 R2 G2 Hc1 Hc2 E. destruct (Hnext f2 R2 G2) as (N1 & N2 & N3).
        assert (length (pre1 ++ [f2]) = S (length pre1)) as Hlen1 by (rewrite app_length; cbn; lia).
        rewrite <- Hlen1. eapply (IH fs0 data (pre1 ++ [f2]) cps2 log2); try eassumption; rewrite ?Hlen1.
        - lia.
        - rewrite Hlp. exact Htodo'.
        - rewrite <- app_assoc. exact E. }
      destruct cps as [|[c|] cps].
      + intros E. cbn [tl cp_indices] in *. apply (Hgo f1 [] log); auto using grown_refl.
      + destruct Hcl as [Hcl|Hcl]; [discriminate|]. injection Hcl as Hcl. inversion Hcps as [|? ? Hc1 Hc2]; subst.
        destruct (c f1) as [s2 ok] eqn:Ec. destruct ok; [|discriminate]. rewrite update_app. intros E.
        assert (ready (with_s f1 s2) /\ grown f1 (with_s f1 s2)) as [R2 G2].
        { destruct (Hc1 f1 s2 Ec) as [-> | Hs].
          - assert (with_s f1 (f_s f1) = f1) as -> by (destruct f1; reflexivity). auto using grown_refl.
          - destruct (stop_ready f1 s2 E4 Hs) as (S1 & S2 & S3). auto. }
        destruct (Hgo _ _ _ R2 G2 (or_intror Hcl) Hc2 E) as (H1 & H2 & H3 & H4 & new & H5 & H6 & H7).
        do 4 (split; [assumption|]). exists ((length pre1, pre1 ++ f1 :: skipn (S (length pre1)) fs0) :: new). rewrite H5, <- app_assoc. split; [reflexivity|].
        split; [cbn [map fst cp_indices]; rewrite H6; reflexivity|]. constructor; [|exact H7].
        cbn [fst snd]. assert (pre1 ++ f1 :: skipn (S (length pre1)) fs0 = (pre1 ++ [f1]) ++ skipn (S (length pre1)) fs0) as Hsplit by (rewrite <- app_assoc; reflexivity).
        assert (length (pre1 ++ [f1]) = S (length pre1)) as Hl1 by (rewrite app_length; cbn; lia).
        unfold cp_log. rewrite Hsplit. rewrite <- Hl1 at 1. rewrite skipn_app, skipn_all, Nat.sub_diag. cbn [app skipn].
        split; [reflexivity|]. rewrite <- Hl1. rewrite firstn_app, firstn_all, Nat.sub_diag. cbn [firstn]. rewrite app_nil_r.
        split; [apply (Hnext f1 E4 (grown_refl f1))|]. exists f1. rewrite <- app_assoc. split; [apply nth_app|exact E4].
      + destruct Hcl as [Hcl|Hcl]; [discriminate|]. injection Hcl as Hcl. inversion Hcps as [|? ? Hc1 Hc2]; subst.
        intros E. cbn [tl cp_indices] in *. apply (Hgo f1 cps log); auto using grown_refl.
  Qed.

  Lemma close_ok fs0 fs data fs' : length fs = length fs0 -> Forall ready fs -> facts fs0 fs data -> donefacts fs0 fs ->
    close_last D A I na fs = (fs', FOk tt) ->
    length fs' = length fs0 /\ Forall ready fs' /\ facts fs0 fs' data /\ donefacts fs0 fs' /\
    exists pre f, fs' = pre ++ [f] /\ isdone f.
  Proof.
    intros Hlen Hr Hf Hd. unfold close_last.
    destruct fs as [|f1 fs1] using rev_ind; [discriminate|clear IHfs1].
    rewrite app_length. cbn [length]. rewrite Nat.add_sub. rewrite nth_app.
    apply Forall_app in Hr as [Hr1 Hr2]. inversion Hr2 as [|? ? Hr3 _]; subst.
    assert (forall f2, ready f2 -> isdone f2 -> grown f1 f2 -> fs' = fs1 ++ [f2] ->
      length fs' = length fs0 /\ Forall ready fs' /\ facts fs0 fs' data /\ donefacts fs0 fs' /\ exists pre f, fs' = pre ++ [f] /\ isdone f) as Hgo.
    { intros f2 R2 D2 G2 ->.
      assert (Forall2 grown (fs1 ++ [f1]) (fs1 ++ [f2])) as HG.
      { apply Forall2_app; [apply F2_refl, grown_refl|]. constructor; [exact G2|constructor]. }
      split; [rewrite (F2_len _ _ _ HG); exact Hlen|]. split; [apply Forall_app; auto|].
      split; [eapply facts_grown; eassumption|]. split; [eapply donefacts_grown; eassumption|]. eauto. }
    destruct (stop_training D A I (f_b f1) na (f_s f1)) as [s' [[]|e]] eqn:E.
    - rewrite update_app. intros [= <-]. destruct (stop_ready f1 s' Hr3 E) as (S1 & S2 & S3).
      apply (Hgo _ S1 S2 S3). reflexivity.
    - destruct e; try discriminate. rewrite update_app. intros [= <-].
      destruct Hr3 as [Hw3 Hd3]. destruct Hw3 as (W1 & W2 & W3 & W4).
      destruct (stop_finished D A I (f_b f1) na (f_s f1) s' W4 E) as (-> & F1).
      assert (with_s f1 (f_s f1) = f1) as Heq by (destruct f1; reflexivity). rewrite Heq in *.
      apply (Hgo f1); [|exact F1|apply grown_refl|reflexivity].
      split; [split; [exact W1|split; [exact W2|split; assumption]]|exact Hd3].
  Qed.

  Lemma facts_nil fs0 data : facts fs0 [] data.
  Proof. intros [|i] f0 d f H1 H2 H3; discriminate. Qed.
  Lemma donefacts_nil fs0 : donefacts fs0 [].
  Proof. intros i j g0 f H1 H2 H3. cbn in H3. lia. Qed.

  Lemma flow_train_ok fs0 data fs' : Forall wf fs0 -> flow_train D A I na arglen fs0 data = (fs', FOk tt) ->
    length data = length fs0 /\ length fs' = length fs0 /\ Forall ready fs' /\ facts fs0 fs' data /\ donefacts fs0 fs' /\
    exists pre f, fs' = pre ++ [f] /\ isdone f.
  Proof.
    intros Hw. unfold flow_train. destruct (Nat.eqb_spec (length data) (length fs0)) as [Hl|Hl]; cbn [negb]; [|discriminate].
    destruct (train_nodes D A I na arglen 0 fs0 data [] []) as [[fs1 [[]|e]] log] eqn:E; [|discriminate].
    intros Ec. pose proof (train_nodes_ok data fs0 data [] [] [] fs1 log) as H. cbn [length app skipn] in H.
    destruct H as (H1 & H2 & H3 & H4 & _); auto using facts_nil, donefacts_nil.
    destruct (close_ok fs0 fs1 data fs' H1 H2 H3 H4 Ec) as (C1 & C2 & C3 & C4 & C5). auto 10.
  Qed.

  Lemma checkpoint_train_ok fs0 data cps fs' log : Forall wf fs0 ->
    Forall (fun c => match c with Some c => cp_ok c | None => True end) cps ->
    checkpoint_train D A I na arglen fs0 data cps = (fs', FOk tt, log) ->
    map fst log = cp_indices 0 cps /\ Forall (fun e => cp_log fs0 data (fst e) (snd e)) log /\
    length data = length fs0 /\ length fs' = length fs0 /\ facts fs0 fs' data /\ donefacts fs0 fs'.
  Proof.
    intros Hw Hc. unfold checkpoint_train. destruct (Nat.eqb_spec (length data) (length fs0)) as [Hl|Hl]; cbn [negb]; [|discriminate].
    destruct (Nat.eqb_spec (length cps) (length fs0)) as [Hl2|Hl2]; cbn [negb]; [|discriminate].
    destruct (train_nodes D A I na arglen 0 fs0 data cps []) as [[fs1 [[]|e]] log1] eqn:E; [|discriminate].
    destruct (close_last D A I na fs1) as [fs2 r] eqn:Ec. intros [= -> -> ->].
    pose proof (train_nodes_ok data fs0 data [] cps [] fs1 log) as H. cbn [length app skipn] in H.
    destruct H as (H1 & H2 & H3 & H4 & new & H5 & H6 & H7); auto using facts_nil, donefacts_nil; [right; congruence|].
    subst log. destruct (close_ok fs0 fs1 data fs' H1 H2 H3 H4 Ec) as (C1 & C2 & C3 & C4 & C5). auto 10.
  Qed.
End FlowLevel.

(** ** Execution and inversion *)
Section Exec.
  Variables (D A I : Type) (na : A) (arglen : A -> nat).
  Notation fnode := (fnode D A I).
  Notation f_b := (f_b D A I). Notation f_s := (f_s D A I).
  Notation with_s := (with_s D A I).
  Notation exec_seq := (exec_seq D A I na).
  Notation wf := (wf D A I). Notation isdone := (isdone D A I). Notation ready := (ready D A I).
  Notation flater := (flater D A I).

  Lemma flater_refl f : flater f f.
  Proof. split; [reflexivity|apply later_refl]. Qed.
  Lemma flater_trans f1 f2 f3 : flater f1 f2 -> flater f2 f3 -> flater f1 f3.
  Proof. intros (A1 & A2) (B1 & B2). split; [congruence|eapply later_trans; eassumption]. Qed.
  Lemma grown_flater f f' : isdone f -> grown D A I f f' -> flater f f'.
  Proof. intros Hd (G1 & _ & _ & _ & G5). split; auto. Qed.
  Lemma F2_grown_flater l l' : Forall isdone l -> Forall2 (grown D A I) l l' -> Forall2 flater l l'.
  Proof. intros Hd Hg. induction Hg; inversion Hd; subst; constructor; auto using grown_flater. Qed.

  Lemma exec_seq_firstn m : forall fs i x, m <= length fs ->
    exec_seq m i fs x = (let (pre', r) := exec_seq (length (firstn m fs)) i (firstn m fs) x in (pre' ++ skipn m fs, r)).
  Proof.
    intros fs i x Hm. rewrite <- (exec_seq_app D A I na (firstn m fs) i (skipn m fs) x).
    rewrite firstn_skipn, firstn_length_le by exact Hm. reflexivity.
  Qed.

  (** Chunks through ready nodes. *)
  Lemma map_chunks_ok : forall xs fs m fs' ys, m <= length fs -> Forall ready (firstn m fs) ->
    map_chunks D A I (exec_seq m 0) fs xs = (fs', FOk ys) ->
    Forall ready (firstn m fs') /\ Forall2 (grown D A I) (firstn m fs) (firstn m fs') /\ length fs' = length fs /\
    skipn m fs' = skipn m fs /\
    (xs <> [] -> Forall isdone (firstn m fs')) /\
    (forall pre2, Forall2 flater (firstn m fs') pre2 -> Forall2 (fun x y => through na pre2 x = Some y) xs ys).
  Proof.
    induction xs as [|x xs IH]; intros fs m fs' ys Hm Hr; cbn [map_chunks].
    - intros [= <- <-]. split; [exact Hr|]. split; [apply F2_refl, grown_refl|]. split; [reflexivity|]. split; [reflexivity|].
      split; [congruence|]. constructor.
    - rewrite exec_seq_firstn by exact Hm.
      destruct (exec_seq (length (firstn m fs)) 0 (firstn m fs) x) as [pre1 [y|e]] eqn:E; [|discriminate].
      destruct (exec_pre D A I na _ _ _ _ _ Hr E) as (A1 & A2 & A3 & A4).
      pose proof (F2_len D A I _ _ _ A3) as Hl. rewrite firstn_length_le in Hl by exact Hm.
      assert (firstn m (pre1 ++ skipn m fs) = pre1) as Hf.
      { rewrite firstn_app, Hl, Nat.sub_diag. cbn. rewrite app_nil_r. apply firstn_all2. lia. }
      assert (skipn m (pre1 ++ skipn m fs) = skipn m fs) as Hsk.
      { rewrite skipn_app, Hl, Nat.sub_diag. rewrite skipn_all2 by lia. reflexivity. }
      assert (length (pre1 ++ skipn m fs) = length fs) as Hlen by (rewrite app_length, skipn_length; lia).
      destruct (map_chunks D A I (exec_seq m 0) (pre1 ++ skipn m fs) xs) as [fs2 [ys2|e]] eqn:E2; [|discriminate].
      intros [= <- <-].
      destruct (IH (pre1 ++ skipn m fs) m fs2 ys2) as (B1 & B2 & B3 & B4 & B5 & B6); [lia|rewrite Hf; exact A1|exact E2|].
      rewrite Hf in B2. rewrite Hsk in B4.
      split; [exact B1|]. split; [eapply F2_trans; [apply grown_trans|exact A3|exact B2]|]. split; [lia|]. split; [congruence|].
      assert (Forall isdone (firstn m fs2)) as Hd.
      { destruct xs as [|x2 xs]; [|apply B5; discriminate].
        clear - A2 B2. induction B2; inversion A2; subst; constructor; auto. eapply later_isdone; eassumption. }
      split; [intros _; exact Hd|]. intros pre2 H2. constructor; [|apply B6; exact H2].
      apply A4. eapply flater_grown; eassumption.
  Qed.

  Lemma flow_execute_ok (cat : list (array D) -> option (array D)) m fs xs fs' y : m <= length fs -> Forall ready fs ->
    flow_execute D A I na cat m fs xs = (fs', FOk y) ->
    xs <> [] /\ exists ys, Forall2 (fun x y => through na (firstn m fs') x = Some y) xs ys /\ cat ys = Some y.
  Proof.
    intros Hm Hr. unfold flow_execute.
    destruct (map_chunks D A I (exec_seq m 0) fs xs) as [fs1 [ys|e]] eqn:E; [|discriminate].
    assert (Forall ready (firstn m fs)) as Hr1.
    { rewrite <- (firstn_skipn m fs) in Hr. apply Forall_app in Hr. apply Hr. }
    destruct (map_chunks_ok xs fs m fs1 ys Hm Hr1 E) as (_ & _ & _ & _ & _ & H).
    destruct xs as [|x xs]; [discriminate|]. destruct (cat ys) as [z|] eqn:Ec; [|discriminate].
    intros [= <- <-]. split; [discriminate|]. exists ys. split; [|exact Ec]. apply H. apply F2_refl, flater_refl.
  Qed.

  (** *** Settled nodes: trained and with known dims; their execute and inverse are functions. *)
  Definition settled (f : fnode) : Prop :=
    wf f /\ isdone f /\ exists i o t, n_in _ _ _ (f_s f) = Some i /\ n_out _ _ _ (f_s f) = Some o /\ n_dt _ _ _ (f_s f) = Some t.

  Lemma settled_later f f' : settled f -> flater f f' -> view_of D A I (f_s f') = view_of D A I (f_s f) /\ isdone f' /\
     ((n_phase _ _ _ (f_s f') =? 0)%Z && negb (n_started _ _ _ (f_s f'))) = false.
  Proof.
    intros ((W1 & W2 & _) & Hd & i & o & t & H1 & H2 & H3) (L1 & L2 & L3 & L4 & L5 & L6 & L7 & L8).
    unfold view_of. rewrite (L6 _ H1), (L7 _ H2), (L8 _ H3), H1, H2, H3, L5.
    unfold isdone in *. rewrite L2, L3, L4. repeat split; auto. apply (guard_trained D A I (f_b f) W2); assumption.
  Qed.

  (** The value of execute for a settled node. *)
  Definition val (f : fnode) (x : array D) : res (array D) :=
    if negb (a_ndim x =? 2) then Err NodeExc else
    match n_in _ _ _ (f_s f) with
    | Some d => if a_cols x =? d then if a_rows x =? 0 then Err NodeExc else
        match b_execute _ _ _ (f_b f) (view_of D A I (f_s f)) (refcast D (n_dt _ _ _ (f_s f)) x) na with
        | PRet r => r | _ => Err NodeExc end
        else Err NodeExc
    | None => Err NodeExc
    end.

  Lemma exec_settled f g x : settled f -> flater f g ->
    exists s', execute D A I (f_b g) na x na (f_s g) = (s', val f x) /\ flater f (with_s g s').
  Proof.
    intros Hs Hl. destruct (settled_later f g Hs Hl) as (V & Hd & Hg).
    pose proof Hs as ((W1 & W2 & W3 & W4) & Hd0 & i & o & t & H1 & H2 & H3).
    pose proof Hl as (L1 & L2 & L3 & L4 & L5 & L6 & L7 & L8).
    rewrite L1. unfold execute. rewrite bind_eq. rewrite (pre_exec_trained D A I (f_b f) na x (f_s g) Hd Hg). rewrite bind_eq.
    unfold val, check_input. destruct (Nat.eqb_spec (a_ndim x) 2) as [E|E]; cbn [negb].
    2:{ eexists. split; [reflexivity|]. destruct g; exact Hl. }
    unfold bind, ret. rewrite (L6 _ H1), (L8 _ H3), (L6 _ H1), H1.
    destruct (Nat.eqb_spec (a_cols x) i) as [E2|E2].
    2:{ eexists. split; [reflexivity|]. destruct g; exact Hl. }
    destruct (Nat.eqb_spec (a_rows x) 0) as [E3|E3].
    { eexists. split; [reflexivity|]. destruct g; exact Hl. }
    rewrite (L7 _ H2), (L8 _ H3), H3, V.
    destruct (W3 (view_of D A I (f_s f)) (refcast D (Some t) x) na) as [r Hr]. rewrite Hr. cbn [run_prog].
    eexists. split; [reflexivity|]. split; [exact L1|].
    unfold later. cbn. repeat split; auto.
  Qed.

  Fixpoint vals (fs : list fnode) (x : array D) : option (array D) :=
    match fs with [] => Some x | f :: fs => match val f x with Ok y => vals fs y | Err _ => None end end.

  Lemma through_settled fs gs x : Forall settled fs -> Forall2 flater fs gs -> through na gs x = vals fs x.
  Proof.
    intros Hs Hl. revert x. induction Hl as [|f g fs gs Hfg Hl IH]; intros x; [reflexivity|].
    inversion Hs; subst. cbn. destruct (exec_settled f g x) as (s' & E & _); auto. rewrite E. cbn.
    destruct (val f x); auto.
  Qed.

  Lemma exec_seq_settled : forall fs gs i x, Forall settled fs -> Forall2 flater fs gs ->
    exists gs', Forall2 flater fs gs' /\
      match vals fs x with
      | Some y => exec_seq (length gs) i gs x = (gs', FOk y)
      | None => exists e, exec_seq (length gs) i gs x = (gs', FErr e)
      end.
  Proof.
    intros fs gs i x Hs Hl. revert i x. induction Hl as [|f g fs gs Hfg Hl IH]; intros i x.
    - exists []. split; [constructor|reflexivity].
    - inversion Hs; subst. cbn. destruct (exec_settled f g x) as (s' & E & Hf); auto. rewrite E.
      destruct (val f x) as [y|e].
      + destruct (IH H2 (S i) y) as (gs' & G1 & G2). exists (with_s g s' :: gs'). split; [constructor; assumption|].
        destruct (vals fs y); [rewrite G2; reflexivity|]. destruct G2 as [e G2]. exists e. rewrite G2. reflexivity.
      + exists (with_s g s' :: gs). split; [constructor; assumption|]. eexists; reflexivity.
  Qed.

  Fixpoint mapM (g : array D -> option (array D)) (xs : list (array D)) : option (list (array D)) :=
    match xs with
    | [] => Some []
    | x :: xs => match g x with Some y => match mapM g xs with Some ys => Some (y :: ys) | None => None end | None => None end
    end.

  Lemma map_chunks_settled : forall xs fs gs, Forall settled fs -> Forall2 flater fs gs ->
    exists gs', Forall2 flater fs gs' /\
      match mapM (vals fs) xs with
      | Some ys => map_chunks D A I (exec_seq (length fs) 0) gs xs = (gs', FOk ys)
      | None => exists e, map_chunks D A I (exec_seq (length fs) 0) gs xs = (gs', FErr e)
      end.
  Proof.
    induction xs as [|x xs IH]; intros fs gs Hs Hl; cbn [map_chunks mapM].
    - exists gs. auto.
    - destruct (exec_seq_settled fs gs 0 x Hs Hl) as (gs1 & G1 & G2).
      rewrite <- (F2_len D A I _ _ _ Hl).
      destruct (vals fs x) as [y|].
      + rewrite G2. destruct (IH fs gs1 Hs G1) as (gs2 & K1 & K2). rewrite (F2_len D A I _ _ _ Hl).
        exists gs2. split; [exact K1|]. destruct (mapM (vals fs) xs) as [ys|]; [rewrite K2; reflexivity|].
        destruct K2 as [e K2]. rewrite K2. eauto.
      + destruct G2 as [e G2]. rewrite G2. exists gs1. eauto.
  Qed.

  Lemma mapM_F2 g xs ys : mapM g xs = Some ys <-> Forall2 (fun x y => g x = Some y) xs ys.
  Proof.
    split.
    - revert ys. induction xs as [|x xs IH]; intros ys; cbn; [intros [= <-]; constructor|].
      destruct (g x) eqn:E; [|discriminate]. destruct (mapM g xs); [|discriminate]. intros [= <-]. constructor; auto.
    - induction 1 as [|x y xs ys H1 H2 IH]; cbn; [reflexivity|]. rewrite H1, IH. reflexivity.
  Qed.

  (** *** Inversion *)
  (** A node whose inverse undoes its execute, on arrays of dtype [t]. *)
  Definition inverts (t : dtype) (f : fnode) : Prop :=
    settled f /\ n_dt _ _ _ (f_s f) = Some t /\ b_invertible _ _ _ (f_b f) = true /\
    forall x y, a_dtype x = t -> a_ndim x = 2 -> n_in _ _ _ (f_s f) = Some (a_cols x) -> a_rows x <> 0 ->
      b_execute _ _ _ (f_b f) (view_of D A I (f_s f)) x na = PRet (Ok y) ->
      a_dtype y = t /\ a_ndim y = 2 /\ n_out _ _ _ (f_s f) = Some (a_cols y) /\
      b_inverse _ _ _ (f_b f) (view_of D A I (f_s f)) y na = PRet (Ok x).

  Lemma refcast_same t x : a_dtype x = t -> refcast D (Some t) x = x.
  Proof. intros H. unfold refcast. rewrite H, Nat.eqb_refl. reflexivity. Qed.

  Lemma inverse_one t f g x y : inverts t f -> flater f g -> a_dtype x = t -> val f x = Ok y ->
    a_dtype y = t /\ exists s', inverse D A I (f_b g) na y na (f_s g) = (s', Ok x) /\ flater f (with_s g s').
  Proof.
    intros (Hs & Ht & Hinv & Hlaw) Hl Hx Hv. pose proof (settled_later f g Hs Hl) as (V & Hd & Hg).
    pose proof Hs as ((W1 & W2 & W3 & W4) & Hd0 & i & o & t0 & H1 & H2 & H3).
    rewrite H3 in Ht. injection Ht as ->.
    unfold val in Hv. destruct (Nat.eqb_spec (a_ndim x) 2) as [E|E]; cbn [negb] in Hv; [|discriminate].
    rewrite H1, H3, (refcast_same t x Hx) in Hv.
    destruct (Nat.eqb_spec (a_cols x) i) as [E2|E2]; [|discriminate].
    destruct (Nat.eqb_spec (a_rows x) 0) as [E3|E3]; [discriminate|].
    destruct (W3 (view_of D A I (f_s f)) x na) as [r Hr]. rewrite Hr in Hv. subst r.
    destruct (Hlaw x y Hx E) as (K1 & K2 & K3 & K4); [congruence|exact E3|exact Hr|].
    split; [exact K1|]. pose proof Hl as (L1 & L2 & L3 & L4 & L5 & L6 & L7 & L8).
    rewrite L1. unfold inverse. rewrite bind_eq. unfold pre_inversion_checks. rewrite Hinv. cbn [negb]. rewrite bind_eq.
    unfold if_training_stop_training. unfold isdone in Hd. rewrite Hd.
    unfold bind, check_output. rewrite (L7 _ H2), K2. cbn [Nat.eqb negb]. rewrite (L7 _ H2).
    rewrite H2 in K3. injection K3 as K3. rewrite <- K3, Nat.eqb_refl.
    rewrite (L8 _ H3), (refcast_same t y K1), V, K4. cbn [run_prog].
    eexists. split; [reflexivity|]. split; [exact L1|]. unfold later; cbn; repeat split; auto.
  Qed.

  Lemma inverse_seq_vals t : forall fs gs i x y, Forall (inverts t) fs -> Forall2 flater fs gs -> a_dtype x = t ->
    vals fs x = Some y -> exists gs', inverse_seq D A I na i gs y = (gs', FOk x) /\ Forall2 flater fs gs'.
  Proof.
    intros fs gs i x y Hi Hl. revert i x y. induction Hl as [|f g fs gs Hfg Hl IH]; intros i x y Hx; cbn.
    - intros [= <-]. eexists; split; [reflexivity|constructor].
    - inversion Hi as [|? ? Hi1 Hi2]; subst. destruct (val f x) as [z|e] eqn:Ev; [|discriminate].
      intros Hv. destruct (inverse_one (a_dtype x) f g x z Hi1 Hfg eq_refl Ev) as (Hz & s' & E & Hf).
      destruct (IH Hi2 (S i) z y Hz Hv) as (gs' & G1 & G2). rewrite G1, E. eexists; split; [reflexivity|]. constructor; assumption.
  Qed.

  Lemma flow_inverse_undo t fs x fs1 y : Forall (inverts t) fs -> a_dtype x = t ->
    flow_execute_array D A I na fs x = (fs1, FOk y) ->
    exists fs2, flow_inverse_array D A I na fs1 y = (fs2, FOk x).
  Proof.
    intros Hi Hx E. unfold flow_execute_array in E.
    assert (Forall settled fs) as Hs by (eapply Forall_impl; [|exact Hi]; intros f Hf; apply Hf).
    destruct (exec_seq_settled fs fs 0 x Hs (F2_refl _ flater_refl fs)) as (gs & G1 & G2).
    destruct (vals fs x) as [y'|] eqn:Ev; [|destruct G2; congruence].
    rewrite E in G2. injection G2 as <- <-.
    destruct (inverse_seq_vals t fs fs1 0 x y Hi G1 Hx Ev) as (fs2 & F1 & _). exists fs2. exact F1.
  Qed.

  (** inverse_seq calls the inverses from the last node to the first. *)
  Lemma inverse_seq_back : forall fs i y fs' x, inverse_seq D A I na i fs y = (fs', FOk x) -> back_through na fs y = Some x.
  Proof.
    induction fs as [|f fs IH]; intros i y fs' x; cbn; [congruence|].
    destruct (inverse_seq D A I na (S i) fs y) as [fs1 [z|e]] eqn:E; [|discriminate].
    rewrite (IH _ _ _ _ E). destruct (inverse D A I (f_b f) na z na (f_s f)) as [s' [w|e]]; [|discriminate].
    intros [= _ <-]. reflexivity.
  Qed.
End Exec.

(** ** Nodes acting row by row: chunking is irrelevant *)
Section Rowwise.
  Variables (V A I : Type) (na : A).
  Notation D := (list V).
  Notation fnode := (fnode D A I).

  (** numx.concatenate along axis 0 of 2d arrays given as lists of rows; dtype promotion is [max]. *)
  Fixpoint cat_rows (xs : list (array D)) : option (array D) :=
    match xs with
    | [] => None
    | [x] => if a_ndim x =? 2 then Some x else None
    | x :: xs =>
        match cat_rows xs with
        | Some r => if (a_ndim x =? 2) && (a_cols x =? a_cols r)
                    then Some (mkArray 2 (a_rows x + a_rows r) (a_cols x) (Nat.max (a_dtype x) (a_dtype r)) (a_data x ++ a_data r))
                    else None
        | None => None
        end
    end.

  (** The _execute hook applies a function to every row. *)
  Definition rowwise (b : behaviour D A I) : Prop :=
    exists (o : nat) (g : view I -> V -> V), forall v x a,
      b_execute _ _ _ b v x a = PRet (Ok (mkArray 2 (a_rows x) o (a_dtype x) (map (g v) (a_data x)))).

  Definition sameshape (x1 x2 : array D) := a_ndim x1 = 2 /\ a_ndim x2 = 2 /\ a_cols x1 = a_cols x2 /\ a_rows x1 <> 0 /\ a_rows x2 <> 0.
  Definition joined (x1 x2 : array D) : array D :=
    mkArray 2 (a_rows x1 + a_rows x2) (a_cols x1) (Nat.max (a_dtype x1) (a_dtype x2)) (a_data x1 ++ a_data x2).

  Lemma val_joined f x1 x2 y1 y2 : settled D A I f -> rowwise (f_b _ _ _ f) ->
    val D A I na f x1 = Ok y1 -> val D A I na f x2 = Ok y2 ->
    sameshape x1 x2 /\ sameshape y1 y2 /\ val D A I na f (joined x1 x2) = Ok (joined y1 y2).
  Proof.
    intros ((W1 & W2 & W3 & W4) & Hd & i & o & t & H1 & H2 & H3) (o' & g & Hg).
    unfold val. rewrite H1, H3. cbn [a_ndim a_cols a_rows joined].
    destruct (Nat.eqb_spec (a_ndim x1) 2) as [E1|E1]; cbn [negb]; [|discriminate].
    destruct (Nat.eqb_spec (a_cols x1) i) as [E2|E2]; [|discriminate].
    destruct (Nat.eqb_spec (a_rows x1) 0) as [E3|E3]; [discriminate|].
    rewrite !Hg. intros [= <-].
    destruct (Nat.eqb_spec (a_ndim x2) 2) as [F1|F1]; cbn [negb]; [|discriminate].
    destruct (Nat.eqb_spec (a_cols x2) i) as [F2|F2]; [|discriminate].
    destruct (Nat.eqb_spec (a_rows x2) 0) as [F3|F3]; [discriminate|]. intros [= <-].
    assert (forall x, a_rows (refcast D (Some t) x) = a_rows x /\ a_dtype (refcast D (Some t) x) = t /\ a_data (refcast D (Some t) x) = a_data x) as Hrc.
    { intros x. unfold refcast. destruct (Nat.eqb_spec (a_dtype x) t); cbn; auto. }
    destruct (Nat.eqb_spec (a_rows x1 + a_rows x2) 0); [lia|]. cbn [Nat.eqb negb].
    destruct (Hrc x1) as (R1 & R2 & R3), (Hrc x2) as (S1 & S2 & S3).
    destruct (Hrc (mkArray 2 (a_rows x1 + a_rows x2) (a_cols x1) (Nat.max (a_dtype x1) (a_dtype x2)) (a_data x1 ++ a_data x2))) as (T1 & T2 & T3).
    unfold sameshape, joined; cbn [a_ndim a_rows a_cols a_dtype a_data] in *. rewrite ?R1, ?R2, ?R3, ?S1, ?S2, ?S3, ?T1, ?T2, ?T3.
    rewrite map_app. destruct (Nat.eqb_spec (a_dtype x1) t) as [Q1|Q1], (Nat.eqb_spec (a_dtype x2) t) as [Q2|Q2]; cbn [a_rows a_dtype a_data];
      rewrite ?Q1, ?Q2, ?Nat.max_id; repeat split; auto; congruence.
  Qed.

  Lemma vals_joined fs x1 x2 y1 y2 : Forall (settled D A I) fs -> Forall (fun f => rowwise (f_b _ _ _ f)) fs -> fs <> [] ->
    vals D A I na fs x1 = Some y1 -> vals D A I na fs x2 = Some y2 ->
    sameshape x1 x2 /\ sameshape y1 y2 /\ vals D A I na fs (joined x1 x2) = Some (joined y1 y2).
  Proof.
    intros Hs Hr Hne. revert x1 x2. induction fs as [|f fs IH]; intros x1 x2; [congruence|].
    inversion Hs; inversion Hr; subst. cbn [vals].
    destruct (val D A I na f x1) as [z1|] eqn:E1; [|discriminate]. destruct (val D A I na f x2) as [z2|] eqn:E2; [|discriminate].
    intros V1 V2. destruct (val_joined f x1 x2 z1 z2) as (S1 & S2 & S3); auto. rewrite S3. split; [exact S1|].
    destruct fs as [|f2 fs]; [cbn in *; injection V1 as ->; injection V2 as ->; auto|].
    destruct (IH H2 H6 ltac:(discriminate) z1 z2 V1 V2) as (T1 & T2 & T3). auto.
  Qed.

  Lemma cat_cons x1 x2 xs r : cat_rows (x2 :: xs) = Some r -> sameshape x1 r -> cat_rows (x1 :: x2 :: xs) = Some (joined x1 r).
  Proof.
    intros H (S1 & S2 & S3 & S4 & S5). cbn [cat_rows]. cbn [cat_rows] in H. rewrite H, S1, S3, Nat.eqb_refl. cbn.
    unfold joined. rewrite S3, ?Nat.eqb_refl. reflexivity.
  Qed.
  Lemma cat_cons_inv x1 x2 xs r : cat_rows (x1 :: x2 :: xs) = Some r -> exists r', cat_rows (x2 :: xs) = Some r' /\
    a_ndim x1 = 2 /\ a_cols x1 = a_cols r' /\ r = joined x1 r'.
  Proof.
    intros H. cbn [cat_rows] in H. cbn [cat_rows]. destruct (match xs with [] => _ | _ => _ end) as [r'|]; [|discriminate].
    destruct (Nat.eqb_spec (a_ndim x1) 2) as [E|E]; [|discriminate]. destruct (Nat.eqb_spec (a_cols x1) (a_cols r')) as [E2|E2]; [|discriminate].
    injection H as <-. exists r'. auto.
  Qed.

  Lemma vals_cat fs : Forall (settled D A I) fs -> Forall (fun f => rowwise (f_b _ _ _ f)) fs -> fs <> [] ->
    forall xs ys X, mapM D (vals D A I na fs) xs = Some ys -> cat_rows xs = Some X ->
    exists Y, cat_rows ys = Some Y /\ vals D A I na fs X = Some Y.
  Proof.
    intros Hs Hr Hne. induction xs as [|x1 xs IH]; intros ys X; [discriminate|].
    destruct xs as [|x2 xs].
    - cbn. destruct (a_ndim x1 =? 2); [|discriminate]. destruct (vals D A I na fs x1) as [y|] eqn:E; [|discriminate].
      intros [= <-] [= <-]. exists y. split; [|exact E]. cbn.
      destruct (vals_joined fs x1 x1 y y Hs Hr Hne E E) as (_ & (S1 & _) & _). rewrite S1. reflexivity.
    - cbn [mapM]. destruct (vals D A I na fs x1) as [y1|] eqn:E1; [|discriminate].
      destruct (mapM D (vals D A I na fs) (x2 :: xs)) as [ys'|] eqn:E2; [|cbn [mapM] in E2; rewrite E2; discriminate].
      cbn [mapM] in E2. rewrite E2. intros [= <-] HX. apply cat_cons_inv in HX as (X' & HX' & K1 & K2 & ->).
      destruct (IH ys' X' eq_refl HX') as (Y' & HY1 & HY2).
      destruct (vals_joined fs x1 X' y1 Y' Hs Hr Hne E1 HY2) as (S1 & S2 & S3).
      exists (joined y1 Y'). split; [|exact S3].
      destruct ys' as [|y2 ys']; [discriminate|]. apply cat_cons; assumption.
  Qed.

  Lemma flow_execute_rowwise fs xs X fs' y : Forall (settled D A I) fs -> Forall (fun f => rowwise (f_b _ _ _ f)) fs -> fs <> [] ->
    cat_rows xs = Some X ->
    flow_execute D A I na cat_rows (length fs) fs xs = (fs', FOk y) ->
    exists fs2, flow_execute_array D A I na fs X = (fs2, FOk y).
  Proof.
    intros Hs Hr Hne HX. unfold flow_execute.
    destruct (map_chunks_settled D A I na xs fs fs Hs (F2_refl _ (flater_refl D A I) fs)) as (gs & G1 & G2).
    destruct (mapM D (vals D A I na fs) xs) as [ys|] eqn:Em; [|destruct G2 as [e G2]; rewrite G2; discriminate].
    rewrite G2. destruct (vals_cat fs Hs Hr Hne xs ys X Em HX) as (Y & Y1 & Y2).
    destruct xs as [|x xs]; [discriminate|]. rewrite Y1. intros [= _ <-].
    destruct (exec_seq_settled D A I na fs fs 0 X Hs (F2_refl _ (flater_refl D A I) fs)) as (gs' & K1 & K2).
    rewrite Y2 in K2. unfold flow_execute_array. eauto.
  Qed.
End Rowwise.
