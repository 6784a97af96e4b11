(** Proofs about the Node state machine (NodeModel.v). *)
From Coq Require Import List Arith ZArith Lia Bool.
From Verif Require Import NodeModel NodeSpec.
Import ListNotations.
Open Scope Z_scope.

Section P.
  Variables D A I : Type.
  Notation array := (array D).
  Notation node := (node D A I).
  Notation event := (event D A).
  Variable b : behaviour D A I.
  Variable na : A.

  Definition nphases : nat := if b_trainable _ _ _ b then b_phases _ _ _ b else 0%nat.

  (** ** Frame lemmas *)
  Definition book (s : node) := (n_training _ _ _ s, n_phase _ _ _ s, n_started _ _ _ s, n_trace _ _ _ s).

  Arguments book : simpl never.
  Arguments closed {D A} _ : simpl never.
  Arguments trained_in {D A} _ _ : simpl never.
  Arguments legal_life {D A} _ _ : simpl never.
  Arguments set_dtype : simpl never.
  Arguments set_input_dim : simpl never.
  Arguments set_output_dim : simpl never.
  Arguments check_input : simpl never.
  Arguments check_output : simpl never.

  Lemma book_p_in n s : book (fst (p_set_input_dim D A I b n s)) = book s.
  Proof. unfold p_set_input_dim. destruct (b_preserve _ _ _ b); [|reflexivity].
         destruct (n_out _ _ _ s) as [o|]; [destruct (Nat.eqb o n)|]; reflexivity. Qed.
  Lemma book_set_in n s : book (fst (set_input_dim D A I b n s)) = book s.
  Proof. unfold set_input_dim. destruct n as [n|]; [|reflexivity].
         destruct (n_in _ _ _ s) as [m|]; [destruct (Nat.eqb m n)|]; try reflexivity; apply book_p_in. Qed.
  Lemma book_p_out n s : book (fst (p_set_output_dim D A I b n s)) = book s.
  Proof. unfold p_set_output_dim. destruct (b_preserve _ _ _ b); [|reflexivity].
         destruct (n_in _ _ _ s) as [o|]; [destruct (Nat.eqb o n)|]; reflexivity. Qed.
  Lemma book_set_out n s : book (fst (set_output_dim D A I b n s)) = book s.
  Proof. unfold set_output_dim. destruct n as [n|]; [|reflexivity].
         destruct (n_out _ _ _ s) as [m|]; [destruct (Nat.eqb m n)|]; try reflexivity; apply book_p_out. Qed.
  Lemma book_set_dt t s : book (fst (set_dtype D A I b t s)) = book s.
  Proof. unfold set_dtype. destruct t as [t|]; [|reflexivity].
         destruct (n_dt _ _ _ s) as [m|]; [destruct (Nat.eqb m t)|];
         try destruct (b_supported _ _ _ b t); reflexivity. Qed.

  Lemma book_req q s : book (fst (match q with
                 | ReqIn n => set_input_dim D A I b (Some n)
                 | ReqOut n => set_output_dim D A I b (Some n)
                 | ReqDtype t => set_dtype D A I b (Some t)
                 end s)) = book s.
  Proof. destruct q; [apply book_set_in|apply book_set_out|apply book_set_dt]. Qed.

  Lemma book_prog {R} (p : prog I R) : forall s, book (fst (run_prog D A I b p s)) = book s.
  Proof.
    induction p as [r|i k IH|q k IH]; intros s; cbn [run_prog].
    - reflexivity.
    - rewrite IH. reflexivity.
    - pose proof (book_req q s) as Hq.
      destruct ((match q with
                 | ReqIn n => set_input_dim D A I b (Some n)
                 | ReqOut n => set_output_dim D A I b (Some n)
                 | ReqDtype t => set_dtype D A I b (Some t)
                 end) s) as [s' [u|e]]; cbn in Hq |- *.
      + rewrite IH. exact Hq.
      + exact Hq.
  Qed.

  Lemma book_check_input x s : book (fst (check_input D A I b x s)) = book s.
  Proof.
    unfold check_input. destruct (negb _); [reflexivity|]. unfold bind, ret.
    destruct (n_in _ _ _ s) as [d|] eqn:Ein.
    - destruct (n_dt _ _ _ s) as [t|] eqn:Edt.
      + rewrite Ein. destruct (Nat.eqb _ d); [|reflexivity]. destruct (Nat.eqb _ 0); reflexivity.
      + pose proof (book_set_dt (Some (a_dtype x)) s) as Hd.
        destruct (set_dtype D A I b (Some (a_dtype x)) s) as [s1 [u|e]]; cbn in Hd |- *; [|exact Hd].
        destruct (n_in _ _ _ s1) as [d1|]; [|exact Hd].
        destruct (Nat.eqb _ d1); [|exact Hd]. destruct (Nat.eqb _ 0); exact Hd.
    - pose proof (book_set_in (Some (a_cols x)) s) as Hi.
      destruct (set_input_dim D A I b (Some (a_cols x)) s) as [s1 [u|e]]; cbn in Hi |- *; [|exact Hi].
      assert (book s1 = book s) as Hs1 by exact Hi.
      destruct (n_dt _ _ _ s1) as [t|] eqn:Edt.
      + destruct (n_in _ _ _ s1) as [d1|]; [|exact Hi].
        destruct (Nat.eqb _ d1); [|exact Hi]. destruct (Nat.eqb _ 0); exact Hi.
      + pose proof (book_set_dt (Some (a_dtype x)) s1) as Hd.
        destruct (set_dtype D A I b (Some (a_dtype x)) s1) as [s2 [u2|e]]; cbn in Hd |- *; [|congruence].
        destruct (n_in _ _ _ s2) as [d1|]; [|cbn; congruence].
        destruct (Nat.eqb _ d1); [|cbn; congruence]. destruct (Nat.eqb _ 0); cbn; congruence.
  Qed.

  Lemma book_check_output y s : book (fst (check_output D A I y s)) = book s.
  Proof.
    unfold check_output. destruct (negb _); [reflexivity|].
    destruct (n_out _ _ _ s) as [d|]; [destruct (Nat.eqb _ d)|]; reflexivity.
  Qed.

  (** ** The lifecycle invariant *)
  Definition life_inv (s : node) : Prop :=
    legal_life nphases (n_trace _ _ _ s) /\
    (closed (n_trace _ _ _ s) <= nphases)%nat /\
    n_training _ _ _ s = (closed (n_trace _ _ _ s) <? nphases)%nat /\
    n_phase _ _ _ s = (if b_trainable _ _ _ b then Z.of_nat (closed (n_trace _ _ _ s)) else -1) /\
    (n_started _ _ _ s = true <-> trained_in (closed (n_trace _ _ _ s)) (n_trace _ _ _ s)).

  Lemma life_inv_book s s' : book s' = book s -> life_inv s -> life_inv s'.
  Proof.
    unfold book, life_inv. intros H. injection H as H1 H2 H3 H4. rewrite H1, H2, H3, H4. tauto.
  Qed.

  Lemma closed_app t1 t2 : closed (t1 ++ t2 : list event) = (closed t1 + closed t2)%nat.
  Proof. unfold closed. rewrite filter_app, app_length. reflexivity. Qed.

  Lemma legal_snoc k (tr : list event) e : legal_life k tr -> legal_event k tr e -> legal_life k (tr ++ [e]).
  Proof.
    intros Hl He before e' after Heq.
    destruct (exists_last (l := e' :: after)) as [after' [z Hz]]; [discriminate|].
    rewrite Hz in Heq. rewrite app_assoc in Heq. apply app_inj_tail in Heq. destruct Heq as [H1 H2].
    destruct after' as [|w after'].
    - cbn in Hz. injection Hz as Hz1 Hz2. rewrite app_nil_r in H1. subst. exact He.
    - cbn in Hz. injection Hz as Hz1 Hz2. subst. exact (Hl before w after' eq_refl).
  Qed.

  Lemma trained_in_app p (t1 t2 : list event) : trained_in p t1 -> trained_in p (t1 ++ t2).
  Proof. intros (x & a & H). exists x, a. apply in_or_app. left; exact H. Qed.

  Lemma trained_in_snoc p (t : list event) e : trained_in p (t ++ [e]) ->
    match e with EvTrain _ _ _ _ _ => False | _ => True end -> trained_in p t.
  Proof.
    intros (x & a & H) He. apply in_app_or in H. destruct H as [H|[H|[]]]; [exists x, a; exact H|].
    subst e. contradiction.
  Qed.

  Lemma trained_in_le k p (t : list event) : legal_life k t -> trained_in p t -> (p <= closed t)%nat.
  Proof.
    intros Hl (x & a & H). apply in_split in H as (l1 & l2 & E). destruct (Hl l1 _ l2 E) as [-> _].
    rewrite E, closed_app. lia.
  Qed.

  Hypothesis Hk : b_trainable _ _ _ b = true -> (0 < b_phases _ _ _ b)%nat.

  Lemma nphases_trainable : b_trainable _ _ _ b = true -> nphases = b_phases _ _ _ b.
  Proof. unfold nphases. intros ->. reflexivity. Qed.

  Lemma phase_index_inv s : life_inv s -> n_training _ _ _ s = true ->
    phase_index D A I b s = Some (closed (n_trace _ _ _ s)) /\ (closed (n_trace _ _ _ s) < nphases)%nat
    /\ b_trainable _ _ _ b = true.
  Proof.
    intros (H1 & H2 & H3 & H4 & H5) Ht.
    rewrite Ht in H3. symmetry in H3. apply Nat.ltb_lt in H3.
    assert (b_trainable _ _ _ b = true) as Hb.
    { unfold nphases in H3. destruct (b_trainable _ _ _ b); [reflexivity|lia]. }
    rewrite Hb in H4. unfold phase_index.
    unfold nphases in H3. rewrite Hb in H3.
    assert ((0 <=? n_phase _ _ _ s) = true) as -> by (apply Z.leb_le; lia).
    assert ((n_phase _ _ _ s <? Z.of_nat (b_phases D A I b)) = true) as -> by (apply Z.ltb_lt; lia).
    cbn. rewrite H4, Nat2Z.id. repeat split; try exact Hb. rewrite nphases_trainable by exact Hb. exact H3.
  Qed.

  Lemma life_add_train s x a :
    life_inv s -> n_training _ _ _ s = true ->
    life_inv (add_event D A I (set_n_started D A I s true) (EvTrain D A (closed (n_trace _ _ _ s)) x a)).
  Proof.
    intros Hi Ht. destruct (phase_index_inv s Hi Ht) as (_ & Hlt & Hb).
    destruct Hi as (H1 & H2 & H3 & H4 & H5).
    unfold life_inv; cbn. rewrite !closed_app. change (closed [EvTrain D A (closed (n_trace D A I s)) x a]) with 0%nat. rewrite Nat.add_0_r.
    repeat split.
    - apply legal_snoc; [exact H1|]. cbn. split; [reflexivity|exact Hlt].
    - exact H2.
    - exact H3.
    - exact H4.
    - intros _. exists x, a. apply in_or_app. right. left. reflexivity.
  Qed.

  Lemma train_life x a s : life_inv s -> life_inv (fst (train D A I b x a s)).
  Proof.
    intros Hi. unfold train. destruct (negb (b_trainable _ _ _ b)); [exact Hi|].
    destruct (n_training _ _ _ s) eqn:Ht; cbn [negb]; [|exact Hi].
    unfold bind.
    pose proof (book_check_input x s) as Hc.
    destruct (check_input D A I b x s) as [s1 [u|e]]; cbn [fst] in *; [|exact (life_inv_book _ _ Hc Hi)].
    pose proof (life_inv_book _ _ Hc Hi) as Hi1.
    assert (n_training _ _ _ s1 = true) as Ht1 by (injection Hc as Hc1 _ _ _; congruence).
    destruct (b_check_args _ _ _ b (view_of D A I s1) x a) as [e|]; [exact Hi1|].
    destruct (phase_index_inv s1 Hi1 Ht1) as (Hp & _ & _).
    assert (phase_index D A I b (set_n_started D A I s1 true) = phase_index D A I b s1) as -> by reflexivity.
    rewrite Hp. eapply life_inv_book; [apply book_prog|]. apply life_add_train; assumption.
  Qed.

  Lemma stop_life a s : life_inv s -> life_inv (fst (stop_training D A I b a s)).
  Proof.
    intros Hi. unfold stop_training.
    destruct (n_training _ _ _ s && negb (n_started _ _ _ s)) eqn:E1; [exact Hi|].
    destruct (n_training _ _ _ s) eqn:Ht; cbn [negb]; [|exact Hi].
    cbn in E1. apply negb_false_iff in E1.
    destruct (phase_index_inv s Hi Ht) as (Hp & Hlt & Hb). rewrite Hp.
    pose proof (book_prog (b_stop _ _ _ b (closed (n_trace _ _ _ s)) (view_of D A I s) a) s) as Hbk.
    destruct (run_prog D A I b (b_stop _ _ _ b (closed (n_trace D A I s)) (view_of D A I s) a) s) as [s1 [u|e]];
      cbn [fst] in Hbk.
    - pose proof (life_inv_book _ _ Hbk Hi) as Hi1.
      injection Hbk as B1 B2 B3 B4. destruct Hi1 as (H1 & H2 & H3 & H4 & H5).
      rewrite B4 in *. rewrite Hb in H4.
      unfold remaining. rewrite Hb. cbn.
      assert (closed (n_trace D A I s ++ [EvStop D A (closed (n_trace D A I s)) true])
              = S (closed (n_trace D A I s))) as Hcl by (rewrite closed_app; unfold closed at 2; cbn; lia).
      assert (legal_life nphases (n_trace D A I s ++ [EvStop D A (closed (n_trace D A I s)) true])) as Hleg.
      { apply legal_snoc; [exact H1|]. cbn. repeat split; try assumption. apply H5. congruence. }
      pose proof (nphases_trainable Hb) as Hnp.
      destruct (Z.of_nat (b_phases D A I b) - (n_phase D A I s1 + 1) =? 0) eqn:Er; cbn.
      + apply Z.eqb_eq in Er. unfold life_inv; cbn. rewrite B4, Hcl, Hb. repeat split; try assumption.
        * symmetry. apply Nat.ltb_ge. lia.
        * lia.
        * discriminate.
        * intros Htr. exfalso. apply trained_in_snoc in Htr; [|exact Logic.I]. apply (trained_in_le _ _ _ H1) in Htr. lia.
      + apply Z.eqb_neq in Er. unfold life_inv; cbn. rewrite B4, Hcl, Hb. repeat split; try assumption.
        * rewrite B1, Ht. symmetry. apply Nat.ltb_lt. lia.
        * lia.
        * discriminate.
        * intros Htr. exfalso. apply trained_in_snoc in Htr; [|exact Logic.I]. apply (trained_in_le _ _ _ H1) in Htr. lia.
    - pose proof (life_inv_book _ _ Hbk Hi) as Hi1.
      injection Hbk as B1 B2 B3 B4. destruct Hi1 as (H1 & H2 & H3 & H4 & H5).
      unfold life_inv; cbn. rewrite B4 in *.
      assert (closed (n_trace D A I s ++ [EvStop D A (closed (n_trace D A I s)) false])
              = closed (n_trace D A I s)) as Hcl by (rewrite closed_app; unfold closed at 2; cbn; lia).
      rewrite Hcl. repeat split; try assumption.
      + apply legal_snoc; [exact H1|]. cbn. repeat split; try assumption. apply H5. congruence.
      + intros _. apply trained_in_app. apply H5. congruence.
      + intros _. congruence.
  Qed.

  Lemma bind_life {R T} (m : M D A I R) (f : R -> M D A I T) s :
    life_inv (fst (m s)) -> (forall r s', life_inv s' -> life_inv (fst (f r s'))) ->
    life_inv (fst (bind D A I m f s)).
  Proof. unfold bind. destruct (m s) as [s' [r|e]]; cbn; intros H1 H2; [apply H2; exact H1|exact H1]. Qed.

  Lemma ifstop_life s : life_inv s -> life_inv (fst (if_training_stop_training D A I b na s)).
  Proof.
    intros Hi. unfold if_training_stop_training. destruct (n_training _ _ _ s); [|exact Hi].
    apply bind_life; [apply stop_life; exact Hi|]. intros _ s' Hs'. destruct (0 <? _); exact Hs'.
  Qed.

  Lemma auto_life fuel x : forall s, life_inv s -> life_inv (fst (auto_train D A I b na fuel x s)).
  Proof.
    induction fuel as [|fuel IH]; intros s Hi; cbn [auto_train]; [exact Hi|].
    apply bind_life; [apply train_life; exact Hi|]. intros _ s1 H1.
    destruct (1 <? _); [|exact H1]. apply bind_life; [apply stop_life; exact H1|].
    intros _ s2 H2. apply IH; exact H2.
  Qed.

  Lemma pre_exec_life x s : life_inv s -> life_inv (fst (pre_execution_checks D A I b na x s)).
  Proof.
    intros Hi. unfold pre_execution_checks. apply bind_life.
    - destruct (_ && _); [apply auto_life|]; exact Hi.
    - intros _ s1 H1. apply bind_life; [apply ifstop_life; exact H1|]. intros _ s2 H2.
      apply bind_life; [eapply life_inv_book; [apply book_check_input|exact H2]|]. intros _ s3 H3.
      destruct (n_out _ _ _ s3); [exact H3|]. eapply life_inv_book; [apply book_set_out|exact H3].
  Qed.

  Lemma pre_inv_life y s : life_inv s -> life_inv (fst (pre_inversion_checks D A I b na y s)).
  Proof.
    intros Hi. unfold pre_inversion_checks. destruct (negb _); [exact Hi|].
    apply bind_life; [apply ifstop_life; exact Hi|]. intros _ s1 H1. apply bind_life.
    - destruct (n_out _ _ _ s1); [exact H1|]. destruct (n_in _ _ _ s1); [|exact H1].
      eapply life_inv_book; [apply book_set_out|exact H1].
    - intros _ s2 H2. eapply life_inv_book; [apply book_check_output|exact H2].
  Qed.

  (** After a successful if_training_stop_training the node is not training any more. *)
  Lemma ifstop_done s s' : life_inv s -> if_training_stop_training D A I b na s = (s', Ok tt) ->
    n_training _ _ _ s' = false.
  Proof.
    unfold if_training_stop_training. intros Hi. destruct (n_training _ _ _ s) eqn:Ht.
    - pose proof (stop_life na s Hi) as Hl. unfold bind.
      destruct (stop_training D A I b na s) as [s1 [u|e]] eqn:Es; [|discriminate]. cbn in Hl.
      destruct (0 <? remaining D A I b s1) eqn:Er; [discriminate|]. intros [= <-].
      destruct Hl as (H1 & H2 & H3 & H4 & H5). rewrite H3. apply Nat.ltb_ge.
      apply Z.ltb_ge in Er. unfold remaining in Er. unfold nphases in *.
      destruct (b_trainable _ _ _ b); [rewrite H4 in Er; lia|lia].
    - intros [= <-]. exact Ht.
  Qed.

  Lemma book_training s s' : book s' = book s -> n_training _ _ _ s' = n_training _ _ _ s.
  Proof. intros H. injection H as H _ _ _. exact H. Qed.

  Lemma pre_exec_done x s s' : life_inv s -> pre_execution_checks D A I b na x s = (s', Ok tt) ->
    n_training _ _ _ s' = false.
  Proof.
    intros Hi. unfold pre_execution_checks, bind at 1.
    assert (life_inv (fst ((fun s : node => if (n_phase D A I s =? 0) && negb (n_started D A I s)
                     then auto_train D A I b na (S (b_phases D A I b)) x s else (s, Ok tt)) s))) as Ha.
    { cbn beta. destruct (_ && _); [apply auto_life|]; exact Hi. }
    destruct ((fun s : node => if (n_phase D A I s =? 0) && negb (n_started D A I s)
                     then auto_train D A I b na (S (b_phases D A I b)) x s else (s, Ok tt)) s) as [s1 [u|e]];
      [|discriminate]. cbn [fst] in Ha.
    unfold bind at 1. destruct (if_training_stop_training D A I b na s1) as [s2 [[]|e]] eqn:E2; [|discriminate].
    pose proof (ifstop_done _ _ Ha E2) as Hd.
    unfold bind. pose proof (book_check_input x s2) as Hc.
    destruct (check_input D A I b x s2) as [s3 [u3|e]]; [|discriminate]. cbn in Hc. apply book_training in Hc.
    destruct (n_out _ _ _ s3).
    - intros [= <-]. congruence.
    - pose proof (book_set_out (n_in _ _ _ s3) s3) as Ho. intros E. rewrite E in Ho. cbn in Ho.
      apply book_training in Ho. congruence.
  Qed.

  Lemma pre_inv_done y s s' : life_inv s -> pre_inversion_checks D A I b na y s = (s', Ok tt) ->
    n_training _ _ _ s' = false.
  Proof.
    intros Hi. unfold pre_inversion_checks. destruct (negb _); [discriminate|].
    unfold bind at 1. destruct (if_training_stop_training D A I b na s) as [s2 [[]|e]] eqn:E2; [|discriminate].
    pose proof (ifstop_done _ _ Hi E2) as Hd. unfold bind.
    destruct (n_out _ _ _ s2) eqn:Eo.
    - pose proof (book_check_output y s2) as Hc. intros E. rewrite E in Hc. apply book_training in Hc.
      cbn in Hc. congruence.
    - destruct (n_in _ _ _ s2); [|discriminate].
      pose proof (book_set_out (Some n) s2) as Ho.
      destruct (set_output_dim D A I b (Some n) s2) as [s3 [u3|e]]; [|discriminate]. apply book_training in Ho.
      pose proof (book_check_output y s3) as Hc. intros E. rewrite E in Hc. apply book_training in Hc.
      cbn in *. congruence.
  Qed.

  Lemma life_add_use s e : life_inv s -> n_training _ _ _ s = false ->
    (match e with EvExec _ _ _ _ | EvInv _ _ _ _ => True | _ => False end) ->
    life_inv (add_event D A I s e).
  Proof.
    intros (H1 & H2 & H3 & H4 & H5) Ht He. unfold life_inv; cbn.
    assert (closed (n_trace D A I s ++ [e]) = closed (n_trace D A I s)) as Hcl
      by (rewrite closed_app; destruct e; try contradiction; unfold closed at 2; cbn; lia).
    rewrite Hcl. rewrite Ht in H3. symmetry in H3. apply Nat.ltb_ge in H3.
    assert (closed (n_trace D A I s) = nphases) as Heq by lia.
    repeat split; try assumption.
    - apply legal_snoc; [exact H1|]. destruct e; cbn; try contradiction; exact Heq.
    - rewrite Ht. symmetry. apply Nat.ltb_ge. exact H3.
    - intros Hs. apply trained_in_app. apply H5. exact Hs.
    - intros Hs. apply H5. eapply trained_in_snoc; [exact Hs|]. destruct e; try contradiction; exact Logic.I.
  Qed.

  Lemma execute_life x a s : life_inv s -> life_inv (fst (execute D A I b na x a s)).
  Proof.
    intros Hi. unfold execute, bind.
    pose proof (pre_exec_life x s Hi) as Hl. pose proof (pre_exec_done x s) as Hd.
    destruct (pre_execution_checks D A I b na x s) as [s1 [[]|e]]; cbn [fst] in Hl; [|exact Hl].
    specialize (Hd s1 Hi eq_refl). eapply life_inv_book; [apply book_prog|].
    apply life_add_use; [exact Hl|exact Hd|exact Logic.I].
  Qed.

  Lemma inverse_life y a s : life_inv s -> life_inv (fst (inverse D A I b na y a s)).
  Proof.
    intros Hi. unfold inverse, bind.
    pose proof (pre_inv_life y s Hi) as Hl. pose proof (pre_inv_done y s) as Hd.
    destruct (pre_inversion_checks D A I b na y s) as [s1 [[]|e]]; cbn [fst] in Hl; [|exact Hl].
    specialize (Hd s1 Hi eq_refl). eapply life_inv_book; [apply book_prog|].
    apply life_add_use; [exact Hl|exact Hd|exact Logic.I].
  Qed.

  Lemma step_life c s : life_inv s -> life_inv (fst (step D A I b na c s)).
  Proof.
    intros Hi. destruct c; cbn.
    - apply train_life; exact Hi.
    - apply stop_life; exact Hi.
    - apply execute_life; exact Hi.
    - apply inverse_life; exact Hi.
    - eapply life_inv_book; [apply book_set_in|exact Hi].
    - eapply life_inv_book; [apply book_set_out|exact Hi].
    - eapply life_inv_book; [apply book_set_dt|exact Hi].
  Qed.

  Lemma run_life cs : forall s, life_inv s -> life_inv (run D A I b na cs s).
  Proof. induction cs as [|c cs IH]; intros s Hi; cbn; [exact Hi|]. apply IH, step_life, Hi. Qed.

  Lemma init_life i0 din dout dt s : init D A I b i0 din dout dt = (s, Ok tt) -> life_inv s.
  Proof.
    unfold init. intros H.
    assert (forall s1 (r : res unit), (bind D A I (set_input_dim D A I b din) (fun _ => bind D A I (set_output_dim D A I b dout)
               (fun _ => set_dtype D A I b dt))) (blank D A I i0) = (s1, r) -> book s1 = book (blank D A I i0)) as Hb.
    { intros s1 r. unfold bind. pose proof (book_set_in din (blank D A I i0)) as B1.
      destruct (set_input_dim D A I b din (blank D A I i0)) as [t1 [u1|e1]]; cbn in B1; [|intros [= <- _]; exact B1].
      pose proof (book_set_out dout t1) as B2.
      destruct (set_output_dim D A I b dout t1) as [t2 [u2|e2]]; cbn in B2; [|intros [= <- _]; unfold book in *; congruence].
      pose proof (book_set_dt dt t2) as B3. intros E. rewrite E in B3. cbn in B3. unfold book in *; congruence. }
    destruct ((bind D A I (set_input_dim D A I b din) (fun _ => bind D A I (set_output_dim D A I b dout)
               (fun _ => set_dtype D A I b dt))) (blank D A I i0)) as [s1 [u|e]]; [|discriminate].
    specialize (Hb s1 _ eq_refl). injection Hb as B1 B2 B3 B4.
    unfold life_inv, nphases. destruct (b_trainable _ _ _ b) eqn:Eb; injection H as H; subst s; cbn; rewrite B4; cbn.
    - split; [intros before e after Hx; destruct before; discriminate|].
      split; [unfold closed; cbn; lia|]. split; [symmetry; apply Nat.ltb_lt; unfold closed; cbn; auto|].
      split; [reflexivity|split; [discriminate|intros (? & ? & [])]].
    - split; [intros before e after Hx; destruct before; discriminate|].
      split; [unfold closed; cbn; lia|]. split; [reflexivity|]. split; [reflexivity|split; [discriminate|intros (? & ? & [])]].
  Qed.

  (** ** Finished nodes reject further training unchanged *)
  Lemma finished_train x a s : n_training _ _ _ s = false -> b_trainable _ _ _ b = true ->
    train D A I b x a s = (s, Err TrainingFinished).
  Proof. intros Ht Hb. unfold train. rewrite Hb, Ht. reflexivity. Qed.
  Lemma finished_stop a s : n_training _ _ _ s = false -> stop_training D A I b a s = (s, Err TrainingFinished).
  Proof. intros Ht. unfold stop_training. rewrite Ht. reflexivity. Qed.

  (** ** Write-once attributes *)
  Definition keeps (s s' : node) : Prop :=
    (forall v, n_in _ _ _ s = Some v -> n_in _ _ _ s' = Some v) /\
    (forall v, n_out _ _ _ s = Some v -> n_out _ _ _ s' = Some v) /\
    (forall v, n_dt _ _ _ s = Some v -> n_dt _ _ _ s' = Some v).

  Lemma keeps_refl s : keeps s s.
  Proof. repeat split; auto. Qed.
  Lemma keeps_trans s1 s2 s3 : keeps s1 s2 -> keeps s2 s3 -> keeps s1 s3.
  Proof. intros (A1 & A2 & A3) (B1 & B2 & B3). repeat split; auto. Qed.

  (** [PreserveDimNode]: the two dims agree. *)
  Definition pres_inv (s : node) : Prop := b_preserve _ _ _ b = true -> n_in _ _ _ s = n_out _ _ _ s.

  (** [good]: everything that may happen between two states. *)
  Definition good (s s' : node) : Prop := keeps s s' /\ (pres_inv s -> pres_inv s').
  Lemma good_refl s : good s s.
  Proof. split; [apply keeps_refl|auto]. Qed.
  Lemma good_trans s1 s2 s3 : good s1 s2 -> good s2 s3 -> good s1 s3.
  Proof. intros [A1 A2] [B1 B2]. split; [eapply keeps_trans; eassumption|auto]. Qed.
  Definition dims (s : node) := (n_in _ _ _ s, n_out _ _ _ s, n_dt _ _ _ s).
  Lemma good_dims s s' : dims s' = dims s -> good s s'.
  Proof. intros H. injection H as H1 H2 H3. unfold good, keeps, pres_inv. rewrite H1, H2, H3. repeat split; auto. Qed.

  Ltac crush_good := repeat split; intros;
    repeat match goal with H : ?x = ?x -> _ |- _ => specialize (H eq_refl) end;
    try match goal with H : ?x = true -> _, H1 : ?x = true |- _ => specialize (H H1) end; congruence.

  Lemma good_set_in n s : good s (fst (set_input_dim D A I b n s)).
  Proof.
    unfold set_input_dim, p_set_input_dim, good, keeps, pres_inv. destruct n as [n|]; [|apply good_refl].
    destruct (n_in _ _ _ s) as [m|] eqn:E1; [destruct (Nat.eqb_spec m n)|].
    - subst m. destruct (b_preserve _ _ _ b) eqn:Eb.
      + destruct (n_out _ _ _ s) as [o|] eqn:E2; [destruct (Nat.eqb_spec o n)|]; cbn; subst; crush_good.
      + cbn. crush_good.
    - cbn. crush_good.
    - destruct (b_preserve _ _ _ b) eqn:Eb.
      + destruct (n_out _ _ _ s) as [o|] eqn:E2; [destruct (Nat.eqb_spec o n)|]; cbn; subst; crush_good.
      + cbn. crush_good.
  Qed.

  Lemma good_set_out n s : good s (fst (set_output_dim D A I b n s)).
  Proof.
    unfold set_output_dim, p_set_output_dim, good, keeps, pres_inv. destruct n as [n|]; [|apply good_refl].
    destruct (n_out _ _ _ s) as [m|] eqn:E1; [destruct (Nat.eqb_spec m n)|].
    - subst m. destruct (b_preserve _ _ _ b) eqn:Eb.
      + destruct (n_in _ _ _ s) as [o|] eqn:E2; [destruct (Nat.eqb_spec o n)|]; cbn; subst; crush_good.
      + cbn. crush_good.
    - cbn. crush_good.
    - destruct (b_preserve _ _ _ b) eqn:Eb.
      + destruct (n_in _ _ _ s) as [o|] eqn:E2; [destruct (Nat.eqb_spec o n)|]; cbn; subst; crush_good.
      + cbn. crush_good.
  Qed.

  Lemma good_set_dt t s : good s (fst (set_dtype D A I b t s)).
  Proof.
    unfold set_dtype. destruct t as [t|]; [|apply good_refl].
    destruct (n_dt _ _ _ s) as [m|] eqn:E1; [destruct (Nat.eqb_spec m t)|];
      try destruct (b_supported _ _ _ b t); try apply good_refl;
      unfold good, keeps, pres_inv; cbn; crush_good.
  Qed.

  Lemma good_prog {R} (p : prog I R) : forall s, good s (fst (run_prog D A I b p s)).
  Proof.
    induction p as [r|i k IH|q k IH]; intros s; cbn [run_prog].
    - apply good_refl.
    - eapply good_trans; [|apply IH]. apply good_dims. reflexivity.
    - assert (good s (fst ((match q with
                 | ReqIn n => set_input_dim D A I b (Some n)
                 | ReqOut n => set_output_dim D A I b (Some n)
                 | ReqDtype t => set_dtype D A I b (Some t)
                 end) s))) as Hq.
      { destruct q; [apply good_set_in|apply good_set_out|apply good_set_dt]. }
      destruct ((match q with
                 | ReqIn n => set_input_dim D A I b (Some n)
                 | ReqOut n => set_output_dim D A I b (Some n)
                 | ReqDtype t => set_dtype D A I b (Some t)
                 end) s) as [s' [u|e]]; cbn in Hq |- *; [|exact Hq].
      eapply good_trans; [exact Hq|apply IH].
  Qed.

  Lemma good_bind {R T} (m : M D A I R) (f : R -> M D A I T) s :
    good s (fst (m s)) -> (forall r s', good s' (fst (f r s'))) -> good s (fst (bind D A I m f s)).
  Proof.
    unfold bind. destruct (m s) as [s' [r|e]]; cbn; intros H1 H2; [|exact H1].
    eapply good_trans; [exact H1|apply H2].
  Qed.

  Lemma good_check_input x s : good s (fst (check_input D A I b x s)).
  Proof.
    unfold check_input. destruct (negb _); [apply good_refl|].
    apply good_bind.
    - destruct (n_in _ _ _ s); [apply good_refl|apply good_set_in].
    - intros _ s1. apply good_bind.
      + destruct (n_dt _ _ _ s1); [apply good_refl|apply good_set_dt].
      + intros _ s2. apply good_bind.
        * destruct (n_in _ _ _ s2); [|apply good_refl]. destruct (Nat.eqb _ _); apply good_refl.
        * intros _ s3. destruct (Nat.eqb _ _); apply good_refl.
  Qed.

  Lemma good_check_output y s : good s (fst (check_output D A I y s)).
  Proof.
    unfold check_output. destruct (negb _); [apply good_refl|].
    destruct (n_out _ _ _ s); [destruct (Nat.eqb _ _)|]; apply good_refl.
  Qed.

  Lemma good_train x a s : good s (fst (train D A I b x a s)).
  Proof.
    unfold train. destruct (negb (b_trainable _ _ _ b)); [apply good_refl|].
    destruct (negb (n_training _ _ _ s)); [apply good_refl|].
    apply good_bind; [apply good_check_input|]. intros _ s1.
    apply good_bind; [destruct (b_check_args _ _ _ b _ x a); apply good_refl|]. intros _ s2.
    apply good_bind; [apply good_dims; reflexivity|]. intros _ s3.
    destruct (phase_index _ _ _ b s3); [|apply good_refl].
    eapply good_trans; [|apply good_prog]. apply good_dims; reflexivity.
  Qed.

  Lemma good_stop a s : good s (fst (stop_training D A I b a s)).
  Proof.
    unfold stop_training. destruct (_ && _); [apply good_refl|].
    destruct (negb (n_training _ _ _ s)); [apply good_refl|].
    destruct (phase_index _ _ _ b s) as [p|]; [|apply good_refl].
    pose proof (good_prog (b_stop _ _ _ b p (view_of D A I s) a) s) as Hg.
    destruct (run_prog D A I b (b_stop _ _ _ b p (view_of D A I s) a) s) as [s1 [u|e]]; cbn [fst] in Hg.
    - eapply good_trans; [exact Hg|]. destruct (_ =? 0); apply good_dims; reflexivity.
    - eapply good_trans; [exact Hg|]. apply good_dims; reflexivity.
  Qed.

  Lemma good_ifstop s : good s (fst (if_training_stop_training D A I b na s)).
  Proof.
    unfold if_training_stop_training. destruct (n_training _ _ _ s); [|apply good_refl].
    apply good_bind; [apply good_stop|]. intros _ s1. destruct (0 <? _); apply good_refl.
  Qed.

  Lemma good_auto fuel x : forall s, good s (fst (auto_train D A I b na fuel x s)).
  Proof.
    induction fuel as [|fuel IH]; intros s; cbn [auto_train]; [apply good_refl|].
    apply good_bind; [apply good_train|]. intros _ s1. destruct (1 <? _); [|apply good_refl].
    apply good_bind; [apply good_stop|]. intros _ s2. apply IH.
  Qed.

  Lemma good_pre_exec x s : good s (fst (pre_execution_checks D A I b na x s)).
  Proof.
    unfold pre_execution_checks. apply good_bind.
    - destruct (_ && _); [apply good_auto|apply good_refl].
    - intros _ s1. apply good_bind; [apply good_ifstop|]. intros _ s2.
      apply good_bind; [apply good_check_input|]. intros _ s3.
      destruct (n_out _ _ _ s3); [apply good_refl|apply good_set_out].
  Qed.

  Lemma good_pre_inv y s : good s (fst (pre_inversion_checks D A I b na y s)).
  Proof.
    unfold pre_inversion_checks. destruct (negb _); [apply good_refl|].
    apply good_bind; [apply good_ifstop|]. intros _ s1. apply good_bind.
    - destruct (n_out _ _ _ s1); [apply good_refl|]. destruct (n_in _ _ _ s1); [apply good_set_out|apply good_refl].
    - intros _ s2. apply good_check_output.
  Qed.

  Lemma good_execute x a s : good s (fst (execute D A I b na x a s)).
  Proof.
    unfold execute. apply good_bind; [apply good_pre_exec|]. intros _ s1.
    eapply good_trans; [|apply good_prog]. apply good_dims; reflexivity.
  Qed.
  Lemma good_inverse x a s : good s (fst (inverse D A I b na x a s)).
  Proof.
    unfold inverse. apply good_bind; [apply good_pre_inv|]. intros _ s1.
    eapply good_trans; [|apply good_prog]. apply good_dims; reflexivity.
  Qed.

  Lemma good_step c s : good s (fst (step D A I b na c s)).
  Proof.
    destruct c; cbn.
    - apply good_train.
    - apply good_stop.
    - apply good_execute.
    - apply good_inverse.
    - apply good_set_in.
    - apply good_set_out.
    - apply good_set_dt.
  Qed.

  Lemma good_run cs : forall s, good s (run D A I b na cs s).
  Proof.
    induction cs as [|c cs IH]; intros s; cbn; [apply good_refl|].
    eapply good_trans; [apply good_step|apply IH].
  Qed.

  Lemma pres_init i0 din dout dt s r : init D A I b i0 din dout dt = (s, r) -> pres_inv s.
  Proof.
    clear Hk.
    unfold init. intros H.
    assert (good (blank D A I i0) (fst (bind D A I (set_input_dim D A I b din) (fun _ => bind D A I (set_output_dim D A I b dout)
               (fun _ => set_dtype D A I b dt)) (blank D A I i0)))) as Hg.
    { apply good_bind; [apply good_set_in|]. intros _ s1. apply good_bind; [apply good_set_out|].
      intros _ s2. apply good_set_dt. }
    destruct (bind D A I (set_input_dim D A I b din) (fun _ => bind D A I (set_output_dim D A I b dout)
               (fun _ => set_dtype D A I b dt)) (blank D A I i0)) as [s1 [u|e]]; cbn [fst] in Hg.
    - assert (pres_inv s1) as Hp by (apply Hg; intros _; reflexivity).
      destruct (b_trainable _ _ _ b); injection H as H _; subst s; exact Hp.
    - injection H as H _; subst s. apply Hg. intros _; reflexivity.
  Qed.

  (** Conflicting assignments raise and change nothing. *)
  Lemma conflict_in n m s : n_in _ _ _ s = Some m -> m <> n ->
    set_input_dim D A I b (Some n) s = (s, Err InconsistentDim).
  Proof. intros H Hne. unfold set_input_dim. rewrite H. destruct (Nat.eqb_spec m n); [contradiction|reflexivity]. Qed.
  Lemma conflict_out n m s : n_out _ _ _ s = Some m -> m <> n ->
    set_output_dim D A I b (Some n) s = (s, Err InconsistentDim).
  Proof. intros H Hne. unfold set_output_dim. rewrite H. destruct (Nat.eqb_spec m n); [contradiction|reflexivity]. Qed.
  Lemma conflict_dt n m s : n_dt _ _ _ s = Some m -> m <> n ->
    set_dtype D A I b (Some n) s = (s, Err NodeExc).
  Proof. intros H Hne. unfold set_dtype. rewrite H. destruct (Nat.eqb_spec m n); [contradiction|reflexivity]. Qed.

  (** ** Auto-training in execute *)

  Lemma train_ok_phase x a s s' : life_inv s -> train D A I b x a s = (s', Ok tt) ->
    n_phase _ _ _ s' = n_phase _ _ _ s /\ n_training _ _ _ s' = true /\ n_started _ _ _ s' = true.
  Proof.
    intros Hi. unfold train. destruct (negb (b_trainable _ _ _ b)); [discriminate|].
    destruct (n_training _ _ _ s) eqn:Ht; cbn [negb]; [|discriminate].
    unfold bind. pose proof (book_check_input x s) as Hc.
    destruct (check_input D A I b x s) as [s1 [u|e]]; [|discriminate]. cbn [fst] in Hc.
    pose proof (life_inv_book _ _ Hc Hi) as Hi1.
    injection Hc as B1 B2 B3 B4.
    destruct (b_check_args _ _ _ b (view_of D A I s1) x a) as [e|]; [discriminate|].
    destruct (phase_index_inv s1 Hi1) as (Hp & _ & _); [congruence|].
    assert (phase_index D A I b (set_n_started D A I s1 true) = phase_index D A I b s1) as -> by reflexivity.
    rewrite Hp. cbn zeta.
    match goal with |- run_prog _ _ _ _ ?p ?st = _ -> _ => pose proof (book_prog p st) as Hb end.
    intros E. rewrite E in Hb. injection Hb as C1 C2 C3 C4. cbn in *. repeat split; congruence.
  Qed.

  Lemma stop_ok_phase a s s' : life_inv s -> stop_training D A I b a s = (s', Ok tt) ->
    n_phase _ _ _ s' = n_phase _ _ _ s + 1 /\ n_started _ _ _ s' = false.
  Proof.
    intros Hi. unfold stop_training.
    destruct (n_training _ _ _ s && negb (n_started _ _ _ s)); [discriminate|].
    destruct (n_training _ _ _ s) eqn:Ht; cbn [negb]; [|discriminate].
    destruct (phase_index _ _ _ b s) as [p|]; [|discriminate].
    pose proof (book_prog (b_stop _ _ _ b p (view_of D A I s) a) s) as Hb.
    destruct (run_prog D A I b (b_stop _ _ _ b p (view_of D A I s) a) s) as [s1 [u|e]]; [|discriminate].
    injection Hb as B1 B2 B3 B4. destruct (_ =? 0); intros [= <-]; cbn; split; congruence.
  Qed.

  (** Running the auto-training loop and the subsequent stop equals [j] explicit train/stop rounds,
      where [j] phases are left. *)
  Lemma bind_eq {R T} (m : M D A I R) (f : R -> M D A I T) s :
    bind D A I m f s = match m s with (s', Ok r) => f r s' | (s', Err e) => (s', Err e) end.
  Proof. reflexivity. Qed.

  Lemma auto_equiv x : forall j s fuel,
    life_inv s -> b_trainable _ _ _ b = true -> (0 < j)%nat ->
    n_phase _ _ _ s = Z.of_nat (b_phases _ _ _ b) - Z.of_nat j -> n_training _ _ _ s = true ->
    (j <= fuel)%nat ->
    forall (K : M D A I array),
    (bind D A I (auto_train D A I b na fuel x) (fun _ => bind D A I (if_training_stop_training D A I b na) (fun _ => K))) s =
    match run_until D A I b na (train_stop_calls na j x) s with
    | (s', Ok _) => K s'
    | (s', Err e) => (s', Err e)
    end.
  Proof.
    induction j as [|j IH]; intros s fuel Hi Hb Hj Hph Ht Hf K; [lia|].
    destruct fuel as [|fuel]; [lia|].
    cbn [train_stop_calls auto_train]. rewrite bind_eq. rewrite bind_eq.
    pose proof (train_life x na s Hi) as Hi1. pose proof (train_ok_phase x na s) as Htp.
    cbn [run_until step].
    destruct (train D A I b x na s) as [s1 [[]|e]] eqn:E1; cbn [fst snd]; [|reflexivity].
    destruct (Htp s1 Hi eq_refl) as (P1 & P2 & P3). cbn [fst] in Hi1.
    unfold remaining at 1. rewrite Hb.
    cbn [run_until step].
    pose proof (stop_life na s1 Hi1) as Hi2. pose proof (stop_ok_phase na s1) as Hsp.
    destruct j as [|j].
    - (* last phase *)
      assert ((1 <? Z.of_nat (b_phases D A I b) - n_phase D A I s1) = false) as -> by (apply Z.ltb_ge; lia).
      unfold if_training_stop_training. unfold bind. rewrite P2.
      destruct (stop_training D A I b na s1) as [s2 [[]|e]] eqn:E2; cbn [fst snd]; [|reflexivity].
      destruct (Hsp s2 Hi1 eq_refl) as (Q1 & Q2).
      unfold remaining. rewrite Hb.
      assert ((0 <? Z.of_nat (b_phases D A I b) - n_phase D A I s2) = false) as -> by (apply Z.ltb_ge; lia).
      reflexivity.
    - assert ((1 <? Z.of_nat (b_phases D A I b) - n_phase D A I s1) = true) as -> by (apply Z.ltb_lt; lia).
      rewrite bind_eq.
      destruct (stop_training D A I b na s1) as [s2 [[]|e]] eqn:E2; cbn [fst snd]; [|reflexivity].
      destruct (Hsp s2 Hi1 eq_refl) as (Q1 & Q2). cbn [fst] in Hi2.
      assert (n_training _ _ _ s2 = true) as Ht2.
      { destruct Hi2 as (I1 & I2 & I3 & I4 & I5). rewrite I3. rewrite Hb in I4.
        pose proof (nphases_trainable Hb). apply Nat.ltb_lt. lia. }
      specialize (IH s2 fuel Hi2 Hb ltac:(lia) ltac:(lia) Ht2 ltac:(lia) K).
      unfold bind in IH |- *.
      destruct (auto_train D A I b na fuel x s2) as [s3 [u3|e3]]; cbn [train_stop_calls] in IH |- *; exact IH.
  Qed.

  Lemma pre_exec_trained x s : n_training _ _ _ s = false ->
    ((n_phase _ _ _ s =? 0) && negb (n_started _ _ _ s)) = false ->
    pre_execution_checks D A I b na x s =
    (bind D A I (check_input D A I b x) (fun _ s => match n_out _ _ _ s with
                                     | None => set_output_dim D A I b (n_in _ _ _ s) s
                                     | Some _ => (s, Ok tt) end)) s.
  Proof.
    intros Ht Hp. unfold pre_execution_checks, bind at 1. rewrite Hp.
    unfold bind at 1. unfold if_training_stop_training. rewrite Ht. reflexivity.
  Qed.

  Lemma run_until_app c1 c2 s : c2 <> [] ->
    run_until D A I b na (c1 ++ c2) s =
    match run_until D A I b na c1 s with
    | (s', Ok _) => run_until D A I b na c2 s'
    | (s', Err e) => (s', Err e)
    end.
  Proof.
    intros Hne. revert s. induction c1 as [|c c1 IH]; intros s; [reflexivity|].
    cbn [app run_until]. destruct (step D A I b na c s) as [s' [r|e]]; [|reflexivity].
    destruct c1 as [|c' c1].
    - cbn [app]. destruct c2; [contradiction|reflexivity].
    - change ((c' :: c1) ++ c2) with (c' :: (c1 ++ c2)) in *. apply IH.
  Qed.

  Lemma run_until_life cs : forall s, life_inv s -> life_inv (fst (run_until D A I b na cs s)).
  Proof.
    induction cs as [|c cs IH]; intros s Hi; cbn [run_until]; [exact Hi|].
    pose proof (step_life c s Hi) as H1.
    destruct (step D A I b na c s) as [s' [r|e]]; [|exact H1]. cbn [fst] in H1.
    destruct cs; [exact H1|]. apply IH; exact H1.
  Qed.

  Lemma rounds_phase x : forall j s s' r, life_inv s -> (0 < j)%nat ->
    run_until D A I b na (train_stop_calls na j x) s = (s', Ok r) ->
    n_phase _ _ _ s' = n_phase _ _ _ s + Z.of_nat j /\ b_trainable _ _ _ b = true.
  Proof.
    induction j as [|j IH]; intros s s' r Hi Hj; [lia|].
    cbn [train_stop_calls run_until step].
    pose proof (train_life x na s Hi) as Hi1. pose proof (train_ok_phase x na s) as Htp.
    assert (b_trainable _ _ _ b = false -> snd (train D A I b x na s) = Err IsNotTrainable) as Hnt.
    { intros Hb. unfold train. rewrite Hb. reflexivity. }
    destruct (train D A I b x na s) as [s1 [[]|e]] eqn:E1; cbn [fst snd] in *; [|discriminate].
    destruct (Htp s1 Hi eq_refl) as (P1 & P2 & P3).
    pose proof (stop_life na s1 Hi1) as Hi2. pose proof (stop_ok_phase na s1) as Hsp.
    destruct (stop_training D A I b na s1) as [s2 [[]|e]] eqn:E2; cbn [fst snd] in *; [|discriminate].
    destruct (Hsp s2 Hi1 eq_refl) as (Q1 & Q2).
    destruct j as [|j].
    - cbn. intros [= <- <-]. split; [lia|]. destruct (b_trainable _ _ _ b); [reflexivity|]. discriminate (Hnt eq_refl).
    - intros E. change (run_until D A I b na (train_stop_calls na (S j) x) s2 = (s', Ok r)) in E.
      destruct (IH s2 s' r Hi2 ltac:(lia) E) as [IH1 IH2]. split; [lia|exact IH2].
  Qed.

  Lemma execute_auto x a s : life_inv s -> b_trainable _ _ _ b = true ->
    n_phase _ _ _ s = 0 -> n_started _ _ _ s = false ->
    step D A I b na (CExec D A x a) s =
    run_until D A I b na (train_stop_calls na (b_phases _ _ _ b) x ++ [CExec D A x a]) s.
  Proof.
    intros Hi Hb Hp Hst. pose proof (Hk Hb) as Hk'.
    assert (n_training _ _ _ s = true) as Ht.
    { destruct Hi as (I1 & I2 & I3 & I4 & I5). rewrite I3. rewrite Hb in I4.
      pose proof (nphases_trainable Hb). apply Nat.ltb_lt. lia. }
    rewrite run_until_app by discriminate.
    assert (execute D A I b na x a s =
            match run_until D A I b na (train_stop_calls na (b_phases _ _ _ b) x) s with
            | (s', Ok _) => execute D A I b na x a s'
            | (s', Err e) => (s', Err e)
            end) as Hex.
    { set (K := bind D A I (check_input D A I b x) (fun _ => bind D A I
                  (fun s : node => match n_out D A I s with
                     | Some _ => (s, Ok tt) | None => set_output_dim D A I b (n_in D A I s) s end)
                  (fun _ s => let x' := refcast D (n_dt _ _ _ s) x in
                     run_prog D A I b (b_execute _ _ _ b (view_of D A I s) x' a) (add_event D A I s (EvExec D A x' a))))).
      pose proof (auto_equiv x (b_phases _ _ _ b) s (S (b_phases _ _ _ b)) Hi Hb Hk' ltac:(lia) Ht ltac:(lia) K) as He.
      transitivity (bind D A I (auto_train D A I b na (S (b_phases D A I b)) x)
           (fun _ => bind D A I (if_training_stop_training D A I b na) (fun _ => K)) s).
      - unfold execute, pre_execution_checks, K, bind. rewrite Hp, Hst. cbn [Z.eqb andb negb].
        destruct (auto_train D A I b na (S (b_phases D A I b)) x s) as [s1 [u1|e1]]; [|reflexivity].
        destruct (if_training_stop_training D A I b na s1) as [s2 [u2|e2]]; [|reflexivity].
        destruct (check_input D A I b x s2) as [s3 [u3|e3]]; [|reflexivity].
        destruct (n_out D A I s3); [reflexivity|].
        destruct (set_output_dim D A I b (n_in D A I s3) s3) as [s4 [u4|e4]]; reflexivity.
      - rewrite He.
        pose proof (run_until_life (train_stop_calls na (b_phases D A I b) x) s Hi) as Hl.
        pose proof (rounds_phase x (b_phases D A I b) s) as Hrp.
        destruct (run_until D A I b na (train_stop_calls na (b_phases D A I b) x) s) as [s1 [r1|e1]]; [|reflexivity].
        destruct (Hrp s1 r1 Hi Hk' eq_refl) as [Hph _]. cbn [fst] in Hl.
        assert (n_training _ _ _ s1 = false) as Ht1.
        { destruct Hl as (I1 & I2 & I3 & I4 & I5). rewrite I3. rewrite Hb in I4.
          pose proof (nphases_trainable Hb). apply Nat.ltb_ge. lia. }
        unfold execute. unfold bind at 1. rewrite pre_exec_trained.
        + unfold K, bind. destruct (check_input D A I b x s1) as [s3 [u3|e3]]; [|reflexivity].
          destruct (n_out D A I s3); [reflexivity|].
          destruct (set_output_dim D A I b (n_in D A I s3) s3) as [s4 [u4|e4]]; reflexivity.
        + exact Ht1.
        + rewrite Hph, Hp. apply andb_false_iff. left. apply Z.eqb_neq. lia. }
    cbn [step run_until]. rewrite Hex.
    destruct (run_until D A I b na (train_stop_calls na (b_phases D A I b) x) s) as [s1 [r1|e1]]; [|reflexivity].
    destruct (execute D A I b na x a s1) as [s2 [y|e2]]; reflexivity.
  Qed.

  (** A node in the middle of multi-phase training refuses to execute. *)
  Lemma execute_midway x a s : life_inv s -> n_training _ _ _ s = true ->
    (0 < n_phase _ _ _ s \/ n_started _ _ _ s = true) ->
    (1 < remaining _ _ _ b s) ->
    exists e, snd (execute D A I b na x a s) = Err e /\
      (n_started _ _ _ s = false -> e = TrainingExc) /\
      ((forall i, snd (run_prog D A I b (b_stop _ _ _ b (Z.to_nat (n_phase _ _ _ s)) i na) s) = Ok tt) -> e = TrainingExc).
  Proof.
    intros Hi Ht Hmid Hrem. destruct (phase_index_inv s Hi Ht) as (Hpi & _ & Hb).
    assert (((n_phase _ _ _ s =? 0) && negb (n_started _ _ _ s)) = false) as Hg.
    { destruct Hmid as [H|H]; [|rewrite H, andb_false_r; reflexivity].
      apply andb_false_iff. left. apply Z.eqb_neq. lia. }
    unfold execute, pre_execution_checks, bind. rewrite Hg.
    unfold if_training_stop_training, bind. rewrite Ht.
    pose proof (stop_ok_phase na s) as Hsp.
    assert (Z.to_nat (n_phase _ _ _ s) = closed (n_trace D A I s)) as Hzn.
    { destruct Hi as (I1 & I2 & I3 & I4 & I5). rewrite I4, Hb, Nat2Z.id. reflexivity. }
    destruct (stop_training D A I b na s) as [s1 [[]|e]] eqn:Es; cbn.
    - destruct (Hsp s1 Hi eq_refl) as (Q1 & _).
      unfold remaining in *. rewrite Hb in *.
      assert ((0 <? Z.of_nat (b_phases D A I b) - n_phase D A I s1) = true) as -> by (apply Z.ltb_lt; lia).
      exists TrainingExc. auto.
    - exists e. split; [reflexivity|]. unfold stop_training in Es. rewrite Ht in Es. cbn [andb negb] in Es.
      destruct (n_started D A I s) eqn:Est; cbn [negb] in Es.
      + split; [discriminate|]. intros Hok. rewrite Hpi in Es. specialize (Hok (view_of D A I s)).
        rewrite Hzn in Hok.
        destruct (run_prog D A I b (b_stop D A I b (closed (n_trace D A I s)) (view_of D A I s) na) s) as [s2 [u|e2]];
          [|discriminate].
        destruct (_ =? 0) in Es; discriminate.
      + injection Es as _ <-. auto.
  Qed.
End P.

Section Q.
  Variables (D A I : Type) (b : behaviour D A I) (na : A).
  Hypothesis Hk : b_trainable _ _ _ b = true -> (0 < b_phases _ _ _ b)%nat.
  Notation node := (node D A I).

  (** A successful [train] hands exactly its (cast) argument to the open phase. *)
  Lemma train_ok_trace x a (s s' : node) : life_inv D A I b s -> train D A I b x a s = (s', Ok tt) ->
    exists x', n_trace _ _ _ s' = n_trace _ _ _ s ++ [EvTrain D A (closed (n_trace _ _ _ s)) x' a] /\
      a_data x' = a_data x /\ a_rows x' = a_rows x /\ a_cols x' = a_cols x.
  Proof.
    intros Hi. unfold train. destruct (negb (b_trainable _ _ _ b)); [discriminate|].
    destruct (n_training _ _ _ s) eqn:Ht; cbn [negb]; [|discriminate].
    unfold bind. pose proof (book_check_input D A I b x s) as Hc.
    destruct (check_input D A I b x s) as [s1 [u|e]]; [|discriminate]. cbn [fst] in Hc.
    pose proof (life_inv_book D A I b _ _ Hc Hi) as Hi1.
    injection Hc as B1 B2 B3 B4.
    destruct (b_check_args _ _ _ b (view_of D A I s1) x a) as [e|]; [discriminate|].
    destruct (phase_index_inv D A I b Hk s1 Hi1) as (Hp & _ & _); [congruence|].
    assert (phase_index D A I b (set_n_started D A I s1 true) = phase_index D A I b s1) as -> by reflexivity.
    rewrite Hp. cbn zeta.
    match goal with |- run_prog _ _ _ _ ?p ?st = _ -> _ => pose proof (book_prog D A I b p st) as Hb end.
    intros E. rewrite E in Hb. injection Hb as C1 C2 C3 C4. cbn in C4.
    eexists. rewrite C4, B4. split; [reflexivity|].
    unfold refcast. cbn [n_dt set_n_started]. destruct (n_dt D A I s1) as [t|]; [|auto].
    destruct (Nat.eqb (a_dtype x) t); cbn; auto.
  Qed.

  Lemma stop_ok_trace a (s s' : node) : life_inv D A I b s -> stop_training D A I b a s = (s', Ok tt) ->
    n_trace _ _ _ s' = n_trace _ _ _ s ++ [EvStop D A (closed (n_trace _ _ _ s)) true].
  Proof.
    intros Hi. unfold stop_training.
    destruct (n_training _ _ _ s && negb (n_started _ _ _ s)); [discriminate|].
    destruct (n_training _ _ _ s) eqn:Ht; cbn [negb]; [|discriminate].
    destruct (phase_index_inv D A I b Hk s Hi Ht) as (Hp & _ & _). rewrite Hp.
    set (p := closed (n_trace D A I s)) in *.
    pose proof (book_prog D A I b (b_stop _ _ _ b p (view_of D A I s) a) s) as Hb.
    destruct (run_prog D A I b (b_stop _ _ _ b p (view_of D A I s) a) s) as [s1 [u|e]]; [|discriminate].
    injection Hb as B1 B2 B3 B4. destruct (Z.eqb _ 0); intros [= <-]; cbn; congruence.
  Qed.

  Lemma lifecycle i0 din dout dt s0 cs : init D A I b i0 din dout dt = (s0, Ok tt) ->
    let s := run D A I b na cs s0 in
    let k := if b_trainable _ _ _ b then b_phases _ _ _ b else 0%nat in
    legal_life k (n_trace _ _ _ s) /\ (closed (n_trace _ _ _ s) <= k)%nat /\
    (is_training _ _ _ s = true <-> (closed (n_trace _ _ _ s) < k)%nat) /\
    remaining _ _ _ b s = Z.of_nat (k - closed (n_trace _ _ _ s)) /\
    (forall x a s', train D A I b x a s = (s', Ok tt) ->
       exists x', n_trace _ _ _ s' = n_trace _ _ _ s ++ [EvTrain D A (closed (n_trace _ _ _ s)) x' a] /\
                  a_data x' = a_data x /\ a_rows x' = a_rows x /\ a_cols x' = a_cols x) /\
    (forall a s', stop_training D A I b a s = (s', Ok tt) ->
       n_trace _ _ _ s' = n_trace _ _ _ s ++ [EvStop D A (closed (n_trace _ _ _ s)) true]) /\
    (b_trainable _ _ _ b = true -> is_training _ _ _ s = false ->
       forall x a, train D A I b x a s = (s, Err TrainingFinished) /\ stop_training D A I b a s = (s, Err TrainingFinished)).
  Proof.
    intros Hinit s k.
    assert (life_inv D A I b s) as Hi.
    { apply run_life; [exact Hk|]. eapply init_life; eassumption. }
    pose proof Hi as (I1 & I2 & I3 & I4 & I5).
    split; [exact I1|]. split; [exact I2|]. split.
    { unfold is_training. rewrite I3. apply Nat.ltb_lt. }
    split.
    { unfold remaining. rewrite I4. fold nphases in *. unfold nphases in *. destruct (b_trainable D A I b); lia. }
    split; [intros; eapply train_ok_trace; eassumption|]. split; [intros; eapply stop_ok_trace; eassumption|].
    intros Hb Ht x a. split; [apply finished_train; assumption|apply finished_stop; assumption].
  Qed.
End Q.

Section R.
  Variables (D A I : Type) (b : behaviour D A I) (na : A).
  Hypothesis Hk : b_trainable _ _ _ b = true -> (0 < b_phases _ _ _ b)%nat.
  Notation node := (node D A I).

  Lemma untouched_phase0 (s : node) : life_inv D A I b s -> b_trainable _ _ _ b = true ->
    (forall p x a, ~ In (EvTrain D A p x a) (n_trace _ _ _ s)) ->
    n_phase _ _ _ s = 0 /\ n_started _ _ _ s = false.
  Proof.
    intros (I1 & I2 & I3 & I4 & I5) Hb Hno. rewrite Hb in I4.
    assert (closed (n_trace _ _ _ s) = 0%nat) as Hc.
    { destruct (closed (n_trace D A I s)) as [|n] eqn:E; [reflexivity|exfalso].
      assert (exists p, In (EvStop D A p true) (n_trace _ _ _ s)) as [p Hp].
      { unfold closed in E. destruct (filter _ (n_trace D A I s)) as [|e l] eqn:Ef; [discriminate|].
        assert (In e (e :: l)) as Hin by (left; reflexivity). rewrite <- Ef in Hin. apply filter_In in Hin as [Hin Hm].
        destruct e as [| p [|] | |]; try discriminate. eauto. }
      apply in_split in Hp as (l1 & l2 & Hs). destruct (I1 l1 _ l2 Hs) as (_ & _ & x & a & Hin).
      apply (Hno p x a). rewrite Hs. apply in_or_app. auto. }
    split; [rewrite I4, Hc; reflexivity|].
    destruct (n_started D A I s) eqn:E; [|reflexivity]. destruct (proj1 I5 eq_refl) as (x & a & Hin). destruct (Hno _ _ _ Hin).
  Qed.

  Lemma execute_untrained i0 din dout dt s0 cs : init D A I b i0 din dout dt = (s0, Ok tt) ->
    let s := run D A I b na cs s0 in
    b_trainable _ _ _ b = true -> (forall p x a, ~ In (EvTrain D A p x a) (n_trace _ _ _ s)) ->
    forall x a, step D A I b na (CExec D A x a) s =
    run_until D A I b na (train_stop_calls na (b_phases _ _ _ b) x ++ [CExec D A x a]) s.
  Proof.
    intros Hinit s Hb Hno x a.
    assert (life_inv D A I b s) as Hi by (apply run_life; [exact Hk|]; eapply init_life; eassumption).
    destruct (untouched_phase0 s Hi Hb Hno) as [H1 H2]. apply execute_auto; assumption.
  Qed.

  Lemma execute_midtraining i0 din dout dt s0 cs : init D A I b i0 din dout dt = (s0, Ok tt) ->
    let s := run D A I b na cs s0 in
    (exists p x a, In (EvTrain D A p x a) (n_trace _ _ _ s)) -> 1 < remaining _ _ _ b s ->
    forall x a, exists e, snd (execute D A I b na x a s) = Err e /\
      ((forall v, snd (run_prog D A I b (b_stop _ _ _ b (Z.to_nat (current_phase D A I s)) v na) s) = Ok tt) -> e = TrainingExc).
  Proof.
    intros Hinit s Hex Hrem x a.
    assert (life_inv D A I b s) as Hi by (apply run_life; [exact Hk|]; eapply init_life; eassumption).
    assert (n_training _ _ _ s = true) as Ht.
    { destruct Hi as (I1 & I2 & I3 & I4 & I5). rewrite I3. unfold remaining in Hrem. unfold nphases.
      destruct (b_trainable _ _ _ b); [|lia]. apply Nat.ltb_lt. lia. }
    destruct (phase_index_inv D A I b Hk s Hi Ht) as (_ & _ & Hb).
    assert (0 < n_phase _ _ _ s \/ n_started _ _ _ s = true) as Hmid.
    { destruct Hi as (I1 & I2 & I3 & I4 & I5). rewrite Hb in I4.
      destruct (Nat.eq_dec (closed (n_trace D A I s)) 0) as [H0|H0]; [|left; lia].
      right. apply I5. destruct Hex as (p & y & c & Hin).
      assert (trained_in p (n_trace D A I s)) as Htr by (exists y, c; exact Hin).
      pose proof (trained_in_le D A _ _ _ I1 Htr). replace (closed (n_trace D A I s)) with p by lia. exact Htr. }
    destruct (execute_midway D A I b na Hk x a s Hi Ht Hmid Hrem) as (e & E1 & E2 & E3). exists e. split; auto.
  Qed.
End R.

Section S.
  Variables (D A I : Type) (b : behaviour D A I) (na : A).
  Notation node := (node D A I).
  Lemma write_once (cs : list (call D A)) (s : node) :
    let s' := run D A I b na cs s in
    (forall v, n_in _ _ _ s = Some v -> n_in _ _ _ s' = Some v) /\
    (forall v, n_out _ _ _ s = Some v -> n_out _ _ _ s' = Some v) /\
    (forall v, n_dt _ _ _ s = Some v -> n_dt _ _ _ s' = Some v) /\
    (forall v n, n_in _ _ _ s = Some v -> v <> n -> step D A I b na (CSetIn D A (Some n)) s = (s, Err InconsistentDim)) /\
    (forall v n, n_out _ _ _ s = Some v -> v <> n -> step D A I b na (CSetOut D A (Some n)) s = (s, Err InconsistentDim)) /\
    (forall v n, n_dt _ _ _ s = Some v -> v <> n -> step D A I b na (CSetDtype D A (Some n)) s = (s, Err NodeExc)).
  Proof.
    intros s'. destruct (good_run D A I b na cs s) as [(K1 & K2 & K3) _].
    repeat split; auto; intros v n Hv Hne; cbn [step].
    - rewrite (conflict_in D A I b n v s Hv Hne). reflexivity.
    - rewrite (conflict_out D A I b n v s Hv Hne). reflexivity.
    - rewrite (conflict_dt D A I b n v s Hv Hne). reflexivity.
  Qed.

  Lemma preserve_reach : b_preserve _ _ _ b = true -> forall i0 din dout dt s0 r (cs : list (call D A)),
    init D A I b i0 din dout dt = (s0, r) ->
    n_in _ _ _ (run D A I b na cs s0) = n_out _ _ _ (run D A I b na cs s0).
  Proof.
    intros Hp i0 din dout dt s0 r cs Hi. destruct (good_run D A I b na cs s0) as [_ H].
    apply H; [|exact Hp]. eapply (pres_init D A I b); eassumption.
  Qed.

  Lemma rejected_array (s : node) x a d t : n_in _ _ _ s = Some d -> n_dt _ _ _ s = Some t ->
    (a_ndim x <> 2%nat \/ a_cols x <> d \/ a_rows x = 0%nat) ->
    exists e, step D A I b na (CTrain D A x a) s = (s, Err e).
  Proof.
    intros Hd Ht Hx. cbn [step]. unfold train. destruct (negb (b_trainable _ _ _ b)); [eexists; reflexivity|].
    destruct (negb (n_training _ _ _ s)); [eexists; reflexivity|].
    unfold bind at 1. unfold check_input.
    destruct (Nat.eqb_spec (a_ndim x) 2) as [E|E]; cbn [negb]; [|eexists; reflexivity].
    unfold bind, ret. rewrite Hd, Ht, Hd.
    destruct (Nat.eqb_spec (a_cols x) d) as [E2|E2]; [|eexists; reflexivity].
    destruct (Nat.eqb_spec (a_rows x) 0) as [E3|E3]; [eexists; reflexivity|]. destruct Hx as [H|[H|H]]; congruence.
  Qed.
End S.
