(** Proofs about FlowNode. *)
From Coq Require Import List Arith ZArith Lia Bool.
From Verif Require Import NodeModel NodeSpec NodeProofs FlowModel FlowSpec FlowProofs FlowNodeModel.
Import ListNotations.
Open Scope nat_scope.

Section P.
  Variables (D A I : Type) (na : A).
  Notation fnode := (fnode D A I).
  Notation f_b := (f_b D A I). Notation f_s := (f_s D A I). Notation f_nargs := (f_nargs D A I). Notation with_s := (with_s D A I).
  Notation flow := (flow D A I). Notation fnn := (fnn D A I).
  Notation fn_flow := (fn_flow D A I). Notation fn_dt := (fn_dt D A I). Notation fn_pre := (fn_pre D A I). Notation fn_phase := (fn_phase D A I).
  Notation fn_training := (fn_training D A I). Notation fn_started := (fn_started D A I). Notation fn_trainable := (fn_trainable D A I).
  Notation wf := (wf D A I). Notation ready := (ready D A I). Notation isdone := (isdone D A I). Notation grown := (grown D A I).
  Notation flater := (flater D A I). Notation ftrains := (ftrains D A I). Notation cl := (cl D A I). Notation nph := (nph D A I).
  Notation evs := (evs D A). Notation expected := (expected D A I). Notation keeps := (keeps D A I).
  Notation fbind := (fbind D A I).

  (** ** Changes of dims and dtype only *)
  Definition donly (f f' : fnode) : Prop :=
    f_b f' = f_b f /\ f_nargs f' = f_nargs f /\ later (f_s f) (f_s f') /\ n_trace D A I (f_s f') = n_trace D A I (f_s f).
  Lemma donly_refl f : donly f f.
  Proof. repeat split; auto. Qed.
  Lemma donly_trans f g h : donly f g -> donly g h -> donly f h.
  Proof. intros (A1 & A2 & A3 & A4) (B1 & B2 & B3 & B4). repeat split; try congruence; eapply later_trans; eassumption. Qed.
  Lemma mk_donly f t : book D A I t = book D A I (f_s f) -> n_int D A I t = n_int D A I (f_s f) -> keeps (f_s f) t -> donly f (with_s f t).
  Proof. intros Hb Hi Hk. injection Hb as B1 B2 B3 B4. split; [reflexivity|]. split; [reflexivity|]. split; [|exact B4]. repeat split; auto; apply Hk. Qed.
  Lemma donly_book f f' : donly f f' -> book D A I (f_s f') = book D A I (f_s f).
  Proof. intros (_ & _ & (L1 & L2 & L3 & _) & L4). unfold book. congruence. Qed.
  Lemma donly_wf f f' : donly f f' -> wf f -> wf f'.
  Proof.
    intros Hd (W1 & W2 & W3 & W4). pose proof (donly_book f f' Hd) as Hb. destruct Hd as (E & _). unfold FlowProofs.wf. rewrite E. split; [|auto].
    eapply life_inv_book; eassumption.
  Qed.
  Lemma donly_grown f f' : donly f f' -> grown f f'.
  Proof. intros (A1 & A2 & A3 & A4). repeat split; auto; try (unfold FlowProofs.ftrains; congruence); apply A3. Qed.
  Lemma donly_isdone f f' : donly f f' -> isdone f -> isdone f'.
  Proof. intros (_ & _ & (L1 & _) & _) H. unfold FlowProofs.isdone in *. congruence. Qed.
  Lemma donly_ready f f' : donly f f' -> ready f -> ready f'.
  Proof.
    intros Hd [Hw Hr]. split; [eapply donly_wf; eassumption|]. destruct Hr as [Hr|(O1 & O2 & O3)]; [left; eapply donly_isdone; eassumption|right].
    destruct Hd as (E & _ & (L1 & L2 & L3 & _) & _). unfold open_last, remaining in *. rewrite E, L1, L2, L3. auto.
  Qed.
  Lemma donly_cl f f' : donly f f' -> cl f' = cl f /\ nph f' = nph f /\ ftrains f' = ftrains f.
  Proof. intros (A1 & A2 & A3 & A4). unfold FlowProofs.cl, FlowProofs.nph, FlowProofs.ftrains. rewrite A1, A4. auto. Qed.

  Definition dm (m : behaviour D A I -> M D A I unit) : Prop := forall b s, book D A I (fst (m b s)) = book D A I s /\ n_int D A I (fst (m b s)) = n_int D A I s /\ keeps s (fst (m b s)).
  Lemma dm_in n : dm (fun b => set_input_dim D A I b n).
  Proof. intros b s. split; [apply book_set_in|]. split; [apply int_set_in|]. apply (good_set_in D A I b n s). Qed.
  Lemma dm_out n : dm (fun b => set_output_dim D A I b n).
  Proof. intros b s. split; [apply book_set_out|]. split; [apply int_set_out|]. apply (good_set_out D A I b n s). Qed.
  Lemma dm_dt n : dm (fun b => set_dtype D A I b n).
  Proof. intros b s. split; [apply book_set_dt|]. split; [apply int_set_dt|]. apply (good_set_dt D A I b n s). Qed.
  Lemma F2_update (R : fnode -> fnode -> Prop) : (forall x, R x x) -> forall fs i f g, nth_error fs i = Some f -> R f g -> Forall2 R fs (update D A I fs i g).
  Proof.
    intros Hr. induction fs as [|a fs IH]; intros [|i] f g; cbn; try discriminate.
    - intros [= ->] H. constructor; [exact H|apply F2_refl; exact Hr].
    - intros H1 H2. constructor; [apply Hr|eapply IH; eassumption].
  Qed.
  Lemma at_node_donly j m fs : dm m -> Forall2 donly fs (fst (at_node D A I j m fs)).
  Proof.
    intros Hm. unfold at_node. destruct (nth_error fs j) as [f|] eqn:E; [|apply F2_refl, donly_refl].
    destruct (Hm (f_b f) (f_s f)) as (B1 & B2 & B3). destruct (m (f_b f) (f_s f)) as [t r]. cbn [fst] in *.
    eapply F2_update; [apply donly_refl|exact E|]. apply mk_donly; assumption.
  Qed.
  Lemma fix_in_donly : forall fs prev, Forall2 donly fs (fst (fix_in D A I prev fs)).
  Proof.
    induction fs as [|f fs IH]; intros prev; cbn [fix_in]; [constructor|].
    assert (exists t r, (match n_in D A I (f_s f) with None => set_input_dim D A I (f_b f) prev (f_s f) | Some _ => (f_s f, Ok tt) end) = (t, r) /\ donly f (with_s f t)) as (t & r & E & Hd).
    { destruct (n_in D A I (f_s f)).
      - exists (f_s f), (Ok tt). split; [reflexivity|]. destruct f; apply donly_refl.
      - pose proof (dm_in prev (f_b f) (f_s f)) as (B1 & B2 & B3). cbv beta in B1, B2, B3. destruct (set_input_dim D A I (f_b f) prev (f_s f)) as [t r]. exists t, r. split; [reflexivity|]. apply mk_donly; assumption. }
    rewrite E. destruct r as [u|e].
    - specialize (IH (n_out D A I t)). destruct (fix_in D A I (n_out D A I t) fs) as [fs' r']. cbn. constructor; assumption.
    - cbn. constructor; [exact Hd|apply F2_refl, donly_refl].
  Qed.
  Lemma fix_loop_donly fs : Forall2 donly fs (fst (fix_loop D A I fs)).
  Proof.
    destruct fs as [|f fs]; cbn [fix_loop]; [constructor|]. pose proof (fix_in_donly fs (n_out D A I (f_s f))) as H.
    destruct (fix_in D A I (n_out D A I (f_s f)) fs). cbn in *. constructor; [apply donly_refl|exact H].
  Qed.
  Lemma dtype_all_donly t : forall fs, Forall2 donly fs (fst (dtype_all D A I t fs)).
  Proof.
    induction fs as [|f fs IH]; cbn [dtype_all]; [constructor|]. destruct (dm_dt (Some t) (f_b f) (f_s f)) as (B1 & B2 & B3). cbv beta in B1, B2, B3.
    destruct (set_dtype D A I (f_b f) (Some t) (f_s f)) as [u [v|e]]; cbn [fst] in *.
    - destruct (dtype_all D A I t fs) as [fs' r']. cbn in *. constructor; [apply mk_donly; assumption|exact IH].
    - constructor; [apply mk_donly; assumption|apply F2_refl, donly_refl].
  Qed.

  (** a FlowNode operation that changes only dims and dtypes *)
  Definition fdim (s s' : fnn) : Prop :=
    Forall2 donly (fn_flow s) (fn_flow s') /\ fn_pre s' = fn_pre s /\ fn_trainable s' = fn_trainable s /\ fn_training s' = fn_training s /\
    fn_phase s' = fn_phase s /\ fn_started s' = fn_started s /\ (forall t, fn_dt s = Some t -> fn_dt s' = Some t).
  Definition fdims {R} (m : FM D A I R) : Prop := forall s, fdim s (fst (m s)).
  Lemma fdim_refl s : fdim s s.
  Proof. repeat split; auto. apply F2_refl, donly_refl. Qed.
  Lemma fdim_trans s1 s2 s3 : fdim s1 s2 -> fdim s2 s3 -> fdim s1 s3.
  Proof.
    intros (A1 & A2 & A3 & A4 & A5 & A6 & A7) (B1 & B2 & B3 & B4 & B5 & B6 & B7).
    split; [eapply F2_trans; [apply donly_trans|exact A1|exact B1]|]. repeat split; try congruence. auto.
  Qed.
  Lemma fdims_bind {R T} (m : FM D A I R) (f : R -> FM D A I T) : fdims m -> (forall r, fdims (f r)) -> fdims (fbind m f).
  Proof.
    intros H1 H2 s. unfold FlowNodeModel.fbind. specialize (H1 s). destruct (m s) as [s1 [r|e]]; [|exact H1]. eapply fdim_trans; [exact H1|apply H2].
  Qed.
  Lemma fdims_on m : (forall fs, Forall2 donly fs (fst (m fs))) -> fdims (on_flow D A I m).
  Proof.
    intros H s. unfold on_flow. specialize (H (fn_flow s)). destruct (m (fn_flow s)) as [fs [u|e]]; cbn in *; (split; [exact H|repeat split; auto]).
  Qed.
  Lemma fdims_check : fdims (check_consistency D A I).
  Proof. intros s. unfold check_consistency. destruct (clashes D A I (fn_flow s)); apply fdim_refl. Qed.
  Lemma fdims_in n : fdims (fn_set_input_dim D A I n).
  Proof.
    intros s. unfold fn_set_input_dim. destruct n as [n|]; [|apply fdim_refl]. destruct (match _ with Some m => _ | None => false end); [apply fdim_refl|].
    apply fdims_bind; [apply fdims_on; intros fs; apply at_node_donly, dm_in|]. intros _. apply fdims_bind; [apply fdims_check|].
    intros _ s1. split; [apply F2_refl, donly_refl|repeat split; auto].
  Qed.
  Lemma fdims_finish n : fdims (out_finish D A I n).
  Proof.
    intros s. unfold out_finish. destruct (out_of D A I (last_of D A I (fn_flow s))); [|apply fdim_refl]. destruct (_ =? _); [|apply fdim_refl].
    split; [apply F2_refl, donly_refl|repeat split; auto].
  Qed.
  Lemma fdims_known : fdims (out_known D A I).
  Proof.
    intros s. unfold out_known. destruct (out_of D A I (last_of D A I (fn_flow s))); [|apply fdim_refl]. destruct (match _ with Some m => _ | None => false end); [apply fdim_refl|].
    destruct (_ =? _); [|apply fdims_finish]. apply fdims_bind; [apply fdims_on; intros fs; apply at_node_donly, dm_out|]. intros _. apply fdims_finish.
  Qed.
  Lemma fdims_fix : fdims (fix_dims D A I).
  Proof.
    intros s. unfold fix_dims. destruct (_ <? _); [|apply fdims_known]. apply fdims_bind; [apply fdims_on, fix_loop_donly|]. intros _.
    apply fdims_bind; [apply fdims_check|]. intros _. apply fdims_known.
  Qed.
  Lemma fdims_out n : fdims (fn_set_output_dim D A I n).
  Proof.
    intros s. unfold fn_set_output_dim. destruct n as [n|]; [|apply fdim_refl]. destruct (match _ with Some m => _ | None => false end); [apply fdim_refl|].
    destruct (_ =? _).
    - apply fdims_bind; [apply fdims_on; intros fs; apply at_node_donly, dm_out|]. intros _. apply fdims_finish.
    - destruct (out_of D A I (last_of D A I (fn_flow s))); [apply fdims_finish|]. apply fdims_bind; [apply fdims_fix|]. intros _ s1.
      destruct (out_of D A I (last_of D A I (fn_flow s1))); [apply fdims_finish|]. destruct (in_of D A I (last_of D A I (fn_flow s1))); [|apply fdim_refl].
      apply fdims_bind; [apply fdims_on; intros fs; apply at_node_donly, dm_out|]. intros _. apply fdims_finish.
  Qed.
  Lemma fdims_dtype t : fdims (fn_set_dtype D A I t).
  Proof.
    intros s. unfold fn_set_dtype. destruct t as [t|]; [|apply fdim_refl]. destruct (fn_dt s) as [m|] eqn:Em; [destruct (Nat.eqb_spec m t); cbn [negb]|].
    - subst m. destruct (negb _); [apply fdim_refl|]. unfold FlowNodeModel.fbind. pose proof (fdims_on (dtype_all D A I t) (dtype_all_donly t) s) as H.
      destruct (on_flow D A I (dtype_all D A I t) s) as [s1 [u|e]]; [|exact H]. destruct H as (A1 & A2 & A3 & A4 & A5 & A6 & A7). cbn in *. split; [exact A1|]. do 5 (split; [assumption|]). intros t' E. cbn. congruence.
    - apply fdim_refl.
    - destruct (negb _); [apply fdim_refl|]. unfold FlowNodeModel.fbind. pose proof (fdims_on (dtype_all D A I t) (dtype_all_donly t) s) as H.
      destruct (on_flow D A I (dtype_all D A I t) s) as [s1 [u|e]]; [|exact H]. destruct H as (A1 & A2 & A3 & A4 & A5 & A6 & A7). cbn in *. split; [exact A1|]. do 5 (split; [assumption|]). intros t' E. cbn. congruence.
  Qed.
  Lemma fdims_check_input x : fdims (fn_check_input D A I x).
  Proof.
    intros s. unfold fn_check_input. destruct (negb _); [apply fdim_refl|]. apply fdims_bind; [destruct (fn_in D A I s); [intros s1; apply fdim_refl|apply fdims_in]|].
    intros _. apply fdims_bind; [intros s1; destruct (FlowNodeModel.fn_dt D A I s1); [apply fdim_refl|apply fdims_dtype]|].
    intros _. apply fdims_bind; [intros s1; destruct (fn_in D A I s1); [destruct (_ =? _)|]; apply fdim_refl|].
    intros _ s1. destruct (_ =? _); apply fdim_refl.
  Qed.
  Lemma check_input_dt x s s' : fn_check_input D A I x s = (s', NOk tt) -> exists t, fn_dt s' = Some t.
  Proof.
    unfold fn_check_input. destruct (negb _); [discriminate|]. unfold FlowNodeModel.fbind at 1. destruct (_ s) as [s1 [u|e]]; [|discriminate].
    unfold FlowNodeModel.fbind at 1.
    assert (forall s2, (match fn_dt s1 with None => fn_set_dtype D A I (Some (a_dtype x)) s1 | Some _ => (s1, NOk tt) end) = (s2, NOk tt) -> exists t, fn_dt s2 = Some t) as H.
    { intros s2. destruct (FlowNodeModel.fn_dt D A I s1) as [t|] eqn:Et; [intros [= <-]; eauto|]. unfold fn_set_dtype. rewrite Et. destruct (negb _); [discriminate|].
      unfold FlowNodeModel.fbind. destruct (on_flow _ _ _ _ _) as [s3 [v|e]]; [|discriminate]. intros [= <-]. cbn. eauto. }
    destruct (match fn_dt s1 with None => _ | Some _ => _ end) as [s2 [[]|e]]; [|discriminate]. destruct (H s2 eq_refl) as [t Ht].
    unfold FlowNodeModel.fbind at 1. destruct (fn_in D A I s2); [destruct (_ =? _)|]; try discriminate. destruct (_ =? _); [discriminate|]. intros [= <-]. eauto.
  Qed.

  (** ** train and stop *)
  Lemma donly_seq : forall fs fs', Forall2 donly fs fs' -> forall i pre, train_seq D A I i fs' pre = train_seq D A I i fs pre.
  Proof.
    intros fs fs' H. induction H as [|f f' fs fs' Hf Hl IH]; intros i pre; [reflexivity|]. destruct pre as [|p pre]; [reflexivity|]. cbn. destruct Hf as (-> & _). rewrite IH. reflexivity.
  Qed.
  Lemma update_seq : forall fs j f g, nth_error fs j = Some f -> f_b g = f_b f -> forall i pre, train_seq D A I i (update D A I fs j g) pre = train_seq D A I i fs pre.
  Proof.
    induction fs as [|a fs IH]; intros [|j] f g; cbn; try discriminate; intros E Eb i [|p pre]; cbn; auto.
    - injection E as ->. rewrite Eb. reflexivity.
    - rewrite (IH j f g E Eb). reflexivity.
  Qed.
  Lemma seq_beh : forall fs fs', Forall2 (fun f f' => f_b f' = f_b f) fs fs' -> forall i pre, train_seq D A I i fs' pre = train_seq D A I i fs pre.
  Proof.
    intros fs fs' H. induction H as [|f f' fs fs' Hf Hl IH]; intros i pre; [reflexivity|]. destruct pre as [|p pre]; [reflexivity|]. cbn. rewrite Hf, IH. reflexivity.
  Qed.
  Lemma F2_impl {X Y} (R S : X -> Y -> Prop) : (forall x y, R x y -> S x y) -> forall l l', Forall2 R l l' -> Forall2 S l l'.
  Proof. intros H l l' H2. induction H2; constructor; auto. Qed.
  Lemma F2_split {X Y} (R : X -> Y -> Prop) pre a post : forall l, Forall2 R (pre ++ a :: post) l -> exists pre' a' post', l = pre' ++ a' :: post' /\ Forall2 R pre pre' /\ R a a' /\ Forall2 R post post'.
  Proof.
    induction pre as [|p pre IH]; intros l H; inversion H as [|? y ? l' H1 H2]; subst.
    - exists [], y, l'. auto.
    - destruct (IH l' H2) as (pre' & a' & post' & -> & H3 & H4 & H5). exists (y :: pre'), a', post'. repeat split; auto.
  Qed.
  Lemma F2_split_app {X Y} (R : X -> Y -> Prop) pre post : forall l, Forall2 R (pre ++ post) l -> exists pre' post', l = pre' ++ post' /\ Forall2 R pre pre' /\ Forall2 R post post'.
  Proof.
    induction pre as [|p pre IH]; intros l H.
    - exists [], l. auto.
    - inversion H as [|? y ? l' H1 H2]; subst. destruct (IH l' H2) as (pre' & post' & -> & H3 & H4). exists (y :: pre'), post'. repeat split; auto.
  Qed.
  Lemma F2_nth' {X Y} (R : X -> Y -> Prop) l l' : Forall2 R l l' -> forall i x, nth_error l i = Some x -> exists y, nth_error l' i = Some y /\ R x y.
  Proof. intros H. induction H as [|a b l l' Hab Hl IH]; intros [|i] x; cbn; try discriminate; [intros [= <-]; eauto|apply IH]. Qed.
  Lemma F2_len {X Y} (R : X -> Y -> Prop) l l' : Forall2 R l l' -> length l' = length l.
  Proof. intros H. induction H; cbn; congruence. Qed.
  Lemma F2_Forall {X} (R : X -> X -> Prop) (P : X -> Prop) : (forall x y, R x y -> P x -> P y) -> forall l l', Forall2 R l l' -> Forall P l -> Forall P l'.
  Proof. intros H l l' H2. induction H2; intros H3; inversion H3; subst; constructor; eauto. Qed.

  (** attributes of the FlowNode other than dims that a step of training keeps *)
  Definition meta (s s' : fnn) : Prop := fn_pre s' = fn_pre s /\ fn_trainable s' = fn_trainable s /\ fn_training s' = fn_training s /\
    fn_phase s' = fn_phase s /\ fn_seq D A I s' = fn_seq D A I s /\ (forall t, fn_dt s = Some t -> fn_dt s' = Some t).
  Definition castd (t : option dtype) (els : list (array D * A)) : list (array D * A) := map (fun e => (refcast D t (fst e), snd e)) els.

  Lemma grown_b l l' : Forall2 grown l l' -> Forall2 (fun f f' => f_b f' = f_b f) l l'.
  Proof. apply F2_impl. intros x y H. apply H. Qed.
  Lemma donly_b l l' : Forall2 donly l l' -> Forall2 (fun f f' => f_b f' = f_b f) l l'.
  Proof. apply F2_impl. intros x y H. apply H. Qed.
  Lemma flater_trans_grown pre pre' pre2 : Forall isdone pre -> Forall2 grown pre pre' -> Forall2 flater pre' pre2 -> Forall2 flater pre pre2.
  Proof. apply flater_grown. Qed.

  Lemma fn_train_ok x a s s' pre f post : fn_flow s = pre ++ f :: post -> Forall ready pre -> wf f -> fn_index D A I s = Some (length pre) ->
    fn_train D A I na x a s = (s', NOk tt) ->
    exists pre' f' post' y, fn_flow s' = pre' ++ f' :: post' /\ Forall ready pre' /\ Forall isdone pre' /\ Forall2 grown pre pre' /\ Forall2 donly post post' /\ wf f' /\
      f_b f' = f_b f /\ f_nargs f' = f_nargs f /\ keeps (f_s f) (f_s f') /\ n_phase D A I (f_s f') = n_phase D A I (f_s f) /\
      n_training D A I (f_s f') = true /\ n_started D A I (f_s f') = true /\ (exists t, n_dt D A I (f_s f') = Some t) /\ (exists t, fn_dt s' = Some t) /\
      cl f' = cl f /\ ftrains f' = ftrains f ++ [EvTrain D A (cl f) (refcast D (n_dt D A I (f_s f')) y) a] /\ meta s s' /\ fn_started s' = true /\
      (forall pre2, Forall2 flater pre' pre2 -> through na pre2 (refcast D (fn_dt s') x) = Some y).
  Proof.
    intros Hs Hr Hw Hi. unfold fn_train. destruct (negb (fn_trainable s)); [discriminate|]. destruct (negb (fn_training s)); [discriminate|].
    unfold FlowNodeModel.fbind. pose proof (fdims_check_input x s) as Hd. pose proof (check_input_dt x s) as Ht. destruct (fn_check_input D A I x s) as [s1 [[]|e]]; [|discriminate].
    destruct (Ht s1 eq_refl) as [t Et]. clear Ht. destruct Hd as (A1 & A2 & A3 & A4 & A5 & A6 & A7). cbn [fst] in *.
    assert (fn_seq D A I s1 = fn_seq D A I s) as Eseq by (unfold fn_seq; rewrite A2; apply donly_seq; exact A1).
    assert (fn_index D A I (set_started D A I s1 true) = fn_index D A I s) as ->.
    { unfold fn_index. change (fn_seq D A I (set_started D A I s1 true)) with (fn_seq D A I s1). cbn. rewrite A5, Eseq. reflexivity. }
    rewrite Hi. rewrite Hs in A1. destruct (F2_split _ _ _ _ _ A1) as (pre1 & f1 & post1 & E1 & P1 & P2 & P3).
    cbn [set_started FlowNodeModel.fn_flow FlowNodeModel.fn_dt]. rewrite E1.
    assert (Forall ready pre1) as Hr1 by (eapply F2_Forall; [apply donly_ready|exact P1|exact Hr]).
    assert (wf f1) as Hw1 by (eapply donly_wf; eassumption).
    rewrite <- (F2_len _ _ _ P1). unfold train_hook. rewrite exec_seq_app. destruct (exec_seq D A I na (length pre1) 0 pre1 (refcast D (fn_dt s1) x)) as [pre2 [y|e]] eqn:Ex; [|discriminate].
    destruct (exec_pre D A I na pre1 0 _ pre2 y Hr1 Ex) as (B1 & B2 & B3 & B4).
    unfold at_node. rewrite <- (F2_len _ _ _ B3). rewrite nth_app. destruct (train D A I (f_b f1) y a (f_s f1)) as [u [[]|e]] eqn:Etr; [|discriminate].
    rewrite update_app. intros [= <-]. pose proof Hw1 as (W1 & W2 & W3 & W4).
    destruct (train_ok D A I (f_b f1) W2 y a (f_s f1) u W1 Etr) as (C1 & C2 & C3 & C4 & C5 & C6 & C7).
    destruct (donly_cl f f1 P2) as (Q1 & Q2 & Q3).
    assert (Forall2 grown pre pre2) as Hg by (eapply F2_trans; [apply grown_trans|eapply F2_impl; [apply donly_grown|exact P1]|exact B3]).
    exists pre2, (with_s f1 u), post1, y. cbn [set_flow FlowNodeModel.fn_flow]. split; [reflexivity|]. split; [exact B1|]. split; [exact B2|]. split; [exact Hg|]. split; [exact P3|].
    split; [split; [exact C1|split; [exact W2|split; assumption]]|]. split; [apply P2|]. split; [apply P2|].
    split; [eapply keeps_trans; [|exact C2]; apply P2|]. destruct P2 as (P21 & P22 & (P23 & P24 & _) & P25). split; [cbn; congruence|]. split; [exact C3|]. split; [exact C4|]. split; [exact C6|].
    split; [exists t; exact Et|]. split; [rewrite <- Q1; unfold FlowProofs.cl; cbn; rewrite C7, closed_app; unfold closed at 2; cbn; lia|].
    split; [rewrite <- Q3; unfold FlowProofs.ftrains at 1; cbn [FlowModel.f_s FlowModel.with_s]; rewrite C7, closed_trains_snoc; unfold FlowProofs.ftrains, FlowProofs.cl; rewrite P25; reflexivity|].
    split.
    { split; [exact A2|]. split; [exact A3|]. split; [exact A4|]. split; [exact A5|]. split; [|exact A7]. rewrite <- Eseq. unfold fn_seq. cbn. apply seq_beh. rewrite E1.
      apply Forall2_app; [apply grown_b; exact B3|]. constructor; [reflexivity|apply F2_refl; reflexivity]. }
    split; [reflexivity|]. exact B4.
  Qed.

  Lemma meta_trans s1 s2 s3 : meta s1 s2 -> meta s2 s3 -> meta s1 s3.
  Proof. intros (A1 & A2 & A3 & A4 & A5 & A6) (B1 & B2 & B3 & B4 & B5 & B6). repeat split; try congruence. auto. Qed.
  Lemma meta_refl s : meta s s.
  Proof. repeat split; auto. Qed.
  Lemma meta_index s s' : meta s s' -> fn_index D A I s' = fn_index D A I s.
  Proof. intros (_ & _ & _ & E1 & E2 & _). unfold fn_index. rewrite E1, E2. reflexivity. Qed.

  Lemma fn_chunks_ok : forall els s s' pre f post, fn_flow s = pre ++ f :: post -> Forall ready pre -> wf f -> fn_index D A I s = Some (length pre) ->
    fn_chunks D A I na els s = (s', NOk tt) ->
    exists pre' f' post' ys, fn_flow s' = pre' ++ f' :: post' /\ Forall ready pre' /\ Forall2 grown pre pre' /\ Forall2 donly post post' /\ wf f' /\
      f_b f' = f_b f /\ f_nargs f' = f_nargs f /\ keeps (f_s f) (f_s f') /\ n_phase D A I (f_s f') = n_phase D A I (f_s f) /\ cl f' = cl f /\ length ys = length els /\
      ftrains f' = ftrains f ++ evs (cl f) (n_dt D A I (f_s f')) (castd (fn_dt s') els) ys /\ meta s s' /\
      (els = [] -> s' = s /\ f' = f /\ pre' = pre) /\
      (els <> [] -> Forall isdone pre' /\ n_training D A I (f_s f') = true /\ n_started D A I (f_s f') = true /\ (exists t, n_dt D A I (f_s f') = Some t) /\
         (exists t, fn_dt s' = Some t) /\ fn_started s' = true) /\
      (forall pre2, Forall2 flater pre' pre2 -> Forall2 (fun e y => through na pre2 (fst e) = Some y) (castd (fn_dt s') els) ys).
  Proof.
    induction els as [|[x a] els IH]; intros s s' pre f post Hs Hr Hw Hi; cbn [fn_chunks].
    - intros [= <-]. exists pre, f, post, []. split; [exact Hs|]. split; [exact Hr|]. split; [apply F2_refl, grown_refl|]. split; [apply F2_refl, donly_refl|]. split; [exact Hw|].
      split; [reflexivity|]. split; [reflexivity|]. split; [apply keeps_refl|]. split; [reflexivity|]. split; [reflexivity|]. split; [reflexivity|]. split; [cbn; rewrite app_nil_r; reflexivity|].
      split; [apply meta_refl|]. split; [auto|]. split; [congruence|]. intros; constructor.
    - unfold FlowNodeModel.fbind. destruct (fn_train D A I na x a s) as [s1 [[]|e]] eqn:E1; [|discriminate]. intros E.
      destruct (fn_train_ok x a s s1 pre f post Hs Hr Hw Hi E1) as (pre1 & f1 & post1 & y & T1 & T2 & T3 & T4 & T5 & T6 & T7 & T8 & T9 & T10 & T11 & T12 & T13 & T14 & T15 & T16 & T17 & T18 & T19).
      assert (fn_index D A I s1 = Some (length pre1)) as Hi1 by (rewrite (meta_index s s1 T17), Hi, (F2_len _ _ _ T4); reflexivity).
      destruct (IH s1 s' pre1 f1 post1 T1 T2 T6 Hi1 E) as (pre' & f' & post' & ys & C1 & C2 & C3 & C4 & C5 & C6 & C7 & C8 & C9 & C10 & C11 & C12 & C13 & C14 & C15 & C16).
      destruct T13 as [t Tt]. destruct T14 as [t' Tt'].
      assert (n_dt D A I (f_s f') = n_dt D A I (f_s f1)) as Edt by (rewrite Tt; apply C8; exact Tt).
      assert (fn_dt s' = fn_dt s1) as Edt' by (rewrite Tt'; apply C13; exact Tt').
      exists pre', f', post', (y :: ys). split; [exact C1|]. split; [exact C2|]. split; [eapply F2_trans; [apply grown_trans|exact T4|exact C3]|].
      split; [eapply F2_trans; [apply donly_trans|exact T5|exact C4]|]. split; [exact C5|]. split; [congruence|]. split; [congruence|]. split; [eapply keeps_trans; eassumption|]. split; [congruence|]. split; [congruence|].
      split; [cbn; congruence|]. split; [rewrite C12, T16, <- app_assoc; cbn [castd map FlowProofs.evs combine fst snd]; rewrite T15, Edt; reflexivity|].
      split; [eapply meta_trans; eassumption|]. split; [discriminate|].
      assert (Forall isdone pre') as Hdone by (eapply F2_Forall; [apply later_isdone|exact C3|exact T3]).
      split.
      { intros _. split; [exact Hdone|]. destruct els as [|e els].
        - destruct (C14 eq_refl) as (-> & -> & ->). split; [exact T11|]. split; [exact T12|]. split; [eauto|]. split; [eauto|]. exact T18.
        - destruct C15 as (_ & K); [discriminate|exact K]. }
      intros pre2 H2. cbn [castd map]. constructor; [|apply C16; exact H2]. cbn. rewrite Edt'. apply T19. eapply flater_grown; eassumption.
  Qed.

  Definition smeta (s s' : fnn) : Prop := fn_pre s' = fn_pre s /\ fn_trainable s' = fn_trainable s /\ fn_phase s' = (fn_phase s + 1)%Z /\
    fn_seq D A I s' = fn_seq D A I s /\ (forall t, fn_dt s = Some t -> fn_dt s' = Some t) /\ fn_started s' = false /\
    fn_training s' = (if (Z.of_nat (length (fn_seq D A I s)) - (fn_phase s + 1) =? 0)%Z then false else true).
  Lemma fn_stop_ok a s s' pre f post : fn_flow s = pre ++ f :: post -> wf f -> fn_index D A I s = Some (length pre) ->
    fn_stop D A I a s = (s', NOk tt) ->
    exists pre' f' post', fn_flow s' = pre' ++ f' :: post' /\ Forall2 donly pre pre' /\ Forall2 donly post post' /\ wf f' /\
      f_b f' = f_b f /\ f_nargs f' = f_nargs f /\ keeps (f_s f) (f_s f') /\ ftrains f' = ftrains f /\ n_phase D A I (f_s f') = (n_phase D A I (f_s f) + 1)%Z /\ smeta s s' /\ fn_started s = true.
  Proof.
    intros Hs Hw Hi. unfold fn_stop. destruct (fn_training s) eqn:Etr; [|discriminate]. destruct (fn_started s) eqn:Est; [|discriminate]. cbn [negb andb]. rewrite Hi.
    unfold FlowNodeModel.fbind at 1. unfold on_flow. unfold at_node. rewrite Hs, nth_app. destruct (stop_training D A I (f_b f) a (f_s f)) as [u [[]|e]] eqn:Es; [|discriminate].
    rewrite update_app. pose proof Hw as (W1 & W2 & W3 & W4). destruct (stop_training_ok D A I (f_b f) W2 a (f_s f) u W1 Es) as (S1 & S2 & S3 & S4).
    set (s1 := set_flow D A I s (pre ++ with_s f u :: post)).
    assert (fn_seq D A I s1 = fn_seq D A I s) as Eseq1.
    { unfold fn_seq, s1. cbn. rewrite Hs. apply seq_beh. apply Forall2_app; [apply F2_refl; reflexivity|]. constructor; [reflexivity|apply F2_refl; reflexivity]. }
    unfold FlowNodeModel.fbind.
    assert (exists s2 r2, (if Z.to_nat (fn_phase s1) + 1 =? length (fn_seq D A I s1) then fix_dims D A I s1 else (s1, NOk tt)) = (s2, r2) /\ fdim s1 s2) as (s2 & r2 & E2 & Hd).
    { destruct (_ =? _); [|eauto using fdim_refl]. pose proof (fdims_fix s1) as K. destruct (fix_dims D A I s1) as [s2 r2]. eauto. }
    rewrite E2. destruct r2 as [u2|e]; [|discriminate]. destruct Hd as (A1 & A2 & A3 & A4 & A5 & A6 & A7). unfold s1 in A1 at 1. cbn [set_flow FlowNodeModel.fn_flow] in A1.
    destruct (F2_split _ _ _ _ _ A1) as (pre1 & f1 & post1 & E1 & P1 & P2 & P3).
    assert (fn_seq D A I s2 = fn_seq D A I s) as Eseq2 by (rewrite <- Eseq1; unfold fn_seq; rewrite A2; apply donly_seq; unfold s1; cbn; exact A1).
    assert (wf (with_s f u)) as Hw1 by (split; [exact S1|split; [exact W2|split; assumption]]). destruct (donly_cl _ _ P2) as (Q1 & Q2 & Q3).
    set (s3 := set_started D A I (set_phase D A I s2 (fn_phase s2 + 1)) false). intros E.
    assert (s' = set_training D A I s3 (if (Z.of_nat (length (fn_seq D A I s)) - (fn_phase s + 1) =? 0)%Z then false else true)) as ->.
    { change (fn_seq D A I s3) with (fn_seq D A I s2) in E. rewrite Eseq2 in E. change (FlowNodeModel.fn_phase D A I s3) with (fn_phase s2 + 1)%Z in E. rewrite A5 in E. change (FlowNodeModel.fn_phase D A I s1) with (fn_phase s) in E.
      destruct (_ =? 0)%Z; injection E as <-; [reflexivity|]. unfold s3. assert (fn_training s2 = true) as <- by (rewrite A4; exact Etr). destruct s2; reflexivity. }
    exists pre1, f1, post1. split; [exact E1|]. split; [exact P1|]. split; [exact P3|]. split; [eapply donly_wf; eassumption|].
    split; [apply P2|]. split; [apply P2|]. split; [eapply keeps_trans; [exact S2|apply P2]|]. split; [rewrite Q3; exact S3|].
    split; [destruct P2 as (_ & _ & (_ & P24 & _) & _); rewrite P24; exact S4|]. split; [|reflexivity].
    split; [exact A2|]. split; [exact A3|]. split; [cbn; rewrite A5; reflexivity|]. split; [exact Eseq2|]. split; [exact A7|split; reflexivity].
  Qed.

  (** fn_fit of a concatenation *)
  Lemma fit_app d1 d2 : forall s, fn_fit D A I na (d1 ++ d2) s = fbind (fn_fit D A I na d1) (fun _ => fn_fit D A I na d2) s.
  Proof.
    induction d1 as [|els d1 IH]; intros s; cbn [app fn_fit]; [reflexivity|]. unfold FlowNodeModel.fbind in *. destruct (fn_chunks D A I na els s) as [s1 [u|e]]; [|reflexivity].
    destruct (fn_stop D A I na s1) as [s2 [v|e]]; [|reflexivity]. apply IH.
  Qed.

  Definition closes (s : fnn) : Prop := fn_training s = (if (Z.of_nat (length (fn_seq D A I s)) - fn_phase s =? 0)%Z then false else true).
  Definition at_phases (s : fnn) (i m : nat) : Prop := (0 <= fn_phase s)%Z /\ forall q, q < m -> nth_error (fn_seq D A I s) (Z.to_nat (fn_phase s) + q) = Some i.

  (** all open phases of one node *)
  Lemma fn_node_ok : forall m data s s' pre f post, length data = m -> nph f - cl f = m -> fn_flow s = pre ++ f :: post -> Forall ready pre -> wf f ->
    at_phases s (length pre) m -> (m <> 0 -> fn_started s = false) -> fn_fit D A I na data s = (s', NOk tt) ->
    exists pre' f' post' outs, fn_flow s' = pre' ++ f' :: post' /\ Forall ready pre' /\ Forall2 grown pre pre' /\ Forall2 donly post post' /\ wf f' /\ isdone f' /\
      f_b f' = f_b f /\ f_nargs f' = f_nargs f /\ keeps (f_s f) (f_s f') /\
      ftrains f' = ftrains f ++ expected f (n_dt D A I (f_s f')) (fun q => castd (fn_dt s') (nth q data [])) outs /\
      fn_pre s' = fn_pre s /\ fn_phase s' = (fn_phase s + Z.of_nat m)%Z /\ fn_seq D A I s' = fn_seq D A I s /\ (forall t, fn_dt s = Some t -> fn_dt s' = Some t) /\
      (m <> 0 -> Forall isdone pre' /\ (exists t, n_dt D A I (f_s f') = Some t) /\ (exists t, fn_dt s' = Some t)) /\ (m <> 0 -> fn_started s' = false) /\ (m = 0 -> s' = s) /\ (m <> 0 -> closes s') /\
      (forall pre2, Forall2 flater pre' pre2 -> forall q, q < m -> Forall2 (fun e y => through na pre2 (fst e) = Some y) (castd (fn_dt s') (nth q data [])) (outs q)).
  Proof.
    induction m as [|m IH]; intros data s s' pre f post Hl Hm Hs Hr Hw Hat Hst.
    - destruct data; [|discriminate]. cbn. intros [= <-]. exists pre, f, post, (fun _ => []). split; [exact Hs|]. split; [exact Hr|]. split; [apply F2_refl, grown_refl|]. split; [apply F2_refl, donly_refl|]. split; [exact Hw|].
      split. { unfold FlowProofs.isdone. destruct (n_training D A I (f_s f)) eqn:E; [|reflexivity]. destruct (training_lt D A I f Hw E). lia. }
      split; [reflexivity|]. split; [reflexivity|]. split; [apply keeps_refl|]. split; [unfold FlowProofs.expected; rewrite Hm; cbn; rewrite app_nil_r; reflexivity|].
      split; [reflexivity|]. split; [lia|]. split; [reflexivity|]. split; [auto|]. split; [congruence|]. split; [congruence|]. split; [reflexivity|]. split; [congruence|]. intros; lia.
    - destruct data as [|els data]; [discriminate|]. cbn in Hl. injection Hl as Hl. cbn [fn_fit]. unfold FlowNodeModel.fbind.
      destruct (fn_chunks D A I na els s) as [s1 [[]|e]] eqn:E1; [|discriminate]. destruct (fn_stop D A I na s1) as [s2 [[]|e]] eqn:E2; [|discriminate]. intros E3.
      destruct Hat as [Hat0 Hat]. assert (fn_index D A I s = Some (length pre)) as Hi.
      { unfold fn_index. destruct (Z.leb_spec 0 (fn_phase s)); [|lia]. rewrite <- (Hat 0) by lia. f_equal. lia. }
      destruct (fn_chunks_ok els s s1 pre f post Hs Hr Hw Hi E1) as (pre1 & f1 & post1 & ys & C1 & C2 & C3 & C4 & C5 & C6 & C7 & C8 & C9 & C10 & C11 & C12 & C13 & C14 & C15 & C16).
      assert (fn_index D A I s1 = Some (length pre1)) as Hi1 by (rewrite (meta_index s s1 C13), Hi, (F2_len _ _ _ C3); reflexivity).
      destruct (fn_stop_ok na s1 s2 pre1 f1 post1 C1 C5 Hi1 E2) as (pre2 & f2 & post2 & S1 & S2 & S3 & S4 & S5 & S6 & S7 & S8 & S9 & S10 & S11).
      assert (els <> []) as Hne by (intros ->; destruct (C14 eq_refl) as (-> & _); rewrite Hst in S11 by lia; discriminate).
      destruct (C15 Hne) as (I1 & I2 & I3 & [t It] & [t' It'] & _). clear C15.
      destruct S10 as (M1 & M2 & M3 & M4 & M5 & M6 & M7). destruct C13 as (N1 & N2 & N3 & N4 & N5 & N6).
      assert (cl f2 = S (cl f) /\ nph f2 = nph f) as [Hc2 Hn2].
      { split; [|unfold FlowProofs.nph; rewrite S5, C6; reflexivity]. rewrite <- C10. destruct (training_lt D A I f1 C5 I2) as (_ & L2 & _).
        pose proof C5 as ((_ & _ & _ & W14 & _) & _). destruct S4 as ((_ & _ & _ & S14 & _) & _). rewrite S5, L2 in S14. rewrite L2 in W14. unfold FlowProofs.cl in *. lia. }
      assert (at_phases s2 (length pre2) m) as Hat2.
      { split; [lia|]. intros q Hq. rewrite M4, N5, M3, N4, (F2_len _ _ _ S2), (F2_len _ _ _ C3). rewrite <- (Hat (S q)) by lia. f_equal. lia. }
      destruct (IH data s2 s' pre2 f2 post2) as (pre' & f' & post' & outs & D1 & D2 & D3 & D4 & D5 & D6 & D7 & D8 & D9 & D10 & D11 & D12 & D13 & D14 & D15 & D16 & D17 & D18 & D19); auto; try lia.
      { eapply F2_Forall; [apply donly_ready|exact S2|exact C2]. }
      assert (n_dt D A I (f_s f') = Some t) as Et by (apply D9, S7; exact It). assert (fn_dt s' = Some t') as Et' by (apply D14, M5; exact It').
      assert (Forall2 grown pre1 pre2) as G12 by (eapply F2_impl; [apply donly_grown|exact S2]).
      assert (Forall isdone pre') as Hdone by (eapply F2_Forall; [apply later_isdone|exact D3|eapply F2_Forall; [apply later_isdone|exact G12|exact I1]]).
      exists pre', f', post', (fun q => match q with O => ys | S q => outs q end).
      split; [exact D1|]. split; [exact D2|]. split; [eapply F2_trans; [apply grown_trans|exact C3|eapply F2_trans; [apply grown_trans|exact G12|exact D3]]|].
      split; [eapply F2_trans; [apply donly_trans|exact C4|eapply F2_trans; [apply donly_trans|exact S3|exact D4]]|]. split; [exact D5|]. split; [exact D6|].
      split; [congruence|]. split; [congruence|]. split; [eapply keeps_trans; [exact C8|eapply keeps_trans; [exact S7|exact D9]]|].
      split.
      { rewrite D10, S8, C12, <- app_assoc. f_equal. unfold FlowProofs.expected. rewrite Hc2, Hn2. replace (nph f - cl f) with (S (nph f - S (cl f))) by lia. rewrite flat_map_seq_S. cbn [nth]. f_equal.
        { rewrite Nat.add_0_r, Et, Et', It, It'. reflexivity. }
        apply flat_map_ext. intros q. apply evs_ext; [lia|reflexivity]. }
      split; [congruence|]. split; [lia|]. split; [congruence|]. split; [auto|]. split; [intros _; split; [exact Hdone|split; eauto]|].
      split. { intros _. destruct m; [rewrite D17 by reflexivity; exact M6|apply D16; lia]. }
      split; [lia|]. split.
      { intros _. destruct m; [rewrite D17 by reflexivity; unfold closes; rewrite M7, M4, M3; reflexivity|apply D18; lia]. }
      intros pr H2 [|q] Hq; cbn [nth].
      + replace (fn_dt s') with (fn_dt s1) by congruence. apply C16. eapply flater_grown; [exact I1|eapply F2_trans; [apply grown_trans|exact G12|exact D3]|exact H2].
      + apply D19; [exact H2|lia].
  Qed.

  (** all nodes *)
  Fixpoint offs (fs : flow) : nat := match fs with [] => 0 | f :: fs => (nph f - cl f) + offs fs end.
  Definition nodefact := FlowProofs.nodefact D A I na.
  Lemma nodefact_any f0 f d d' p : nph f0 - cl f0 = 0 -> nodefact f0 f d p -> nodefact f0 f d' p.
  Proof.
    intros H0 (F1 & F2 & F3 & outs & F4 & F5 & F6). split; [exact F1|]. split; [exact F2|]. split; [exact F3|]. exists outs. split; [rewrite F4; unfold FlowProofs.expected; rewrite H0; reflexivity|].
    split; [left; exact H0|]. intros; lia.
  Qed.
  Lemma nodefact_donly f f1 g d p : donly f f1 -> nodefact f1 g d p -> nodefact f g d p.
  Proof.
    intros Hd (F1 & F2 & F3 & outs & F4 & F5 & F6). destruct (donly_cl f f1 Hd) as (Q1 & Q2 & Q3). pose proof Hd as (D1 & D2 & (_ & _ & _ & _ & D3) & _).
    split; [congruence|]. split; [congruence|]. split; [eapply keeps_trans; eassumption|]. exists outs. unfold FlowProofs.expected in *. rewrite Q1, Q2 in *. rewrite Q3 in F4. auto.
  Qed.
  Lemma nodefact_ext f0 f it it' p : (forall q, q < nph f0 - cl f0 -> it q = it' q) -> nodefact f0 f (Some it) p -> nodefact f0 f (Some it') p.
  Proof.
    intros H (F1 & F2 & F3 & outs & F4 & F5 & F6). split; [exact F1|]. split; [exact F2|]. split; [exact F3|]. exists outs. split.
    { rewrite F4. f_equal. unfold FlowProofs.expected. rewrite !flat_map_concat_map. f_equal. apply map_ext_in. intros q Hq. apply in_seq in Hq. cbn. rewrite H by lia. reflexivity. }
    split; [exact F5|]. intros pre2 H2 q Hq. cbn. rewrite <- H by exact Hq. apply (F6 pre2 H2 q Hq).
  Qed.

  Lemma seq_at : forall fs i, Forall wf fs -> forall pre, pre = map (fun f => n_phase D A I (f_s f)) fs ->
    train_seq D A I i fs pre = flat_map (fun kf => repeat (fst kf) (nph (snd kf) - cl (snd kf))) (combine (seq i (length fs)) fs).
  Proof.
    induction fs as [|f fs IH]; intros i Hw pre ->; [reflexivity|]. cbn [map train_seq length seq combine flat_map fst snd]. inversion Hw as [|? ? Hw1 Hw2]; subst. rewrite (IH (S i) Hw2) by reflexivity. f_equal.
    pose proof Hw1 as ((_ & _ & _ & W4 & _) & _). unfold FlowProofs.nph, FlowProofs.cl, nphases in *. destruct (b_trainable D A I (f_b f)); [|reflexivity]. f_equal. lia.
  Qed.

  Lemma fn_flow_ok : forall fs data s s' pre, length data = offs fs -> fn_flow s = pre ++ fs -> Forall ready pre -> Forall wf fs ->
    ((0 <= fn_phase s)%Z \/ offs fs = 0) ->
    (forall q, q < offs fs -> nth_error (fn_seq D A I s) (Z.to_nat (fn_phase s) + q) = nth_error (flat_map (fun kf => repeat (fst kf) (nph (snd kf) - cl (snd kf))) (combine (seq (length pre) (length fs)) fs)) q) ->
    (offs fs <> 0 -> fn_started s = false) -> fn_fit D A I na data s = (s', NOk tt) ->
    exists pre' fs', fn_flow s' = pre' ++ fs' /\ Forall2 grown pre pre' /\ length fs' = length fs /\ Forall isdone fs' /\ (forall t, fn_dt s = Some t -> fn_dt s' = Some t) /\
      (fn_phase s' = fn_phase s + Z.of_nat (offs fs))%Z /\ fn_seq D A I s' = fn_seq D A I s /\ (offs fs = 0 -> s' = s) /\ (offs fs <> 0 -> closes s') /\
      forall k f f', nth_error fs k = Some f -> nth_error fs' k = Some f' ->
        nodefact f f' (Some (fun q => castd (fn_dt s') (nth (offs (firstn k fs) + q) data []))) (pre' ++ firstn k fs').
  Proof.
    intros fs. remember (length fs) as n eqn:En. revert fs En. induction n as [|n IH]; intros [|f fs] En; try discriminate; intros data s s' pre Hl Hs Hr Hw Hp Hseq Hst E.
    - destruct data; [|discriminate]. cbn in E. injection E as <-. exists pre, []. split; [exact Hs|]. split; [apply F2_refl, grown_refl|]. split; [reflexivity|]. split; [constructor|]. split; [auto|]. split; [cbn; lia|]. split; [reflexivity|]. split; [reflexivity|]. split; [cbn; lia|]. intros [|k]; discriminate.
    - rewrite En in Hseq. rewrite En. injection En as En.
      assert (forall post', Forall2 donly fs post' -> n = length post') as IHlen by (intros post' H; rewrite (F2_len _ _ _ H); exact En).
      cbn [offs] in *. set (m := nph f - cl f) in *. inversion Hw as [|? ? Hw1 Hw2]; subst.
      rewrite <- (firstn_skipn m data) in E. rewrite fit_app in E. unfold FlowNodeModel.fbind in E. destruct (fn_fit D A I na (firstn m data) s) as [s1 [[]|e]] eqn:E1; [|discriminate].
      cbn [length seq combine flat_map fst snd] in Hseq. fold m in Hseq.
      assert (length (firstn m data) = m) as Hlm by (rewrite firstn_length; lia).
      assert (exists pre' f' post' outs, fn_flow s1 = pre' ++ f' :: post' /\ Forall ready pre' /\ Forall2 grown pre pre' /\ Forall2 donly fs post' /\ wf f' /\ isdone f' /\
        f_b f' = f_b f /\ f_nargs f' = f_nargs f /\ keeps (f_s f) (f_s f') /\
        ftrains f' = ftrains f ++ expected f (n_dt D A I (f_s f')) (fun q => castd (fn_dt s1) (nth q (firstn m data) [])) outs /\
        fn_pre s1 = fn_pre s /\ fn_phase s1 = (fn_phase s + Z.of_nat m)%Z /\ fn_seq D A I s1 = fn_seq D A I s /\ (forall t, fn_dt s = Some t -> fn_dt s1 = Some t) /\
        (m <> 0 -> Forall isdone pre' /\ (exists t, n_dt D A I (f_s f') = Some t) /\ (exists t, fn_dt s1 = Some t)) /\ (m <> 0 -> fn_started s1 = false) /\ (m = 0 -> s1 = s) /\ (m <> 0 -> closes s1) /\
        (forall pre2, Forall2 flater pre' pre2 -> forall q, q < m -> Forall2 (fun e y => through na pre2 (fst e) = Some y) (castd (fn_dt s1) (nth q (firstn m data) [])) (outs q))) as K.
      { destruct (Nat.eq_dec m 0) as [Em|Em].
        - rewrite Em in *. cbn in E1. injection E1 as <-. exists pre, f, fs, (fun _ => []). split; [exact Hs|]. split; [exact Hr|]. split; [apply F2_refl, grown_refl|]. split; [apply F2_refl, donly_refl|]. split; [exact Hw1|].
          split. { unfold FlowProofs.isdone. destruct (n_training D A I (f_s f)) eqn:Et; [|reflexivity]. destruct (training_lt D A I f Hw1 Et). unfold m in Em. lia. }
          split; [reflexivity|]. split; [reflexivity|]. split; [apply keeps_refl|]. split; [unfold FlowProofs.expected; fold m; rewrite Em; cbn; rewrite app_nil_r; reflexivity|].
          split; [reflexivity|]. split; [lia|]. split; [reflexivity|]. split; [auto|]. split; [congruence|]. split; [congruence|]. split; [reflexivity|]. split; [congruence|]. intros; lia.
        - apply (fn_node_ok m (firstn m data) s s1 pre f fs); auto.
          + split; [lia|]. intros q Hq. rewrite Hseq by lia. rewrite nth_error_app1 by (rewrite repeat_length; lia). apply nth_error_repeat. exact Hq.
          + intros _. apply Hst. lia. }
      destruct K as (pre1 & f1 & post1 & outs & C1 & C2 & C3 & C4 & C5 & C6 & C7 & C8 & C9 & C10 & C11 & C12 & C13 & C14 & C15 & C16 & C17 & C17' & C18).
      assert (forall l l', Forall2 donly l l' -> offs l' = offs l) as Hoffs.
      { intros l l' H. induction H as [|a b l l' Hab Hll IHl]; [reflexivity|]. cbn. destruct (donly_cl a b Hab) as (-> & -> & _). rewrite IHl. reflexivity. }
      assert (forall l l' k, Forall2 donly l l' -> flat_map (fun kf => repeat (fst kf) (nph (snd kf) - cl (snd kf))) (combine (seq k (length l')) l') = flat_map (fun kf => repeat (fst kf) (nph (snd kf) - cl (snd kf))) (combine (seq k (length l)) l)) as Hfm.
      { intros l l' k H. revert k. induction H as [|a b l l' Hab Hll IHl]; intros k; [reflexivity|]. cbn. destruct (donly_cl a b Hab) as (-> & -> & _). rewrite IHl. reflexivity. }
      destruct (IH post1 (IHlen _ C4) (skipn m data) s1 s' (pre1 ++ [f1])) as (prel & fs' & K1 & K2 & K3 & K4 & K5 & K7 & K8 & K9 & K10 & K6).
      { rewrite skipn_length, (Hoffs _ _ C4). lia. }
      { rewrite <- app_assoc. exact C1. }
      { apply Forall_app. split; [exact C2|]. constructor; [|constructor]. split; [exact C5|left; exact C6]. }
      { eapply F2_Forall; [apply donly_wf|exact C4|exact Hw2]. }
      { rewrite (Hoffs _ _ C4). lia. }
      { intros q Hq. rewrite (Hoffs _ _ C4) in Hq. rewrite C13, C12. rewrite (IHlen _ C4), (Hfm _ _ _ C4), app_length, (F2_len _ _ _ C3), Nat.add_1_r. destruct Hp as [Hp|Hp]; [|lia].
        replace (Z.to_nat (fn_phase s + Z.of_nat m) + q) with (Z.to_nat (fn_phase s) + (m + q)) by lia. rewrite Hseq by lia. rewrite nth_error_app2 by (rewrite repeat_length; lia). rewrite repeat_length. f_equal. lia. }
      { rewrite (Hoffs _ _ C4). intros Ho. destruct (Nat.eq_dec m 0) as [Em|Em]; [rewrite (C17 Em); apply Hst; lia|apply C16; exact Em]. }
      { exact E. }
      destruct (F2_split_app _ _ _ _ K2) as (pre' & fl & -> & G1 & G2). inversion G2 as [|? f' ? ? G3 G4]; subst. inversion G4; subst. clear G2 G4.
      exists pre', (f' :: fs'). split; [rewrite K1, <- app_assoc; reflexivity|]. split; [eapply F2_trans; [apply grown_trans|exact C3|exact G1]|].
      split; [cbn; rewrite K3; f_equal; apply (F2_len _ _ _ C4)|]. split; [constructor; [eapply later_isdone; eassumption|exact K4]|].
      split; [intros t Ht; apply K5, C14; exact Ht|].
      rewrite (Hoffs _ _ C4) in K7, K9, K10. split; [lia|]. split; [congruence|]. split; [intros Ho; rewrite K9, C17 by lia; reflexivity|].
      split. { intros Ho. destruct (Nat.eq_dec (offs fs) 0) as [E0|E0]; [rewrite (K9 E0); apply C17'; lia|apply K10; exact E0]. }
      assert (nodefact f f1 (Some (fun q => castd (fn_dt s') (nth q data []))) pre1) as NF1.
      { assert (m <> 0 -> fn_dt s' = fn_dt s1) as Edt by (intros Hm; destruct (C15 Hm) as (_ & _ & [t Ht]); rewrite Ht; apply K5; exact Ht).
        assert (forall q, q < m -> castd (fn_dt s') (nth q data []) = castd (fn_dt s1) (nth q (firstn m data) [])) as Eq.
        { intros q Hq. rewrite Edt by lia. f_equal. rewrite <- (firstn_skipn m data) at 1. rewrite app_nth1 by lia. reflexivity. }
        split; [exact C7|]. split; [exact C8|]. split; [exact C9|]. exists outs. split.
        { rewrite C10. f_equal. unfold FlowProofs.expected. fold m. rewrite !flat_map_concat_map. f_equal. apply map_ext_in. intros q Hq. apply in_seq in Hq. cbn. rewrite Eq by lia. reflexivity. }
        split; [destruct (Nat.eq_dec m 0) as [Em|Em]; [left; exact Em|right; destruct (C15 Em) as (J1 & J2 & _); auto]|].
        intros pr H2 q Hq. cbn. rewrite Eq by exact Hq. apply C18; assumption. }
      intros [|k] g g' Hg Hg'; cbn [nth_error firstn offs] in *.
      + injection Hg as ->. injection Hg' as ->. rewrite app_nil_r. eapply nodefact_grown; [exact NF1|exact G3|exact G1].
      + destruct (F2_nth' _ _ _ C4 k g Hg) as (g1 & Hg1 & Hd). eapply nodefact_donly; [exact Hd|]. specialize (K6 k g1 g' Hg1 Hg'). rewrite <- app_assoc in K6.
        eapply nodefact_ext; [|exact K6]. intros q Hq. cbn. rewrite (Hoffs (firstn k fs) (firstn k post1)) by (apply F2_firstn; exact C4). fold m.
        rewrite <- (firstn_skipn m data) at 2. rewrite app_nth2 by lia. f_equal. f_equal. lia.
  Qed.

  Lemma seq_total : forall fs i, Forall wf fs -> length (train_seq D A I i fs (map (fun f => n_phase D A I (f_s f)) fs)) = offs fs.
  Proof.
    intros fs i Hw. rewrite (seq_at fs i Hw) by reflexivity. clear Hw. revert i. induction fs as [|f fs IH]; intros i; [reflexivity|]. cbn. rewrite app_length, repeat_length, IH. reflexivity.
  Qed.
  Lemma fn_init_ok fs din dout dt s : Forall wf fs -> fn_init D A I fs din dout dt = (s, NOk tt) ->
    Forall2 donly fs (fn_flow s) /\ length (fn_seq D A I s) = offs fs /\ fn_started s = false /\ fn_trainable s = negb (offs fs =? 0) /\ fn_training s = negb (offs fs =? 0) /\
    (offs fs <> 0 -> fn_phase s = 0%Z) /\ fn_seq D A I s = flat_map (fun kf => repeat (fst kf) (nph (snd kf) - cl (snd kf))) (combine (seq 0 (length fs)) fs).
  Proof.
    intros Hw. unfold fn_init. destruct fs as [|f fs]; [discriminate|]. set (F := f :: fs) in *. set (pre := map _ F). set (s0 := mkFN D A I F None None None pre _ _ (-1)%Z false).
    set (op := fbind _ _). assert (fdims op) as Hop.
    { apply fdims_bind; [apply fdims_in|]. intros _. apply fdims_bind; [apply fdims_out|]. intros _. apply fdims_dtype. }
    specialize (Hop s0). destruct (op s0) as [s1 [u|e]]; [|discriminate]. destruct Hop as (A1 & A2 & A3 & A4 & A5 & A6 & A7). cbn [fst s0 FlowNodeModel.fn_flow FlowNodeModel.fn_pre FlowNodeModel.fn_trainable FlowNodeModel.fn_training FlowNodeModel.fn_phase FlowNodeModel.fn_started] in *.
    pose proof (seq_total F 0 Hw) as Ht. fold pre in Ht.
    assert ((match train_seq D A I 0 F pre with [] => false | _ => true end) = negb (offs F =? 0)) as Etr by (rewrite <- Ht; destruct (train_seq D A I 0 F pre); reflexivity).
    rewrite Etr in *. assert (fn_seq D A I s1 = train_seq D A I 0 F pre) as Es1 by (unfold fn_seq; rewrite A2; apply donly_seq; exact A1).
    intros E. assert (fn_flow s = fn_flow s1 /\ fn_seq D A I s = fn_seq D A I s1 /\ fn_started s = fn_started s1 /\ fn_trainable s = fn_trainable s1 /\ fn_training s = fn_training s1 /\ (offs F <> 0 -> fn_phase s = 0%Z)) as (-> & -> & -> & -> & -> & Hp).
    { destruct (Nat.eqb_spec (offs F) 0); cbn [negb] in E; injection E as <-; repeat split; auto; intros; contradiction. }
    split; [exact A1|]. split; [rewrite Es1; exact Ht|]. split; [exact A6|]. split; [exact A3|]. split; [exact A4|]. split; [exact Hp|]. rewrite Es1. apply seq_at; [exact Hw|reflexivity].
  Qed.
End P.
