(** Properties C28 and C98-C101 (FlowNode). *)
From Coq Require Import List Arith ZArith Bool Lia.
From Verif Require Import NodeModel NodeSpec NodeProofs NodeProps FlowModel FlowSpec FlowProofs FlowProps FlowNodeModel FlowNodeProofs.
Import ListNotations.
Open Scope nat_scope.

Section Props.
  Variables (D A I : Type) (na : A).
  (** training phases the nodes of a flow still need *)
  Definition needed (fs : list (fnode D A I)) : nat := list_sum (map (fun f => phases_of f - closed_of f) fs).
  Lemma offs_needed fs : offs D A I fs = needed fs.
  Proof. induction fs as [|f fs IH]; [reflexivity|]. cbn [offs]. rewrite IH. unfold needed, list_sum. cbn. reflexivity. Qed.
  (** data elements as the FlowNode hands them to its flow *)
  Definition as_dtype (t : option dtype) (els : list (array D * A)) : list (array D * A) := map (fun e => (refcast D t (fst e), snd e)) els.

  (** C28. A FlowNode is trainable, and in training, exactly if some node of its flow still needs training; it has as many phases as the
      nodes together still need.  Whenever training it through all these phases succeeds: the FlowNode and all its nodes are
      completely trained, and every node has received, for each of the phases it still had open, exactly the elements given in the
      corresponding phases of the FlowNode (node i takes the phases after those of the nodes before it), in order, each as it comes out
      of the (now final) preceding nodes.  These are the calls Flow.train makes (C08). *)
  Theorem C28_flownode_training fs din dout dt s : Forall (usable na) fs -> fn_init D A I fs din dout dt = (s, NOk tt) ->
    (fn_trainable D A I s = true <-> needed fs <> 0) /\ (fn_training D A I s = true <-> needed fs <> 0) /\ length (fn_seq D A I s) = needed fs /\
    forall data s', length data = needed fs -> fn_fit D A I na data s = (s', NOk tt) ->
      fn_training D A I s' = false /\ length (fn_flow D A I s') = length fs /\
      (forall f', In f' (fn_flow D A I s') -> is_training _ _ _ (f_s _ _ _ f') = false) /\
      forall i f f', nth_error fs i = Some f -> nth_error (fn_flow D A I s') i = Some f' ->
        f_b _ _ _ f' = f_b _ _ _ f /\
        let pass q := as_dtype (fn_dt D A I s') (nth (needed (firstn i fs) + q) data []) in
        exists outs, trains_of f' = trains_of f ++ calls_due f (n_dt _ _ _ (f_s _ _ _ f')) pass outs /\
          forall q, q < phases_of f - closed_of f ->
            Forall2 (fun e y => through na (firstn i (fn_flow D A I s')) (fst e) = Some y) (pass q) (outs q).
  Proof.
    intros Hu Hi. pose proof (usable_wfs D A I na fs Hu) as Hw. destruct (fn_init_ok D A I fs din dout dt s Hw Hi) as (A1 & A2 & A3 & A4 & A5 & A6 & A7).
    rewrite offs_needed in *. split; [rewrite A4; destruct (Nat.eqb_spec (needed fs) 0); cbn; split; intros; try discriminate; auto; contradiction|].
    split; [rewrite A5; destruct (Nat.eqb_spec (needed fs) 0); cbn; split; intros; try discriminate; auto; contradiction|]. split; [exact A2|].
    intros data s' Hl E.
    assert (forall l l', Forall2 (donly D A I) l l' -> needed l' = needed l) as Hn.
    { intros l l' H. rewrite <- !offs_needed. induction H as [|a b l l' Hab Hll IHl]; [reflexivity|]. cbn. destruct (donly_cl D A I a b Hab) as (-> & -> & _). rewrite IHl. reflexivity. }
    destruct (fn_flow_ok D A I na (fn_flow D A I s) data s s' []) as (pre' & fs' & K1 & K2 & K3 & K4 & K5 & K6 & K7 & K8 & K9 & K10); auto.
    { rewrite offs_needed, (Hn _ _ A1). exact Hl. }
    { eapply FlowNodeProofs.F2_Forall; [apply donly_wf|exact A1|exact Hw]. }
    { rewrite offs_needed, (Hn _ _ A1). destruct (Nat.eq_dec (needed fs) 0) as [E0|E0]; [right; exact E0|left; rewrite A6 by exact E0; lia]. }
    { intros q Hq. rewrite offs_needed, (Hn _ _ A1) in Hq. rewrite A6 by lia. cbn [Z.to_nat Nat.add length]. rewrite A7. f_equal.
      assert (forall l l' k, Forall2 (donly D A I) l l' -> flat_map (fun kf => repeat (fst kf) (nph D A I (snd kf) - cl D A I (snd kf))) (combine (seq k (length l)) l) = flat_map (fun kf => repeat (fst kf) (nph D A I (snd kf) - cl D A I (snd kf))) (combine (seq k (length l')) l')) as Hfm.
      { intros l l' k H. revert k. induction H as [|a b l l' Hab Hll IHl]; intros k; [reflexivity|]. cbn. destruct (donly_cl D A I a b Hab) as (-> & -> & _). rewrite IHl. reflexivity. }
      apply Hfm. exact A1. }
    inversion K2; subst. cbn [app] in *. rewrite offs_needed, (Hn _ _ A1) in *.
    split.
    { destruct (Nat.eq_dec (needed fs) 0) as [E0|E0]; [rewrite (K8 E0), A5; rewrite E0; reflexivity|]. rewrite (K9 E0), K7, A2, K6, A6 by exact E0. rewrite Z.add_0_l, Z.sub_diag. reflexivity. }
    rewrite K1. split; [rewrite K3; apply (FlowNodeProofs.F2_len _ _ _ A1)|]. split; [intros f' Hin; rewrite Forall_forall in K4; apply K4; exact Hin|].
    intros i f f' Hf Hf'. destruct (F2_nth' _ _ _ A1 i f Hf) as (f1 & Hf1 & Hd). specialize (K10 i f1 f' Hf1 Hf'). apply (nodefact_donly D A I na f f1 _ _ _ Hd) in K10.
    apply nodefact_plain in K10. rewrite offs_needed, (Hn (firstn i fs) (firstn i (fn_flow D A I s))) in K10 by (apply F2_firstn; exact A1). exact K10.
  Qed.

  (** C98. Whenever executing a FlowNode whose nodes are trained (or have only the last phase open) returns, the result is the data,
      converted to the dtype of the FlowNode, sent through the nodes of its flow. *)
  Theorem C98_flownode_execute s x s' y : Forall (usable na) (fn_flow D A I s) ->
    (forall f, In f (fn_flow D A I s) -> is_training _ _ _ (f_s _ _ _ f) = false \/ only_open_last f) ->
    fn_execute D A I na x s = (s', NOk y) -> through na (fn_flow D A I s') (refcast D (fn_dt D A I s') x) = Some y /\
      Forall2 (fun f f' => f_b D A I f' = f_b D A I f /\ trains_of f' = trains_of f) (fn_flow D A I s) (fn_flow D A I s').
  Proof.
    intros Hu Hr E. assert (Forall (ready D A I) (fn_flow D A I s)) as Hrd.
    { rewrite Forall_forall in *. intros f Hf. apply (cases_ready D A I na); auto. }
    revert E. unfold fn_execute. unfold fbind at 1. pose proof (fdims_check_input D A I x s) as H1. destruct (fn_check_input D A I x s) as [s1 [u|e]]; [|discriminate].
    unfold fbind. cbn [fst] in H1.
    assert (exists s2 r2, (match fn_out D A I s1 with None => fn_set_output_dim D A I (fn_in D A I s1) s1 | Some _ => (s1, NOk tt) end) = (s2, r2) /\ fdim D A I s1 s2) as (s2 & r2 & E2 & H2).
    { destruct (fn_out D A I s1); [eauto using fdim_refl|]. pose proof (fdims_out D A I (fn_in D A I s1) s1) as K. destruct (fn_set_output_dim D A I (fn_in D A I s1) s1) as [s2 r2]. eauto. }
    rewrite E2. destruct r2 as [v|e]; [|discriminate]. pose proof (fdim_trans D A I s s1 s2 H1 H2) as (A1 & _).
    destruct (exec_seq D A I na (length (fn_flow D A I s2)) 0 (fn_flow D A I s2) (refcast D (fn_dt D A I s2) x)) as [fs [z|e]] eqn:Ex; [|discriminate]. intros [= <- <-].
    assert (Forall (ready D A I) (fn_flow D A I s2)) as Hr2 by (eapply FlowNodeProofs.F2_Forall; [apply donly_ready|exact A1|exact Hrd]).
    destruct (exec_pre D A I na _ 0 _ fs z Hr2 Ex) as (B1 & B2 & B3 & B4). cbn. split; [apply B4; apply F2_refl, flater_refl|].
    apply (F2_trans (fun f f' => f_b D A I f' = f_b D A I f /\ trains_of f' = trains_of f)) with (fn_flow D A I s2).
    - intros f g h [X1 X2] [Y1 Y2]. split; congruence.
    - eapply F2_impl; [|exact A1]. intros f g Hd. pose proof (donly_cl D A I f g Hd) as (_ & _ & Q). split; [apply Hd|exact Q].
    - eapply F2_impl; [|exact B3]. intros f g Hg. split; apply Hg.
  Qed.
End Props.
Print Assumptions C28_flownode_training.
Print Assumptions C98_flownode_execute.

(** Concrete cases *)
Example C28_case :
  let r := fn_init nat unit (nat * nat) (fl [dbl; two_pure; dbl; two_pure]) None None None in
  let q := fn_fit nat unit (nat * nat) tt [[(arr 3 2 1, tt); (arr 3 2 2, tt)]; [(arr 3 2 3, tt)]; [(arr 3 2 4, tt)]; [(arr 3 2 5, tt)]] (fst r) in
  snd r = NOk tt /\ fn_seq _ _ _ (fst r) = [1; 1; 3; 3] /\ snd q = NOk tt /\ fn_training _ _ _ (fst q) = false /\
  map trains_of (fn_flow _ _ _ (fst q)) =
    [[]; [EvTrain nat unit 0 (arr 3 2 2) tt; EvTrain nat unit 0 (arr 3 2 4) tt; EvTrain nat unit 1 (arr 3 2 6) tt]; [];
     [EvTrain nat unit 0 (arr 3 2 28) tt; EvTrain nat unit 1 (arr 3 2 32) tt]].
Proof. vm_compute. repeat split; reflexivity. Qed.

(** Node without training from 3 to 2 columns (as a Switchboard), and IdentityNode *)
Definition sel : behaviour nat unit (nat * nat) :=
  mkBeh nat unit (nat * nat) false false false (fun t => Nat.leb t 3) 0
    (fun _ _ _ => None) (fun _ _ _ _ => PRet (Ok tt)) (fun _ _ _ => PRet (Ok tt))
    (fun v x _ => PRet (Ok (mkArray 2 (a_rows x) 2 (a_dtype x) (a_data x)))) (fun v y _ => PRet (Ok y)).
Definition ident : behaviour nat unit (nat * nat) :=
  mkBeh nat unit (nat * nat) false true true (fun t => Nat.leb t 3) 0
    (fun _ _ _ => None) (fun _ _ _ _ => PRet (Ok tt)) (fun _ _ _ => PRet (Ok tt))
    (fun v x _ => PRet (Ok x)) (fun v y _ => PRet (Ok y)).
Definition sel_ident := [mkF nat unit (nat * nat) sel 0 (fst (init nat unit (nat * nat) sel (0, 0) (Some 3) (Some 2) None)); fresh ident].
Example C98_case :
  let r := fn_init nat unit (nat * nat) sel_ident None (Some 2) None in
  snd r = NOk tt /\ snd (fn_execute _ _ _ tt (arr 5 3 7) (fst r)) = NOk (arr 5 2 7).
Proof. vm_compute. split; reflexivity. Qed.
(** "A FlowNode executes whatever its flow executes" is false: FlowNode(Flow([Switchboard(3, [0, 1]), IdentityNode()])).  Since the output_dim
    of the last node is not known yet, Node._pre_execution_checks sets the FlowNode's output_dim to its input_dim, 3; that sets the
    nodes' dimensions, and the first execution raises InconsistentDimException.  The second one works. *)
Theorem C98_first_execute_refuted : exists fs s x y s1 s2,
  Forall (usable tt) fs /\ fn_init nat unit (nat * nat) fs None None None = (s, NOk tt) /\
  snd (flow_execute_array nat unit (nat * nat) tt fs x) = FOk y /\
  fn_execute nat unit (nat * nat) tt x s = (s1, NErr (NX InconsistentDim)) /\
  fn_execute nat unit (nat * nat) tt x s1 = (s2, NOk y).
Proof.
  exists sel_ident. do 5 eexists. split.
  { constructor; [|constructor; [|constructor]]; (split; [|split]).
    - split; [discriminate|]. exists (0, 0), (Some 3), (Some 2), None. eexists. exists []. split; reflexivity.
    - intros v x a. eexists. reflexivity.
    - split; [discriminate|]. split; intros; cbn; discriminate.
    - split; [discriminate|]. exists (0, 0), None, None, None. eexists. exists []. split; reflexivity.
    - intros v x a. eexists. reflexivity.
    - split; [discriminate|]. split; intros; cbn; discriminate. }
  split; [reflexivity|]. split; [instantiate (2 := arr 5 3 7); vm_compute; reflexivity|]. split; vm_compute; reflexivity.
Qed.
Print Assumptions C98_first_execute_refuted.

(** ** C99-C101: FlowNode.copy *)
(** C99. A copy that succeeds holds the copies of the nodes, in order; the original still shows the same nodes. *)
Theorem C99_copy cp deep a a' c : fn_copy cp deep a = (a', COk c) ->
  exists nodes news, iter_attr a = COk nodes /\ c = AList news /\ Forall2 (fun n m => cp n = COk m) nodes news /\ iter_attr a' = COk nodes.
Proof.
  assert (forall a b, slice_all a = COk b -> iter_attr b = iter_attr a) as Hs.
  { clear. induction a as [l|a IH|]; cbn; intros b; [intros [= <-]; reflexivity| |discriminate]. destruct (slice_all a) as [z|]; [|discriminate]. intros [= <-]. exact (IH z eq_refl). }
  unfold fn_copy. destruct (slice_all a) as [old|] eqn:E; [|discriminate]. rewrite (Hs a old E). destruct (iter_attr a) as [nodes|] eqn:En; [|discriminate].
  destruct (copies cp nodes) as [news|] eqn:Ec; [|discriminate]. destruct deep; [|discriminate]. intros [= <- <-]. exists nodes, news. split; [reflexivity|]. split; [reflexivity|].
  split; [|cbn; rewrite (Hs a old E); exact En]. clear -Ec. revert news Ec. induction nodes as [|n nodes IH]; cbn; intros news; [intros [= <-]; constructor|].
  destruct (cp n) eqn:E1; [|discriminate]. destruct (copies cp nodes); [|discriminate]. intros [= <-]. constructor; auto.
Qed.
Print Assumptions C99_copy.
Example C99_case : fn_copy (fun n => COk (n + 10)) true (AList [1; 2]) = (AFlow (AList [1; 2]), COk (AList [11; 12])).
Proof. reflexivity. Qed.
(** A node whose copy raises leaves the FlowNode unchanged. *)
Theorem C99_copy_node_error cp deep a l e : iter_attr a = COk l -> copies cp l = CErr e -> fn_copy cp deep a = (a, CErr e).
Proof.
  assert (forall a, match slice_all a with COk b => iter_attr b = iter_attr a | CErr _ => exists e, iter_attr a = CErr e end) as Hs.
  { clear. induction a as [l|a IH|]; cbn; [reflexivity| |eauto]. destruct (slice_all a); exact IH. }
  intros H1 H2. unfold fn_copy. specialize (Hs a). destruct (slice_all a); [rewrite Hs, H1, H2; reflexivity|]. destruct Hs as [e' Hs]. congruence.
Qed.
Print Assumptions C99_copy_node_error.
(** C100. "Copying leaves the original as it was" is false: the original's flow attribute becomes a Flow object, so that adding its flow
    to another one, possible before, raises TypeError; each further copy nests one level deeper. *)
Theorem C100_copy_changes_original_refuted : exists cp a a' c l,
  fn_copy cp true a = (a', COk c) /\ add_flow [0] a = COk l /\ add_flow [0] a' = CErr CType.
Proof. exists (fun n => COk (n + 10)), (AList [1; 2]). do 3 eexists. repeat split. Qed.
Print Assumptions C100_copy_changes_original_refuted.
Theorem C100_copy_depth cp a a' c : fn_copy cp true a = (a', COk c) -> depth a' = S (depth a).
Proof.
  assert (forall a b, slice_all a = COk b -> depth b = depth a) as Hs.
  { clear. induction a as [l|a IH|]; cbn; intros b; [intros [= <-]; reflexivity| |discriminate]. destruct (slice_all a) as [z|]; [|discriminate]. intros [= <-]. cbn. rewrite (IH z) by reflexivity. reflexivity. }
  unfold fn_copy. destruct (slice_all a) as [old|] eqn:E; [|discriminate]. destruct (iter_attr old); [|discriminate]. destruct (copies cp x); [|discriminate]. intros [= <- <-]. cbn. rewrite (Hs a old E). reflexivity.
Qed.
Print Assumptions C100_copy_depth.
(** C101. "A failing copy leaves the original usable" is false: if deepcopy of the rest raises, the original's flow is None. *)
Theorem C101_copy_error_refuted : exists cp a a' e nodes, iter_attr a = COk nodes /\ fn_copy cp false a = (a', CErr e) /\ iter_attr a' = CErr CType.
Proof. exists (fun n => COk (n + 10)), (AList [1; 2]). do 3 eexists. repeat split. Qed.
Print Assumptions C101_copy_error_refuted.
