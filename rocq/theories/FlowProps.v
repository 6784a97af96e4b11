(** Properties C08-C11 and C66 (training, execution, inversion of flows, checkpoints). *)
From Coq Require Import List Arith ZArith Bool Lia.
From Verif Require Import NodeModel NodeSpec NodeProofs NodeProps FlowModel FlowSpec FlowProofs.
Import ListNotations.
Open Scope nat_scope.

Section Glue.
  Variables (D A I : Type) (na : A) (arglen : A -> nat).

  Lemma usable_wf f : usable na f -> wf D A I f.
  Proof.
    intros ((Hk & i0 & din & dout & dt & s0 & cs & H1 & H2) & Hp & Hn). unfold wf. rewrite H2.
    split; [apply run_life; [exact Hk|]; eapply init_life; eassumption|]. auto.
  Qed.
  Lemma usable_wfs fs : Forall (usable na) fs -> Forall (wf D A I) fs.
  Proof. apply Forall_impl. exact usable_wf. Qed.

  Lemma ready_cases f : ready D A I f -> is_training _ _ _ (f_s _ _ _ f) = false \/ only_open_last f.
  Proof.
    intros (Hw & [Hd|(O1 & O2 & O3)]); [left; exact Hd|right].
    destruct (training_lt D A I f Hw O1) as (L1 & L2 & L3). unfold only_open_last, closed_of, phases_of.
    unfold cl, nph, nphases in *. destruct Hw as ((I1 & I2 & I3 & I4 & I5) & _). rewrite L2 in *. split; [lia|].
    apply I5. exact O2.
  Qed.
  Lemma cases_ready f : usable na f -> is_training _ _ _ (f_s _ _ _ f) = false \/ only_open_last f -> ready D A I f.
  Proof.
    intros Hu Hc. pose proof (usable_wf f Hu) as Hw. split; [exact Hw|].
    destruct Hc as [Hc|(O1 & O2)]; [left; exact Hc|right]. unfold open_last.
    pose proof Hw as ((I1 & I2 & I3 & I4 & I5) & _). unfold closed_of, phases_of in *.
    assert (n_training D A I (f_s D A I f) = true) as Ht.
    { rewrite I3. apply Nat.ltb_lt. unfold nphases. lia. }
    split; [exact Ht|]. split; [apply I5; exact O2|].
    destruct (training_lt D A I f Hw Ht) as (L1 & L2 & L3). rewrite L3. unfold cl, nph, nphases. rewrite L2 in *. lia.
  Qed.

  Lemma nodefact_plain f0 f d prefix : nodefact D A I na f0 f d prefix ->
    f_b _ _ _ f = f_b _ _ _ f0 /\
    exists outs, trains_of f = trains_of f0 ++ calls_due f0 (n_dt _ _ _ (f_s _ _ _ f)) (passes D A d) outs /\
      forall q, q < phases_of f0 - closed_of f0 ->
        Forall2 (fun e y => through na prefix (fst e) = Some y) (passes D A d q) (outs q).
  Proof.
    intros (F1 & _ & _ & outs & F4 & _ & F6). split; [exact F1|]. exists outs. split; [exact F4|].
    intros q Hq. apply F6; [|exact Hq]. apply F2_refl. apply flater_refl.
  Qed.
End Glue.

(** C08. Whenever Flow.train returns normally: every node has received, for each of the phases it still had open, one pass
    over its data iterable, all elements in order, each as it comes out of the (now final) preceding nodes; all nodes
    before a node that had something to train are completely trained, the last node is completely trained, and any
    other node has at most its last phase - fed - still open. *)
Theorem C08_flow_training :
  forall (D A I : Type) (na : A) (arglen : A -> nat) (fs : list (fnode D A I)) (data : list (option (iterable D A))) fs',
  Forall (usable na) fs ->
  flow_train D A I na arglen fs data = (fs', FOk tt) ->
  length data = length fs /\ length fs' = length fs /\
  (forall i f d f', nth_error fs i = Some f -> nth_error data i = Some d -> nth_error fs' i = Some f' ->
     f_b _ _ _ f' = f_b _ _ _ f /\
     exists outs, trains_of f' = trains_of f ++ calls_due f (n_dt _ _ _ (f_s _ _ _ f')) (passes D A d) outs /\
       forall q, q < phases_of f - closed_of f ->
         Forall2 (fun e y => through na (firstn i fs') (fst e) = Some y) (passes D A d q) (outs q)) /\
  (forall i j g f', i < j -> nth_error fs j = Some g -> closed_of g < phases_of g -> nth_error fs' i = Some f' ->
     is_training _ _ _ (f_s _ _ _ f') = false) /\
  (exists pre f', fs' = pre ++ [f'] /\ is_training _ _ _ (f_s _ _ _ f') = false) /\
  (forall f', In f' fs' -> is_training _ _ _ (f_s _ _ _ f') = false \/ only_open_last f').
Proof.
  intros D A I na arglen fs data fs' Hu E.
  destruct (flow_train_ok D A I na arglen fs data fs' (usable_wfs D A I na fs Hu) E) as (H1 & H2 & H3 & H4 & H5 & H6).
  split; [exact H1|]. split; [exact H2|]. split.
  { intros i f d f' Q1 Q2 Q3. apply nodefact_plain. exact (H4 i f d f' Q1 Q2 Q3). }
  split.
  { intros i j g f' Q1 Q2 Q3 Q4. apply (H5 i j g f' Q1 Q2); [rewrite H2; apply nth_error_Some; congruence|exact Q3|exact Q4]. }
  split; [exact H6|]. intros f' Hin. apply ready_cases. rewrite Forall_forall in H3. auto.
Qed.
Print Assumptions C08_flow_training.

(** Concrete flow: a doubling node without training, the two-phase node, then a node without training. *)
Definition dbl : behaviour nat unit (nat * nat) :=
  mkBeh nat unit (nat * nat) false true false (fun t => Nat.leb t 3) 0
    (fun _ _ _ => None) (fun _ _ _ _ => PRet (Ok tt)) (fun _ _ _ => PRet (Ok tt))
    (fun v x _ => PRet (Ok (mkArray 2 (a_rows x) (a_cols x) (a_dtype x) (2 * a_data x))))
    (fun v y _ => PRet (Ok (mkArray 2 (a_rows y) (a_cols y) (a_dtype y) (Nat.div2 (a_data y))))).
(** The two-phase node, with an execute without side effect. *)
Definition two_pure : behaviour nat unit (nat * nat) :=
  mkBeh nat unit (nat * nat) true true false (fun t => Nat.leb t 3) 2
    (fun _ _ _ => None)
    (fun p v x _ => let '(a, c) := v_int _ v in
       match p with O => PSet (a + a_data x, c) (PRet (Ok tt)) | _ => PSet (a, c + a_rows x) (PRet (Ok tt)) end)
    (fun p v _ => match p, fst (v_int _ v) with O, O => PRet (Err (HookErr 7)) | _, _ => PRet (Ok tt) end)
    (fun v x _ => PRet (Ok (mkArray 2 (a_rows x) (a_cols x) (a_dtype x) (a_data x + fst (v_int _ v)))))
    (fun v y _ => PRet (Ok (mkArray 2 (a_rows y) (a_cols y) (a_dtype y) (a_data y - fst (v_int _ v))))).
Definition fresh (b : behaviour nat unit (nat * nat)) : fnode nat unit (nat * nat) :=
  mkF nat unit (nat * nat) b 0 (fst (init nat unit (nat * nat) b (0, 0) None None None)).
Definition fl (l : list (behaviour nat unit (nat * nat))) := map fresh l.
Definition pass_list (l : list nat) : iterable nat unit := fun _ => map (fun d => (arr 3 2 d, tt)) l.
Notation arglen0 := (fun _ : unit => 0).

Lemma usable_dbl : usable tt (fresh dbl).
Proof.
  split; [|split].
  - split; [discriminate|]. exists (0, 0), None, None, None. eexists. exists []. split; reflexivity.
  - intros v x a. eexists. reflexivity.
  - split; [discriminate|]. split; intros; cbn; discriminate.
Qed.
Lemma usable_two : usable tt (fresh two_pure).
Proof.
  split; [|split].
  - split; [cbn; lia|]. exists (0, 0), None, None, None. eexists. exists []. split; reflexivity.
  - intros v x a. eexists. reflexivity.
  - split; [discriminate|]. split.
    + intros p v x a. cbn. destruct (v_int _ v). destruct p; cbn; discriminate.
    + intros p v a. cbn. destruct p; [destruct (fst (v_int _ v))|]; cbn; discriminate.
Qed.
Example C08_case :
  let r := flow_train nat unit (nat * nat) tt arglen0 (fl [dbl; two_pure; dbl]) [None; Some (pass_list [1; 2]); None] in
  Forall (usable tt) (fl [dbl; two_pure; dbl]) /\
  snd r = FOk tt /\
  map trains_of (fst r) = [[]; [EvTrain nat unit 0 (arr 3 2 2) tt; EvTrain nat unit 0 (arr 3 2 4) tt;
                                EvTrain nat unit 1 (arr 3 2 2) tt; EvTrain nat unit 1 (arr 3 2 4) tt]; []] /\
  map (fun f => n_int _ _ _ (f_s _ _ _ f)) (fst r) = [(0, 0); (6, 6); (0, 0)].
Proof.
  split; [cbn; auto 8 using Forall_cons, Forall_nil, usable_dbl, usable_two|]. vm_compute. repeat split; reflexivity.
Qed.

(** "When train returns normally every node is completely trained" is false: a trainable node followed by nodes without
    training keeps its last phase open (it is closed by the first execution). *)
Theorem C08_all_trained_refuted :
  exists (fs : list (fnode nat unit (nat * nat))) data fs' f,
    Forall (usable tt) fs /\ flow_train nat unit (nat * nat) tt arglen0 fs data = (fs', FOk tt) /\
    In f fs' /\ is_training _ _ _ (f_s _ _ _ f) = true.
Proof.
  eexists (fl [two_pure; dbl]), [Some (pass_list [1]); None], _, _.
  split; [cbn; auto 8 using Forall_cons, Forall_nil, usable_dbl, usable_two|].
  split; [vm_compute; reflexivity|]. split; [left; reflexivity|]. reflexivity.
Qed.
Print Assumptions C08_all_trained_refuted.

(** C66. A failing training pass is never silently dropped: with hooks that do not raise TrainingFinishedException themselves,
    a normal return of train means all data was seen (C08).  Without that restriction it is false: if the _train hook raises
    TrainingFinishedException, train returns normally although the remaining data and phases were skipped. *)
Definition lazy : behaviour nat unit (nat * nat) :=
  mkBeh nat unit (nat * nat) true true false (fun t => Nat.leb t 3) 2
    (fun _ _ _ => None)
    (fun p v x _ => PRet (Err TrainingFinished)) (fun p v _ => PRet (Ok tt))
    (fun v x _ => PRet (Ok x)) (fun v y _ => PRet (Ok y)).
Theorem C66_swallowed_exception_refuted :
  exists (fs : list (fnode nat unit (nat * nat))) data fs' f,
    flow_train nat unit (nat * nat) tt arglen0 fs data = (fs', FOk tt) /\ In f fs' /\ 
    phases_of f = 2 /\ closed_of f = 0 /\ length (trains_of f) = 1 /\
    data = [Some (pass_list [1; 2; 3]); None].
Proof.
  eexists (fl [lazy; dbl]), [Some (pass_list [1; 2; 3]); None], _, _.
  split; [vm_compute; reflexivity|]. split; [left; reflexivity|]. repeat split; reflexivity.
Qed.
Print Assumptions C66_swallowed_exception_refuted.

(** C09. If execute (through the first [m] nodes) returns, the input was not empty and the result is the concatenation of the
    chunks, each sent through the nodes in order.  Nodes are trained or have at most the last, fed, phase open. *)
Theorem C09_execute_is_composition :
  forall (D A I : Type) (na : A) (cat : list (array D) -> option (array D)) m (fs : list (fnode D A I)) xs fs' y,
  m <= length fs ->
  Forall (fun f => usable na f /\ (is_training _ _ _ (f_s _ _ _ f) = false \/ only_open_last f)) fs ->
  flow_execute D A I na cat m fs xs = (fs', FOk y) ->
  xs <> [] /\ exists ys, Forall2 (fun x y => through na (firstn m fs') x = Some y) xs ys /\ cat ys = Some y.
Proof.
  intros D A I na cat m fs xs fs' y Hm Hf E. eapply flow_execute_ok; [exact Hm| |exact E].
  eapply Forall_impl; [|exact Hf]. intros f (H1 & H2). exact (cases_ready D A I na f H1 H2).
Qed.
Print Assumptions C09_execute_is_composition.
Theorem C09_empty_rejected :
  forall (D A I : Type) (na : A) (cat : list (array D) -> option (array D)) m (fs : list (fnode D A I)),
  flow_execute D A I na cat m fs [] = (fs, FErr FExc).
Proof. reflexivity. Qed.
Print Assumptions C09_empty_rejected.

(** ... and if the nodes act row by row (data is the list of rows), executing the concatenated input gives the same. *)
Theorem C09_chunking_irrelevant :
  forall (V A I : Type) (na : A) (fs : list (fnode (list V) A I)) xs X fs' y,
  fs <> [] ->
  Forall (fun f => usable na f /\ is_training _ _ _ (f_s _ _ _ f) = false /\ rowwise V A I (f_b _ _ _ f) /\
                   n_in _ _ _ (f_s _ _ _ f) <> None /\ n_out _ _ _ (f_s _ _ _ f) <> None /\ n_dt _ _ _ (f_s _ _ _ f) <> None) fs ->
  cat_rows V xs = Some X ->
  flow_execute (list V) A I na (cat_rows V) (length fs) fs xs = (fs', FOk y) ->
  exists fs2, flow_execute_array (list V) A I na fs X = (fs2, FOk y).
Proof.
  intros V A I na fs xs X fs' y Hne Hf HX E. eapply flow_execute_rowwise; [| |exact Hne|exact HX|exact E].
  - eapply Forall_impl; [|exact Hf]. intros f (H1 & H2 & H3 & H4 & H5 & H6). split; [eapply usable_wf; eassumption|]. split; [exact H2|].
    destruct (n_in _ _ _ (f_s _ _ _ f)) as [i|]; [|congruence]. destruct (n_out _ _ _ (f_s _ _ _ f)) as [o|]; [|congruence].
    destruct (n_dt _ _ _ (f_s _ _ _ f)) as [t|]; [|congruence]. eauto 10.
  - eapply Forall_impl; [|exact Hf]. intros f (H1 & H2 & H3 & _). exact H3.
Qed.
Print Assumptions C09_chunking_irrelevant.

Definition sumcat (xs : list (array nat)) : option (array nat) :=
  match xs with [] => None | x :: _ => Some (mkArray 2 (list_sum (map a_rows xs)) (a_cols x) (a_dtype x) (list_sum (map a_data xs))) end.
Example C09_case :
  let fs := fst (flow_train nat unit (nat * nat) tt arglen0 (fl [dbl; two_pure; dbl]) [None; Some (pass_list [1; 2]); None]) in
  snd (flow_execute nat unit (nat * nat) tt sumcat 3 fs [arr 3 2 1; arr 1 2 10]) = FOk (arr 4 2 (2 * (2 * 1 + 6) + 2 * (2 * 10 + 6))) /\
  snd (flow_execute nat unit (nat * nat) tt sumcat 2 fs [arr 3 2 1; arr 1 2 10]) = FOk (arr 4 2 (2 * 1 + 6 + (2 * 10 + 6))) /\
  snd (flow_execute nat unit (nat * nat) tt sumcat 3 fs [arr 3 2 1; arr 1 5 10]) = FErr (FExcCR 0 (PNode NodeExc)).
Proof. vm_compute. repeat split; reflexivity. Qed.

(** A row-wise node on lists of numbers: adds a constant to each row. *)
Definition addk (k : nat) : behaviour (list nat) unit unit :=
  mkBeh (list nat) unit unit false true false (fun t => Nat.leb t 3) 0
    (fun _ _ _ => None) (fun _ _ _ _ => PRet (Ok tt)) (fun _ _ _ => PRet (Ok tt))
    (fun v x _ => PRet (Ok (mkArray 2 (a_rows x) 2 (a_dtype x) (map (fun n => n + k) (a_data x)))))
    (fun v y _ => PRet (Ok (mkArray 2 (a_rows y) 2 (a_dtype y) (map (fun n => n - k) (a_data y))))).
Definition addf k : fnode (list nat) unit unit := mkF _ _ _ (addk k) 0 (fst (init _ _ _ (addk k) tt (Some 2) (Some 2) (Some 1))).
Definition larr (l : list nat) : array (list nat) := mkArray 2 (length l) 2 1 l.
Example C09_rows_case :
  Forall (fun f => usable tt f /\ is_training _ _ _ (f_s _ _ _ f) = false /\ rowwise nat unit unit (f_b _ _ _ f) /\
                   n_in _ _ _ (f_s _ _ _ f) <> None /\ n_out _ _ _ (f_s _ _ _ f) <> None /\ n_dt _ _ _ (f_s _ _ _ f) <> None) [addf 1; addf 5] /\
  cat_rows nat [larr [1; 2]; larr [7]] = Some (larr [1; 2; 7]) /\
  snd (flow_execute _ _ _ tt (cat_rows nat) 2 [addf 1; addf 5] [larr [1; 2]; larr [7]]) = FOk (larr [7; 8; 13]) /\
  snd (flow_execute_array _ _ _ tt [addf 1; addf 5] (larr [1; 2; 7])) = FOk (larr [7; 8; 13]).
Proof.
  assert (forall k, usable tt (addf k)) as Hu.
  { intros k. split; [|split].
    - split; [discriminate|]. exists tt, (Some 2), (Some 2), (Some 1). eexists. exists []. split; reflexivity.
    - intros v x a. eexists. reflexivity.
    - split; [discriminate|]. split; intros; cbn; discriminate. }
  split; [|repeat split; reflexivity].
  assert (forall k, rowwise nat unit unit (f_b _ _ _ (addf k))) as Hr.
  { intros k. exists 2, (fun _ n => n + k). reflexivity. }
  apply Forall_forall. intros f [<-|[<-|[]]]; (split; [apply Hu|]; split; [reflexivity|]; split; [apply Hr|]; cbn; repeat split; discriminate).
Qed.

(** C10. Nodes whose inverse hook undoes their execute hook (on valid input of the flow's dtype): Flow.inverse undoes
    Flow.execute; and whatever the nodes do, inverse calls the nodes' inverses from the last to the first. *)
Theorem C10_inverse_undoes_execute :
  forall (D A I : Type) (na : A) (t : dtype) (fs : list (fnode D A I)) x fs1 y,
  Forall (fun f => usable na f /\ is_training _ _ _ (f_s _ _ _ f) = false /\
     n_in _ _ _ (f_s _ _ _ f) <> None /\ n_out _ _ _ (f_s _ _ _ f) <> None /\ n_dt _ _ _ (f_s _ _ _ f) = Some t /\
     b_invertible _ _ _ (f_b _ _ _ f) = true /\
     forall x y, a_dtype x = t -> a_ndim x = 2 -> n_in _ _ _ (f_s _ _ _ f) = Some (a_cols x) -> a_rows x <> 0 ->
       b_execute _ _ _ (f_b _ _ _ f) (view_of D A I (f_s _ _ _ f)) x na = PRet (Ok y) ->
       a_dtype y = t /\ a_ndim y = 2 /\ n_out _ _ _ (f_s _ _ _ f) = Some (a_cols y) /\
       b_inverse _ _ _ (f_b _ _ _ f) (view_of D A I (f_s _ _ _ f)) y na = PRet (Ok x)) fs ->
  a_dtype x = t ->
  flow_execute_array D A I na fs x = (fs1, FOk y) ->
  exists fs2, flow_inverse_array D A I na fs1 y = (fs2, FOk x).
Proof.
  intros D A I na t fs x fs1 y Hf Hx E. eapply flow_inverse_undo; [|exact Hx|exact E].
  eapply Forall_impl; [|exact Hf]. intros f (H1 & H2 & H3 & H4 & H5 & H6 & H7). split; [|auto].
  split; [eapply usable_wf; eassumption|]. split; [exact H2|].
  destruct (n_in _ _ _ (f_s _ _ _ f)) as [i|]; [|congruence]. destruct (n_out _ _ _ (f_s _ _ _ f)) as [o|]; [|congruence]. eauto 10.
Qed.
Print Assumptions C10_inverse_undoes_execute.
Theorem C10_inverse_order :
  forall (D A I : Type) (na : A) (fs : list (fnode D A I)) y fs' x,
  flow_inverse_array D A I na fs y = (fs', FOk x) -> back_through na fs y = Some x.
Proof. intros D A I na fs y fs' x. apply inverse_seq_back. Qed.
Print Assumptions C10_inverse_order.
Example C10_case :
  let fs := [addf 1; addf 5] in
  let (fs1, y) := flow_execute_array _ _ _ tt fs (larr [1; 2; 7]) in
  y = FOk (larr [7; 8; 13]) /\ snd (flow_inverse_array _ _ _ tt fs1 (larr [7; 8; 13])) = FOk (larr [1; 2; 7]).
Proof. vm_compute. split; reflexivity. Qed.

(** C11. [log] records the checkpoint calls with the whole flow at that moment.  With checkpoints that at most close the
    training of the node they get: exactly the given checkpoints are called, once each, in node order; at the call for
    node [i] no later node has been touched, nodes up to [i] have received all their data (as in C08) and node [i] is
    trained except that its last phase may still be open. *)
Theorem C11_checkpoints :
  forall (D A I : Type) (na : A) (arglen : A -> nat) (fs : list (fnode D A I)) data (cps : list (option (checkpoint D A I))) fs' log,
  Forall (usable na) fs ->
  (forall c f s', In (Some c) cps -> c f = (s', true) ->
     s' = f_s _ _ _ f \/ stop_training D A I (f_b _ _ _ f) na (f_s _ _ _ f) = (s', Ok tt)) ->
  checkpoint_train D A I na arglen fs data cps = (fs', FOk tt, log) ->
  length cps = length fs /\
  map fst log = filter (fun i => match nth_error cps i with Some (Some _) => true | _ => false end) (seq 0 (length fs)) /\
  forall i at_call, In (i, at_call) log ->
    skipn (S i) at_call = skipn (S i) fs /\
    (exists f, nth_error at_call i = Some f /\ (is_training _ _ _ (f_s _ _ _ f) = false \/ only_open_last f)) /\
    forall j f d f', j <= i -> nth_error fs j = Some f -> nth_error data j = Some d -> nth_error at_call j = Some f' ->
      exists outs, trains_of f' = trains_of f ++ calls_due f (n_dt _ _ _ (f_s _ _ _ f')) (passes D A d) outs /\
        forall q, q < phases_of f - closed_of f ->
          Forall2 (fun e y => through na (firstn j at_call) (fst e) = Some y) (passes D A d q) (outs q).
Proof.
  intros D A I na arglen fs data cps fs' log Hu Hc E.
  assert (length cps = length fs) as Hl.
  { revert E. unfold checkpoint_train. destruct (negb (length data =? length fs)); [discriminate|].
    destruct (Nat.eqb_spec (length cps) (length fs)); cbn [negb]; [auto|discriminate]. }
  assert (Forall (fun c => match c with Some c => cp_ok D A I na c | None => True end) cps) as Hc'.
  { apply Forall_forall. intros [c|] Hin; [|exact Logic.I]. intros f s' Hs. eauto. }
  destruct (checkpoint_train_ok D A I na arglen fs data cps fs' log (usable_wfs D A I na fs Hu) Hc' E) as (H1 & H2 & H3 & H4 & H5 & H6).
  split; [exact Hl|]. split.
  { rewrite H1, <- Hl. clear.
    assert (forall k pre, cp_indices D A I (length pre) k =
      filter (fun i => match nth_error (pre ++ k) i with Some (Some _) => true | _ => false end) (seq (length pre) (length k))) as H.
    { induction k as [|c k IH]; intros pre; [reflexivity|]. cbn [cp_indices length seq filter].
      rewrite nth_error_app2, Nat.sub_diag by lia. cbn [nth_error].
      specialize (IH (pre ++ [c])). rewrite app_length in IH. cbn [length] in IH. rewrite Nat.add_comm in IH. cbn [Nat.add] in IH.
      rewrite <- app_assoc in IH. cbn [app] in IH. destruct c; rewrite IH; reflexivity. }
    exact (H cps []). }
  intros i at_call Hin. rewrite Forall_forall in H2. destruct (H2 _ Hin) as (K1 & K2 & f & K3 & K4). cbn [fst snd] in *.
  split; [exact K1|]. split; [exists f; split; [exact K3|apply ready_cases; exact K4]|].
  intros j f0 d f' Hj Q1 Q2 Q3.
  assert (nth_error (firstn (S i) at_call) j = Some f') as Q4.
  { rewrite <- Q3. clear - Hj. revert j at_call Hj. induction i as [|i IH]; intros [|j] [|g l] Hj; cbn; try reflexivity; try lia.
    apply (IH j l). lia. }
  destruct (nodefact_plain D A I na _ _ _ _ (K2 j f0 d f' Q1 Q2 Q4)) as (_ & outs & R1 & R2).
  exists outs. split; [exact R1|]. rewrite firstn_firstn in R2. replace (Nat.min j (S i)) with j in R2 by lia. exact R2.
Qed.
Print Assumptions C11_checkpoints.

Definition stop_cp : checkpoint nat unit (nat * nat) := fun f =>
  match stop_training nat unit (nat * nat) (f_b _ _ _ f) tt (f_s _ _ _ f) with (s, Ok _) => (s, true) | (s, Err _) => (f_s _ _ _ f, true) end.
Example C11_case :
  let r := checkpoint_train nat unit (nat * nat) tt arglen0 (fl [two_pure; dbl; two_pure]) [Some (pass_list [1; 2]); None; Some (pass_list [5])]
             [Some stop_cp; None; Some stop_cp] in
  snd (fst r) = FOk tt /\ map fst (snd r) = [0; 2] /\
  map (fun e => map (fun f => length (trains_of f)) (snd e)) (snd r) = [[4; 0; 0]; [4; 0; 2]].
Proof. vm_compute. repeat split; reflexivity. Qed.
