(** Properties of ParallelBiFlow, ParallelCheckpointBiFlow and ParallelCloneBiLayer (ParBiModel.v). *)
From Coq Require Import List Arith ZArith Bool String Lia.
From Verif Require Import BiModel BiMsgModel BiFlowNodeModel ParallelModel ParBiModel.
From Verif Require ParallelProps.
Import ListNotations.
Open Scope nat_scope.

(** ** Training *)
Section Train.
  Variables X Mg W : Type.
  Variable emptyb : Mg -> bool.
  Variable leaf_exec : nat -> X -> option Mg -> W -> W * (fexn + ret X Mg).
  Variable norm_exec : nat -> X -> W -> W * (fexn + X).
  Variable leaf_train : nat -> X -> option Mg -> W -> W * (fexn + option (ret X Mg)).
  Variable norm_train : nat -> X -> W -> W * option fexn.
  Variable leaf_stop : nat -> option Mg -> W -> W * (fexn + option (ret X Mg)).
  Variable norm_stop : nat -> W -> W * option fexn.
  Variable leaf_reset : nat -> W -> W.
  Variable is_none : X -> bool.
  Variable none : X.
  Variable hdr : option string -> Mg -> Mg * target * bool.
  Variable train_method : Mg -> bool.
  Variable third : X -> fexn + bool.
  Notation phase := (phase X Mg W emptyb leaf_exec norm_exec leaf_train norm_train leaf_stop norm_stop leaf_reset is_none none hdr train_method).
  Notation serial_phase := (serial_phase X Mg W emptyb leaf_exec norm_exec leaf_train norm_train leaf_stop norm_stop leaf_reset is_none hdr).
  Notation train_task := (train_task X Mg W emptyb leaf_exec norm_exec leaf_train norm_train leaf_reset is_none hdr train_method).
  Notation serial_chunk := (serial_chunk X Mg W emptyb leaf_exec norm_exec leaf_train norm_train is_none hdr).
  Notation train_loop := (BiFlowNodeModel.train_loop X Mg W emptyb leaf_exec norm_exec leaf_train norm_train is_none hdr).
  Notation fstate := (fstate W).
  Notation mkF := (mkF W).

  Lemma chunk_loop : forall n k ts x m i w ts' w',
    serial_chunk n k ts x m i w = Some (ts', w', inr tt) -> train_loop n k ts x m i w = Some (ts', w', inr None).
  Proof.
    induction n as [|n IH]; intros k ts x m i w ts' w' H; [discriminate|]. cbn [ParBiModel.serial_chunk BiFlowNodeModel.train_loop] in *.
    destruct (seq X Mg W emptyb leaf_exec norm_exec is_none hdr n (Some k) ts x m i w) as [[[ts1 w1] [e|[r|y g]]]|]; try congruence.
    destruct (nth_error ts1 k) as [[id l|l|id rq kids]|]; try congruence.
    - destruct (leaf_train l y g w1) as [w2 [e|[r|]]]; [congruence| |congruence].
      unfold follow. destruct r as [rx rm rt]. cbn [r_t r_x r_m] in *.
      destruct rt as [[|z|s]|].
      + destruct (to_index ts1 TNone (Z.of_nat k)) as [ts2 [e|[j|]]]; try congruence. now apply IH.
      + cbn [to_index] in H. destruct (_ <? _)%Z eqn:E1 in H; [congruence|]. destruct (_ >=? _)%Z eqn:E2 in H; [congruence|].
        destruct (_ =? _)%Z eqn:E3; [lia|]. destruct (_ =? -1)%Z eqn:E4; [lia|]. now apply IH.
      + destruct (to_index ts1 (TStr s) (Z.of_nat k)) as [ts2 [e|[j|]]]; try congruence. now apply IH.
      + destruct (to_index ts1 TNone (Z.of_nat k)) as [ts2 [e|[j|]]]; try congruence. now apply IH.
    - destruct (norm_train l y w1) as [w2 [e|]]; congruence.
  Qed.

  (** a message without keys for the whole flow: no 'method' other than train, no 'target' *)
  Definition clean (m : option Mg) : Prop := match m with None => True | Some g => hdr None g = (g, TNone, false) /\ train_method g = true end.

  Lemma header_clean : forall m, clean m -> header Mg hdr None m = (m, TNone, false).
  Proof. intros [g|] H; [|reflexivity]. cbn. now rewrite (proj1 H). Qed.

  Lemma serial_started : forall n k x m ts w ts' w', serial_chunk n k ts x m 0 w = Some (ts', w', inr tt) -> ts <> [].
  Proof.
    intros [|n] k x m ts w ts' w' H E; [discriminate|]. subst. cbn [ParBiModel.serial_chunk] in H. destruct n as [|n]; [discriminate|].
    cbn [seq] in H. destruct k as [|k]; cbn in H; [discriminate|discriminate].
  Qed.

  Lemma task_serial : forall n k x m (f : fstate) ts' w', f_rq W f = None -> is_none x = false -> clean m ->
    serial_chunk n k (f_kids W f) x m 0 (f_w W f) = Some (ts', w', inr tt) ->
    train_task n k (x, m) f = Some (reset W leaf_reset (mkF ts' w' None true), inr tt).
  Proof.
    intros n k x m f ts' w' Hrq Hx Hc H. unfold ParBiModel.train_task, ParBiModel.node_train.
    replace (match m with None => is_none x | Some _ => false end) with false by (destruct m; congruence).
    rewrite (header_clean _ Hc). rewrite Hrq. cbn [get_method].
    pose proof (serial_started _ _ _ _ _ _ _ _ H) as Hne.
    unfold train_hook. cbn [get_target]. unfold to_index. cbn [Z.add].
    assert ((0 >=? Z.of_nat (List.length (f_kids W f)))%Z = false) as -> by (destruct (f_kids W f); [congruence|rewrite Z.geb_leb; apply Z.leb_gt; cbn [List.length]; lia]).
    change ((0 <? 0)%Z) with false. cbv iota.
    rewrite (chunk_loop _ _ _ _ _ _ _ _ _ H). cbn [judge_train].
    do 3 f_equal. rewrite Hx. cbn. destruct m as [g|]; [rewrite (proj2 Hc)|]; now rewrite orb_true_r.
  Qed.

  Definition same (f g : fstate) : Prop := f_kids W f = f_kids W g /\ f_w W f = f_w W g.
  Lemma reset_same : forall f g, same f g -> same (reset W leaf_reset f) (reset W leaf_reset g).
  Proof. intros f g [H1 H2]. unfold same, reset. cbn. now rewrite H1, H2. Qed.

  Lemma tasks_serial : forall n k cs (f g f' : fstate), same f g -> f_rq W f = None ->
    Forall (fun c => is_none (fst c) = false /\ clean (snd c)) cs ->
    ParBiModel.serial_chunks X Mg W emptyb leaf_exec norm_exec leaf_train norm_train leaf_reset is_none hdr n k cs g = Some (f', inr tt) ->
    exists f2, ParBiModel.train_tasks X Mg W emptyb leaf_exec norm_exec leaf_train norm_train leaf_reset is_none hdr train_method n k cs f = Some (f2, inr tt)
               /\ same f2 f' /\ f_rq W f2 = None /\ (cs <> [] -> f_started W f2 = true) /\ (f_started W f = true -> f_started W f2 = true).
  Proof.
    induction cs as [|[x m] cs IH]; intros f g f' Hs Hrq Hc H.
    - cbn in H. injection H as <-. exists f. repeat split; try apply Hs; auto.
    - inversion Hc as [|? ? [Hx Hm] Hc']; subst. cbn [fst snd] in *. cbn [ParBiModel.serial_chunks] in H.
      destruct Hs as [Hs1 Hs2]. rewrite <- Hs1, <- Hs2 in H.
      destruct (serial_chunk n k (f_kids W f) x m 0 (f_w W f)) as [[[ts w] [e|[]]]|] eqn:E; try congruence.
      cbn [ParBiModel.train_tasks]. rewrite (task_serial n k x m f ts w Hrq Hx Hm E).
      destruct (IH (reset W leaf_reset (mkF ts w None true)) (reset W leaf_reset (mkF ts w (f_rq W g) (f_started W g))) f') as (f2 & T & S2 & R2 & _ & St2); auto.
      { apply reset_same. split; reflexivity. }
      exists f2. repeat split; auto; apply S2.
  Qed.

  (** The nodes of a BiFlow may jump during the training, but stop_training of the trained node starts no execution: nothing is returned, or the target 'exit' *)
  Definition quiet : Prop := forall l sm w, match snd (leaf_stop l sm w) with
                                            | inr (Some r) => r_t _ _ r = Some (TStr "exit")
                                            | _ => True
                                            end.
  (** C397 *)
  Theorem C397_phase : quiet -> forall judge n k cs sm f f',
    (judge = judge_local X Mg \/ judge = judge_use X Mg third) ->
    f_rq W f = None -> Forall (fun c => is_none (fst c) = false /\ clean (snd c)) cs -> clean sm -> (forall g, sm = Some g -> emptyb g = false) ->
    serial_phase n k cs sm f = Some (f', inr tt) ->
    exists f2, phase judge n k cs sm f = Some (f2, inr tt) /\ f_kids W f2 = f_kids W f' /\ f_w W f2 = f_w W f' /\ f_rq W f2 = None /\ f_started W f2 = false.
  Proof.
    intros Q judge n k cs sm f f' J Hrq Hc Hsm He H. unfold ParBiModel.serial_phase in H. unfold ParBiModel.phase.
    destruct (ParBiModel.serial_chunks X Mg W emptyb leaf_exec norm_exec leaf_train norm_train leaf_reset is_none hdr n k cs f) as [[g [e|[]]]|] eqn:E; try congruence.
    destruct (tasks_serial n k cs f f g (conj eq_refl eq_refl) Hrq Hc E) as (f2 & T & [S1 S2] & R2 & St & _). rewrite T.
    destruct cs as [|c cs]; [congruence|]. specialize (St ltac:(congruence)).
    unfold end_phase, node_stop. rewrite St. cbn [negb].
    assert (match sm with Some g0 => if emptyb g0 then (None, TNone, false) else header Mg hdr None sm | None => (None, TNone, false) end = (sm, TNone, false)) as ->.
    { destruct sm as [g0|]; [|reflexivity]. rewrite (He g0 eq_refl). now apply header_clean. }
    rewrite R2. cbn [get_method]. unfold stop_hook, serial_stop in *. rewrite S1, S2.
    destruct (nth_error (f_kids W g) k) as [[id l|l|id rq kids]|]; try congruence.
    - specialize (Q l sm (f_w W g)). destruct (leaf_stop l sm (f_w W g)) as [w1 [e|[r|]]]; cbn [snd] in Q; [congruence| |].
      + rewrite Q in *. cbn in H. injection H as <-. unfold follow. rewrite Q. cbn [to_index]. rewrite String.eqb_refl.
        unfold combine. cbn [r_t].
        assert (judge (Some (mkRet X Mg (r_x X Mg r) (r_m X Mg r) (Some (TStr "exit")))) = None) as -> by (destruct J as [-> | ->]; reflexivity).
        eexists. split; [reflexivity|]. cbn. auto.
      + injection H as <-. assert (judge None = None) as -> by (destruct J as [-> | ->]; reflexivity). eexists. split; [reflexivity|]. cbn. auto.
    - destruct sm as [g0|]; [congruence|]. destruct (norm_stop l (f_w W g)) as [w1 [e|]]; [congruence|]. injection H as <-.
      assert (judge None = None) as -> by (destruct J as [-> | ->]; reflexivity). eexists. split; [reflexivity|]. cbn. auto.
  Qed.
End Train.

Section TrainNone.
  Variables X Mg W : Type.
  Variable emptyb : Mg -> bool.
  Variable leaf_exec : nat -> X -> option Mg -> W -> W * (fexn + ret X Mg).
  Variable norm_exec : nat -> X -> W -> W * (fexn + X).
  Variable leaf_train : nat -> X -> option Mg -> W -> W * (fexn + option (ret X Mg)).
  Variable norm_train : nat -> X -> W -> W * option fexn.
  Variable leaf_stop : nat -> option Mg -> W -> W * (fexn + option (ret X Mg)).
  Variable norm_stop : nat -> W -> W * option fexn.
  Variable leaf_reset : nat -> W -> W.
  Variable is_none : X -> bool.
  Variable none : X.
  Variable hdr : option string -> Mg -> Mg * target * bool.
  Variable train_method : Mg -> bool.
  (** no phase can be closed if all x are None *)
  Theorem C398_never : forall judge n k cs sm f f' r, f_started W f = false -> Forall (fun c => is_none (fst c) = true) cs ->
    phase X Mg W emptyb leaf_exec norm_exec leaf_train norm_train leaf_stop norm_stop leaf_reset is_none none hdr train_method judge n k cs sm f = Some (f', r) ->
    exists e, r = inl e.
  Proof.
    intros judge n k cs sm. induction cs as [|[x m] cs IH]; intros f f' r St Hc H.
    - unfold phase in H. cbn in H. unfold end_phase, node_stop in H. rewrite St in H. cbn in H. injection H as <- <-. eauto.
    - inversion Hc as [|? ? Hx Hc']; subst. cbn [fst] in Hx. unfold phase in *. cbn [ParBiModel.train_tasks] in H.
      unfold ParBiModel.train_task at 1 in H. unfold node_train in H.
      destruct (match m with None => is_none x | Some _ => false end); [injection H as <- <-; eauto|].
      destruct (header Mg hdr None m) as [[m1 tg] inv]. destruct (get_method inv (f_rq W f) tg (List.length (f_kids W f))) as [rq1 tg1].
      rewrite St, Hx in H. cbn [negb andb orb] in H.
      destruct (train_hook X Mg W emptyb leaf_exec norm_exec leaf_train norm_train is_none hdr n k rq1 (f_kids W f) x m1 (f_w W f)) as [[[[rq2 kids] w] [e|[q|]]]|];
        [injection H as <- <-; eauto| | |discriminate].
      + destruct (judge_train X Mg _) as [e|]; [injection H as <- <-; eauto|]. eapply IH; [| |exact H]; auto.
      + cbn [judge_train] in H. eapply IH; [| |exact H]; auto.
  Qed.
  (** a chunk for which the flow is left at its end, or with a target that is neither 1, -1 nor 'exit', raises an exception *)
  Theorem C400_end : forall n k c f f' r, node_train X Mg W emptyb leaf_exec norm_exec leaf_train norm_train is_none hdr train_method n k c f = Some (f', inr (Some r)) ->
    r_t X Mg r <> Some (TInt 1) -> r_t X Mg r <> Some (TInt (-1)) -> r_t X Mg r <> Some (TStr "exit") ->
    exists e, ParBiModel.train_task X Mg W emptyb leaf_exec norm_exec leaf_train norm_train leaf_reset is_none hdr train_method n k c f = Some (f', inl e).
  Proof.
    intros n k c f f' r H A1 A2 A3. unfold ParBiModel.train_task. rewrite H. cbn. destruct (r_t X Mg r) as [t|].
    { assert (A : allowed t = false).
      { destruct t as [|z|s]; cbn; [reflexivity| |].
        - destruct (Z.eqb_spec z 1) as [->|]; [congruence|]. destruct (Z.eqb_spec z (-1)) as [->|]; [congruence|reflexivity].
        - destruct (String.eqb_spec s "exit") as [->|]; [congruence|reflexivity]. }
      rewrite A. eauto. } destruct (r_m X Mg r); eauto.
  Qed.
End TrainNone.

(** ** A small flow to compute with: two BiNodes, the first hands on, or makes data from the message, or leaves the flow; the state is the list of what the second
    one was trained with *)
Section Small.
  Let X := option nat.
  Let Mg := list string.
  Let W := list nat.
  Let isn (x : X) : bool := match x with None => true | Some _ => false end.
  Definition s_emptyb (m : Mg) : bool := match m with [] => true | _ => false end.
  (** node 0 makes data if there is none, and leaves the flow for x = 7 *)
  Definition s_exec (k : nat) (x : X) (m : option Mg) (w : W) : W * (fexn + ret X Mg) :=
    match k, x with
    | 0, None => (w, inr (mkRet X Mg (Some 5) None None))
    | 0, Some 7 => (w, inr (mkRet X Mg x None (Some (TStr "exit"))))
    | _, _ => (w, inr (mkRet X Mg x m None))
    end.
  Definition s_norm (k : nat) (x : X) (w : W) : W * (fexn + X) := (w, inr x).
  Definition s_train (k : nat) (x : X) (m : option Mg) (w : W) : W * (fexn + option (ret X Mg)) :=
    match x with None => (w, inl XBoth) | Some v => (w ++ [v], inr None) end.
  Definition s_ntrain (k : nat) (x : X) (w : W) : W * option fexn := (w, None).
  (** stop_training of node 0 returns a message *)
  Definition s_stop (k : nat) (m : option Mg) (w : W) : W * (fexn + option (ret X Mg)) :=
    match k with 0 => (w, inr (Some (mkRet X Mg (Some 1) (Some ["key"%string]) None))) | _ => (w, inr None) end.
  Definition s_nstop (k : nat) (w : W) : W * option fexn := (w, None).
  Definition s_hdr (id : option string) (m : Mg) : Mg * target * bool := (m, TNone, false).
  Definition s_flow : fstate W := mkF W [Leaf None 0; Leaf None 1] [] None false.
  Definition s_phase (judge : option (ret X Mg) -> option fexn) (k : nat) (cs : list (X * option Mg)) : option (fstate W * (pexn + unit)) :=
    phase X Mg W s_emptyb s_exec s_norm s_train s_ntrain s_stop s_nstop (fun _ w => w) isn None s_hdr (fun _ => true) judge 9 k cs None s_flow.
  Definition s_serial (k : nat) (cs : list (X * option Mg)) : option (fstate W * (fexn + unit)) :=
    serial_phase X Mg W s_emptyb s_exec s_norm s_train s_ntrain s_stop s_nstop (fun _ w => w) isn s_hdr 9 k cs None s_flow.
  Definition s_use : option (ret X Mg) -> option fexn := judge_use X Mg (fun _ => inl XIndex).
  Definition s_local : option (ret X Mg) -> option fexn := judge_local X Mg.
End Small.

(** the hypotheses of C397 hold for a chunk with data and one with a message, and both phases train node 1 with both *)
Example C397_example :
  s_serial 1 [(Some 3, None); (Some 4, Some ["a"%string])] = Some (mkF _ [Leaf None 0; Leaf None 1] [3; 4] None false, inr tt)
  /\ s_phase s_use 1 [(Some 3, None); (Some 4, Some ["a"%string])] = Some (mkF _ [Leaf None 0; Leaf None 1] [3; 4] None false, inr tt)
  /\ s_phase s_local 1 [(Some 3, None); (Some 4, Some ["a"%string])] = Some (mkF _ [Leaf None 0; Leaf None 1] [3; 4] None false, inr tt).
Proof. repeat split. Qed.

(** C398: the data of a chunk may be None if there is a message, as in BiFlow.train.  A flow whose first node makes the data from the message is trained serially; as
    a ParallelBiFlow it is trained with the same data, and then stop_training raises TrainingException, since the BiFlowNode never saw an x *)
Theorem C398_refuted : exists cs f' f2, s_serial 1 cs = Some (f', inr tt) /\ f_w _ f' = [5; 5]
  /\ s_phase s_use 1 cs = Some (f2, inl PTrain) /\ s_phase s_local 1 cs = Some (f2, inl PTrain) /\ f_w _ f2 = [5; 5].
Proof. exists [(None, Some ["a"%string]); (None, Some ["b"%string])]. eexists. eexists. repeat split. Qed.

(** C399: stop_training may start an execution that runs to the end of the flow.  Serially this is the normal case; in a ParallelBiFlow the result is a pair, of which
    the third entry is asked for *)
Theorem C399_refuted : exists cs f' f2, s_serial 0 cs = Some (f', inr tt)
  /\ s_phase s_use 0 cs = Some (f2, inl (PF XIndex)) /\ s_phase s_local 0 cs = Some (f2, inl (PF XIndex)).
Proof. exists [(Some 3, None)]. eexists. eexists. repeat split. Qed.

(** C400: a chunk that does not reach the node in training raises an exception in BiFlow.train; in a ParallelBiFlow it is passed over without notice *)
Theorem C400_refuted : exists cs f' f2, s_serial 1 cs = Some (f', inl XFlow) /\ s_phase s_use 1 cs = Some (f2, inr tt) /\ f_w _ f2 = [3].
Proof. exists [(Some 3, None); (Some 7, None)]. eexists. eexists. repeat split. Qed.

(** ** Execution *)
Section Exec.
  Variable X : Type.
  Notation msg := (dict (mval X)).
  Definition is_arr (p : string * mval X) : bool := match snd p with MArr _ _ => true | _ => false end.
  Definition na (m : msg) : msg := filter (fun p => negb (is_arr p)) m.
  Definition ar (m : msg) : msg := filter is_arr m.

  (** the two halves of the container are filled independently *)
  Fixpoint addn (l : msg) (r : msg) (h : lheap) : msg * lheap * bool :=
    match l with
    | [] => (r, h, true)
    | (k, v) :: l => match dget k r with
                     | None => addn l (dset k v r) h
                     | Some u => match iadd X u v h with (h', BOk u') => addn l (dset k u' r) h' | (h', BErr _) => (r, h', false) end
                     end
    end.
  Fixpoint adda (l : msg) (a : dict (list (list X))) : dict (list (list X)) :=
    match l with
    | [] => a
    | (k, MArr _ v) :: l => adda l (dset k (match dget k a with None => [] | Some q => q end ++ [v]) a)
    | _ :: l => adda l a
    end.
  Lemma add_split : forall m r a h, match addn (na m) r h with
    | (r', h', true) => add_message X m (mkC X r a, h) = ((mkC X r' (adda (ar m) a), h'), BOk tt)
    | (r', h', false) => exists c, add_message X m (mkC X r a, h) = ((c, h'), BErr EBiFlow)
    end.
  Proof.
    induction m as [|[k v] m IH]; intros r a h; [reflexivity|]. destruct v as [b|z|s|q|]; cbn [na ar is_arr filter negb snd addn adda add_message add_key k_res k_arr].
    1: { specialize (IH r (dset k (match dget k a with None => [] | Some l => l end ++ [b]) a) h). exact IH. }
    all: destruct (dget k r) as [u|]; [|apply IH].
    all: match goal with |- context [iadd X ?u0 ?v0 ?h0] => destruct (iadd X u0 v0 h0) as [h' [u'|e]] end; [apply IH|eauto].
  Qed.
  (** a message in the order in which get_message gives it *)
  Definition reord (m : msg) : msg := na m ++ ar m.
  Lemma filter_filter_same : forall A (f : A -> bool) l, filter f (filter f l) = filter f l.
  Proof. intros A f. induction l as [|a l IH]; [reflexivity|]. cbn. destruct (f a) eqn:E; cbn; [rewrite E; now f_equal|exact IH]. Qed.
  Lemma filter_neg : forall A (f : A -> bool) l, filter f (filter (fun x => negb (f x)) l) = [] /\ filter (fun x => negb (f x)) (filter f l) = [].
  Proof. intros A f. induction l as [|a l [I1 I2]]; [split; reflexivity|]. cbn. destruct (f a) eqn:E; cbn; rewrite ?E; cbn; auto. Qed.
  Lemma na_reord : forall m, na (reord m) = na m.
  Proof. intros m. unfold reord, na, ar. rewrite filter_app, filter_filter_same, (proj2 (filter_neg _ is_arr m)). apply app_nil_r. Qed.
  Lemma ar_reord : forall m, ar (reord m) = ar m.
  Proof. intros m. unfold reord, na, ar. rewrite filter_app, filter_filter_same. now rewrite (proj1 (filter_neg _ is_arr m)). Qed.
  Lemma filter_concat : forall A (f : A -> bool) ls, filter f (List.concat ls) = List.concat (map (filter f) ls).
  Proof. intros A f. induction ls as [|l ls IH]; [reflexivity|]. cbn. rewrite filter_app. now f_equal. Qed.
  Lemma na_concat : forall ms, na (List.concat (map reord ms)) = na (List.concat ms).
  Proof. intros ms. unfold na. rewrite !filter_concat, map_map. f_equal. apply map_ext. exact na_reord. Qed.
  Lemma ar_concat : forall ms, ar (List.concat (map reord ms)) = ar (List.concat ms).
  Proof. intros ms. unfold ar. rewrite !filter_concat, map_map. f_equal. apply map_ext. exact ar_reord. Qed.

  (** one message with distinct keys *)
  Lemma dget_app_none : forall V (r : dict V) k v k', k <> k' -> dget k r = None -> dget k (r ++ [(k', v)]) = None.
  Proof. intros V r k v k' N. induction r as [|[a b] r IH]; cbn; [destruct (String.eqb_spec k k'); congruence|]. destruct (String.eqb k a); auto. Qed.
  Lemma dset_new : forall V (r : dict V) k v, dget k r = None -> dset k v r = r ++ [(k, v)].
  Proof. intros V r k v. induction r as [|[a b] r IH]; cbn; [reflexivity|]. destruct (String.eqb k a); [congruence|]. intros H. f_equal. auto. Qed.
  Lemma addn_new : forall l r h, NoDup (map fst l) -> (forall k, In k (map fst l) -> dget k r = None) -> addn l r h = (r ++ l, h, true).
  Proof.
    induction l as [|[k v] l IH]; intros r h ND H; cbn; [now rewrite app_nil_r|]. inversion ND as [|? ? N1 N2]; subst. rewrite (H k) by (cbn; auto).
    rewrite dset_new by (apply H; cbn; auto). rewrite IH; [now rewrite <- app_assoc|assumption|].
    intros k' Hk. apply dget_app_none; [congruence|]. apply H. cbn. auto.
  Qed.
  Definition pack (p : string * mval X) : string * list (list X) := (fst p, match snd p with MArr _ v => [v] | _ => [] end).
  Lemma adda_new : forall l a, forallb is_arr l = true -> NoDup (map fst l) -> (forall k, In k (map fst l) -> dget k a = None) -> adda l a = a ++ map pack l.
  Proof.
    induction l as [|[k v] l IH]; intros a HA ND H; cbn; [now rewrite app_nil_r|]. cbn in HA. apply andb_prop in HA as [HA1 HA2].
    inversion ND as [|? ? N1 N2]; subst. destruct v as [b| | | |]; try discriminate. rewrite (H k) by (cbn; auto). cbn [app].
    rewrite dset_new by (apply H; cbn; auto). rewrite IH; [now rewrite <- app_assoc|assumption|assumption|].
    intros k' Hk. apply dget_app_none; [congruence|]. apply H. cbn. auto.
  Qed.
  Lemma get_arrays_new : forall l r a0, forallb is_arr l = true -> NoDup (map fst l) -> (forall k, In k (map fst l) -> dget k r = None) ->
    get_arrays X (map pack l) (mkC X r a0) = (mkC X (r ++ l) a0, BOk tt).
  Proof.
    induction l as [|[k v] l IH]; intros r a0 HA ND H; cbn; [now rewrite app_nil_r|]. cbn in HA. apply andb_prop in HA as [HA1 HA2].
    inversion ND as [|? ? N1 N2]; subst. destruct v as [b| | | |]; try discriminate. rewrite (H k) by (cbn; auto). cbn [List.concat]. rewrite app_nil_r.
    rewrite dset_new by (apply H; cbn; auto). rewrite IH; [now rewrite <- app_assoc|assumption|assumption|].
    intros k' Hk. apply dget_app_none; [congruence|]. apply H. cbn. auto.
  Qed.
  Lemma filter_nodup : forall (f : string * mval X -> bool) m, NoDup (map fst m) -> NoDup (map fst (filter f m)).
  Proof.
    intros f. induction m as [|p m IH]; intros H; cbn; [constructor|]. inversion H as [|? ? N1 N2]; subst. destruct (f p); [|auto]. cbn. constructor; [|auto].
    intros I. apply N1. apply in_map_iff in I as (q & <- & I). apply filter_In in I. apply in_map. tauto.
  Qed.
  Lemma dget_notin : forall V (d : dict V) k, ~ In k (map fst d) -> dget k d = None.
  Proof. intros V d k. induction d as [|[a b] d IH]; cbn; [reflexivity|]. intros H. destruct (String.eqb_spec k a); [subst; tauto|]. apply IH. tauto. Qed.
  Lemma nodup_apart : forall (f : string * mval X -> bool) m, NoDup (map fst m) -> forall k, In k (map fst (filter f m)) -> ~ In k (map fst (filter (fun x => negb (f x)) m)).
  Proof.
    intros f. induction m as [|p m IH]; intros H k; cbn; [tauto|]. inversion H as [|? ? N1 N2]; subst. specialize (IH N2).
    assert (forall g, In k (map fst (filter g m)) -> In k (map fst m)) as G.
    { intros g I. apply in_map_iff in I as (q & <- & I). apply filter_In in I. apply in_map. tauto. }
    destruct (f p); cbn.
    - intros [E|I] J; [subst; apply N1; exact (G _ J)|exact (IH k I J)].
    - intros I [E|J]; [subst; apply N1; exact (G _ I)|exact (IH k I J)].
  Qed.
  Lemma one_message : forall m h, NoDup (map fst m) -> exists c, combine_all X [m] h = ((c, h), BOk (reord m)).
  Proof.
    intros m h ND. unfold combine_all. cbn [add_all]. pose proof (add_split m [] [] h) as A.
    rewrite addn_new in A; [|now apply filter_nodup|reflexivity]. cbn [app] in A. unfold new_container. rewrite A.
    rewrite (adda_new (ar m) []); [|apply forallb_forall; intros p I; apply filter_In in I; tauto|now apply filter_nodup|reflexivity].
    cbn [app]. unfold get_message. cbn [k_arr].
    rewrite get_arrays_new; [|apply forallb_forall; intros p I; apply filter_In in I; tauto|now apply filter_nodup|].
    - cbn. eauto.
    - intros k I. apply dget_notin. exact (nodup_apart is_arr m ND k I).
  Qed.

  Notation chunk := (option (list X) * msg)%type.
  Definition yof (y : option (list X)) : yval X := match y with Some a => YArr X a | None => YFalse X end.
  Lemma task_ok : forall y m h, NoDup (map fst m) -> task_result X (y, m) h = (h, inr (TPair X (yof y) (reord m))).
  Proof. intros y m h ND. unfold task_result, serial_result. destruct (one_message m h ND) as [c Hc]. change (map snd [(y, m)]) with [m]. rewrite Hc. destruct y; cbn; rewrite ?app_nil_r; reflexivity. Qed.
  Lemma tasks_ok : forall cs h, Forall (fun c : chunk => NoDup (map fst (snd c))) cs -> tasks X cs h = (h, inr (map (fun c => TPair X (yof (fst c)) (reord (snd c))) cs)).
  Proof. induction cs as [|[y m] cs IH]; intros h F; [reflexivity|]. inversion F; subst. cbn [tasks]. rewrite task_ok by assumption. rewrite IH by assumption. reflexivity. Qed.
  Lemma use_loop_ok : forall cs acc c,
    use_loop X (map (fun c : chunk => TPair X (yof (fst c)) (reord (snd c))) cs) (Some acc) c =
    match add_all X (map (fun c => reord (snd c)) cs) c with (c', BOk _) => (c', inr (Some (acc ++ map (fun c => yof (fst c)) cs))) | (c', BErr _) => (c', inl EFlow) end.
  Proof.
    induction cs as [|[y m] cs IH]; intros acc c; cbn [map use_loop add_all fst snd]; [now rewrite app_nil_r|].
    destruct (add_message X (reord m) c) as [c' [u|e]]; [|reflexivity].
    destruct y as [a|]; cbn [yof]; rewrite IH; rewrite <- app_assoc; reflexivity.
  Qed.
  Lemma add_all_flat : forall ms w, add_all X ms w = add_message X (List.concat ms) w.
  Proof.
    assert (AM : forall a b w, add_message X (a ++ b) w = match add_message X a w with (w', BOk _) => add_message X b w' | (w', BErr e) => (w', BErr e) end).
    { induction a as [|p a IH]; intros b w; cbn [app add_message]; [reflexivity|]. destruct (add_key X p w) as [w' [u|e]]; [apply IH|reflexivity]. }
    induction ms as [|m ms IH]; intros w; cbn [add_all List.concat]; [reflexivity|]. rewrite AM. destruct (add_message X m w) as [w' [u|e]]; [apply IH|reflexivity].
  Qed.
  (** filling the container chunk by chunk, with the messages as they are or as the tasks return them *)
  Lemma add_reord : forall ms h, match add_all X ms (new_container X, h) with
    | (w, BOk _) => add_all X (map reord ms) (new_container X, h) = (w, BOk tt)
    | ((_, h'), BErr _) => exists c, add_all X (map reord ms) (new_container X, h) = ((c, h'), BErr EBiFlow)
    end.
  Proof.
    intros ms h. rewrite !add_all_flat. unfold new_container.
    pose proof (add_split (List.concat ms) [] [] h) as A. pose proof (add_split (List.concat (map reord ms)) [] [] h) as B.
    rewrite na_concat, ar_concat in B. destruct (addn (na (List.concat ms)) [] h) as [[r' h'] [|]].
    - rewrite A. exact B.
    - destruct A as [c ->]. exact B.
  Qed.
  Lemma serial_arrays : forall ys acc, serial_ys X (Some (Some acc)) (map Some ys) = inr (Some (Some (acc ++ ys))).
  Proof. induction ys as [|y ys IH]; intros acc; cbn; [now rewrite app_nil_r|]. rewrite IH. now rewrite <- app_assoc. Qed.
  Lemma rows_arrays : forall ys, rows_of X (map (fun a => YArr X a) ys) = Some ys.
  Proof. induction ys as [|y ys IH]; cbn; [reflexivity|]. now rewrite IH. Qed.

  (** C401: ParallelBiFlow.execute with a scheduler returns what BiFlow.execute returns, if every chunk gives an array: the same array, the same message or exception, and
      the same effect on the lists in the messages *)
  Theorem C401_execute : forall cs h, Forall (fun c : chunk => NoDup (map fst (snd c)) /\ exists a, fst c = Some a) cs -> par_exec X cs h = serial_result X cs h.
  Proof.
    intros cs h F. destruct cs as [|c0 cs0]; [reflexivity|]. set (cs := c0 :: cs0) in *.
    change (par_exec X cs h) with (match tasks X cs h with (h', inl e) => (h', inl e) | (h', inr rs) => use_exec X rs h' end).
    rewrite tasks_ok by (eapply Forall_impl; [|exact F]; intros c [? ?]; assumption).
    assert (exists ys, map fst cs = map Some ys) as [ys Hy].
    { clear - F. induction F as [|c l [_ [a Ha]] _ [ys IH]]; [exists []; reflexivity|]. exists (a :: ys). cbn. now rewrite Ha, IH. }
    assert (map (fun c : chunk => yof (fst c)) cs = map (fun a => YArr X a) ys) as Hz.
    { rewrite <- (map_map fst yof), Hy, map_map. reflexivity. }
    unfold use_exec. rewrite use_loop_ok. cbn [app]. rewrite Hz. rewrite <- (map_map snd reord).
    change (serial_result X cs h) with (match combine_all X (map snd cs) h with
           | ((_, h'), BErr _) => (h', inl EFlow)
           | ((_, h'), BOk m) => (h', match serial_ys X None (map fst cs) with
                                       | inl e => inl e
                                       | inr (Some (Some l)) => inr (YArr X (List.concat l), m)
                                       | inr _ => inr (YFalse X, m)
                                       end)
           end).
    unfold combine_all. pose proof (add_reord (map snd cs) h) as A.
    destruct (add_all X (map snd cs) (new_container X, h)) as [[c h'] [u|e]].
    - rewrite A. destruct ys as [|y ys]; [discriminate|]. cbn [map concatenate]. change (rows_of X (YArr X y :: map (fun a => YArr X a) ys)) with (rows_of X (map (fun a => YArr X a) (y :: ys))).
      rewrite rows_arrays. rewrite Hy. cbn [map serial_ys serial_y]. rewrite serial_arrays. cbn [app].
      destruct (get_message X c) as [c2 [m|e]]; reflexivity.
    - destruct A as [c2 ->]. reflexivity.
  Qed.
  (** what happens if a chunk gives no array *)
  Theorem C402_no_array : forall cs h, Forall (fun c : chunk => NoDup (map fst (snd c))) cs -> (exists c, In c cs /\ fst c = None) ->
    exists h' e, par_exec X cs h = (h', inl e).
  Proof.
    intros cs h F (c & I & Hc). destruct cs as [|c0 cs0]; [contradiction|]. set (cs := c0 :: cs0) in *.
    change (par_exec X cs h) with (match tasks X cs h with (h', inl e) => (h', inl e) | (h', inr rs) => use_exec X rs h' end).
    rewrite tasks_ok by assumption. unfold use_exec. rewrite use_loop_ok. cbn [app].
    destruct (add_all X (map (fun c1 => reord (snd c1)) cs) (new_container X, h)) as [[c1 h'] [u|e]]; [|eauto].
    assert (rows_of X (map (fun c => yof (fst c)) cs) = None) as R.
    { clear - I Hc. induction cs as [|d l IH]; [contradiction|]. destruct I as [->|I]; cbn; [now rewrite Hc|]. rewrite (IH I). now destruct (fst d). }
    unfold concatenate. rewrite R. unfold cs at 1. cbn [map]. eauto.
  Qed.
  (** C402: a flow whose last node gives no array can be executed: BiFlow.execute returns False and the message; ParallelBiFlow.execute raises ValueError *)
  Theorem C402_refuted : exists c : chunk, serial_result X [c] [] = ([], inr (YFalse X, [("a"%string, MInt X 3)])) /\ par_exec X [c] [] = ([], inl EValue).
  Proof. exists (None, [("a"%string, MInt X 3)]). split; reflexivity. Qed.
End Exec.
(** two chunks, with a message containing an array, a number and a list *)
Example C401_example : par_exec nat [(Some [1; 2], [("b"%string, MArr nat [7]); ("a"%string, MInt nat 3); ("l"%string, MList nat 0)]); (Some [4], [("l"%string, MList nat 1); ("b"%string, MArr nat [8; 9])])] [[EInt 1]; [EInt 2]]
  = ([[EInt 1; EInt 2]; [EInt 2]], inr (YArr nat [1; 2; 4], [("a"%string, MInt nat 3); ("l"%string, MList nat 0); ("b"%string, MArr nat [7; 8; 9])])).
Proof. reflexivity. Qed.
Example C401_example_types : par_exec nat [(Some [1], [("b"%string, MArr nat [7])]); (Some [4], [("b"%string, MInt nat 1)])] [] = ([], inl EFlow).
Proof. reflexivity. Qed.

(** ** One scheduler per node *)
Lemma bi_scheds_use : forall is la s s' l, (forall a b l1 l2, la :: is = l1 ++ a :: b :: l2 -> a <= b) -> use_scheds la is s = Some (s', l) ->
  bi_scheds la (map Some is ++ [None]) s = (s', fst (fst s) :: l, Some TypeErr).
Proof.
  induction is as [|i is IH]; intros la s s' l Hm H; cbn in *; [injection H as <- <-; reflexivity|].
  destruct (dispose_n (i - la) s) as [s1|]; [|discriminate]. destruct (use_scheds i is s1) as [[s2 l2]|] eqn:E; [|discriminate]. injection H as <- <-.
  assert (la <= i) by (apply (Hm la i [] is); reflexivity). replace (Nat.max i la) with i by lia.
  rewrite (IH i s1 s2 l2); [reflexivity| |exact E]. intros a b l1 l3 Hab. apply (Hm a b (la :: l1) l3). now rewrite Hab.
Qed.
(** C403: the phases are done with the right schedulers, and those up to that of the last node are shut down, but the training ends with TypeError *)
Theorem C403_phases : forall scheds i is, (forall j, In j (i :: is) -> j < List.length scheds) ->
  (forall a b l1 l2, i :: is = l1 ++ a :: b :: l2 -> a <= b) ->
  bi_train_scheds (Some i) (map Some is ++ [None]) scheds =
    (map (fun j => nth j scheds None) (i :: is), ParallelProps.ids (firstn (S (last is i)) scheds), Some TypeErr).
Proof.
  intros scheds i is Hl Hm. destruct (ParallelProps.C112_scheduler_per_node scheds i is Hl Hm) as (s & s' & l & P & U & L & Sh).
  unfold bi_train_scheds. rewrite P. cbn [use_scheds] in U. rewrite Nat.sub_diag in U. cbn [dispose_n] in U.
  destruct (use_scheds i is s) as [[s2 l2]|] eqn:E; [|discriminate]. injection U as <- <-.
  rewrite (bi_scheds_use is i s s2 l2 Hm E). rewrite L, Sh. reflexivity.
Qed.
(** no training with an iterable of schedulers returns normally *)
Theorem C403_never : forall i ends scheds, In None ends -> exists e, snd (bi_train_scheds i ends scheds) = Some e.
Proof.
  intros i ends scheds H. unfold bi_train_scheds. destruct scheds as [|c rs]; [cbn; eauto|]. destruct i as [i|]; [|cbn; eauto].
  cbn [prepare]. destruct (dispose_n i (c, rs, [])) as [s|]; [|cbn; eauto].
  enough (forall la s, exists e, snd (bi_scheds la ends s) = Some e) as G.
  { destruct (G i s) as [e He]. destruct (bi_scheds i ends s) as [[s2 l] o]. cbn in *. eauto. }
  clear - H. induction ends as [|[j|] ends IH]; intros la s; [contradiction| |cbn; eauto]. cbn. destruct H as [H|H]; [discriminate|].
  destruct (dispose_n (j - la) s) as [s1|]; [|cbn; eauto]. destruct (IH H (Nat.max j la) s1) as [e He]. destruct (bi_scheds (Nat.max j la) ends s1) as [[s2 l] o]. cbn in *. eauto.
Qed.
Theorem C403_refuted : exists scheds, bi_train_scheds (Some 0) [Some 1; None] scheds = ([Some 10; Some 11], [10; 11], Some TypeErr).
Proof. exists [Some 10; Some 11]. reflexivity. Qed.
Example C403_example : bi_train_scheds (Some 1) [Some 1; Some 3; None] [Some 10; Some 11; None; Some 13; Some 14] = ([Some 11; Some 11; Some 13], [10; 11; 13], Some TypeErr).
Proof. reflexivity. Qed.

(** ** Calls of train *)
Local Open Scope string_scope.
Local Open Scope list_scope.
Lemma bget_cons : forall k k' v b, bget k ((k', v) :: b) = if String.eqb k' k then Some v else bget k b.
Proof. intros. unfold bget. cbn. now destruct (String.eqb k' k). Qed.
Lemma bget_app : forall k a b, bget k (a ++ b) = match bget k a with Some v => Some v | None => bget k b end.
Proof. intros k a b. induction a as [|[k' v] a IH]; [reflexivity|]. cbn [app]. rewrite !bget_cons. destruct (String.eqb k' k); auto. Qed.
Definition is_param (s : signature) (k : string) : bool := existsb (fun q => String.eqb (fst q) k) (s_params s).
Lemma bget_rest : forall s k kw, bget k (filter (fun p => negb (existsb (fun q => String.eqb (fst q) (fst p)) (s_params s))) kw) = if is_param s k then None else bget k kw.
Proof.
  intros s k kw. induction kw as [|[k' v] kw IH]; [cbn; now destruct (is_param s k)|]. cbn [filter fst]. fold (is_param s k'). rewrite (bget_cons k k' v kw).
  destruct (String.eqb_spec k' k) as [->|N].
  - destruct (is_param s k); cbn [negb]; [exact IH|]. rewrite bget_cons. now rewrite String.eqb_refl.
  - destruct (is_param s k'); cbn [negb]; [exact IH|]. rewrite bget_cons. destruct (String.eqb_spec k' k); [contradiction|exact IH].
Qed.
Lemma fill_get : forall ps b r, NoDup (map fst ps) -> fill ps b = Some r -> forall k d, In (k, d) ps -> bget k r = match bget k b with Some v => Some v | None => d end.
Proof.
  induction ps as [|[k' d'] ps IH]; intros b r ND H k d I; [contradiction|]. inversion ND as [|? ? N1 N2]; subst. cbn in H.
  destruct I as [E|I].
  - injection E as -> ->. destruct (bget k b) as [v|], d as [w|]; destruct (fill ps b) as [r'|]; try discriminate; injection H as <-; rewrite bget_cons, String.eqb_refl; reflexivity.
  - assert (k' <> k) as N by (intros ->; apply N1; change k with (fst (k, d)); now apply in_map).
    destruct (fill ps b) as [r'|] eqn:E; [|destruct (bget k' b), d'; discriminate].
    assert (exists v, r = (k', v) :: r') as [v ->] by (destruct (bget k' b) as [v|], d' as [w|]; try discriminate; injection H as <-; eauto).
    rewrite bget_cons. destruct (String.eqb_spec k' k); [contradiction|]. eapply IH; eauto.
Qed.
Lemma bind_kw : forall s kw b rest, NoDup (map fst (s_params s)) -> bind s [] kw = Some (b, rest) ->
  (forall k d, In (k, d) (s_params s) -> bget k b = match bget k kw with Some v => Some v | None => d end) /\
  (forall k, bget k rest = if is_param s k then None else bget k kw).
Proof.
  intros s kw b rest ND H. unfold bind in H. assert (bind_pos (s_params s) [] = Some []) as P by (destruct (s_params s); reflexivity). rewrite P in H. cbn [existsb app] in H.
  match type of H with (if ?t then _ else _) = _ => destruct t; [discriminate|] end.
  destruct (fill (s_params s) kw) as [r|] eqn:E; [|discriminate]. injection H as <- <-.
  split; [apply fill_get; assumption|]. intros k. apply bget_rest.
Qed.
Lemma bind_rest : forall s pos kw b rest, bind s pos kw = Some (b, rest) -> forall k, bget k rest = if is_param s k then None else bget k kw.
Proof.
  intros s pos kw b rest H. unfold bind in H. destruct (bind_pos (s_params s) pos) as [b0|]; [|discriminate]. destruct (existsb _ b0); [discriminate|].
  match type of H with (if ?t then _ else _) = _ => destruct t; [discriminate|] end. destruct (fill (s_params s) (b0 ++ kw)); [|discriminate]. injection H as <- <-. intros k. apply bget_rest.
Qed.
Ltac nodup := repeat (constructor; [cbn; intuition discriminate|]); constructor.
(** C404: ParallelCheckpointBiFlow.train never gets to the serial training *)
Lemma pbf_never_serial : forall kw b, has "checkpoints" kw = true -> call_pbf true [] kw <> Serially b.
Proof.
  intros kw b H. unfold call_pbf. destruct (bind sig_pbf [] kw) as [[b0 rest]|] eqn:E; [|discriminate].
  destruct (is_pnone (arg "scheduler" b0)).
  - destruct (is_pnone _); [|discriminate]. pose proof (bind_rest _ _ _ _ _ E "checkpoints") as R. unfold is_param in R. cbn in R.
    unfold bind. cbn [bind_pos sig_bcf s_params option_map existsb fst].
    assert (has "checkpoints" rest = true) as -> by (unfold has in *; now rewrite R).
    rewrite orb_true_r. discriminate.
  - unfold call_setup_pcbf, call_setup_pcf, call_setup_pbf.
    repeat match goal with |- context [match ?t with Some _ => _ | None => _ end] => destruct t as [[? ?]|]; try discriminate end.
Qed.
Theorem C404_never : forall pos kw b, call_pcbf pos kw <> Serially b.
Proof.
  intros pos kw b. unfold call_pcbf. destruct (bind sig_pcbf pos kw) as [[b0 rest]|]; [|discriminate]. unfold call_pcf.
  match goal with |- context [bind sig_pcf [] ?q] => destruct (bind sig_pcf [] q) as [[b1 rest1]|]; [|discriminate] end.
  apply pbf_never_serial. unfold has. reflexivity.
Qed.
(** the documented call without a scheduler raises TypeError; checkpoints given by position or keyword *)
Theorem C404_refuted : forall d c : pyval, call_pcbf [d; c] [] = BadCall /\ call_pcbf [d] [("checkpoints", c)] = BadCall.
Proof. intros d c. split; reflexivity. Qed.
(** ParallelBiFlow.train hands its arguments on *)
Theorem C404_flow : forall d m s c r,
  call_pbf false [d; m; s] [] = Serially [("data_iterables", d); ("msg_iterables", m); ("stop_messages", s)] /\
  (is_pnone c = false -> call_pbf false [d; m; s] [("train_callable_class", c)] = Refused) /\
  (is_pnone r = false -> call_pbf false [d; m; s; r; c] [] =
     InParallel [("data_iterables", d); ("msg_iterables", m); ("stop_messages", s); ("train_callable_class", if is_pnone c then PBiCls else c)] None).
Proof. intros d m s c r. split; [reflexivity|]. split; [destruct c; cbn; try discriminate; reflexivity|]. destruct r; cbn; try discriminate; reflexivity. Qed.
Example C404_example : call_pcbf [PObj 0; PObj 1] [("scheduler", PObj 2); ("msg_iterables", PObj 3)] =
  InParallel [("data_iterables", PObj 0); ("msg_iterables", PObj 3); ("stop_messages", PNone); ("train_callable_class", PBiCls)] (Some (PObj 1)).
Proof. reflexivity. Qed.

(** C405: with a scheduler ParallelCheckpointBiFlow.train hands on everything but the stop messages *)
Theorem C405_arguments : forall pos kw b0 rest b cp, bind sig_pcbf pos kw = Some (b0, rest) -> call_pcbf pos kw = InParallel b cp ->
  arg "data_iterables" b = arg "data_iterables" b0 /\ arg "msg_iterables" b = arg "msg_iterables" b0 /\
  arg "train_callable_class" b = (if is_pnone (arg "train_callable_class" b0) then PBiCls else arg "train_callable_class" b0) /\
  cp = Some (arg "checkpoints" b0) /\ arg "stop_messages" b = PNone.
Proof.
  intros pos kw b0 rest b cp E0 H. pose proof (bind_rest _ _ _ _ _ E0) as R0. unfold call_pcbf in H. rewrite E0 in H. unfold call_pcf in H.
  match type of H with context [bind sig_pcf [] ?q] => set (kw1 := q) in *; destruct (bind sig_pcf [] kw1) as [[b1 rest1]|] eqn:E1; [|discriminate] end.
  apply bind_kw in E1 as [G1 R1]; [|nodup].
  assert (forall k, bget k kw1 = match bget k ([("data_iterables", arg "data_iterables" b0); ("scheduler", arg "scheduler" b0); ("train_callable_class", arg "train_callable_class" b0);
                                 ("overwrite_result_container", arg "overwrite_result_container" b0); ("msg_iterables", arg "msg_iterables" b0)]) with Some v => Some v
                                 | None => match bget k rest with Some v => Some v | None => bget k [("checkpoints", arg "checkpoints" b0)] end end) as K1.
  { intros k. unfold kw1. rewrite bget_app. destruct (bget k [_; _; _; _; _]); [reflexivity|]. apply bget_app. }
  clearbody kw1.
  assert (bget "data_iterables" b1 = Some (arg "data_iterables" b0)) as D1.
  { rewrite (G1 _ None) by (cbn; tauto). now rewrite K1. }
  assert (bget "checkpoints" b1 = Some (arg "checkpoints" b0)) as C1.
  { rewrite (G1 _ None) by (cbn; tauto). rewrite K1. rewrite R0. reflexivity. }
  assert (bget "train_callable_class" b1 = Some (arg "train_callable_class" b0)) as T1.
  { rewrite (G1 _ (Some PFlowCls)) by (cbn; tauto). now rewrite K1. }
  assert (bget "msg_iterables" rest1 = Some (arg "msg_iterables" b0)) as M1.
  { rewrite R1. cbn [is_param]. rewrite K1. reflexivity. }
  assert (bget "stop_messages" rest1 = None) as S1.
  { rewrite R1. rewrite K1. rewrite R0. reflexivity. }
  unfold call_pbf in H.
  match type of H with context [bind sig_pbf [] ?q] => set (kw2 := q) in *; destruct (bind sig_pbf [] kw2) as [[b2 rest2]|] eqn:E2; [|discriminate] end.
  apply bind_kw in E2 as [G2 R2]; [|nodup].
  assert (bget "data_iterables" b2 = Some (arg "data_iterables" b0)) as D2.
  { rewrite (G2 _ None) by (cbn; tauto). unfold kw2. cbn [app]. rewrite bget_cons. cbn. unfold arg at 1. now rewrite D1. }
  assert (bget "msg_iterables" b2 = Some (arg "msg_iterables" b0)) as M2.
  { rewrite (G2 _ (Some PNone)) by (cbn; tauto). unfold kw2. rewrite bget_app. cbn [bget find fst String.eqb Ascii.eqb Bool.eqb]. now rewrite M1. }
  assert (bget "stop_messages" b2 = Some PNone) as S2.
  { rewrite (G2 _ (Some PNone)) by (cbn; tauto). unfold kw2. rewrite bget_app. cbn [bget find fst String.eqb Ascii.eqb Bool.eqb]. now rewrite S1. }
  assert (bget "train_callable_class" b2 = Some (arg "train_callable_class" b0)) as T2.
  { rewrite (G2 _ (Some PNone)) by (cbn; tauto). unfold kw2. rewrite bget_app. cbn [bget find fst snd String.eqb Ascii.eqb Bool.eqb]. unfold arg at 1. now rewrite T1. }
  assert (bget "checkpoints" rest2 = Some (arg "checkpoints" b0)) as C2.
  { rewrite R2. unfold kw2. rewrite bget_app. cbn. unfold arg at 1. now rewrite C1. }
  clearbody kw2. clear - H D2 M2 S2 T2 C2 R2.
  assert (forall k, is_param sig_pbf k = true -> bget k rest2 = None) as N2 by (intros k Hk; now rewrite R2, Hk).
  destruct (is_pnone (arg "scheduler" b2)).
  { destruct (is_pnone (arg "train_callable_class" b2)); [|discriminate]. destruct (bind _ [_; _; _] rest2) as [[? ?]|]; discriminate. }
  unfold arg in H at 1 2 3 4 5. rewrite D2, M2, S2, T2 in H. set (tc := if is_pnone (arg "train_callable_class" b0) then PBiCls else arg "train_callable_class" b0) in *.
  unfold call_setup_pcbf in H.
  match type of H with context [bind setup_pcbf [] ?q] => set (kw3 := q) in *; destruct (bind setup_pcbf [] kw3) as [[b3 rest3]|] eqn:E3; [|discriminate] end.
  apply bind_kw in E3 as [G3 R3]; [|nodup].
  assert (bget "data_iterables" b3 = Some (arg "data_iterables" b0)) as D3 by (rewrite (G3 _ None) by (cbn; tauto); reflexivity).
  assert (bget "checkpoints" b3 = Some (arg "checkpoints" b0)) as C3.
  { rewrite (G3 _ None) by (cbn; tauto). unfold kw3. rewrite bget_app. cbn [bget find fst String.eqb Ascii.eqb Bool.eqb]. now rewrite C2. }
  assert (bget "msg_iterables" b3 = Some (arg "msg_iterables" b0)) as M3 by (rewrite (G3 _ (Some PNone)) by (cbn; tauto); reflexivity).
  assert (bget "train_callable_class" b3 = Some tc) as T3 by (rewrite (G3 _ (Some PBiCls)) by (cbn; tauto); reflexivity).
  assert (bget "stop_messages" rest3 = Some PNone) as S3 by (rewrite R3; reflexivity).
  clear G3. unfold call_setup_pcf in H.
  match type of H with context [bind setup_pcf [] ?q] => set (kw4 := q) in *; destruct (bind setup_pcf [] kw4) as [[b4 rest4]|] eqn:E4; [|discriminate] end.
  apply bind_kw in E4 as [G4 R4]; [|nodup].
  assert (bget "data_iterables" b4 = Some (arg "data_iterables" b0)) as D4 by (rewrite (G4 _ None) by (cbn; tauto); unfold kw4; cbn; unfold arg at 1; now rewrite D3).
  assert (bget "checkpoints" b4 = Some (arg "checkpoints" b0)) as C4 by (rewrite (G4 _ None) by (cbn; tauto); unfold kw4; cbn; unfold arg at 1; now rewrite C3).
  assert (bget "train_callable_class" b4 = Some tc) as T4 by (rewrite (G4 _ (Some PFlowCls)) by (cbn; tauto); unfold kw4; cbn; unfold arg at 1; now rewrite T3).
  assert (bget "msg_iterables" rest4 = Some (arg "msg_iterables" b0)) as M4 by (rewrite R4; unfold kw4; cbn; unfold arg at 1; now rewrite M3).
  assert (bget "stop_messages" rest4 = Some PNone) as S4 by (rewrite R4; unfold kw4; rewrite bget_app; cbn [is_param existsb setup_pcf s_params fst String.eqb Ascii.eqb Bool.eqb orb bget find]; now rewrite S3).
  clear G4. unfold call_setup_pbf in H.
  destruct (bind setup_pbf [arg "data_iterables" b4] (("train_callable_class", arg "train_callable_class" b4) :: rest4)) as [[b5 rest5]|] eqn:E5; [|discriminate].
  injection H as <- <-. unfold bind in E5. cbn [bind_pos setup_pbf s_params option_map existsb fst] in E5.
  destruct (has "data_iterables" _ || false); [discriminate|].
  match type of E5 with (if ?t then _ else _) = _ => destruct t; [discriminate|] end.
  match type of E5 with match fill ?p ?q with _ => _ end = _ => destruct (fill p q) as [r|] eqn:E6; [|discriminate]; set (kw5 := q) in * end. injection E5 as <- <-.
  assert (NoDup (map fst (s_params setup_pbf))) as ND by nodup. pose proof (fill_get _ _ _ ND E6) as G5. cbn [s_params setup_pbf] in G5.
  assert (forall k, bget k kw5 = match bget k [("data_iterables", arg "data_iterables" b4); ("train_callable_class", arg "train_callable_class" b4)] with Some v => Some v | None => bget k rest4 end) as K5.
  { intros k. unfold kw5. rewrite <- bget_app. reflexivity. }
  clearbody kw5.
  assert (forall k q v, bget k q = Some v -> arg k q = v) as A by (intros k q v E; unfold arg; now rewrite E).
  repeat split.
  - apply A. rewrite (G5 _ None) by (cbn; tauto). rewrite K5. cbn. now rewrite (A _ _ _ D4).
  - apply A. rewrite (G5 _ (Some PNone)) by (cbn; tauto). rewrite K5. cbn [bget find fst String.eqb Ascii.eqb Bool.eqb snd]. now rewrite M4.
  - apply A. rewrite (G5 _ (Some PBiCls)) by (cbn; tauto). rewrite K5. cbn. now rewrite (A _ _ _ T4).
  - now rewrite (A _ _ _ C4).
  - apply A. rewrite (G5 _ (Some PNone)) by (cbn; tauto). rewrite K5. cbn [bget find fst String.eqb Ascii.eqb Bool.eqb snd]. now rewrite S4.
Qed.
Theorem C405_refuted : exists b cp, call_pcbf [PObj 0; PObj 1; PObj 2; PObj 3; PObj 4] [] = InParallel b cp /\ arg "stop_messages" b = PNone /\
  (exists b', call_pbf false [PObj 0; PObj 2; PObj 3; PObj 4] [] = InParallel b' None /\ arg "stop_messages" b' = PObj 3).
Proof. eexists _, _. split; [reflexivity|]. split; [reflexivity|]. eexists. split; reflexivity. Qed.
Local Close Scope string_scope.

(** ** ParallelCloneBiLayer with nodes whose training state is a sum over the data *)
Section CloneZ.
  Local Open Scope Z_scope.
  Notation nodes := (pnodes Z).
  Notation zswitch := (switch Z (fun s => s) Z.add).
  Notation zfork := (lfork Z (fun _ => 0)).
  Notation zjoin := (ljoin Z Z.add).
  Notation ztrain := (ltrain Z Z Z.add).
  Definition zsum (l : list Z) : Z := fold_right Z.add 0 l.
  Lemma fold_sum : forall l s, fold_left Z.add l s = s + zsum l.
  Proof. induction l as [|a l IH]; intros s; cbn [fold_left]; [cbn; lia|]. rewrite IH. cbn [zsum fold_right]. fold (zsum l). lia. Qed.
  Lemma zsum_app : forall a b, zsum (a ++ b) = zsum a + zsum b.
  Proof. unfold zsum. induction a as [|x a IH]; intros b; cbn; [lia|]. rewrite IH. lia. Qed.
  Lemma train_each_length : forall l ps, List.length (train_each Z Z Z.add l ps) = List.length l.
  Proof. induction l as [|s l IH]; intros [|p ps]; cbn; auto. Qed.
  Lemma train_each_sum : forall l ps, List.length l = List.length ps -> zsum (train_each Z Z Z.add l ps) = zsum l + zsum ps.
  Proof. induction l as [|s l IH]; intros [|p ps] H; cbn in *; try discriminate; [reflexivity|]. unfold zsum in *. cbn. rewrite IH by congruence. lia. Qed.
  Lemma ltrain_copies : forall css l, Forall (fun ps => List.length ps = List.length l) css ->
    exists l', fold_left ztrain css (PCopies Z l) = PCopies Z l' /\ List.length l' = List.length l /\ zsum l' = zsum l + zsum (List.concat css).
  Proof.
    induction css as [|ps css IH]; intros l F; cbn [fold_left]; [exists l; cbn; repeat split; lia|]. inversion F as [|? ? F1 F2]; subst. cbn [ltrain].
    destruct (IH (train_each Z Z Z.add l ps)) as (l' & E & L & Sm).
    { eapply Forall_impl; [|exact F2]. cbn. intros a Ha. now rewrite train_each_length. }
    exists l'. split; [exact E|]. rewrite train_each_length in L. split; [exact L|]. rewrite Sm, train_each_sum by congruence. cbn [List.concat]. rewrite zsum_app. lia.
  Qed.
  Lemma sum_copies : forall s n k, zsum (map (fun _ : nat => s) (List.seq k n)) = Z.of_nat n * s.
  Proof. intros s. induction n as [|n IH]; intros k; [reflexivity|]. cbn [List.seq map zsum fold_right]. fold (zsum (map (fun _ : nat => s) (List.seq (S k) n))). rewrite IH. lia. Qed.
  Lemma train_one : forall css s k, fold_left ztrain css (POne Z s k) = POne Z (s + zsum (List.concat css)) k.
  Proof.
    induction css as [|ps css IH]; intros s k; cbn [fold_left]; [cbn; f_equal; lia|]. cbn [ltrain]. rewrite IH, fold_sum. f_equal. cbn [List.concat]. rewrite zsum_app. lia.
  Qed.
  (** C406: switching to copies, training on any chunks and switching back: what was there before is counted once for every copy *)
  Theorem C406_switch : forall s k css, (k > 0)%nat -> Forall (fun ps => List.length ps = k) css ->
    exists ns, zswitch true true (POne Z s k) = inr ns /\
      zswitch true false (fold_left ztrain css ns) = inr (POne Z (Z.of_nat k * s + zsum (List.concat css)) k).
  Proof.
    intros s k css Hk F. eexists. split; [reflexivity|]. assert (List.length (map (fun _ : nat => s) (List.seq 0 k)) = k) as L by now rewrite map_length, seq_length.
    destruct (ltrain_copies css (map (fun _ => s) (List.seq 0 k))) as (l' & E & L' & Sm); [now rewrite L|]. rewrite E. cbn [switch]. rewrite L in L'.
    destruct l' as [|a l']; [cbn in L'; lia|]. rewrite L'. f_equal. f_equal. rewrite fold_sum, <- (sum_copies s k 0). rewrite <- Sm. reflexivity.
  Qed.
  (** from the start of a phase the result is that of the single instance *)
  Theorem C406_fresh : forall k css, (k > 0)%nat -> Forall (fun ps => List.length ps = k) css ->
    exists ns, zswitch true true (POne Z 0 k) = inr ns /\ zswitch true false (fold_left ztrain css ns) = inr (fold_left ztrain css (POne Z 0 k)).
  Proof.
    intros k css Hk F. destruct (C406_switch 0 k css Hk F) as (ns & E1 & E2). exists ns. split; [exact E1|]. rewrite E2, train_one. f_equal. f_equal. lia.
  Qed.
  Theorem C406_refuted : exists ns0 ns, ns0 = ztrain (POne Z 0 2) [1; 2] /\ zswitch true true ns0 = inr ns /\
    zswitch true false (ztrain ns [10; 20]) = inr (POne Z 36 2) /\ ztrain ns0 [10; 20] = POne Z 33 2.
  Proof. eexists _, _. repeat split. Qed.
  (** C407: training in forks *)
  Fixpoint join_all (ns : nodes) (fs : list nodes) : lexn + nodes :=
    match fs with [] => inr ns | f :: fs => match zjoin ns f with inl e => inl e | inr ns' => join_all ns' fs end end.
  Lemma join_each : forall l ps, join_list Z Z.add l (train_each Z Z Z.add (map (fun _ => 0) l) ps) = inr (train_each Z Z Z.add l ps).
  Proof.
    induction l as [|s l IH]; intros ps; [destruct ps; reflexivity|]. destruct ps as [|p ps]; cbn.
    - specialize (IH []). assert (forall q : list Z, train_each Z Z Z.add q [] = q) as N by (intros [|]; reflexivity). rewrite !N in IH. rewrite IH. do 2 f_equal. lia.
    - rewrite IH. do 2 f_equal.
  Qed.
  Lemma same_zeros : forall l ps, map (fun _ : Z => 0) (train_each Z Z Z.add l ps) = map (fun _ => 0) l.
  Proof. induction l as [|s l IH]; intros [|p ps]; cbn; auto. now rewrite IH. Qed.
  Theorem C407_forks : forall css ns, join_all ns (map (fun ps => ztrain (zfork ns) ps) css) = inr (fold_left ztrain css ns).
  Proof.
    induction css as [|ps css IH]; intros ns; [reflexivity|]. cbn [map join_all fold_left].
    assert (zjoin ns (ztrain (zfork ns) ps) = inr (ztrain ns ps)) as ->.
    { destruct ns as [s k|l]; cbn [lfork ltrain ljoin node_list]; [rewrite !fold_sum; do 2 f_equal; lia|]. now rewrite join_each. }
    rewrite <- IH. f_equal. apply map_ext. intros qs. f_equal. destruct ns as [s k|l]; cbn [lfork ltrain]; [reflexivity|]. now rewrite same_zeros.
  Qed.
  (** a fork that has switched to copies cannot be joined; one that has switched to a single instance is counted once for every copy *)
  Theorem C407_to_copies : forall s k ps, exists f, zswitch true true (zfork (POne Z s k)) = inr f /\ zjoin (POne Z s k) (ztrain f ps) = inl LAttr.
  Proof. intros s k ps. eexists. split; reflexivity. Qed.
  Lemma join_repeat : forall l u, join_list Z Z.add l (repeat u (List.length l)) = inr (map (fun s => s + u) l).
  Proof. induction l as [|s l IH]; intros u; cbn; [reflexivity|]. now rewrite IH. Qed.
  Theorem C407_to_one : forall s0 l ps, List.length ps = S (List.length l) -> exists f, zswitch true false (ztrain (zfork (PCopies Z (s0 :: l))) ps) = inr f /\
    zjoin (PCopies Z (s0 :: l)) f = inr (PCopies Z (map (fun s => s + zsum ps) (s0 :: l))).
  Proof.
    intros s0 l ps H. destruct ps as [|p ps]; [discriminate|]. cbn in H. injection H as H. cbn [lfork map ltrain train_each switch]. eexists. split; [reflexivity|].
    cbn [List.length]. rewrite train_each_length, map_length, fold_sum, train_each_sum by (now rewrite map_length).
    assert (zsum (map (fun _ : Z => 0) l) = 0) as -> by (clear; induction l; cbn in *; unfold zsum in *; lia).
    cbn [ljoin node_list]. change (S (List.length l)) with (List.length (s0 :: l)). rewrite join_repeat. cbn [zsum fold_right]. do 3 f_equal.
  Qed.
  Theorem C407_refuted : exists f, zswitch true true (zfork (POne Z 5 2)) = inr f /\ zjoin (POne Z 5 2) (ztrain f [1; 2]) = inl LAttr.
  Proof. eexists. split; reflexivity. Qed.
  Example C407_example : join_all (PCopies Z [5; 6; 7]) [ztrain (zfork (PCopies Z [5; 6; 7])) [1; 2; 3]; ztrain (zfork (PCopies Z [5; 6; 7])) [10; 20; 30]] = inr (PCopies Z [16; 28; 40]).
  Proof. reflexivity. Qed.
End CloneZ.
(** C408: copies are not given up after the training *)
Theorem C408_refuted : forall St (copy : St -> St) join l, switch St copy join false false (PCopies St l) = inl LAttr.
Proof. reflexivity. Qed.
(** only then: during training, and in the other direction, the switch succeeds *)
Theorem C408_otherwise : forall St (copy : St -> St) join training b ns, (match ns with PCopies _ l => l <> [] /\ (training = true \/ b = true) | _ => True end) ->
  exists ns', switch St copy join training b ns = inr ns'.
Proof. intros St copy join training b [s k|l] H; destruct b; cbn; eauto. destruct H as [N [->|H]]; [|discriminate]. destruct l; [congruence|]. eauto. Qed.

(** ** Parallel execution by hand *)
Section ManualProps.
  Variables N Y : Type.
  Variable run : list N -> Y -> Y.
  (** C409: after train or execute with a scheduler the tasks run the nodes the flow has *)
  Theorem C409_after : forall s fl ys, m_execute N Y run ys (m_sched N fl s) = Some (map (run (m_flow N (m_sched N fl s))) ys) /\
    (forall fl', m_execute N Y run ys (m_serial N fl' (m_sched N fl s)) = Some (map (run fl') ys)).
  Proof. intros s fl ys. split; reflexivity. Qed.
  (** without it there is nothing to run, and the assignment of a node is not noticed *)
  Theorem C409_never : forall fl fls ys, m_execute N Y run ys (fold_left (fun s f => m_serial N f s) fls (m_new N fl)) = None.
  Proof.
    intros fl fls ys. assert (forall s, m_node N s = None -> m_execute N Y run ys (fold_left (fun s f => m_serial N f s) fls s) = None) as G.
    { induction fls as [|f fls IH]; intros s Hs; cbn; [unfold m_execute; now rewrite Hs|]. apply IH. cbn. now rewrite Hs. }
    now apply G.
  Qed.
  Theorem C409_stale : forall s fl i a ys, m_execute N Y run ys (m_set N i a (m_sched N fl s)) = Some (map (run fl) ys).
  Proof. reflexivity. Qed.
End ManualProps.
Theorem C409_refuted : let run := fun (fl : list nat) (y : nat) => fold_left Nat.add fl y in
  (exists s, m_flow nat s = [1; 2] /\ m_execute nat nat run [10; 20] s = None) /\
  (exists s, m_flow nat s = [1; 7] /\ m_execute nat nat run [10; 20] s = Some [13; 23]).
Proof. cbn. split; [exists (m_new nat [1; 2])|exists (m_set nat 1 7 (m_sched nat [1; 2] (m_new nat [])))]; split; reflexivity. Qed.
