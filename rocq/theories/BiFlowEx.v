(** BiFlow: examples for C63, C173, C174, C180, C181, and refutations (C63, C174-C179). *)
From Coq Require Import List Arith ZArith Bool String Lia.
From Verif Require Import BiModel BiFlowModel BiProps BiFlowProps.
Import ListNotations.
Open Scope nat_scope.

Section Ex.
  (* arrays are numbers, the attributes of a node are a counter *)
  Notation fn := (fnode nat unit nat).
  Notation wd := (BiFlowModel.world nat unit nat).
  Notation cls := (bclass nat unit nat).
  Notation res := (result nat unit).
  Definition fm (ps : list (string * bool)) (f : option nat -> nat -> nat * res) : meth nat unit nat :=
    mkMeth _ _ _ ps (fun x _ w => let (s', r) := f x (fst w) in ((s', snd w), BOk r)).
  Definition fine (_ : nat) (s : nat) : nat * bres unit := (s, BOk tt).
  Definition xps : list (string * bool) := [("x"%string, true)].
  (** a BiNode with _execute f, training phases ph; bi_reset sets the counter to 0 *)
  Definition bcls (i : string) (f : option nat -> nat -> nat * res) (ph : list (meth nat unit nat * meth nat unit nat)) : cls :=
    mkClass _ _ _ (Some i) (match ph with [] => false | _ => true end) true (fun _ => None) (fm xps f) (fm xps (fun x s => (s, RPlain _ _ x))) ph []
      fine fine (fun x _ => fine x) (fun _ x => x) (fun _ => 0).
  Definition bi (i : string) (f : option nat -> nat -> nat * res) (ph : list (meth nat unit nat * meth nat unit nat)) : fn := Bi _ _ _ (bcls i f ph) (new_node _ _ _ (bcls i f ph) 0).
  Definition go (t : value unit) (x : option nat) (s : nat) : nat * res := (s + 1, RTriple _ _ x None t).
  (** jumps by [t] at the first call and goes on afterwards *)
  Definition go_once (t : value unit) (x : option nat) (s : nat) : nat * res := (s + 1, if s =? 0 then RTriple _ _ x None t else RPlain _ _ x).
  Definition onward (x : option nat) (s : nat) : nat * res := (s + 1, RPlain _ _ x).
  Definition tr0 : meth nat unit nat := fm xps (fun _ s => (s + 10, RPlain _ _ None)).
  Definition st0 : meth nat unit nat := fm [] (fun _ s => (s, RPlain _ _ None)).
  Definition w0 (l : list fn) : wd := mkW _ _ _ l [] [].
  Definition sum_p (d : nat) : pnode nat nat := mkP _ _ false (fun x s => (s + 1, BOk (x + d))) (fun _ s => (s, BOk tt)) (fun s => (s, BOk tt)) (fun _ => 0) false.
  Definition nock : nat -> option (wd -> wd * bres (option (list (string * value unit)))) := fun _ => None.
  Notation run := (BiFlowModel.seq nat unit nat no).
  Notation exe := (BiFlowModel.execute nat unit nat no unit (fun _ a => BOk a)).
  Notation trn := (train_flow nat unit nat no nock).

  (** C63: "c" jumps back to node 0 by its id, then goes on *)
  Example C63_example : exists w', run 20 (Some 5) None (inl 0%Z) None (w0 [bi "a" (go (VInt _ 2)) []; bi "b" onward []; bi "c" (go_once (VStr _ "b")) []]) = Some (w', BOk (RPlain _ _ (Some 5))) /\
    w_log _ _ _ w' = [(0, VInt _ 2); (2, VStr _ "b"); (1, VInt _ 1); (2, VInt _ 1)]%string.
  Proof. eexists. split; vm_compute; reflexivity. Qed.
  (** C63: jumping two nodes before the front executes the last node but one instead of raising BiFlowException *)
  Theorem C63_wrap_refuted : exists w : wd, exists w' r, run 20 (Some 5) None (inl 0%Z) None w = Some (w', BOk r) /\
    nth_error (w_log _ _ _ w') 0 = Some (0, VInt _ (-2)%Z) /\ nth_error (w_log _ _ _ w') 1 = Some (List.length (w_nodes _ _ _ w) - 2, VInt _ 1).
  Proof.
    exists (w0 [bi "a" (go_once (VInt _ (-2)%Z)) []; bi "b" onward []; bi "c" onward []; bi "d" onward []]). do 2 eexists.
    split; [vm_compute; reflexivity|]. split; vm_compute; reflexivity.
  Qed.
  (** C174: while "b" is trained, "a" jumps before the front and "b" is executed; its training ends there *)
  Theorem C174_wrap_refuted : exists w : wd, exists w' r, train_chunks _ _ _ no 20 1 [(Some 5, None)] w = Some (w', r) /\ In 1 (map fst (w_log _ _ _ w')).
  Proof.
    exists (w0 [bi "a" (go_once (VInt _ (-2)%Z)) []; bi "b" onward [(tr0, st0)]; bi "c" onward []]). do 2 eexists. split; [vm_compute; reflexivity|vm_compute; auto].
  Qed.
  (** C174: the training of "b" goes through "c", which jumps back *)
  Definition tr_on : meth nat unit nat := fm xps (fun x s => (s + 10, if s <? 10 then RPlain _ _ x else RPlain _ _ None)).
  Example C174_example : exists w', train_chunks _ _ _ no 20 1 [(Some 5, None)] (w0 [bi "a" onward []; bi "b" onward [(tr_on, st0)]; bi "c" (go (VStr _ "a")) []]) = Some (w', BOk tt) /\
    map fst (w_log _ _ _ w') = [0; 2; 0].
  Proof. eexists. split; vm_compute; reflexivity. Qed.
  Example C173_example : exists w', exe 3 [(Some 5, None, VNone _); (Some 8, None, VNone _)] tt (w0 [Plain _ _ _ (sum_p 1) 0; Plain _ _ _ (sum_p 10) 0]) = Some (w', BOk (YList _ [16; 19], tt)) /\
    w_nodes _ _ _ w' = [Plain _ _ _ (sum_p 1) 2; Plain _ _ _ (sum_p 10) 2].
  Proof. eexists. split; vm_compute; reflexivity. Qed.
  Example C180_example : exists w', exe 20 [(Some 5, None, VNone _); (Some 6, None, VNone _)] tt (w0 [bi "a" onward []; bi "b" (go_once (VStr _ "a")) []]) = Some (w', BOk (YList _ [5; 6], tt)) /\
    map fst (w_log _ _ _ w') = [0; 1; 0; 1; 0; 1; 0; 1] /\ map (fun f => match f with Bi _ _ _ _ s => n_own _ s | Plain _ _ _ _ s => s end) (w_nodes _ _ _ w') = [0; 0].
  Proof. eexists. split; [vm_compute; reflexivity|]. split; vm_compute; reflexivity. Qed.
  Example C181_example : exists w', trn 20 [([(Some 5, None)], None); ([(Some 5, None); (Some 6, None)], None)] (w0 [bi "a" onward [(tr0, st0)]; bi "b" onward [(tr0, st0); (tr0, st0)]]) = Some (w', BOk tt) /\
    map (f_remaining _ _ _) (w_nodes _ _ _ w') = [0; 0].
  Proof. eexists. split; vm_compute; reflexivity. Qed.

  (** C175: the last node returns an array from _stop_training; instead of an execution that ends there, BiFlowException *)
  Definition st_y : meth nat unit nat := fm [] (fun _ s => (s, RPlain _ _ (Some 3))).
  Theorem C175_last_refuted : exists w : wd, exists d w', trn 20 d w = Some (w', BErr EBiFlow) /\
    List.length d = List.length (w_nodes _ _ _ w) /\ map (f_remaining _ _ _) (w_nodes _ _ _ w') = [0] /\
    exists w2, trn 20 (d ++ [([], None)]) (w0 (w_nodes _ _ _ w ++ [bi "b" onward []])) = Some (w2, BOk tt) /\ w_log _ _ _ w2 = [(1, VInt _ 1)].
  Proof.
    exists (w0 [bi "a" onward [(tr0, st_y)]]), [([(Some 5, None)], None)]. eexists. split; [vm_compute; reflexivity|]. split; [reflexivity|]. split; [vm_compute; reflexivity|].
    eexists. split; vm_compute; reflexivity.
  Qed.
  (** C176: _train(x, a): the message {"n->a": 1} is emptied in the first training phase, in the second one the argument is missing *)
  Definition tr_a : meth nat unit nat := fm [("x"%string, true); ("a"%string, true)] (fun _ s => (s + 10, RPlain _ _ None)).
  Definition w_a (m : msg unit) (ph : nat) : wd := mkW _ _ _ [bi "n" onward (repeat (tr_a, st0) ph)] [m] [].
  Theorem C176_messages_refuted : exists d : list (list (option nat * option ref) * option ref), exists w1 w2,
    trn 20 d (w_a [("n->a"%string, VInt _ 1)] 1) = Some (w1, BOk tt) /\ hget _ (w_heap _ _ _ w1) 0 = [] /\
    trn 20 d (w_a [("n->a"%string, VInt _ 1)] 2) = Some (w2, BErr EType).
  Proof. exists [([(Some 5, Some 0)], None)]. do 2 eexists. split; [vm_compute; reflexivity|]. split; vm_compute; reflexivity. Qed.
  Example C176_plain_example : exists w2, trn 20 [([(Some 5, Some 0)], None)] (w_a [("a"%string, VInt _ 1)] 2) = Some (w2, BOk tt) /\ w_heap _ _ _ w2 = [[("a"%string, VInt _ 1)]].
  Proof. eexists. split; vm_compute; reflexivity. Qed.

  (** C177: a flow that returns no array accepts one chunk, but not two *)
  Theorem C177_none_refuted : exists w : wd, exists ch w1 w2,
    exe 20 [ch] tt w = Some (w1, BOk (YFalse _, tt)) /\ exe 20 [ch; ch] tt w = Some (w2, BErr EBiFlow) /\ map snd (w_log _ _ _ w2) = [VInt _ 1; VInt _ 1].
  Proof.
    exists (w0 [bi "a" (fun _ s => (s + 1, RPlain _ _ None)) []]), (Some 5, None, VNone _). do 2 eexists. split; [vm_compute; reflexivity|]. split; vm_compute; reflexivity.
  Qed.
  (** C178: a checkpoint function without result, the normal case, ends the training with a TypeError *)
  Definition ck (r : option (list (string * value unit))) : nat -> option (wd -> wd * bres (option (list (string * value unit)))) := fun k => if k =? 0 then Some (fun w => (w, BOk r)) else None.
  Theorem C178_none_refuted : exists d : list (list (option nat * option ref) * option ref), exists w : wd, exists w1 w2,
    train_flow _ _ _ no nock 20 d w = Some (w1, BOk tt) /\ train_flow _ _ _ no (ck None) 20 d w = Some (w2, BErr EType) /\ map (f_remaining _ _ _) (w_nodes _ _ _ w2) = [0; 1].
  Proof.
    exists [([(Some 5, None)], None); ([(Some 5, None)], None)], (w0 [bi "a" onward [(tr0, st0)]; bi "b" onward [(tr0, st0)]]). do 2 eexists. split; [vm_compute; reflexivity|]. split; vm_compute; reflexivity.
  Qed.
  (** C179: a start target that is not in the flow *)
  Theorem C179_target_refuted : exists w : wd, exists w', exe 20 [(Some 5, None, VStr _ "nobody"%string)] tt w = Some (w', BErr EType).
  Proof. exists (w0 [bi "a" onward []]). eexists. vm_compute. reflexivity. Qed.
End Ex.

(** ** The positive parts *)
Section Pos.
  Variables X O S : Type.
  Variable truthy : O -> bool.
  Notation fnode := (fnode X O S).
  Notation world := (BiFlowModel.world X O S).
  Notation nodes := (w_nodes X O S).
  Notation hp := (w_heap X O S).
  (** C175: if _stop_training of a node that is not the last one returns an array, execution goes on with the next node *)
  Theorem C175_next n k sm w w1 y : stop_call X O S truthy k sm w = (w1, BOk (Some (RPlain _ _ y))) -> k + 1 < List.length (nodes w1) ->
    stop_phase X O S truthy n k sm w =
    match BiFlowModel.seq X O S truthy n y None (inl (Z.of_nat (k + 1))) None w1 with
    | None => None
    | Some (w2, BErr e) => Some (w2, BErr e)
    | Some (w2, BOk (RTriple _ _ _ _ t)) => Some (w2, if match is_int _ t with Some z => (z =? 1)%Z || (z =? -1)%Z | None => is_str _ "exit" t end then BOk tt else BErr EBiFlow)
    | Some (w2, BOk _) => Some (w2, BOk tt)
    end.
  Proof.
    intros E L. unfold stop_phase. rewrite E. cbn [is_str]. unfold target_to_index. cbn [is_str is_int].
    destruct (Z.ltb_spec (Z.of_nat k + 1) 0); [lia|]. destruct (Z.geb_spec (Z.of_nat k + 1) (Z.of_nat (List.length (nodes w1)))); [lia|]. replace (Z.of_nat k + 1)%Z with (Z.of_nat (k + 1)) by lia. reflexivity.
  Qed.
  Theorem C175_last n k sm w w1 y : stop_call X O S truthy k sm w = (w1, BOk (Some (RPlain _ _ y))) -> List.length (nodes w1) <= k + 1 ->
    stop_phase X O S truthy n k sm w = Some (w1, BErr EBiFlow).
  Proof.
    intros E L. unfold stop_phase. rewrite E. cbn [is_str]. unfold target_to_index. cbn [is_str is_int].
    destruct (Z.ltb_spec (Z.of_nat k + 1) 0); [lia|]. destruct (Z.geb_spec (Z.of_nat k + 1) (Z.of_nat (List.length (nodes w1)))); [reflexivity|lia].
  Qed.
  (** C177: what execute makes of the arrays of the chunks *)
  Definition arrays (l : list (option X)) : bres (ys X) :=
    match l with
    | [] => BOk (YNone X)
    | [None] => BOk (YFalse X)
    | None :: _ => BErr EBiFlow
    | Some x :: l => if forallb (fun o => match o with Some _ => true | None => false end) l then BOk (YList X (x :: flat_map (fun o => match o with Some y => [y] | None => [] end) l)) else BErr EBiFlow
    end.
  Fixpoint add_ys (a : ys X) (l : list (option X)) : bres (ys X) := match l with [] => BOk a | y :: l => match add_y X a y with BOk a' => add_ys a' l | BErr e => BErr e end end.
  Lemma add_ys_list l : forall b, add_ys (YList X b) l = if forallb (fun o => match o with Some _ => true | None => false end) l then BOk (YList X (b ++ flat_map (fun o => match o with Some y => [y] | None => [] end) l)) else BErr EBiFlow.
  Proof. induction l as [|[y|] l IH]; intros b; cbn; [rewrite app_nil_r; reflexivity| |reflexivity]. rewrite IH. destruct (forallb _ l); [|reflexivity]. rewrite <- app_assoc. reflexivity. Qed.
  Theorem C177_arrays l : add_ys (YNone X) l = arrays l.
  Proof. destruct l as [|[y|] l]; cbn; [reflexivity|apply add_ys_list|]. destruct l as [|[z|] l]; reflexivity. Qed.
  (** C178: with checkpoint functions that return a dictionary and leave the nodes as they are, the training is that of BiFlow *)
  Theorem C178_dict ck n data : (forall k f w, ck k = Some f -> exists d, f w = (w, BOk (Some d))) ->
    forall k w, train_nodes X O S truthy ck n k data w = train_nodes X O S truthy (fun _ => None) n k data w.
  Proof.
    intros H. induction data as [|[chs sm] data IH]; intros k w; cbn [train_nodes]; [reflexivity|]. destruct (train_node X O S truthy n k chs sm w) as [[w1 [u|e]]|]; [|reflexivity|reflexivity].
    unfold after_node. destruct (ck k) as [f|] eqn:E; [|apply IH]. destruct (H k f w1 E) as [d ->]. apply IH.
  Qed.
  (** C179: a known start target *)
  Theorem C179_known n x m i k w : i <> "exit"%string -> i <> ""%string -> find_id X O S i 0 (nodes w) = Some k -> exec_chunk X O S truthy n (x, m, VStr _ i) w =
    match BiFlowModel.seq X O S truthy n x m (inl (Z.of_nat k)) None w with
    | None => None
    | Some (w', BErr e) => Some (w', BErr e)
    | Some (w', BOk (RPlain _ _ y)) => Some (reset X O S w', BOk (y, None))
    | Some (w', BOk (RPair _ _ y m)) => Some (reset X O S w', BOk (y, m))
    | Some (w', BOk (RTriple _ _ y m t)) => if match is_int _ t with Some z => (z =? 1)%Z || (z =? -1)%Z | None => is_str _ "exit" t end then Some (reset X O S w', BOk (y, m)) else Some (w', BErr EBiFlow)
    | Some (w', BOk (ROther _ _)) => Some (w', BErr EType)
    end.
  Proof.
    intros NE N0 E. unfold exec_chunk, target_to_index. cbn [truth is_str is_int]. destruct (String.eqb_spec i ""); [contradiction|]. destruct (String.eqb_spec i "exit"); [contradiction|]. cbn [negb]. rewrite E.
    destruct (BiFlowModel.seq X O S truthy n x m (inl (Z.of_nat k)) None w) as [[w' [[]|]]|]; reflexivity.
  Qed.
  Theorem C179_unknown n x m i w : 0 < n -> i <> ""%string -> (i = "exit"%string \/ find_id X O S i 0 (nodes w) = None) -> exec_chunk X O S truthy n (x, m, VStr _ i) w = Some (w, BErr EType).
  Proof.
    intros P N0 E. unfold exec_chunk, target_to_index. cbn [truth is_str is_int]. destruct (String.eqb_spec i ""); [contradiction|]. cbn [negb]. destruct n as [|n']; [lia|].
    destruct (String.eqb_spec i "exit"); [reflexivity|]. destruct E as [E|E]; [contradiction|]. rewrite E. reflexivity.
  Qed.
End Pos.
