(** Model of mdp/hinet/flownode_online.py: OnlineFlowNode and CircularOnlineFlowNode, with FlowNode.__init__ (mdp/hinet/flownode.py:24-63).

    The internal nodes are those of OFlowModel (Nodes and OnlineNodes).  The node itself has the attributes of an OnlineNode that concern the
    training; its dimensions, dtype and random number generator are not modelled (the data have the right ones), nor
    is _fix_nodes_dimensions, which is called after the last stop_training.  Additional arguments of train are passed to every internal node
    by the code; here there are none. *)
From Coq Require Import List Arith ZArith Bool.
From Verif Require Import NodeModel OnlineModel OFlowModel.
Import ListNotations.
Open Scope nat_scope.

(** an exception of a node, FlowExceptionCR for node i, TypeError, IndexError *)
Inductive fnexn := NErr (e : exn) | NCR (i : nat) (e : exn) | NType | NIndex.
Inductive fnres (R : Type) := NOk (r : R) | NBad (e : fnexn).
Arguments NOk {R} _. Arguments NBad {R} _.

Section FlowNode.
  Variables D A I : Type.
  Variable row_of : nat -> D -> D.
  Variable na : A.
  Notation array := (array D).
  Notation ofnode := (ofnode D A I).
  Notation flow := (list ofnode).

  Definition f_trainable (f : ofnode) : bool := match f with Plain _ _ _ b _ _ => b_trainable _ _ _ b | Online _ _ _ b _ _ => ob_trainable _ _ _ b end.
  Definition f_phases (f : ofnode) : nat := match f with Plain _ _ _ b _ _ => b_phases _ _ _ b | Online _ _ _ b _ _ => ob_phases _ _ _ b end.
  Definition f_phase (f : ofnode) : Z := match f with Plain _ _ _ _ _ s => n_phase _ _ _ s | Online _ _ _ _ _ s => n_phase _ _ _ s end.

  (** ** Entries of _train_seq: train of node i or _empty; stop_training of node i or _empty; the nodes i to j-1 executed (with the
      wrappers of CircularOnlineFlowNode), or _empty *)
  Inductive channel := ChEmpty | ChExec (i j : nat) | ChSave (i j : nat).
  Record entry := mkE { e_train : option nat; e_stop : option nat; e_chan : channel; e_ignore : bool }.
  (** trainable_nodes_nrs :115-120, 283-288; the head of the list is node i *)
  Fixpoint nrs (i : nat) (fs : flow) : list nat := match fs with [] => [] | f :: fs => (if f_trainable f then [i] else []) ++ nrs (i + 1) fs end.
  (** the entries for the trainable nodes; [stop] whether stop_training is called; [fin] the channel of the last one *)
  Fixpoint entries (stop : bool) (fin : nat -> channel) (l : list nat) : list entry :=
    match l with
    | [] => []
    | [i] => [mkE (Some i) (if stop then Some i else None) (fin i) false]
    | i :: ((j :: _) as l) => mkE (Some i) (if stop then Some i else None) (ChExec i j) false :: entries stop fin l
    end.
  Definition front (k : nat) : list entry := if 0 <? k then [mkE None None (ChExec 0 k) false] else [].
  (** OnlineFlowNode._get_train_seq :87-154 *)
  Definition train_seq (fs : flow) : fnres (list entry) :=
    match nrs 0 fs with
    | [] => NBad NIndex
    | k :: l => NOk (front k ++ entries true (fun _ => ChEmpty) (k :: l))
    end.
  (** CircularOnlineFlowNode._get_train_seq :222-335 *)
  Definition circ_seq (iters : nat) (ignore : bool) (fs : flow) : fnres (list entry) :=
    match nrs 0 fs with
    | [] => NBad NIndex
    | k :: l =>
        let one := front k ++ entries false (fun i => ChExec i (length fs)) (k :: l) in
        let last := front k ++ entries true (fun i => ChSave i (length fs)) (k :: l) in
        let sq := List.concat (repeat one (iters - 1)) ++ last in
        NOk (match sq with e :: sq => if ignore then mkE (e_train e) (e_stop e) (e_chan e) true :: sq else e :: sq | [] => [] end)
    end.

  (** ** The node: internal flow, _training, _train_phase, _train_phase_started, _training_type, _train_iteration, _is_trainable, and the attributes
      of CircularOnlineFlowNode *)
  Record fnode := mkF { fn_flow : flow; fn_training : bool; fn_phase : Z; fn_started : bool; fn_type : option bool; fn_iter : nat; fn_trainable : bool;
                        fn_stored : option array }.
  Inductive kind := KFlow | KCirc (iters : nat) (ignore : bool).
  Definition set_flow (s : fnode) (fs : flow) : fnode := mkF fs (fn_training s) (fn_phase s) (fn_started s) (fn_type s) (fn_iter s) (fn_trainable s) (fn_stored s).
  Definition set_stored (s : fnode) (x : option array) : fnode := mkF (fn_flow s) (fn_training s) (fn_phase s) (fn_started s) (fn_type s) (fn_iter s) (fn_trainable s) x.
  Definition add_iter (s : fnode) (n : nat) : fnode := mkF (fn_flow s) (fn_training s) (fn_phase s) (fn_started s) (fn_type s) (fn_iter s + n) (fn_trainable s) (fn_stored s).

  (** FlowNode.__init__ (flownode.py:24-63): trainable if phases are left; Node.__init__ (signal_node.py:265-297) *)
  Fixpoint train_len (fs : flow) : Z := match fs with [] => 0 | f :: fs => ((if f_trainable f then Z.of_nat (f_phases f) - f_phase f else 0) + train_len fs)%Z end.
  (** _set_training_type_from_flow :60-66: batch if a node with a training type has it *)
  Definition is_batch (f : ofnode) : bool := match f with Online _ _ _ _ _ s => match at_type (n_int _ _ _ s) with Some true => true | _ => false end | _ => false end.
  Definition fn_new (fs : flow) (stored : option array) : fnode :=
    let t := negb (train_len fs =? 0)%Z in mkF fs t (if t then 0 else -1)%Z false (if existsb is_batch fs then Some true else None) 0 t stored.

  Definition upd1 (fs : flow) (i : nat) (f : ofnode) : flow := firstn i fs ++ match skipn i fs with [] => [] | _ :: r => f :: r end.
  (** the nodes i to i + n - 1 executed :96-107 *)
  Fixpoint exec_range (i n : nat) (x : array) (fs : flow) : flow * fnres array :=
    match n with
    | 0 => (fs, NOk x)
    | Datatypes.S n =>
        match nth_error fs i with
        | None => (fs, NBad NIndex)
        | Some f => match f_exec _ _ _ row_of na x f with
                    | (f', Err e) => (upd1 fs i f', NBad (NCR i e))
                    | (f', Ok y) => exec_range (i + 1) n y (upd1 fs i f')
                    end
        end
    end.
  (** the train function of an entry *)
  Definition run_train (e : entry) (x : array) (s : fnode) : fnode * fnres unit :=
    let go x :=
      match e_train e with
      | None => (s, NOk tt)
      | Some i => match nth_error (fn_flow s) i with
                  | None => (s, NBad NIndex)
                  | Some f => match f_train _ _ _ row_of x na f with
                              | (f', Err e) => (set_flow s (upd1 (fn_flow s) i f'), NBad (NErr e))
                              | (f', Ok _) => (set_flow s (upd1 (fn_flow s) i f'), NOk tt)
                              end
                  end
      end in
    if e_ignore e then match fn_stored s with None => (s, NBad (NErr TrainingExc)) | Some x => go x end else go x.
  (** the channel of an entry; what an _empty or a saving one returns is not used *)
  Definition run_chan (e : entry) (x : array) (s : fnode) : fnode * fnres array :=
    let x := if e_ignore e then match fn_stored s with Some y => y | None => x end else x in
    match e_chan e with
    | ChEmpty => (s, NOk x)
    | ChExec i j => let (fs, r) := exec_range i (j - i) x (fn_flow s) in (set_flow s fs, r)
    | ChSave i j => let (fs, r) := exec_range i (j - i) x (fn_flow s) in
                    (match r with NOk y => set_stored (set_flow s fs) (Some y) | _ => set_flow s fs end, r)
    end.
  (** the loop over the entries (signal_node_online.py:272-277, 281-285) *)
  Fixpoint fn_pass (es : list entry) (x : array) (s : fnode) : fnode * fnres unit :=
    match es with
    | [] => (s, NOk tt)
    | e :: es => match run_train e x s with
                 | (s1, NBad e) => (s1, NBad e)
                 | (s1, NOk _) => match run_chan e x s1 with
                                  | (s2, NBad e) => (s2, NBad e)
                                  | (s2, NOk y) => fn_pass es y s2
                                  end
                 end
    end.
  Definition seq_of (k : kind) (fs : flow) : fnres (list entry) := match k with KFlow => train_seq fs | KCirc n b => circ_seq n b fs end.
  Definition one_pass (k : kind) (x : array) (s : fnode) : fnode * fnres unit :=
    match seq_of k (fn_flow s) with NBad e => (s, NBad e) | NOk es => fn_pass es x s end.
  Fixpoint fn_rows (k : kind) (xs : list array) (s : fnode) : fnode * fnres unit :=
    match xs with
    | [] => (s, NOk tt)
    | x :: xs => match one_pass k x s with (s1, NOk _) => fn_rows k xs (add_iter s1 1) | (s1, NBad e) => (s1, NBad e) end
    end.
  (** OnlineNode.train (signal_node_online.py:240-286) *)
  Definition fn_train (k : kind) (x : array) (s : fnode) : fnode * fnres unit :=
    if negb (fn_trainable s) then (s, NBad (NErr IsNotTrainable)) else
    if negb (fn_training s) then (s, NBad (NErr TrainingFinished)) else
    let t := match fn_type s with Some t => t | None => false end in
    let s := mkF (fn_flow s) (fn_training s) (fn_phase s) true (Some t) (fn_iter s) (fn_trainable s) (fn_stored s) in
    if t then match one_pass k x s with (s1, NOk _) => (add_iter s1 (a_rows x), NOk tt) | (s1, NBad e) => (s1, NBad e) end
    else fn_rows k (rows D row_of x) s.
  (** the stop functions; _empty takes an argument and is called without *)
  Fixpoint stops (es : list entry) (fs : flow) : flow * fnres unit :=
    match es with
    | [] => (fs, NOk tt)
    | e :: es => match e_stop e with
                 | None => (fs, NBad NType)
                 | Some i => match nth_error fs i with
                             | None => (fs, NBad NIndex)
                             | Some f => match f_stop _ _ _ na f with
                                         | (f', Err e) => (upd1 fs i f', NBad (NErr e))
                                         | (f', Ok _) => stops es (upd1 fs i f')
                                         end
                             end
                 end
    end.
  (** OnlineNode.stop_training (signal_node_online.py:288-309) *)
  Definition fn_stop (k : kind) (s : fnode) : fnode * fnres unit :=
    if fn_training s && negb (fn_started s) then (s, NBad (NErr TrainingExc)) else
    if negb (fn_training s) then (s, NBad (NErr TrainingFinished)) else
    match seq_of k (fn_flow s) with
    | NBad e => (s, NBad e)
    | NOk es => let (fs, r) := stops es (fn_flow s) in
                match r with
                | NBad e => (set_flow s fs, NBad e)
                | NOk _ => (mkF fs false (Z.of_nat (length es)) false (fn_type s) (fn_iter s) (fn_trainable s) (fn_stored s), NOk tt)
                end
    end.
  (** Node.execute with OnlineNode._pre_execution_checks (signal_node_online.py:177-193), FlowNode._execute (flownode.py:173-174), Flow.execute *)
  Definition fn_execute (k : kind) (x : array) (s : fnode) : fnode * fnres array :=
    let go s := let (fs, r) := exec_range 0 (length (fn_flow s)) x (fn_flow s) in (set_flow s fs, r) in
    if (fn_phase s =? 0)%Z && negb (fn_started s) then match fn_train k x s with (s1, NOk _) => go s1 | (s1, NBad e) => (s1, NBad e) end
    else go s.
End FlowNode.
