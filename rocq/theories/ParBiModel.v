(** Model of bimdp/parallel/parallelbiflow.py: what ParallelBiFlow and ParallelCheckpointBiFlow do with the results of their tasks, with their schedulers and
    with their arguments, and of bimdp/parallel/parallelbihinet.py: ParallelCloneBiLayer.

    The flows are the nested flows of BiFlowNodeModel.v, the messages of an execution those of BiMsgModel.v, the schedulers those of ParallelModel.v.
    Simplifications:
    - the nodes of the flow in training are BiNodes or normal nodes, as in BiFlowNodeModel.v;
    - training phases are run with the nodes themselves, as in _local_train_phase; for the forks and joins of nodes see ParallelModel.v and ParNodeModel.v;
    - the data is already sanitised: one list of (x, msg) for a node, or of (x, msg, target). *)
From Coq Require Import List Arith ZArith Bool String.
From Verif Require Import BiModel BiMsgModel BiFlowNodeModel ParallelModel.
Import ListNotations.
Open Scope nat_scope.

(** ** 1. Training *)
(** an exception of BiFlowNodeModel.v, TrainingException of stop_training *)
Inductive pexn := PF (e : fexn) | PTrain.
(** target in [1, -1, EXIT_TARGET] *)
Definition allowed (t : target) : bool :=
  match t with TInt z => (z =? 1)%Z || (z =? -1)%Z | TStr s => String.eqb s "exit" | TNone => false end.

Section Train.
  Variables X Mg W : Type.
  Variable emptyb : Mg -> bool.
  Variable leaf_exec : nat -> X -> option Mg -> W -> W * (fexn + ret X Mg).
  Variable norm_exec : nat -> X -> W -> W * (fexn + X).
  Variable leaf_train : nat -> X -> option Mg -> W -> W * (fexn + option (ret X Mg)).
  Variable norm_train : nat -> X -> W -> W * option fexn.
  Variable leaf_stop : nat -> option Mg -> W -> W * (fexn + option (ret X Mg)).
  Variable norm_stop : nat -> W -> W * option fexn.
  Variable leaf_reset : nat -> W -> W.
  Variable is_none : X -> bool.
  Variable none : X.
  Variable hdr : option string -> Mg -> Mg * target * bool.
  (** the method of the message is missing or 'train' (binode.py:196) *)
  Variable train_method : Mg -> bool.
  Notation ret := (ret X Mg).
  Notation seq := (seq X Mg W emptyb leaf_exec norm_exec is_none hdr).
  Notation chunk := (X * option Mg)%type.

  (** the flow: its nodes and the state of all of them; in BiFlowNode(BiFlow(self.flow)) also _last_id_request and _train_phase_started *)
  Record fstate := mkF { f_kids : list tree; f_w : W; f_rq : option req; f_started : bool }.
  (** bi_reset of the BiFlowNode (biflownode.py:237-241), _bi_reset of the flow (biflow.py:369-373) *)
  Definition reset (f : fstate) : fstate :=
    mkF (map reset_rq (f_kids f)) (fold_left (fun w u => reset_w W leaf_reset u w) (f_kids f) (f_w f)) None (f_started f).

  (** train of the BiFlowNode, which has no id (binode.py:165-218 with _get_method and _train of biflownode.py); the third entry of the result: a plain
      x, a pair or a triple as in BiFlowNodeModel.v, with None for a plain x that is None *)
  Definition plain_none (m : option Mg) (r : ret) : bool :=
    match r_t _ _ r, r_m _ _ r with
    | None, None => is_none (r_x _ _ r)
    | None, Some _ => match m with Some _ => is_none (r_x _ _ r) | None => false end
    | _, _ => false
    end.
  Definition node_train (n k : nat) (c : chunk) (f : fstate) : option (fstate * (fexn + option ret)) :=
    let (x, m) := c in
    if match m with None => is_none x | Some _ => false end then Some (f, inl XBoth) else
    let '(m1, tg, inv) := header Mg hdr None m in
    let (rq1, tg1) := get_method inv (f_rq f) tg (List.length (f_kids f)) in
    let st := f_started f || (negb (is_none x) && match m with None => true | Some g => train_method g end) in
    match train_hook X Mg W emptyb leaf_exec norm_exec leaf_train norm_train is_none hdr n k rq1 (f_kids f) x m1 (f_w f) with
    | None => None
    | Some (rq2, kids, w, inl e) => Some (mkF kids w rq2 st, inl e)
    | Some (rq2, kids, w, inr None) => Some (mkF kids w rq2 st, inr None)
    | Some (rq2, kids, w, inr (Some r)) => let r := combine X Mg r tg1 in Some (mkF kids w rq2 st, inr (if plain_none m r then None else Some r))
    end.
  (** BiFlowTrainCallable.__call__ :37-49: the chunk is done, or an exception; the loop is never repeated *)
  Definition judge_train (r : option ret) : option fexn :=
    match r with
    | None => None
    | Some r => match r_t _ _ r, r_m _ _ r with
                | Some t, _ => if allowed t then None else Some XFlow
                | None, Some _ => Some XIndex                    (* result[2] of a pair *)
                | None, None => Some XFlow
                end
    end.
  Definition train_task (n k : nat) (c : chunk) (f : fstate) : option (fstate * (fexn + unit)) :=
    match node_train n k c f with
    | None => None
    | Some (f', inl e) => Some (f', inl e)
    | Some (f', inr r) => match judge_train r with Some e => Some (f', inl e) | None => Some (reset f', inr tt) end
    end.
  Fixpoint train_tasks (n k : nat) (cs : list chunk) (f : fstate) : option (fstate * (fexn + unit)) :=
    match cs with
    | [] => Some (f, inr tt)
    | c :: cs => match train_task n k c f with Some (f', inr _) => train_tasks n k cs f' | o => o end
    end.
  (** stop_training of the BiFlowNode (binode.py:220-269); [not msg] holds for an empty message *)
  Definition node_stop (n k : nat) (sm : option Mg) (f : fstate) : option (fstate * (pexn + option ret)) :=
    if negb (f_started f) then Some (f, inl PTrain) else
    let '(m1, tg, inv) := match sm with Some g => if emptyb g then (None, TNone, false) else header Mg hdr None sm | None => (None, TNone, false) end in
    let (rq1, tg1) := get_method inv (f_rq f) tg (List.length (f_kids f)) in
    match stop_hook X Mg W emptyb leaf_exec norm_exec leaf_stop norm_stop is_none hdr n k (f_kids f) m1 (f_w f) with
    | None => None
    | Some (kids, w, inl e) => Some (mkF kids w rq1 (f_started f), inl (PF e))
    | Some (kids, w, inr r) =>
        Some (mkF kids w rq1 false,
              inr (match r with
                   | None => match tg1 with TNone => None | t => Some (mkRet _ _ none None (Some t)) end
                   | Some r => let r := combine X Mg r tg1 in
                               match r_t _ _ r, r_m _ _ r with None, None => if is_none (r_x _ _ r) then None else Some r | _, _ => Some r end
                   end))
    end.
  (** the check of the result in _local_train_phase :381-389 *)
  Definition judge_local (r : option ret) : option fexn := judge_train r.
  (** the check in use_results :547-554; [third x] is [x[2] in [1, -1, EXIT_TARGET]] for an array *)
  Variable third : X -> fexn + bool.
  Definition judge_use (r : option ret) : option fexn :=
    match r with
    | None => None
    | Some r => match r_t _ _ r, r_m _ _ r with
                | Some t, _ => if allowed t then None else Some XFlow
                | None, Some _ => Some XIndex
                | None, None => match third (r_x _ _ r) with inl e => Some e | inr true => None | inr false => Some XFlow end
                end
    end.
  (** the end of a phase: _local_train_phase :376-390 (judge_local), use_results :542-555 (judge_use) *)
  Definition end_phase (judge : option ret -> option fexn) (n k : nat) (sm : option Mg) (f : fstate) : option (fstate * (pexn + unit)) :=
    match node_stop n k sm f with
    | None => None
    | Some (f', inl e) => Some (f', inl e)
    | Some (f', inr r) => match judge r with Some e => Some (f', inl (PF e)) | None => Some (reset f', inr tt) end
    end.
  (** a whole phase :361-390; with [judge_use] a phase whose tasks were run one after the other by a scheduler *)
  Definition phase (judge : option ret -> option fexn) (n k : nat) (cs : list chunk) (sm : option Mg) (f : fstate) : option (fstate * (pexn + unit)) :=
    match train_tasks n k cs f with
    | None => None
    | Some (f', inl e) => Some (f', inl (PF e))
    | Some (f', inr _) => end_phase judge n k sm f'
    end.

  (** ** BiFlow.train for the same flow (biflow.py:170-285), where nothing is wrapped in a BiFlowNode *)
  Fixpoint serial_chunk (n k : nat) (ts : list tree) (x : X) (m : option Mg) (i : Z) (w : W) : option (list tree * W * (fexn + unit)) :=
    match n with
    | 0 => None
    | S n =>
        match seq n (Some k) ts x m i w with
        | None => None
        | Some (ts1, w1, inl e) => Some (ts1, w1, inl e)
        | Some (ts1, w1, inr (RRet _ _ _)) => Some (ts1, w1, inl XFlow)
        | Some (ts1, w1, inr (RStop _ _ x m)) =>
            match nth_error ts1 k with
            | Some (Leaf _ l) =>
                match leaf_train l x m w1 with
                | (w2, inl e) => Some (ts1, w2, inl e)
                | (w2, inr None) => Some (ts1, w2, inr tt)
                | (w2, inr (Some r)) =>
                    match to_index ts1 (match r_t _ _ r with None => TNone | Some t => t end) (Z.of_nat k) with
                    | (ts2, inl e) => Some (ts2, w2, inl e)
                    | (ts2, inr None) => Some (ts2, w2, inl XType)            (* self.flow[target], target a string *)
                    | (ts2, inr (Some j)) => serial_chunk n k ts2 (r_x _ _ r) (r_m _ _ r) j w2
                    end
                end
            | Some (Norm l) => match norm_train l x w1 with (w2, Some e) => Some (ts1, w2, inl e) | (w2, None) => Some (ts1, w2, inr tt) end
            | _ => None
            end
        end
    end.
  Fixpoint serial_chunks (n k : nat) (cs : list chunk) (f : fstate) : option (fstate * (fexn + unit)) :=
    match cs with
    | [] => Some (f, inr tt)
    | (x, m) :: cs =>
        match serial_chunk n k (f_kids f) x m 0 (f_w f) with
        | None => None
        | Some (ts, w, inl e) => Some (mkF ts w (f_rq f) (f_started f), inl e)
        | Some (ts, w, inr _) => serial_chunks n k cs (reset (mkF ts w (f_rq f) (f_started f)))
        end
    end.
  Definition serial_stop (n k : nat) (sm : option Mg) (ts : list tree) (w : W) : option (list tree * W * (fexn + unit)) :=
    match nth_error ts k with
    | Some (Norm l) => match sm with
                       | Some _ => Some (ts, w, inl XType)
                       | None => match norm_stop l w with (w', Some e) => Some (ts, w', inl e) | (w', None) => Some (ts, w', inr tt) end
                       end
    | Some (Leaf _ l) =>
        match leaf_stop l sm w with
        | (w1, inl e) => Some (ts, w1, inl e)
        | (w1, inr None) => Some (ts, w1, inr tt)
        | (w1, inr (Some r)) =>
            if match r_t _ _ r with Some (TStr s) => String.eqb s "exit" | _ => false end then Some (ts, w1, inr tt) else
            match to_index ts (match r_t _ _ r with None => TNone | Some t => t end) (Z.of_nat k) with
            | (ts1, inl e) => Some (ts1, w1, inl e)
            | (ts1, inr None) => Some (ts1, w1, inl XType)
            | (ts1, inr (Some j)) =>
                match seq n None ts1 (r_x _ _ r) (r_m _ _ r) j w1 with
                | None => None
                | Some (ts2, w2, inl e) => Some (ts2, w2, inl e)
                | Some (ts2, w2, inr (RRet _ _ r')) =>
                    Some (ts2, w2, match r_t _ _ r' with Some t => if allowed t then inr tt else inl XFlow | None => inr tt end)
                | Some (ts2, w2, inr (RStop _ _ _ _)) => None
                end
            end
        end
    | _ => None
    end.
  Definition serial_phase (n k : nat) (cs : list chunk) (sm : option Mg) (f : fstate) : option (fstate * (fexn + unit)) :=
    match serial_chunks n k cs f with
    | None => None
    | Some (f', inl e) => Some (f', inl e)
    | Some (f', inr _) =>
        match cs with
        | [] => Some (f', inl XFlow)
        | _ => match serial_stop n k sm (f_kids f') (f_w f') with
               | None => None
               | Some (ts, w, inl e) => Some (mkF ts w (f_rq f') (f_started f'), inl e)
               | Some (ts, w, inr _) => Some (reset (mkF ts w (f_rq f') (f_started f')), inr tt)
               end
        end
    end.
End Train.

(** ** 2. The results of an execution *)
Section Exec.
  Variable X : Type.      (* rows *)
  Notation msg := (dict (mval X)).
  (** what an execution of one chunk gives: y (None: no array) and the message.  BiFlow.execute returns False for "no array" *)
  Inductive yval := YArr (a : list X) | YFalse | YNo.
  (** errors: BiFlowException, ValueError of numpy.concatenate *)
  Inductive xexn := EFlow | EValue.
  (** BiFlow.execute (biflow.py:308-361): y_results None, False or a list; the messages are combined at the end *)
  Definition serial_y (acc : option (option (list (list X)))) (y : option (list X)) : xexn + option (option (list (list X))) :=
    match y, acc with
    | Some y, None => inr (Some (Some [y]))
    | Some y, Some (Some l) => inr (Some (Some (l ++ [y])))
    | Some _, Some None => inl EFlow
    | None, None => inr (Some None)
    | None, Some _ => inl EFlow
    end.
  Fixpoint serial_ys (acc : option (option (list (list X)))) (ys : list (option (list X))) : xexn + option (option (list (list X))) :=
    match ys with [] => inr acc | y :: ys => match serial_y acc y with inl e => inl e | inr a => serial_ys a ys end end.
  (** the array and the message for a list of chunks; a failing combination of messages is noticed before or after, here always after *)
  Definition serial_result (cs : list (option (list X) * msg)) (h : lheap) : lheap * (xexn + yval * msg) :=
    match cs with
    | [] => (h, inl EFlow)
    | _ => match combine_all X (map snd cs) h with
           | ((_, h'), BErr _) => (h', inl EFlow)
           | ((_, h'), BOk m) => (h', match serial_ys None (map fst cs) with
                                       | inl e => inl e
                                       | inr (Some (Some l)) => inr (YArr (List.concat l), m)
                                       | inr _ => inr (YFalse, m)
                                       end)
           end
    end.
  (** the result of a task: BiFlowExecuteCallable.__call__ :80-89 calls BiFlow.execute for the chunk.  A callable of the user may return anything:
      RPair for a tuple of length two, ROne for something else *)
  Inductive tres := TPair (y : yval) (m : msg) | TOne (y : yval).
  Definition task_result (c : option (list X) * msg) (h : lheap) : lheap * (xexn + tres) :=
    match serial_result [c] h with (h', inl e) => (h', inl e) | (h', inr (y, m)) => (h', inr (TPair y m)) end.
  (** use_results :566-592; y_results is a list or None *)
  Fixpoint use_loop (rs : list tres) (acc : option (list yval)) (c : container X * lheap) : (container X * lheap) * (xexn + option (list yval)) :=
    match rs with
    | [] => (c, inr acc)
    | r :: rs =>
        let '(c', o, y) := match r with
                           | TPair y m => match add_message X m c with (c', BOk _) => (c', None, y) | (c', BErr _) => (c', Some EFlow, y) end
                           | TOne y => (c, None, y)
                           end in
        match o with
        | Some e => (c', inl e)
        | None =>
            match y, acc with
            | YNo, _ => use_loop rs None c'
            | y, Some l => use_loop rs (Some (l ++ [y])) c'
            | _, None => (c', inl EFlow)                      (* None.append *)
            end
        end
    end.
  (** numpy.concatenate: no array at all, or the 0-dimensional False among them, is a ValueError *)
  Fixpoint rows_of (l : list yval) : option (list (list X)) :=
    match l with [] => Some [] | YArr a :: l => option_map (cons a) (rows_of l) | _ :: _ => None end.
  Definition concatenate (l : list yval) : xexn + list X :=
    match l with [] => inl EValue | _ => match rows_of l with Some r => inr (List.concat r) | None => inl EValue end end.
  Definition use_exec (rs : list tres) (h : lheap) : lheap * (xexn + yval * msg) :=
    match use_loop rs (Some []) (new_container X, h) with
    | ((_, h'), inl e) => (h', inl e)
    | ((c, h'), inr acc) =>
        match match acc with None => inr YNo | Some l => match concatenate l with inl e => inl e | inr a => inr (YArr a) end end with
        | inl e => (h', inl e)
        | inr y => match get_message X c with (_, BErr _) => (h', inl EFlow) | (_, BOk m) => (h', inr (y, m)) end
        end
    end.
  (** execute :405-467 with a scheduler: the results of the tasks in the order of the chunks *)
  Fixpoint tasks (cs : list (option (list X) * msg)) (h : lheap) : lheap * (xexn + list tres) :=
    match cs with
    | [] => (h, inr [])
    | c :: cs => match task_result c h with
                 | (h', inl e) => (h', inl e)
                 | (h', inr r) => match tasks cs h' with (h2, inl e) => (h2, inl e) | (h2, inr rs) => (h2, inr (r :: rs)) end
                 end
    end.
  Definition par_exec (cs : list (option (list X) * msg)) (h : lheap) : lheap * (xexn + yval * msg) :=
    match cs with
    | [] => (h, inl EFlow)
    | _ => match tasks cs h with (h', inl e) => (h', inl e) | (h', inr rs) => use_exec rs h' end
    end.
End Exec.

(** ** 3. One scheduler per node, train :182-243.  [ends] lists what _i_train_node is after each use_results: the index of a node, or None when all is trained *)
Fixpoint bi_scheds (last : nat) (ends : list (option nat)) (s : sched) : sched * list (option nat) * option exc :=
  match ends with
  | [] => (s, [], None)
  | None :: _ => (s, [fst (fst s)], Some TypeErr)              (* None > last_trained_node :224 *)
  | Some i :: ends =>
      match dispose_n (i - last) s with
      | None => (s, [fst (fst s)], Some NoTask)
      | Some s' => match bi_scheds (Nat.max i last) ends s' with (s2, l, e) => (s2, fst (fst s) :: l, e) end
      end
  end.
(** the schedulers used for the phases, those shut down at the end (finally :238-243), the exception *)
Definition bi_train_scheds (i : option nat) (ends : list (option nat)) (scheds : list (option nat)) : list (option nat) * list nat * option exc :=
  match prepare i scheds, i with
  | Ok s, Some i => match bi_scheds i ends s with (s', l, e) => (l, shut s', e) end
  | Err e, _ => ([], match scheds with Some k :: _ => [k] | _ => [] end, Some e)
  | _, _ => ([], [], None)
  end.

(** ** 4. Calls of train: the values None, True, an object, the two default classes of training callables *)
Inductive pyval := PNone | PTrue | PObj (n : nat) | PFlowCls | PBiCls.
Definition bindings := list (string * pyval).
(** parameters with their defaults, and whether there is **kwargs *)
Record signature := mkSig { s_params : list (string * option pyval); s_extra : bool }.
Definition bget (k : string) (b : bindings) : option pyval := match find (fun p => String.eqb (fst p) k) b with Some p => Some (snd p) | None => None end.
Fixpoint bind_pos (ps : list (string * option pyval)) (pos : list pyval) : option bindings :=
  match pos, ps with [], _ => Some [] | v :: pos, (k, _) :: ps => option_map (cons (k, v)) (bind_pos ps pos) | _ :: _, [] => None end.
Fixpoint fill (ps : list (string * option pyval)) (b : bindings) : option bindings :=
  match ps with
  | [] => Some []
  | (k, d) :: ps => match bget k b, d, fill ps b with
                    | Some v, _, Some r | None, Some v, Some r => Some ((k, v) :: r)
                    | _, _, _ => None
                    end
  end.
Definition has (k : string) (b : bindings) : bool := match bget k b with Some _ => true | None => false end.
(** the binding of the arguments of a call: the parameters, and the keywords left for **kwargs; None: TypeError *)
Definition bind (s : signature) (pos : list pyval) (kw : bindings) : option (bindings * bindings) :=
  match bind_pos (s_params s) pos with
  | None => None
  | Some b =>
      if existsb (fun p => has (fst p) kw) b then None else                                   (* multiple values for an argument *)
      let rest := filter (fun p => negb (existsb (fun q => String.eqb (fst q) (fst p)) (s_params s))) kw in
      if negb (s_extra s) && match rest with [] => false | _ => true end then None else        (* unexpected keyword *)
      match fill (s_params s) (b ++ kw) with Some r => Some (r, rest) | None => None end
  end.
Definition arg (k : string) (b : bindings) : pyval := match bget k b with Some v => v | None => PNone end.
Local Open Scope string_scope.
Local Open Scope list_scope.
(** BiFlow.train (biflow.py:107-108), BiCheckpointFlow.train (biflow.py:580-581), ParallelBiFlow.train :121-126, ParallelCheckpointFlow.train
    (parallelflows.py:727-730), ParallelCheckpointBiFlow.train :605-610 *)
Definition sig_bf : signature := mkSig [("data_iterables", None); ("msg_iterables", Some PNone); ("stop_messages", Some PNone)] false.
Definition sig_bcf : signature := mkSig [("data_iterables", None); ("checkpoints", None); ("msg_iterables", Some PNone); ("stop_messages", Some PNone)] false.
Definition sig_pbf : signature :=
  mkSig [("data_iterables", None); ("msg_iterables", Some PNone); ("stop_messages", Some PNone); ("scheduler", Some PNone);
         ("train_callable_class", Some PNone); ("overwrite_result_container", Some PTrue)] true.
Definition sig_pcf : signature :=
  mkSig [("data_iterables", None); ("checkpoints", None); ("scheduler", Some PNone); ("train_callable_class", Some PFlowCls); ("overwrite_result_container", Some PTrue)] true.
Definition sig_pcbf : signature :=
  mkSig [("data_iterables", None); ("checkpoints", None); ("msg_iterables", Some PNone); ("stop_messages", Some PNone); ("scheduler", Some PNone);
         ("train_callable_class", Some PNone); ("overwrite_result_container", Some PTrue)] true.
(** setup_parallel_training: ParallelBiFlow :245-247, ParallelCheckpointFlow (parallelflows.py:744-746), ParallelCheckpointBiFlow :628-631 *)
Definition setup_pbf : signature :=
  mkSig [("data_iterables", None); ("msg_iterables", Some PNone); ("stop_messages", Some PNone); ("train_callable_class", Some PBiCls)] false.
Definition setup_pcf : signature := mkSig [("data_iterables", None); ("checkpoints", None); ("train_callable_class", Some PFlowCls)] true.
Definition setup_pcbf : signature := mkSig [("data_iterables", None); ("checkpoints", None); ("msg_iterables", Some PNone); ("train_callable_class", Some PBiCls)] true.
(** what a call of train leads to: the serial training with these arguments, the preparation of parallel training in ParallelBiFlow with these
    arguments (and the checkpoints stored by ParallelCheckpointFlow), ParallelBiFlowException, TypeError *)
Inductive called := Serially (b : bindings) | InParallel (b : bindings) (checkpoints : option pyval) | Refused | BadCall.
Definition is_pnone (v : pyval) : bool := match v with PNone => true | _ => false end.
(** ParallelBiFlow.setup_parallel_training :245 *)
Definition call_setup_pbf (pos : list pyval) (kw : bindings) (cp : option pyval) : called :=
  match bind setup_pbf pos kw with Some (b, _) => InParallel b cp | None => BadCall end.
(** ParallelCheckpointFlow.setup_parallel_training (parallelflows.py:747-752) *)
Definition call_setup_pcf (kw : bindings) : called :=
  match bind setup_pcf [] kw with
  | Some (b, rest) => call_setup_pbf [arg "data_iterables" b] (("train_callable_class", arg "train_callable_class" b) :: rest) (Some (arg "checkpoints" b))
  | None => BadCall
  end.
(** ParallelCheckpointBiFlow.setup_parallel_training :628-639 *)
Definition call_setup_pcbf (kw : bindings) : called :=
  match bind setup_pcbf [] kw with
  | Some (b, rest) => call_setup_pcf ([("data_iterables", arg "data_iterables" b); ("checkpoints", arg "checkpoints" b);
                                       ("train_callable_class", arg "train_callable_class" b); ("msg_iterables", arg "msg_iterables" b)] ++ rest)
  | None => BadCall
  end.
(** ParallelBiFlow.train :160-181; [cp]: the object is a ParallelCheckpointBiFlow, so the method after it in the order of resolution is BiCheckpointFlow.train,
    and setup_parallel_training that of ParallelCheckpointBiFlow; no parallel training is underway *)
Definition call_pbf (cp : bool) (pos : list pyval) (kw : bindings) : called :=
  match bind sig_pbf pos kw with
  | None => BadCall
  | Some (b, rest) =>
      let d := arg "data_iterables" b in let m := arg "msg_iterables" b in let s := arg "stop_messages" b in let c := arg "train_callable_class" b in
      if is_pnone (arg "scheduler" b) then
        if is_pnone c then match bind (if cp then sig_bcf else sig_bf) [d; m; s] rest with Some (b', _) => Serially b' | None => BadCall end else Refused
      else
        let kw' := [("data_iterables", d); ("msg_iterables", m); ("stop_messages", s); ("train_callable_class", if is_pnone c then PBiCls else c)] ++ rest in
        if cp then call_setup_pcbf kw' else call_setup_pbf [] kw' None
  end.
(** ParallelCheckpointFlow.train (parallelflows.py:736-742), called by ParallelCheckpointBiFlow.train :619-626 *)
Definition call_pcf (kw : bindings) : called :=
  match bind sig_pcf [] kw with
  | Some (b, rest) => call_pbf true [] ([("data_iterables", arg "data_iterables" b); ("scheduler", arg "scheduler" b); ("train_callable_class", arg "train_callable_class" b);
                                         ("overwrite_result_container", arg "overwrite_result_container" b); ("checkpoints", arg "checkpoints" b)] ++ rest)
  | None => BadCall
  end.
Definition call_pcbf (pos : list pyval) (kw : bindings) : called :=
  match bind sig_pcbf pos kw with
  | Some (b, rest) => call_pcf ([("data_iterables", arg "data_iterables" b); ("scheduler", arg "scheduler" b); ("train_callable_class", arg "train_callable_class" b);
                                 ("overwrite_result_container", arg "overwrite_result_container" b); ("msg_iterables", arg "msg_iterables" b)] ++ rest
                                ++ [("checkpoints", arg "checkpoints" b)])
  | None => BadCall
  end.
Local Close Scope string_scope.

(** ** 5. ParallelCloneBiLayer (parallelbihinet.py) *)
Section PClone.
  Variable St : Type.
  Variables (copy fork : St -> St) (join : St -> St -> St).
  (** the node used n_nodes times, or its copies (self.node is None) *)
  Inductive pnodes := POne (s : St) (k : nat) | PCopies (l : list St).
  (** AttributeError, IndexError *)
  Inductive lexn := LAttr | LIndex.
  (** _set_use_copies :17-43; there is no method is_bi_training *)
  Definition switch (training b : bool) (ns : pnodes) : lexn + pnodes :=
    match b, ns with
    | true, POne s k => inr (PCopies (map (fun _ => copy s) (List.seq 0 k)))
    | false, PCopies l =>
        if training then match l with [] => inl LIndex | s :: l' => inr (POne (fold_left join l' s) (List.length l)) end
        else inl LAttr
    | _, _ => inr ns
    end.
  (** _fork :45-59 *)
  Definition lfork (ns : pnodes) : pnodes := match ns with POne s k => POne (fork s) k | PCopies l => PCopies (map fork l) end.
  (** self.nodes *)
  Definition node_list (ns : pnodes) : list St := match ns with POne s k => repeat s k | PCopies l => l end.
  Fixpoint join_list (l f : list St) : lexn + list St :=
    match l, f with
    | [], _ => inr []
    | _ :: _, [] => inl LIndex
    | s :: l, u :: f => match join_list l f with inl e => inl e | inr r => inr (join s u :: r) end
    end.
  (** _join :61-67; join(None) raises AttributeError *)
  Definition ljoin (ns f : pnodes) : lexn + pnodes :=
    match ns with
    | PCopies l => match join_list l (node_list f) with inl e => inl e | inr r => inr (PCopies r) end
    | POne s k => match f with POne u _ => inr (POne (join s u) k) | PCopies _ => inl LAttr end
    end.
  (** _train of the layer (bilayer.py:170-187): node i is trained on part i of the data; one instance gets the parts one after the other *)
  Variable X : Type.
  Variable train : St -> X -> St.
  Fixpoint train_each (l : list St) (ps : list X) : list St :=
    match l, ps with s :: l, p :: ps => train s p :: train_each l ps | _, _ => l end.
  Definition ltrain (ns : pnodes) (ps : list X) : pnodes :=
    match ns with POne s k => POne (fold_left train ps s) k | PCopies l => PCopies (train_each l ps) end.
End PClone.

(** ** 6. Parallel execution by hand: setup_parallel_execution, get_task, use_results.  The attribute _flownode is set by train and execute with a scheduler
    (parallelflows.py:411, 575, parallelbiflow.py:286, 451), not by setup_parallel_execution (parallelflows.py:588-625, parallelbiflow.py:469-512).  The nodes of
    the flow are those of the list self.flow; an assignment to an entry makes a new list (Flow.__setitem__, linear_flows.py:499-511) *)
Section Manual.
  Variables N Y : Type.
  Variable run : list N -> Y -> Y.
  Record mflow := mkM { m_flow : list N; m_node : option (list N) }.
  Definition m_new (fl : list N) : mflow := mkM fl None.
  (** train or execute with a scheduler *)
  Definition m_sched (fl : list N) (s : mflow) : mflow := mkM fl (Some fl).
  (** train without a scheduler changes the nodes, which are shared; [fl] are the nodes afterwards *)
  Definition m_serial (fl : list N) (s : mflow) : mflow := mkM fl (match m_node s with Some _ => Some fl | None => None end).
  Definition m_set (i : nat) (a : N) (s : mflow) : mflow := mkM (upd (m_flow s) i a) (m_node s).
  (** the results of the tasks made for the chunks; None: AttributeError, as the callable has no flownode *)
  Definition m_execute (ys : list Y) (s : mflow) : option (list Y) :=
    match m_node s with None => None | Some fl => Some (map (run fl) ys) end.
End Manual.
