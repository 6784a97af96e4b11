(** Model of bimdp/hinet/biflownode.py: BiFlowNode, a BiFlow used as a node, with the parts of bimdp/biflow.py it uses
    (_target_to_index, _execute_seq, _request_node_id), and of the loop of CloneBiLayer._execute (bimdp/hinet/bilayer.py).

    Unlike BiFlowModel.v, flows can be nested: a node is a BiNode, a normal Node or a BiFlowNode with the nodes of its flow and with
    its attribute _last_id_request.  The BiNodes and normal nodes are numbers; what their methods do to the data x (None included), the message
    and the state W of all of them is a parameter.  Simplifications:
    - all nodes are distinct objects, ids are strings;
    - the part of BiNode.execute and BiNode.train which reads the message (bimdp/binode.py, see BiModel.v) is the parameter [hdr]: it gives the message
      without the keys for this BiFlowNode, the target, and whether the method is 'inverse';
    - the data checks of a BiFlowNode (_pre_execution_checks, _check_input) pass: the node is trained or in its training phase, and dimensions and dtype
      are not fixed by the BiFlowNode;
    - the tuples returned have two or three entries (other lengths raise in the code);
    - execution takes fuel; None means that it was not enough. *)
From Coq Require Import List Arith ZArith Bool String.
Import ListNotations.
Open Scope nat_scope.

(** BiFlowException, IndexError, TypeError, the BiNodeException "Both x and msg are None.", an exception of a node *)
Inductive fexn := XFlow | XIndex | XType | XBoth | XOwn (n : nat).
Inductive target := TNone | TInt (z : Z) | TStr (s : string).
(** the values of _last_id_request: a node id, or an index (_get_method :76) *)
Inductive req := QId (s : string) | QIdx (n : nat).
Inductive tree := Leaf (id : option string) (k : nat) | Norm (k : nat) | Sub (id : option string) (rq : option req) (kids : list tree).

Definition same_id (o : option string) (s : string) : bool := match o with Some i => String.eqb i s | None => false end.
(** _request_node_id of BiNode (binode.py:320-335) and BiFlowNode :243-252: the node afterwards, and whether something was found *)
Fixpoint request (s : string) (t : tree) : tree * bool :=
  match t with
  | Leaf id k => (t, same_id id s)
  | Norm k => (t, false)
  | Sub id rq kids =>
      if same_id id s then (t, true) else
      let (kids', b) := (fix go l := match l with
                                     | [] => ([], false)
                                     | u :: l => let (u', b) := request s u in
                                                 if b then (u' :: l, true) else let (l', b') := go l in (u' :: l', b')
                                     end) kids in
      if b then (Sub id (Some (QId s)) kids', true) else (Sub id rq kids', false)
  end.
(** the loop over the nodes in _target_to_index (biflow.py:491-493): the nodes, and the index of the first one that finds the id *)
Fixpoint search (s : string) (ts : list tree) (i : nat) : list tree * option nat :=
  match ts with
  | [] => ([], None)
  | u :: ts => let (u', b) := request s u in if b then (u' :: ts, Some i) else let (ts', o) := search s ts (i + 1) in (u' :: ts', o)
  end.
(** _target_to_index (biflow.py:470-507): the nodes, and an index, or nothing if the target is not in this flow *)
Definition to_index (ts : list tree) (t : target) (cur : Z) : list tree * (fexn + option Z) :=
  match t with
  | TStr s => if String.eqb s "exit" then (ts, inr None)
              else match search s ts 0 with (ts', Some k) => (ts', inr (Some (Z.of_nat k))) | (ts', None) => (ts', inr None) end
  | _ => let z := match t with TInt z => z | _ => 1%Z end in
         let a := (cur + z)%Z in
         if (a <? 0)%Z then (ts, inl XFlow) else if (a >=? Z.of_nat (List.length ts))%Z then (ts, inl XFlow) else (ts, inr (Some a))
  end.
(** l[i] for an int i *)
Definition index (len : nat) (i : Z) : option nat :=
  if (i <? - Z.of_nat len)%Z then None else if (i <? 0)%Z then Some (Z.to_nat (i + Z.of_nat len)) else if (i <? Z.of_nat len)%Z then Some (Z.to_nat i) else None.
Fixpoint upd {T} (l : list T) (i : nat) (f : T) : list T :=
  match l, i with [], _ => [] | _ :: l, 0 => f :: l | a :: l, S i => a :: upd l i f end.
(** _get_target :49-61 *)
Definition get_target (rq : option req) : option req * target :=
  match rq with
  | Some (QId s) => if String.eqb s "" then (rq, TInt 0) else (None, TStr s)
  | Some (QIdx (S n)) => (None, TInt (Z.of_nat (S n)))
  | _ => (rq, TInt 0)
  end.
(** _get_method :63-77 *)
Definition get_method (inv : bool) (rq : option req) (tg : target) (len : nat) : option req * target :=
  if inv then
    match rq with
    | None => let tg := match tg with TInt (-1)%Z => TNone | t => t end in
              match tg with TNone => (Some (QIdx (len - 1)), TNone) | t => (None, t) end
    | Some _ => (rq, tg)
    end
  else (rq, tg).

Section BFN.
  Variables X Mg W : Type.
  (** not msg, for a dict *)
  Variable emptyb : Mg -> bool.
  (** the result of a method: x, the message, and the third entry of the tuple if there is one *)
  Record ret := mkRet { r_x : X; r_m : option Mg; r_t : option target }.
  Variable leaf_exec : nat -> X -> option Mg -> W -> W * (fexn + ret).
  Variable norm_exec : nat -> X -> W -> W * (fexn + X).
  (** train of a BiNode (None: nothing returned) and of a normal node, stop_training of both *)
  Variable leaf_train : nat -> X -> option Mg -> W -> W * (fexn + option ret).
  Variable norm_train : nat -> X -> W -> W * option fexn.
  Variable leaf_stop : nat -> option Mg -> W -> W * (fexn + option ret).
  Variable norm_stop : nat -> W -> W * option fexn.
  Variable leaf_reset : nat -> W -> W.
  Variable is_none : X -> bool.
  Variable hdr : option string -> Mg -> Mg * target * bool.
  Definition header (id : option string) (m : option Mg) : option Mg * target * bool :=
    match m with None => (None, TNone, false) | Some g => let '(g', t, b) := hdr id g in (Some g', t, b) end.

  (** the end of the loop, with the data for the node where it should stop, or a result *)
  Inductive res := RRet (r : ret) | RStop (x : X) (m : option Mg).

  Definition drop_empty (m : option Mg) : option Mg := match m with Some g => if emptyb g then None else m | None => None end.
  (** BiNode._combine_result (binode.py:412-438) with msg None, as _execute takes the message *)
  Definition combine (r : ret) (tg : target) : ret :=
    match r_t r, tg with None, TInt z => mkRet (r_x r) (r_m r) (Some (TInt z)) | None, TStr s => mkRet (r_x r) (r_m r) (Some (TStr s)) | _, _ => r end.

  (** execute of a node; BiFlowNode: binode.py:129-163 with _get_method :63-77 and _execute :79-83; [sq] is the loop for the inner flow *)
  Definition exec_node (sq : list tree -> X -> option Mg -> Z -> W -> option (list tree * W * (fexn + res))) (t : tree) (x : X) (m : option Mg) (w : W)
    : option (tree * W * (fexn + ret)) :=
    match t with
    | Leaf id k => let (w', r) := leaf_exec k x m w in Some (t, w', r)
    | Norm k => let (w', r) := norm_exec k x w in Some (t, w', match r with inl e => inl e | inr y => inr (mkRet y m None) end)
    | Sub id rq kids =>
        if match m with None => is_none x | Some _ => false end then Some (t, w, inl XBoth) else
        let '(m1, tg, inv) := header id m in
        let (rq1, tg1) := get_method inv rq tg (List.length kids) in
        let (rq2, goal) := get_target rq1 in
        match to_index kids goal 0 with
        | (kids1, inl e) => Some (Sub id rq2 kids1, w, inl e)
        | (kids1, inr None) => Some (Sub id rq2 kids1, w, inl XType)      (* self.flow[target], target a string *)
        | (kids1, inr (Some i)) =>
            match sq kids1 x m1 i w with
            | None => None
            | Some (kids2, w', inl e) => Some (Sub id rq2 kids2, w', inl e)
            | Some (kids2, w', inr (RStop _ _)) => None                   (* not without stop_at_node *)
            | Some (kids2, w', inr (RRet r)) => Some (Sub id rq2 kids2, w', inr (combine r tg1))
            end
        end
    end.
  (** what follows the execution of a node in the loops (biflow.py:550-566, biflownode.py:158-174): a result, or the next index; [dflt] is the
      target of a result without one *)
  Definition follow (dflt : target) (ts : list tree) (r : ret) (i : Z) : list tree * (fexn + (ret + (X * option Mg * Z))) :=
    match (match r_t r with None => dflt | Some t => t end) with
    | TInt z =>
        let j := (i + z)%Z in
        if (j =? Z.of_nat (List.length ts))%Z then (ts, inr (inl (mkRet (r_x r) (drop_empty (r_m r)) None)))
        else if (j =? -1)%Z then (ts, inr (inl (mkRet (r_x r) (r_m r) (Some (TInt (-1))))))
        else (ts, inr (inr (r_x r, r_m r, j)))
    | t =>
        match to_index ts t i with
        | (ts', inl e) => (ts', inl e)
        | (ts', inr None) => (ts', inr (inl (mkRet (r_x r) (r_m r) (Some t))))
        | (ts', inr (Some j)) => (ts', inr (inr (r_x r, r_m r, j)))
        end
    end.
  (** _execute_seq (biflow.py:511-568) *)
  Fixpoint seq (n : nat) (stop : option nat) (ts : list tree) (x : X) (m : option Mg) (i : Z) (w : W) : option (list tree * W * (fexn + res)) :=
    match n with
    | 0 => None
    | S n =>
        if match stop with Some k => (i =? Z.of_nat k)%Z | None => false end then Some (ts, w, inr (RStop x m)) else
        match index (List.length ts) i with
        | None => Some (ts, w, inl XIndex)
        | Some k =>
            match nth_error ts k with
            | None => Some (ts, w, inl XIndex)
            | Some t =>
                match exec_node (seq n None) t x m w with
                | None => None
                | Some (t', w', inl e) => Some (upd ts k t', w', inl e)
                | Some (t', w', inr r) =>
                    match follow (TInt 1) (upd ts k t') r i with
                    | (ts', inl e) => Some (ts', w', inl e)
                    | (ts', inr (inl r')) => Some (ts', w', inr (RRet r'))
                    | (ts', inr (inr (y, m', j))) => seq n stop ts' y m' j w'
                    end
                end
            end
        end
    end.
  Definition exec (n : nat) : tree -> X -> option Mg -> W -> option (tree * W * (fexn + ret)) := exec_node (seq n None).

  (** _bi_reset of BiFlow (biflow.py:369-373), BiFlowNode :237-241 *)
  Fixpoint reset_rq (t : tree) : tree := match t with Sub id _ kids => Sub id None (map reset_rq kids) | t => t end.
  Fixpoint reset_w (t : tree) (w : W) : W :=
    match t with
    | Leaf _ k => leaf_reset k w
    | Norm _ => w
    | Sub _ _ kids => fold_left (fun w u => reset_w u w) kids w
    end.

  (** ** Training a BiFlowNode; the internal nodes in training are BiNodes or normal nodes (BiFlowNodes in training are not modelled) *)
  (** _train :119-174 for the node number k; None: the training with this chunk is done *)
  Fixpoint train_loop (n : nat) (k : nat) (ts : list tree) (x : X) (m : option Mg) (i : Z) (w : W) : option (list tree * W * (fexn + option ret)) :=
    match n with
    | 0 => None
    | S n =>
        match seq n (Some k) ts x m i w with
        | None => None
        | Some (ts1, w1, inl e) => Some (ts1, w1, inl e)
        | Some (ts1, w1, inr (RRet r)) => Some (ts1, w1, inr (Some r))
        | Some (ts1, w1, inr (RStop x m)) =>
            match nth_error ts1 k with
            | Some (Leaf _ l) =>
                match leaf_train l x m w1 with
                | (w2, inl e) => Some (ts1, w2, inl e)
                | (w2, inr None) => Some (ts1, w2, inr None)
                | (w2, inr (Some r)) =>
                    match follow TNone ts1 r (Z.of_nat k) with
                    | (ts2, inl e) => Some (ts2, w2, inl e)
                    | (ts2, inr (inl r')) => Some (ts2, w2, inr (Some r'))
                    | (ts2, inr (inr (y, m', j))) => train_loop n k ts2 y m' j w2
                    end
                end
            | Some (Norm l) => match norm_train l x w1 with (w2, Some e) => Some (ts1, w2, inl e) | (w2, None) => Some (ts1, w2, inr None) end
            | _ => None
            end
        end
    end.
  Definition train_hook (n k : nat) (rq : option req) (kids : list tree) (x : X) (m : option Mg) (w : W) : option (option req * list tree * W * (fexn + option ret)) :=
    let (rq1, goal) := get_target rq in
    match to_index kids goal 0 with
    | (kids1, inl e) => Some (rq1, kids1, w, inl e)
    | (kids1, inr None) => Some (rq1, kids1, w, inl XType)
    | (kids1, inr (Some i)) => match train_loop n k kids1 x m i w with None => None | Some (kids2, w', r) => Some (rq1, kids2, w', r) end
    end.
  (** _stop_training :185-221 for the node number k *)
  Definition stop_hook (n k : nat) (kids : list tree) (m : option Mg) (w : W) : option (list tree * W * (fexn + option ret)) :=
    match nth_error kids k with
    | Some (Norm l) => match norm_stop l w with (w', Some e) => Some (kids, w', inl e) | (w', None) => Some (kids, w', inr None) end
    | Some (Leaf _ l) =>
        match leaf_stop l m w with
        | (w1, inl e) => Some (kids, w1, inl e)
        | (w1, inr None) => Some (kids, w1, inr None)
        | (w1, inr (Some r)) =>
            match (match r_t r with
                   | Some (TInt z) =>
                       let j := (Z.of_nat k + z)%Z in
                       if (j =? Z.of_nat (List.length kids))%Z then (kids, inr (inl (mkRet (r_x r) (r_m r) (Some (TInt 1)))))
                       else if (j =? -1)%Z then (kids, inr (inl (mkRet (r_x r) (r_m r) (Some (TInt (-1)))))) else (kids, inr (inr (r_x r, r_m r, j)))
                   | _ => follow TNone kids r (Z.of_nat k)
                   end) with
            | (ts1, inl e) => Some (ts1, w1, inl e)
            | (ts1, inr (inl r')) => Some (ts1, w1, inr (Some r'))
            | (ts1, inr (inr (y, m', j))) =>
                match seq n None ts1 y m' j w1 with
                | None => None
                | Some (ts2, w2, inl e) => Some (ts2, w2, inl e)
                | Some (ts2, w2, inr (RRet r')) => Some (ts2, w2, inr (Some r'))
                | Some (ts2, w2, inr (RStop _ _)) => None
                end
            end
        end
    | _ => None
    end.

  (** ** CloneBiLayer._execute (bilayer.py:107-152) with a BiFlowNode: the node is executed once for each part of the data; the results in order.
      One instance: every part goes to the same object; copies: one object per part *)
  Fixpoint clone_same (n : nat) (t : tree) (parts : list (X * option Mg)) (w : W) : option (tree * W * (fexn + list ret)) :=
    match parts with
    | [] => Some (t, w, inr [])
    | (x, m) :: parts =>
        match exec n t x m w with
        | None => None
        | Some (t', w', inl e) => Some (t', w', inl e)
        | Some (t', w', inr r) =>
            match clone_same n t' parts w' with
            | None => None
            | Some (t2, w2, inl e) => Some (t2, w2, inl e)
            | Some (t2, w2, inr l) => Some (t2, w2, inr (r :: l))
            end
        end
    end.
End BFN.
