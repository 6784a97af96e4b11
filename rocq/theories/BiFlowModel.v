(** Model of bimdp/biflow.py: BiFlow (execution, training, jumps) and BiCheckpointFlow.

    A flow is a list of nodes, distinct objects: BiNodes (BiModel) and normal Nodes.  The data is already sanitised
    (_sanitize_iterables :447-468, _sanitize_training_iterables :426-445): one list of (x, msg) or (x, msg, target) per call or per node.
    A loop can run forever in the code (jumps), so execution takes fuel; None means that the fuel was not enough.  The log of the nodes
    executed is a ghost. *)
From Coq Require Import List Arith ZArith Bool String.
From Verif Require Import BiModel.
Import ListNotations.
Open Scope nat_scope.

Section BiFlow.
  Variables X O S : Type.
  Variable truthy : O -> bool.
  Notation value := (value O).
  Notation result := (result X O).
  Notation heap := (heap O).
  Notation ref := ref.

  (** a normal node: trainable, execute, train, stop_training, get_remaining_train_phase, and whether train needs more arguments *)
  Record pnode := mkP {
    p_trainable : bool;
    p_exec : X -> S -> S * bres X;
    p_train : X -> S -> S * bres unit;
    p_stop : S -> S * bres unit;
    p_remaining : S -> nat;
    p_needs_args : bool }.
  Inductive fnode := Bi (c : bclass X O S) (s : bnode S) | Plain (p : pnode) (s : S).
  (** the nodes, the messages, and the log of the nodes executed with their target *)
  Record world := mkW { w_nodes : list fnode; w_heap : heap; w_log : list (nat * value) }.
  Definition F (R : Type) := world -> world * bres R.
  Definition upd {T} (l : list T) (i : nat) (f : T) : list T := firstn i l ++ match skipn i l with [] => [] | _ :: r => f :: r end.
  (** self.flow[i] for an int i *)
  Definition index (len : nat) (i : Z) : option nat :=
    if (i <? - Z.of_nat len)%Z then None else if (i <? 0)%Z then Some (Z.to_nat (i + Z.of_nat len)) else if (i <? Z.of_nat len)%Z then Some (Z.to_nat i) else None.
  Definition is_int (v : value) : option Z := match v with VInt _ z => Some z | VBool _ b => Some (if b then 1 else 0)%Z | _ => None end.
  Definition node_id_is (s : string) (f : fnode) : bool := match f with Bi c _ => match c_id _ _ _ c with Some i => String.eqb i s | None => false end | Plain _ _ => false end.
  Fixpoint find_id (s : string) (i : nat) (l : list fnode) : option nat :=
    match l with [] => None | f :: l => if node_id_is s f then Some i else find_id s (i + 1) l end.
  Definition exit_target : value := VStr _ "exit".

  (** _target_to_index :470-507: an index, or the target itself *)
  Definition target_to_index (nodes : list fnode) (t : value) (cur : Z) : bres (Z + value) :=
    if is_str _ "exit" t then BOk (inr t) else
    let t := match t with VNone _ => VInt _ 1 | t => t end in
    match is_int t with
    | Some z => let a := (cur + z)%Z in
                if (a <? 0)%Z then BErr EBiFlow else if (a >=? Z.of_nat (List.length nodes))%Z then BErr EBiFlow else BOk (inl a)
    | None => match t with
              | VStr _ s => match find_id s 0 nodes with Some k => BOk (inl (Z.of_nat k)) | None => BOk (inr t) end
              | _ => BOk (inr t)
              end
    end.
  Definition is_empty (h : heap) (m : option ref) : bool := match m with None => true | Some r => match hget _ h r with [] => true | _ => false end end.

  (** the execution of one node :529-549: y, msg and target *)
  Definition exec_node (k : nat) (x : option X) (m : option ref) : F (option X * option ref * value) := fun w =>
    match nth_error (w_nodes w) k with
    | None => (w, BErr EIndex)
    | Some (Bi c s) =>
        let '((s', h'), r) := execute _ _ _ truthy c x m (s, w_heap w) in
        let put t := mkW (upd (w_nodes w) k (Bi c s')) h' (w_log w ++ [(k, t)]) in
        match r with
        | BErr e => (put (VNone _), BErr e)
        | BOk (RPlain _ _ y) => (put (VInt _ 1), BOk (y, None, VInt _ 1))
        | BOk (RPair _ _ y m) => (put (VInt _ 1), BOk (y, m, VInt _ 1))
        | BOk (RTriple _ _ y m t) => (put t, BOk (y, m, t))
        | BOk (ROther _ _) => (put (VNone _), BErr EType)       (* "..." + result *)
        end
    | Some (Plain p s) =>
        match x with
        | None => (w, BErr EAttr)
        | Some x => let (s', r) := p_exec p x s in
                    let w' := mkW (upd (w_nodes w) k (Plain p s')) (w_heap w) (w_log w ++ [(k, VInt _ 1)]) in
                    match r with BErr e => (w', BErr e) | BOk y => (w', BOk (Some y, m, VInt _ 1)) end
        end
    end.
  (** _execute_seq :511-568 *)
  Fixpoint seq (n : nat) (x : option X) (m : option ref) (i : Z + value) (stop : option nat) (w : world) : option (world * bres result) :=
    match n with
    | 0 => None
    | Datatypes.S n =>
        match i with
        | inr _ => Some (w, BErr EType)                        (* self.flow[target], target not an int *)
        | inl i =>
            if match stop with Some k => (i =? Z.of_nat k)%Z | None => false end then Some (w, BOk (RTriple _ _ x m (VBool _ true))) else
            let len := List.length (w_nodes w) in
            match index len i with
            | None => Some (w, BErr EIndex)
            | Some k =>
                match exec_node k x m w with
                | (w', BErr e) => Some (w', BErr e)
                | (w', BOk (y, m', t)) =>
                    match is_int t with
                    | Some z =>
                        let j := (i + z)%Z in
                        if (j =? Z.of_nat len)%Z then Some (w', BOk (if is_empty (w_heap w') m' then RPlain _ _ y else RPair _ _ y m'))
                        else if (j =? -1)%Z then Some (w', BOk (RTriple _ _ y m' (VInt _ (-1))))
                        else seq n y m' (inl j) stop w'
                    | None =>
                        match target_to_index (w_nodes w') t i with
                        | BErr e => Some (w', BErr e)
                        | BOk (inr _) => Some (w', BOk (RTriple _ _ y m' t))
                        | BOk j => seq n y m' j stop w'
                        end
                    end
                end
            end
        end
    end.
  (** _bi_reset :369-373 *)
  Definition reset_node (f : fnode) : fnode :=
    match f with Bi c s => Bi c (mkNode _ (c_bi_reset _ _ _ c (n_own _ s)) (n_training _ s) (n_phase _ s) (n_started _ s)) | Plain p s => Plain p s end.
  Definition reset (w : world) : world := mkW (map reset_node (w_nodes w)) (w_heap w) (w_log w).

  (** ** execute :287-361 *)
  Definition chunk := (option X * option ref * value)%type.
  (** one chunk :314-335 *)
  Definition exec_chunk (n : nat) (ch : chunk) (w : world) : option (world * bres (option X * option ref)) :=
    let '(x, m, t) := ch in
    match (if negb (truth _ truthy t) then BOk (inl 0%Z) else target_to_index (w_nodes w) t 0) with
    | BErr e => Some (w, BErr e)
    | BOk i =>
        match seq n x m i None w with
        | None => None
        | Some (w', BErr e) => Some (w', BErr e)
        | Some (w', BOk r) =>
            match r with
            | RPlain _ _ y => Some (reset w', BOk (y, None))
            | RPair _ _ y m => Some (reset w', BOk (y, m))
            | RTriple _ _ y m t => if match is_int t with Some z => (z =? 1)%Z || (z =? -1)%Z | None => is_str _ "exit" t end then Some (reset w', BOk (y, m)) else Some (w', BErr EBiFlow)
            | ROther _ _ => Some (w', BErr EType)
            end
        end
    end.
  (** y_results: None, False or a list *)
  Inductive ys := YNone | YFalse | YList (l : list X).
  Definition add_y (a : ys) (y : option X) : bres ys :=
    match y, a with
    | Some y, YNone => BOk (YList [y])
    | Some _, YFalse => BErr EBiFlow
    | Some y, YList l => BOk (YList (l ++ [y]))
    | None, YNone => BOk YFalse
    | None, _ => BErr EBiFlow
    end.
  (** the loop :308-353; [add] is MessageResultContainer.add_message *)
  Variable C : Type.
  Variable add : msg O -> C -> bres C.
  Fixpoint exec_chunks (n : nat) (chs : list chunk) (a : ys) (acc : C) (w : world) : option (world * bres (ys * C)) :=
    match chs with
    | [] => Some (w, BOk (a, acc))
    | ch :: chs =>
        match exec_chunk n ch w with
        | None => None
        | Some (w', BErr e) => Some (w', BErr e)
        | Some (w', BOk (y, m)) =>
            match (if is_empty (w_heap w') m then BOk acc else match m with Some r => add (hget _ (w_heap w') r) acc | None => BOk acc end) with
            | BErr e => Some (w', BErr e)
            | BOk acc' => match add_y a y with BErr e => Some (w', BErr e) | BOk a' => exec_chunks n chs a' acc' w' end
            end
        end
    end.
  Definition execute (n : nat) (chs : list chunk) (acc : C) (w : world) : option (world * bres (ys * C)) :=
    match exec_chunks n chs YNone acc (reset w) with
    | Some (w', BOk r) => match chs with [] => Some (w', BErr EBiFlow) | _ => Some (w', BOk r) end
    | o => o
    end.

  (** ** Training *)
  Definition f_trainable (f : fnode) : bool := match f with Bi c _ => c_trainable _ _ _ c | Plain p _ => p_trainable p end.
  Definition f_remaining (f : fnode) : nat := match f with Bi c s => remaining _ _ _ c s | Plain p s => p_remaining p s end.
  (** the call of train :197-219: None if the chunk is done *)
  Definition train_call (k : nat) (x : option X) (m : option ref) : F (option result) := fun w =>
    match nth_error (w_nodes w) k with
    | None => (w, BErr EIndex)
    | Some (Bi c s) =>
        let '((s', h'), r) := train _ _ _ truthy c x m (s, w_heap w) in
        (mkW (upd (w_nodes w) k (Bi c s')) h' (w_log w), match r with BErr e => BErr e | BOk (RPlain _ _ None) => BOk None | BOk r => BOk (Some r) end)
    | Some (Plain p s) =>
        match x with
        | None => (w, BErr EAttr)
        | Some x => let (s', r) := p_train p x s in
                    (mkW (upd (w_nodes w) k (Plain p s')) (w_heap w) (w_log w),
                     match r with BErr EType => if p_needs_args p then BErr EBiFlow else BErr EType | BErr e => BErr e | BOk _ => BOk None end)
        end
    end.
  (** the loop for one chunk :180-234 *)
  Fixpoint train_chunk (n : nat) (k : nat) (x : option X) (m : option ref) (i : Z + value) (w : world) : option (world * bres unit) :=
    match n with
    | 0 => None
    | Datatypes.S n =>
        match seq n x m i (Some k) w with
        | None => None
        | Some (w', BErr e) => Some (w', BErr e)
        | Some (w', BOk (RTriple _ _ x m (VBool _ true))) =>
            match train_call k x m w' with
            | (w2, BErr e) => Some (w2, BErr e)
            | (w2, BOk None) => Some (w2, BOk tt)
            | (w2, BOk (Some r)) =>
                match (match r with
                       | RPlain _ _ y => BOk (y, None, VNone _) | RPair _ _ y m => BOk (y, m, VNone _) | RTriple _ _ y m t => BOk (y, m, t) | ROther _ _ => BErr EBiFlow
                       end) with
                | BErr e => Some (w2, BErr e)
                | BOk (y, m, t) =>
                    match target_to_index (w_nodes w2) t (Z.of_nat k) with
                    | BErr e => Some (w2, BErr e)
                    | BOk j => train_chunk n k y m j w2
                    end
                end
            end
        | Some (w', BOk _) => Some (w', BErr EBiFlow)
        end
    end.
  Fixpoint train_chunks (n k : nat) (chs : list (option X * option ref)) (w : world) : option (world * bres unit) :=
    match chs with
    | [] => Some (w, BOk tt)
    | (x, m) :: chs =>
        match train_chunk n k x m (inl 0%Z) w with
        | None => None
        | Some (w', BErr e) => Some (w', BErr e)
        | Some (w', BOk _) => train_chunks n k chs (reset w')
        end
    end.
  (** stop_training and the execution after it :248-285; a message given to a normal node is taken as a TypeError that
      leaves the node as it is *)
  Definition stop_call (k : nat) (sm : option ref) : F (option result) := fun w =>
    match nth_error (w_nodes w) k with
    | None => (w, BErr EIndex)
    | Some (Bi c s) =>
        let '((s', h'), r) := stop_training _ _ _ truthy c sm (s, w_heap w) in
        (mkW (upd (w_nodes w) k (Bi c s')) h' (w_log w), match r with BErr e => BErr e | BOk (RPlain _ _ None) => BOk None | BOk r => BOk (Some r) end)
    | Some (Plain p s) =>
        match sm with
        | Some _ => (w, BErr EType)
        | None => let (s', r) := p_stop p s in (mkW (upd (w_nodes w) k (Plain p s')) (w_heap w) (w_log w), match r with BErr e => BErr e | BOk _ => BOk None end)
        end
    end.
  Definition stop_phase (n k : nat) (sm : option ref) (w : world) : option (world * bres unit) :=
    match stop_call k sm w with
    | (w1, BErr e) => Some (w1, BErr e)
    | (w1, BOk None) => Some (w1, BOk tt)
    | (w1, BOk (Some r)) =>
        match (match r with
               | RPlain _ _ y => BOk (y, None, VNone _) | RPair _ _ y m => BOk (y, m, VNone _) | RTriple _ _ y m t => BOk (y, m, t) | ROther _ _ => BErr EBiFlow
               end) with
        | BErr e => Some (w1, BErr e)
        | BOk (y, m, t) =>
            if is_str _ "exit" t then Some (w1, BOk tt) else
            match target_to_index (w_nodes w1) t (Z.of_nat k) with
            | BErr e => Some (w1, BErr e)
            | BOk i =>
                match seq n y m i None w1 with
                | None => None
                | Some (w2, BErr e) => Some (w2, BErr e)
                | Some (w2, BOk (RTriple _ _ _ _ t)) => Some (w2, if match is_int t with Some z => (z =? 1)%Z || (z =? -1)%Z | None => is_str _ "exit" t end then BOk tt else BErr EBiFlow)
                | Some (w2, BOk _) => Some (w2, BOk tt)
                end
            end
        end
    end.
  (** _train_node_single_phase :170-285 *)
  Definition single_phase (n k : nat) (chs : list (option X * option ref)) (sm : option ref) (w : world) : option (world * bres unit) :=
    match train_chunks n k chs w with
    | None => None
    | Some (w', BErr e) => Some (w', BErr e)
    | Some (w', BOk _) => match chs with [] => Some (w', BErr EBiFlow) | _ => stop_phase n k sm w' end
    end.
  (** _train_node :145-168 *)
  Fixpoint train_phases (n k : nat) (chs : list (option X * option ref)) (sm : option ref) (w : world) : option (world * bres unit) :=
    match n with
    | 0 => None
    | Datatypes.S n =>
        match nth_error (w_nodes w) k with
        | None => Some (w, BErr EIndex)
        | Some f =>
            if f_remaining f =? 0 then Some (w, BOk tt) else
            match single_phase n k chs sm w with
            | None => None
            | Some (w', BErr e) => Some (w', BErr e)
            | Some (w', BOk _) => train_phases n k chs sm (reset w')
            end
        end
    end.
  Definition train_node (n k : nat) (chs : list (option X * option ref)) (sm : option ref) (w : world) : option (world * bres unit) :=
    match nth_error (w_nodes w) k with
    | Some f => if f_trainable f then train_phases n k chs sm w else Some (w, BOk tt)
    | None => Some (w, BErr EIndex)
    end.
  (** what BiCheckpointFlow does after each node :608-611: a checkpoint function returns a dictionary or None; the test is on the type
      [dict], so the update is always made, and None cannot be iterated.
      The effect of the update on the flow is not modelled *)
  Variable checkpoint : nat -> option (world -> world * bres (option (list (string * value)))).
  Definition after_node (k : nat) (w : world) : world * bres unit :=
    match checkpoint k with
    | None => (w, BOk tt)
    | Some f => match f w with (w', BErr e) => (w', BErr e) | (w', BOk None) => (w', BErr EType) | (w', BOk (Some _)) => (w', BOk tt) end
    end.
  (** train :107-143, BiCheckpointFlow.train :580-613; the data has one entry per node, as the code checks *)
  Fixpoint train_nodes (n k : nat) (data : list (list (option X * option ref) * option ref)) (w : world) : option (world * bres unit) :=
    match data with
    | [] => Some (w, BOk tt)
    | (chs, sm) :: data =>
        match train_node n k chs sm w with
        | None => None
        | Some (w', BErr e) => Some (w', BErr e)
        | Some (w', BOk _) => match after_node k w' with (w2, BErr e) => Some (w2, BErr e) | (w2, BOk _) => train_nodes n (k + 1) data w2 end
        end
    end.
  Definition train_flow (n : nat) (data : list (list (option X * option ref) * option ref)) (w : world) : option (world * bres unit) := train_nodes n 0 data (reset w).
End BiFlow.
