(** Model of the container methods of Flow, mdp/linear_flows.py:111-123, 463-585.

    Python objects: lists live in a heap, a Flow object holds a reference to a list ([self.flow]); Flow(l) keeps a reference to
    the caller's list (line 121), so two flows may share a list.  A list item is a Node (a number; [dims] gives its input_dim
    and output_dim, constant during container operations) or some other object.  crash_recovery and verbose are omitted. *)
From Coq Require Import List Arith ZArith Bool.
From Verif Require Import PyList.
Import ListNotations.
Open Scope nat_scope.

Inductive value := VNode (id : nat) | VOther.
Definition isnode (v : value) : bool := match v with VNode _ => true | VOther => false end.

(** Attributes input_dim, output_dim of every node. *)
Definition dimf := nat -> option nat * option nat.

Section M.
  Variable dims : dimf.

  (** _check_dimension_consistency :471-475. [(out and inp) is not None]: for out = 0 the value of [out and inp] is 0, so
      inp = None reaches the comparison and the formatting of the message raises TypeError. *)
  Definition check_dims (out inp : option nat) : option pexn :=
    match out, inp with
    | None, _ => None
    | Some 0, None => Some PyTypeError
    | Some _, None => None
    | Some o, Some i => if Nat.eqb o i then None else Some PyValueError
    end.
  (** _check_nodes_consistency :477-485: attribute lookup on a non-node raises AttributeError. *)
  Fixpoint check_nodes (l : list value) : option pexn :=
    match l with
    | a :: (b :: _) as r =>
        match a, b with
        | VNode x, VNode y => match check_dims (snd (dims x)) (fst (dims y)) with Some e => Some e | None => check_nodes r end
        | _, _ => Some PyAttributeError
        end
    | _ => None
    end.

  Record st := mkSt { heap : list (list value); flows : list nat }.
  Definition lst (s : st) (r : nat) : list value := nth r (heap s) [].
  (** The nodes of flow object [f]. *)
  Definition nodes (s : st) (f : nat) : list value := lst s (nth f (flows s) (length (heap s))).

  Inductive result := RNone | RValue (v : value) | RFlow (f : nat) | RExc (e : pexn).

  (** Flow.__init__ :111-123 on a list object already in the heap. *)
  Definition mk_flow (s : st) (r : nat) : st * result :=
    match check_nodes (lst s r) with
    | Some e => (s, RExc e)
    | None => (mkSt (heap s) (flows s ++ [r]), RFlow (length (flows s)))
    end.
  Definition alloc (s : st) (l : list value) : st := mkSt (heap s ++ [l]) (flows s).
  (** A temporary list that becomes a flow ([self.__class__(flow_copy)]); dropped again if the check fails. *)
  Definition mk_flow_of (s : st) (l : list value) : st * result :=
    match check_nodes l with Some e => (s, RExc e) | None => mk_flow (alloc s l) (length (heap s)) end.

  Fixpoint upd {T} (l : list T) (i : nat) (v : T) : list T :=
    match l, i with [], _ => [] | _ :: l, O => v :: l | x :: l, S i => x :: upd l i v end.
  (** Common end of __setitem__ and __delitem__: check the modified copy, then [self.flow = flow_copy]. *)
  Definition accept (s : st) (f : nat) (l : list value) : st * result :=
    match check_nodes l with
    | Some e => (s, RExc e)
    | None => (mkSt (heap s ++ [l]) (upd (flows s) f (length (heap s))), RNone)
    end.
  Definition of_pres (s : st) (r : pres (list value)) (k : list value -> st * result) : st * result :=
    match r with POk l => k l | PErr e => (s, RExc e) end.
  Definition of_opt {T} (s : st) (r : option T) (k : T -> st * result) : st * result :=
    match r with Some l => k l | None => (s, RExc PyIndexError) end.

  (** __setitem__ :499-511; for a slice the value is iterated twice, first for the type check ([vs0]), then for the
      assignment ([vs1]); for a list both are the same, for a generator the second is empty. *)
  Definition setitem (s : st) (f : nat) (i : Z) (v : value) : st * result :=
    if negb (isnode v) then (s, RExc PyTypeError) else of_opt s (set_item (nodes s f) i v) (accept s f).
  Definition setslice (s : st) (f : nat) (sl : slice) (vs0 vs1 : list value) : st * result :=
    if negb (forallb isnode vs0) then (s, RExc PyTypeError) else of_pres s (set_slice (nodes s f) sl vs1) (accept s f).
  Definition plain (a b : Z) : slice := mkSlice (Some a) (Some b) None.

  Inductive op :=
  | ONewList (l : list value)                        (* l = [...] *)
  | OFlow (r : nat)                                  (* Flow(l) *)
  | OGetItem (f : nat) (i : Z)                       (* f[i] :491-497 *)
  | OGetSlice (f : nat) (s : slice)                  (* f[i:j:k] *)
  | OSetItem (f : nat) (i : Z) (v : value)
  | OSetSlice (f : nat) (s : slice) (vs0 vs1 : list value)
  | ODelItem (f : nat) (i : Z)                       (* :513-520 *)
  | ODelSlice (f : nat) (s : slice)
  | OAddFlow (f g : nat)                             (* f + g :528-546 *)
  | OAddValue (f : nat) (v : value)                  (* f + node *)
  | OIaddFlow (f g : nat)                            (* f += g :548-559 *)
  | OIaddValue (f : nat) (v : value)
  | OAppend (f : nat) (v : value)                    (* :563-565 *)
  | OExtend (f g : nat)                              (* :567-574 *)
  | OInsert (f : nat) (i : Z) (v : value)            (* :576-578 *)
  | OPop (f : nat) (i : Z).                          (* :580-585 *)

  Definition getitem (s : st) (f : nat) (i : Z) : st * result := of_opt s (get_item (nodes s f) i) (fun v => (s, RValue v)).
  Definition delitem (s : st) (f : nat) (i : Z) : st * result := of_opt s (del_item (nodes s f) i) (accept s f).

  (** [self.flow += ...] and [self.flow.append(...)] change the list object itself, then it is checked. *)
  Definition iadd (s : st) (f : nat) (vs : list value) : st * result :=
    let s' := mkSt (upd (heap s) (nth f (flows s) (length (heap s))) (nodes s f ++ vs)) (flows s) in
    match check_nodes (nodes s f ++ vs) with Some e => (s', RExc e) | None => (s', RFlow f) end.

  Definition step (s : st) (o : op) : st * result :=
    match o with
    | ONewList l => (alloc s l, RNone)
    | OFlow r => mk_flow s r
    | OGetItem f i => getitem s f i
    | OGetSlice f sl => of_pres s (get_slice (nodes s f) sl) (mk_flow_of s)
    | OSetItem f i v => setitem s f i v
    | OSetSlice f sl vs0 vs1 => setslice s f sl vs0 vs1
    | ODelItem f i => delitem s f i
    | ODelSlice f sl => of_pres s (del_slice (nodes s f) sl) (accept s f)
    | OAddFlow f g => mk_flow_of s (nodes s f ++ nodes s g)
    | OAddValue f v => if isnode v then mk_flow_of s (nodes s f ++ [v]) else (s, RExc PyTypeError)
    | OIaddFlow f g => iadd s f (nodes s g)
    | OIaddValue f v => if isnode v then iadd s f [v] else (s, RExc PyTypeError)
    | OAppend f v => setslice s f (plain (zlen (nodes s f)) (zlen (nodes s f))) [v] [v]
    | OExtend f g => setslice s f (plain (zlen (nodes s f)) (zlen (nodes s f))) (nodes s g) (nodes s g)
    | OInsert f i v => setslice s f (plain i i) [v] [v]
    | OPop f i => match getitem s f i with
                  | (s, RExc e) => (s, RExc e)
                  | (s, r) => match delitem s f i with (s', RExc e) => (s', RExc e) | (s', _) => (s', r) end
                  end
    end.

  (** Operations on objects that exist. *)
  Definition valid (s : st) (o : op) : Prop :=
    let ok f := (f < length (flows s))%nat in
    match o with
    | ONewList _ => True
    | OFlow r => (r < length (heap s))%nat
    | OGetItem f _ | OGetSlice f _ | OSetItem f _ _ | OSetSlice f _ _ _ | ODelItem f _ | ODelSlice f _
    | OAddValue f _ | OIaddValue f _ | OAppend f _ | OInsert f _ _ | OPop f _ => ok f
    | OAddFlow f g | OIaddFlow f g | OExtend f g => ok f /\ ok g
    end.

  Fixpoint run (s : st) (os : list op) : st :=
    match os with [] => s | o :: os => run (fst (step s o)) os end.
End M.
