(** Model of the container methods of OnlineFlow and CircularOnlineFlow, mdp/linear_flows_online.py:83-92, 234-346, 398-415, 526-663,
    with Flow.pop (linear_flows.py:580-585).

    One flow object with a list of its own (FlowListModel treats sharing of lists).  A list item is a Node (a number; [dims] gives its dims, [kind]
    whether it is an OnlineNode, a Node not in training or a Node in training) or some other object.  [o_keys] are the nodes for which
    _train_arg_keys_list and _train_args_needed_list were computed. *)
From Coq Require Import List Arith ZArith Bool.
From Verif Require Import PyList FlowListModel.
Import ListNotations.
Open Scope nat_scope.

Inductive nkind := KOnline | KDone | KTrainable.

Section M.
  Variable dims : dimf.
  Variable kind : nat -> nkind.

  (** _check_value_type_is_online_or_nontrainable_node :234-249 *)
  Definition check_value (v : value) : option pexn :=
    match v with VOther => Some PyTypeError | VNode i => match kind i with KTrainable => Some PyTypeError | _ => None end end.
  Fixpoint first_exn {T} (c : T -> option pexn) (l : list T) : option pexn :=
    match l with [] => None | v :: l => match c v with Some e => Some e | None => first_exn c l end end.
  (** OnlineFlow._check_compatibility :251-254; an empty list has no flow[-1] *)
  Definition check_compat (l : list value) : option pexn :=
    match rev l with
    | [] => Some PyIndexError
    | v :: r => match first_exn check_value (rev r) with Some e => Some e | None => if isnode v then None else Some PyTypeError end
    end.
  (** CircularOnlineFlow._check_compatibility :563-564 *)
  Definition check_circ (l : list value) : option pexn := first_exn check_value l.

  (** ** OnlineFlow *)
  Record ost := mkO { o_nodes : list value; o_keys : list value }.
  Definition both (l : list value) : option pexn := match check_nodes dims l with Some e => Some e | None => check_compat l end.
  (** __init__ :83-92 *)
  Definition o_new (l : list value) : ost + pexn := match both l with Some e => inr e | None => inl (mkO l l) end.
  (** the common end of __setitem__ and __delitem__ *)
  Definition o_accept (s : ost) (l : list value) : ost * option pexn := match both l with Some e => (s, Some e) | None => (mkO l l, None) end.
  Definition o_try (s : ost) (r : pres (list value)) : ost * option pexn := match r with POk l => o_accept s l | PErr e => (s, Some e) end.
  Definition of_opt (r : option (list value)) : pres (list value) := match r with Some l => POk l | None => PErr PyIndexError end.

  Inductive oop :=
  | OSet (i : Z) (v : value) | OSetSl (sl : slice) (vs : list value) | ODel (i : Z) | ODelSl (sl : slice)
  | OIadd (vs : list value) | OAppend (v : value) | OExtend (vs : list value) | OInsert (i : Z) (v : value) | OPop (i : Z).
  Definition o_setslice (s : ost) (sl : slice) (vs : list value) : ost * option pexn :=
    match first_exn check_value vs with Some e => (s, Some e) | None => o_try s (set_slice (o_nodes s) sl vs) end.
  (** the checks repeated after append, extend and insert :322-346 *)
  Definition o_again (r : ost * option pexn) : ost * option pexn :=
    match r with (s, Some e) => (s, Some e) | (s, None) => match both (o_nodes s) with Some e => (s, Some e) | None => (mkO (o_nodes s) (o_nodes s), None) end end.
  Definition ostep (s : ost) (o : oop) : ost * option pexn :=
    match o with
    | OSet i v => match check_value v with Some e => (s, Some e) | None => o_try s (of_opt (set_item (o_nodes s) i v)) end
    | OSetSl sl vs => o_setslice s sl vs
    | ODel i => o_try s (of_opt (del_item (o_nodes s) i))
    | ODelSl sl => o_try s (del_slice (o_nodes s) sl)
    | OIadd vs =>                      (* :305-318: += of a flow ([vs] its nodes) or a node; the list is changed before the checks *)
        let l := o_nodes s ++ vs in
        match check_compat l with
        | Some e => (mkO l (o_keys s), Some e)
        | None => match check_nodes dims l with Some e => (mkO l (o_keys s), Some e) | None => (mkO l l, None) end
        end
    | OAppend v => o_again (o_setslice s (plain (zlen (o_nodes s)) (zlen (o_nodes s))) [v])
    | OExtend vs => o_again (o_setslice s (plain (zlen (o_nodes s)) (zlen (o_nodes s))) vs)
    | OInsert i v => o_again (o_setslice s (plain i i) [v])
    | OPop i => match get_item (o_nodes s) i with None => (s, Some PyIndexError) | Some _ => o_try s (of_opt (del_item (o_nodes s) i)) end
    end.
  Fixpoint orun (s : ost) (os : list oop) : ost * list (option pexn) :=
    match os with [] => (s, []) | o :: os => let (s1, r) := ostep s o in let (s2, rs) := orun s1 os in (s2, r :: rs) end.
  (** flow + node :281-303 *)
  Definition o_add (s : ost) (v : value) : ost + pexn :=
    if isnode v then
      let l := o_nodes s ++ [v] in
      match check_compat l with Some e => inr e | None => match check_nodes dims l with Some e => inr e | None => o_new l end end
    else inr PyTypeError.

  (** ** CircularOnlineFlow: the deque and output_node_idx *)
  Record cst := mkCs { cn : list value; out : Z }.
  Inductive cexn := CPy (e : pexn) | CCirc (* CircularOnlineFlowException *) | CZero (* ZeroDivisionError *).
  Definition c_check (l : list value) : option pexn := match check_nodes dims l with Some e => Some e | None => check_circ l end.
  (** __init__ :398-415 *)
  Definition c_new (l : list value) : cst + pexn := match c_check l with Some e => inr e | None => inl (mkCs l (zlen l - 1)) end.
  (** set_input_node :548-554: deque.rotate(-k) *)
  Definition c_set_input (s : cst) (k : Z) : cst * option cexn :=
    if ((zlen (cn s) <? k) || (k <? 0))%Z then (s, Some CCirc)
    else if (zlen (cn s) =? 0)%Z then (s, Some CZero) else (mkCs (skipn (Z.to_nat k) (cn s) ++ firstn (Z.to_nat k) (cn s)) ((out s - k) mod zlen (cn s)), None).
  (** set_output_node :556-561 *)
  Definition c_set_output (s : cst) (k : Z) : cst * option cexn :=
    if ((zlen (cn s) <? k) || (k <? 0))%Z then (s, Some CCirc) else (mkCs (cn s) k, None).
  (** OnlineFlow.__setitem__ / __delitem__ with the check of CircularOnlineFlow *)
  Definition c_try (s : cst) (r : pres (list value)) : cst * option cexn :=
    match r with PErr e => (s, Some (CPy e)) | POk l => match c_check l with Some e => (s, Some (CPy e)) | None => (mkCs l (out s), None) end end.
  Definition c_setslice0 (s : cst) (sl : slice) (vs : list value) : cst * option cexn :=
    match first_exn check_value vs with Some e => (s, Some (CPy e)) | None => c_try s (set_slice (cn s) sl vs) end.
  Definition c_then (r : cst * option cexn) (k : cst -> cst * option cexn) : cst * option cexn := match r with (s, None) => k s | e => e end.
  (** key.start < self.output_node_idx and self.output_node_idx < key.stop() :572-577: a missing start cannot be compared, an int or None
      cannot be called *)
  Definition c_setslice (s : cst) (sl : slice) (vs : list value) : cst * option cexn :=
    c_then (c_setslice0 s sl vs) (fun s =>
      match sl_start sl with
      | None => (s, Some (CPy PyTypeError))
      | Some a => if (a <? out s)%Z then (s, Some (CPy PyTypeError)) else (s, None)
      end).
  Inductive cop :=
  | CIn (k : Z) | COut (k : Z) | CReset | CSet (i : Z) (v : value) | CSetSl (sl : slice) (vs : list value) | CDel (i : Z) | CDelSl (sl : slice)
  | CIadd (vs : list value) | CAppend (v : value) | CExtend (vs : list value) | CInsert (i : Z) (v : value) | CPop (i : Z).
  Definition c_again (s : cst) : cst * option cexn := match c_check (cn s) with Some e => (s, Some (CPy e)) | None => (s, None) end.
  (** int keys have no attribute start (setitem, delitem); in delitem either key.stop() is reached :588-595 *)
  Definition c_del (s : cst) (i : Z) : cst * option cexn := c_then (c_try s (of_opt (del_item (cn s) i))) (fun s => (s, Some (CPy PyAttributeError))).
  Definition cstep (s : cst) (o : cop) : cst * option cexn :=
    match o with
    | CIn k => c_set_input s k
    | COut k => c_set_output s k
    | CReset => (mkCs (cn s) (zlen (cn s) - 1), None)
    | CSet i v => c_then (match check_value v with Some e => (s, Some (CPy e)) | None => c_try s (of_opt (set_item (cn s) i v)) end) (fun s => (s, Some (CPy PyAttributeError)))
    | CSetSl sl vs => c_setslice s sl vs
    | CDel i => c_del s i
    | CDelSl sl => c_then (c_try s (del_slice (cn s) sl)) (fun s => (s, Some (CPy PyTypeError)))
    | CIadd vs =>                      (* :620-632 *)
        let s' := mkCs (cn s ++ vs) (out s) in
        match check_circ (cn s') with Some e => (s', Some (CPy e)) | None => match check_nodes dims (cn s') with Some e => (s', Some (CPy e)) | None => (s', None) end end
    | CAppend v => c_then (c_setslice s (plain (zlen (cn s)) (zlen (cn s))) [v]) c_again
    | CExtend vs => c_then (c_setslice s (plain (zlen (cn s)) (zlen (cn s))) vs) c_again
    | CInsert i v => c_then (c_then (c_setslice s (plain i i) [v]) c_again) (fun s => if (i <=? out s)%Z then c_set_output s (out s + 1) else (s, None))
    | CPop i => match get_item (cn s) i with None => (s, Some (CPy PyIndexError)) | Some _ => c_del s i end
    end.
  (** the nodes execute goes through :526-536 (range(output_node_idx+1)), None: IndexError.  inverse slices the deque :540, a TypeError *)
  Definition c_path (s : cst) : option (list value) := if (out s <? zlen (cn s))%Z then Some (firstn (Z.to_nat (out s + 1)) (cn s)) else None.
  Definition c_inverse_path (s : cst) : list value + pexn := inr PyTypeError.
  (** flow + flow :597-606: the flow itself is appended as an item *)
  Definition c_add_flow (s : cst) : cst + pexn := match check_circ (cn s ++ [VOther]) with Some e => inr e | None => c_new (cn s ++ [VOther]) end.
  Definition c_add (s : cst) (v : value) : cst + pexn :=
    match v with
    | VNode i => match kind i with
                 | KOnline => match check_circ (cn s ++ [v]) with Some e => inr e | None => match check_nodes dims (cn s ++ [v]) with Some e => inr e | None => c_new (cn s ++ [v]) end end
                 | _ => inr PyTypeError
                 end
    | VOther => inr PyTypeError
    end.
End M.
