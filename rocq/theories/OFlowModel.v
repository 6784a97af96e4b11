(** Model of training in mdp/linear_flows_online.py: OnlineFlow (:98-232) and CircularOnlineFlow (:417-524).

    A flow is a list of nodes, distinct objects: a plain Node (NodeModel) or an OnlineNode (OnlineModel), with the number of training
    arguments it needs (len(_get_required_train_args(node))).  An element of the data is an array, bare or with one tuple of arguments
    per node.  Printing, progress bars and crash dumps are omitted; a node that is itself a flow (raising FlowExceptionCR) too. *)
From Coq Require Import List Arith ZArith Bool.
From Verif Require Import NodeModel OnlineModel.
Import ListNotations.
Open Scope nat_scope.

(** what FlowExceptionCR wraps: an exception of the node, OnlineFlowException (wrong number of arguments), IndexError (no arguments),
    AttributeError (data None) *)
Inductive cause := CNode (e : exn) | CArgs | CIndex | CAttr.
(** FlowException, OnlineFlowException, FlowExceptionCR, an exception of a node that is not wrapped, IndexError *)
Inductive ofexn := XFlow | XOnline | XCR (nodenr : nat) (c : cause) | XNode (e : exn) | XIndex.
Inductive ofres (R : Type) := FOk (r : R) | FErr (e : ofexn).
Arguments FOk {R} _. Arguments FErr {R} _.

Section OFlow.
  Variables D A I : Type.
  Variable row_of : nat -> D -> D.
  Variable na : A.
  Variable arglen : A -> nat.            (* number of arguments in a tuple *)
  Notation array := (array D).

  Inductive ofnode :=
  | Plain (b : behaviour D A I) (nargs : nat) (s : node D A I)
  | Online (b : obehaviour D A I) (nargs : nat) (s : node D A (attrs I)).
  Definition f_nargs (f : ofnode) : nat := match f with Plain _ k _ => k | Online _ k _ => k end.
  Definition f_training (f : ofnode) : bool := match f with Plain _ _ s => n_training _ _ _ s | Online _ _ s => n_training _ _ _ s end.
  Definition f_train (x : array) (a : A) (f : ofnode) : ofnode * res unit :=
    match f with
    | Plain b k s => let (s', r) := train D A I b x a s in (Plain b k s', r)
    | Online b k s => let (s', r) := o_train D A I row_of b x a s in (Online b k s', r)
    end.
  Definition f_exec (x : array) (f : ofnode) : ofnode * res array :=
    match f with
    | Plain b k s => let (s', r) := execute D A I b na x na s in (Plain b k s', r)
    | Online b k s => let (s', r) := o_execute D A I row_of na b x na s in (Online b k s', r)
    end.
  Definition f_stop (f : ofnode) : ofnode * res unit :=
    match f with
    | Plain b k s => let (s', r) := stop_training D A I b na s in (Plain b k s', r)
    | Online b k s => let (s', r) := o_stop D A I b na s in (Online b k s', r)
    end.
  Definition f_remaining (f : ofnode) : Z :=
    match f with Plain b _ s => remaining D A I b s | Online b _ s => remaining D A (attrs I) (base D A I b) s end.
  Definition f_online (f : ofnode) : bool := match f with Plain _ _ _ => false | Online _ _ _ => true end.

  Definition elt := (array * option (list A))%type.
  Definition flow := list ofnode.

  (** the body of the try statement :117-141 *)
  Definition visit1 (x : array) (a : A) (f : ofnode) : ofnode * (array + cause) :=
    let exec f := match f_exec x f with (f', Ok y) => (f', inl y) | (f', Err e) => (f', inr (CNode e)) end in
    if f_training f then match f_train x a f with (f1, Err e) => (f1, inr (CNode e)) | (f1, Ok _) => exec f1 end else exec f.
  Definition visit (i : nat) (args : option (list A)) (x : array) (f : ofnode) : ofnode * (array + cause) :=
    if f_nargs f =? 0 then visit1 x na f else
    match args with
    | None => (f, inr CIndex)
    | Some l => match nth_error l i with
                | None => (f, inr CIndex)
                | Some a => if f_nargs f =? arglen a then visit1 x a f else (f, inr CArgs)
                end
    end.
  (** one element through the nodes :116-154; the head of [fs] is node [i] *)
  Fixpoint pass_with (v : nat -> array -> ofnode -> ofnode * (array + cause)) (i : nat) (fs : flow) (x : array) : flow * ofres array :=
    match fs with
    | [] => ([], FOk x)
    | f :: fs => match v i x f with
                 | (f', inr c) => (f' :: fs, FErr (XCR i c))
                 | (f', inl y) => let (fs', r) := pass_with v (S i) fs y in (f' :: fs', r)
                 end
    end.
  Definition pass_elt (fs : flow) (args : option (list A)) (x : array) : flow * ofres array := pass_with (fun i x f => visit i args x f) 0 fs x.
  (** the loop over the elements :105-154 *)
  Fixpoint pass_elts (fs : flow) (els : list elt) : flow * ofres unit :=
    match els with
    | [] => (fs, FOk tt)
    | (x, args) :: els =>
        if match args with Some l => negb (length l =? length fs) | None => false end then (fs, FErr XOnline) else
        match pass_elt fs args x with (fs', FErr e) => (fs', FErr e) | (fs', FOk _) => pass_elts fs' els end
    end.
  (** OnlineFlow._train_nodes :103-170 *)
  Definition train_nodes (fs : flow) (els : list elt) : flow * ofres unit :=
    match pass_elts fs els with
    | (fs, FErr e) => (fs, FErr e)
    | (fs, FOk _) =>
        match els with
        | [] => (fs, FErr XFlow)
        | _ =>
            match rev fs with
            | [] => (fs, FErr XIndex)
            | f :: r =>
                if (1 <? f_remaining f)%Z
                then match f_stop f with (f', Ok _) => (rev (f' :: r), FOk tt) | (f', Err e) => (rev (f' :: r), FErr (XNode e)) end
                else (fs, FOk tt)
            end
        end
    end.
  (** OnlineFlow.train :194-231, Flow._close_last_node (linear_flows.py:287-295) *)
  Definition close_last (fs : flow) : flow * ofres unit :=
    match rev fs with
    | [] => (fs, FErr XIndex)
    | f :: r => match f_stop f with
                | (f', Ok _) | (f', Err TrainingFinished) => (rev (f' :: r), FOk tt)
                | (f', Err e) => (rev (f' :: r), FErr (XCR (length r) (CNode e)))
                end
    end.
  Definition oflow_train (fs : flow) (els : list elt) : flow * ofres unit :=
    match train_nodes fs els with
    | (fs, FErr e) => (fs, FErr e)
    | (fs, FOk _) => match rev fs with f :: _ => if f_online f then (fs, FOk tt) else close_last fs | [] => (fs, FErr XIndex) end
    end.

  (** ** CircularOnlineFlow: nodes, _flow_iterations, _stored_input, _ignore_input *)
  Record circ := mkC { c_nodes : flow; c_iters : nat; c_stored : option array; c_ignore : bool }.
  (** [for _ in _iters] :455-475; None as input raises AttributeError in the first node (wrapped) *)
  Fixpoint loops (n : nat) (fs : flow) (stored x : option array) : flow * option array * ofres (option array) :=
    match n with
    | 0 => (fs, stored, FOk x)
    | S n =>
        match x, fs with
        | None, _ :: _ => (fs, stored, FErr (XCR 0 CAttr))
        | None, [] => loops n fs None None
        | Some x, _ => match pass_with (fun _ x f => visit1 x na f) 0 fs x with
                       | (fs', FErr e) => (fs', stored, FErr e)
                       | (fs', FOk y) => loops n fs' (Some y) (Some y)
                       end
        end
    end.
  (** CircularOnlineFlow._train_nodes :446-475, train :477-524; the needs of nodes for arguments are not checked: node.train(x) *)
  Fixpoint circ_elts (c : circ) (xs : list array) : circ * ofres unit :=
    match xs with
    | [] => (c, FOk tt)
    | x :: xs =>
        match loops (c_iters c) (c_nodes c) (c_stored c) (if c_ignore c then c_stored c else Some x) with
        | (fs, st, FErr e) => (mkC fs (c_iters c) st (c_ignore c), FErr e)
        | (fs, st, FOk _) => circ_elts (mkC fs (c_iters c) st (c_ignore c)) xs
        end
    end.
  (** set_stored_input :417-425; XOnline stands for CircularOnlineFlowException *)
  Definition f_in (f : ofnode) : option nat := match f with Plain _ _ s => n_in _ _ _ s | Online _ _ s => n_in _ _ _ s end.
  Definition circ_set_stored (c : circ) (x : array) : circ * ofres unit :=
    match c_nodes c with
    | [] => (c, FErr XIndex)
    | f :: _ => match f_in f with
                | Some d => if a_cols x =? d then (mkC (c_nodes c) (c_iters c) (Some x) (c_ignore c), FOk tt) else (c, FErr XOnline)
                | None => (c, FOk tt)
                end
    end.
End OFlow.
