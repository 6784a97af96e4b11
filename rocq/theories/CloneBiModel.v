(** Model of bimdp/hinet/bilayer.py: CloneBiLayer, with the parts of mdp/hinet/layer.py (CloneLayer._inverse) and mdp/signal_node.py (_pre_inversion_checks) it uses.

    The methods of the node inside (execute, train, stop_training) are parameters: they get an array or None and a message or None, and give a result or an
    exception, and change the state of the node.  Simplifications:
    - an array with at least two axes has an identity (for `is`), a number of columns and rows; the part i of an array made by hsplit has the identity i :: identity;
    - values of a message which are no such arrays (one axis included) are VNone, VBool or VObj; use_copies is None or a bool;
    - messages are values: that the code modifies the given dict is modelled for the message handed on only;
    - copy() of the node gives a state by a parameter, since the arrays of the copy are other objects;
    - the message given to _execute, _train and _stop_training is that which BiNode.execute, train and stop_training (BiModel.v) hand on. *)
From Coq Require Import List Arith ZArith Bool String.
From Verif Require Import BiModel.
Import ListNotations.
Open Scope nat_scope.

(** AttributeError, CloneBiLayerException, KeyError, TypeError, ValueError, ZeroDivisionError, NodeException, TrainingException, an exception of the node *)
Inductive cexn := XAttr | XLayer | XKey | XType | XValue | XZero | XNode | XTrain | XOwn (n : nat).

Section Clone.
  Variables E O St : Type.
  Record arr := mkA { a_obj : list nat; a_cols : nat; a_rows : list (list E) }.
  Inductive cval := VNone | VBool (b : bool) | VObj (o : O) | VArr (a : arr).
  Definition cmsg := dict cval.
  Inductive ctarget := TgInt (z : Z) | TgStr (s : string).
  (** y, (y, msg), (y, msg, target) *)
  Inductive cres := RPlain (y : option arr) | RPair (y : option arr) (m : option cmsg) | RTriple (y : option arr) (m : option cmsg) (t : ctarget).

  (** numpy.hsplit and hstack; [new] is the identity of the new array *)
  Definition part (n i : nat) (a : arr) : arr :=
    let w := a_cols a / n in mkA (i :: a_obj a) w (map (fun r => firstn w (skipn (w * i) r)) (a_rows a)).
  Fixpoint stack_rows (l : list (list (list E))) : list (list E) :=
    match l with [] => [] | [a] => a | a :: l => map (fun p => fst p ++ snd p) (List.combine a (stack_rows l)) end.
  Definition hstack (new : list nat) (l : list arr) : cexn + arr :=
    match l with
    | [] => inl XValue
    | a :: l' => if forallb (fun b => List.length (a_rows b) =? List.length (a_rows a)) l'
                 then inr (mkA new (fold_right (fun b s => a_cols b + s) 0 l) (stack_rows (map a_rows l))) else inl XValue
    end.
  Fixpoint all_arrays (l : list cval) : option (list arr) :=
    match l with [] => Some [] | VArr a :: l => match all_arrays l with Some r => Some (a :: r) | None => None end | _ :: _ => None end.
  Definition same_obj (a b : arr) : bool := if list_eq_dec Nat.eq_dec (a_obj a) (a_obj b) then true else false.

  (** the node, or its copies (self.node is None); the dimensions of the layer; is_training() *)
  Inductive nodes := One (s : St) (k : nat) | Copies (l : list St).
  Record layer := mkL { l_id : option string; l_nodes : nodes; l_training : bool; l_in : nat; l_out : option nat }.
  Definition count (ns : nodes) : nat := match ns with One _ k => k | Copies l => List.length l end.
  Definition with_nodes (L : layer) (ns : nodes) : layer := mkL (l_id L) ns (l_training L) (l_in L) (l_out L).

  Variable copy : nat -> St -> St.
  (** _set_use_copies :62-88; CloneBiLayer has no method is_bi_training *)
  Definition set_copies (b : bool) (L : layer) : layer * option cexn :=
    match b, l_nodes L with
    | true, One s k => (with_nodes L (Copies (map (fun i => copy i s) (seq 0 k))), None)
    | false, Copies _ => (L, Some (if l_training L then XLayer else XAttr))
    | _, _ => (L, None)
    end.
  (** the id specific key of this layer for the key k, and the check of all keys (_get_msg_id_keys, binode.py:337-348) *)
  Fixpoint own_key (id : option string) (k : string) (ks : list string) : cexn + option string :=
    match ks with
    | [] => inr None
    | f :: ks => match parse_key f with
                 | BErr _ => inl XValue
                 | BOk p => match own_key id k ks with
                            | inl e => inl e
                            | inr r => inr (match p, id with Some (a, b), Some i => if String.eqb a i && String.eqb b k then Some f else r | _, _ => r end)
                            end
                 end
    end.
  (** _extract_message_copy_flag :291-299: the message afterwards *)
  Definition copy_flag (L : layer) (m : cmsg) : layer * (cexn + cmsg) :=
    match own_key (l_id L) "use_copies" (map fst m) with
    | inl e => (L, inl e)
    | inr o =>
        let '(v, m') := match o with Some f => (dget f m, ddel f m) | None => (dget "use_copies" m, m) end in
        match v with
        | Some (VBool b) => match set_copies b L with (L', None) => (L', inr m') | (L', Some e) => (L', inl e) end
        | Some (VObj _) | Some (VArr _) => (L, inl XType)
        | _ => (L, inr m')
        end
    end.
  Definition flag_opt (L : layer) (m : option cmsg) : layer * (cexn + option cmsg) :=
    match m with None => (L, inr None) | Some m => match copy_flag L m with (L', inl e) => (L', inl e) | (L', inr m') => (L', inr (Some m')) end end.

  (** _get_split_messages :301-319 *)
  Definition split_val (n i : nat) (v : cval) : cval :=
    match v with VArr a => if a_cols a mod n =? 0 then VArr (part n i a) else v | _ => v end.
  Definition split (n : nat) (m : option cmsg) : list (option cmsg) :=
    match m with
    | None | Some [] => repeat None n
    | Some m => map (fun i => Some (map (fun p => (fst p, split_val n i (snd p))) m)) (seq 0 n)
    end.
  (** node_msg[key] for all messages *)
  Fixpoint look (key : string) (l : list (option cmsg)) : cexn + list cval :=
    match l with
    | [] => inr []
    | None :: _ => inl XType
    | Some m :: l => match dget key m with None => inl XKey | Some v => match look key l with inl e => inl e | inr r => inr (v :: r) end end
    end.
  (** _get_combined_message :321-341 *)
  Fixpoint join_keys (msgs : list (option cmsg)) (first : option cmsg) (l : cmsg) : cexn + cmsg :=
    match l with
    | [] => inr []
    | (key, v) :: l =>
        match look key [first] with
        | inl e => inl e
        | inr os =>
            match (match v with
                   | VArr a => if (match os with [VArr b] => same_obj a b | _ => false end) then inr v
                               else match look key msgs with
                                    | inl e => inl e
                                    | inr vs => match all_arrays vs with
                                                | None => inl XValue
                                                | Some l => match hstack (a_obj a) l with inl e => inl e | inr b => inr (VArr b) end
                                                end
                                    end
                   | _ => inr v
                   end) with
            | inl e => inl e
            | inr w => match join_keys msgs first l with inl e => inl e | inr r => inr ((key, w) :: r) end
            end
        end
    end.
  Definition combined (msgs : list (option cmsg)) : cexn + option cmsg :=
    match msgs with
    | [] => inr None
    | [m] => inr m
    | first :: _ => match last msgs None with None => inr None | Some l => match join_keys msgs first l with inl e => inl e | inr r => inr (Some r) end end
    end.
  Fixpoint given (l : list (option arr)) : option (list arr) :=
    match l with [] => Some [] | Some a :: l => match given l with Some r => Some (a :: r) | None => None end | None :: _ => None end.
  Definition join_y (ys : list (option arr)) : cexn + option arr :=
    match last ys None with
    | None => inr None
    | Some a => match given ys with None => inl XValue | Some l => match hstack (a_obj a) l with inl e => inl e | inr y => inr (Some y) end end
    end.

  (** the loop over the nodes in _execute :119-138, _train :167-186 and _stop_training :217-231: the results so far, the target *)
  Definition res_y (r : cres) : option arr := match r with RPlain y => y | RPair y _ => y | RTriple y _ _ => y end.
  Definition res_m (r : cres) : list (option cmsg) := match r with RPlain _ => [] | RPair _ m => [m] | RTriple _ m _ => [m] end.
  Definition res_t (r : cres) (t : option ctarget) : option ctarget := match r with RTriple _ _ t' => match t with Some _ => t | None => Some t' end | _ => t end.
  Definition call := St -> option arr -> option cmsg -> St * (cexn + cres).
  Fixpoint loop_one (f : call) (s : St) (l : list (option arr * option cmsg)) : St * (cexn + list cres) :=
    match l with
    | [] => (s, inr [])
    | (x, m) :: l => match f s x m with
                     | (s', inl e) => (s', inl e)
                     | (s', inr r) => match loop_one f s' l with (s2, inl e) => (s2, inl e) | (s2, inr rs) => (s2, inr (r :: rs)) end
                     end
    end.
  Fixpoint loop_copies (f : call) (ss : list St) (l : list (option arr * option cmsg)) : list St * (cexn + list cres) :=
    match ss, l with
    | s :: ss, (x, m) :: l => match f s x m with
                              | (s', inl e) => (s' :: ss, inl e)
                              | (s', inr r) => match loop_copies f ss l with (ss', inl e) => (s' :: ss', inl e) | (ss', inr rs) => (s' :: ss', inr (r :: rs)) end
                              end
    | ss, _ => (ss, inr [])
    end.
  Definition loop (f : call) (ns : nodes) (l : list (option arr * option cmsg)) : nodes * (cexn + list cres) :=
    match ns with
    | One s k => let (s', r) := loop_one f s l in (One s' k, r)
    | Copies ss => let (ss', r) := loop_copies f ss l in (Copies ss', r)
    end.
  (** the data for the nodes :113-123: x // 0 raises; a part of no columns is None *)
  Definition data (n : nat) (x : option arr) : cexn + list (option arr) :=
    match x with
    | None => inr (repeat None n)
    | Some a => if n =? 0 then inl XZero else if a_cols a / n =? 0 then inr (repeat None n) else inr (map (fun i => Some (part n i a)) (seq 0 n))
    end.
  (** the end of the methods :139-153: the last target, the messages and data together *)
  Definition finish (L : layer) (rs : list cres) : layer * (cexn + cres) :=
    match combined (flat_map res_m rs) with
    | inl e => (L, inl e)
    | inr m =>
        match join_y (map res_y rs) with
        | inl e => (L, inl e)
        | inr y =>
            match flag_opt L m with
            | (L', inl e) => (L', inl e)
            | (L', inr m') => (L', inr (match fold_right (fun r t => res_t r t) None rs with
                                        | Some t => RTriple y m' t
                                        | None => match m' with None | Some [] => RPlain y | _ => RPair y m' end
                                        end))
            end
        end
    end.
  (** _execute :107-153 and _train :155-203, which differ in the method called only *)
  Definition process (f : call) (L : layer) (x : option arr) (m : option cmsg) : layer * (cexn + cres) :=
    match flag_opt L m with
    | (L1, inl e) => (L1, inl e)
    | (L1, inr m1) =>
        match data (count (l_nodes L1)) x with
        | inl e => (L1, inl e)
        | inr xs =>
            match loop f (l_nodes L1) (List.combine xs (split (count (l_nodes L1)) m1)) with
            | (ns, inl e) => (with_nodes L1 ns, inl e)
            | (ns, inr rs) => finish (with_nodes L1 ns) rs
            end
        end
    end.
  (** _stop_training :205-257; the call gets no data; self.output_dim is not set, unlike in CloneLayer *)
  Definition stop (f : call) (L : layer) (m : option cmsg) : layer * (cexn + cres) :=
    match flag_opt L m with
    | (L1, inl e) => (L1, inl e)
    | (L1, inr m1) =>
        match l_nodes L1 with
        | Copies ss =>
            match loop f (Copies ss) (List.combine (repeat None (List.length ss)) (split (List.length ss) m1)) with
            | (ns, inl e) => (with_nodes L1 ns, inl e)
            | (ns, inr rs) => finish (with_nodes L1 ns) rs
            end
        | One s k =>
            match f s None m1 with
            | (s', inl e) => (with_nodes L1 (One s' k), inl e)
            | (s', inr r) =>
                let L2 := with_nodes L1 (One s' k) in
                match r with
                | RPlain y => (L2, inr (RPlain y))
                | RPair y m2 => match flag_opt L2 m2 with (L', inl e) => (L', inl e) | (L', inr m') => (L', inr (match m' with None | Some [] => RPlain y | _ => RPair y m' end)) end
                | RTriple y m2 t => match flag_opt L2 m2 with (L', inl e) => (L', inl e) | (L', inr m') => (L', inr (RTriple y m' t)) end
                end
            end
        end
    end.

  (** inverse (signal_node.py:537-557 and layer.py:262-266) of a layer of invertible nodes: [inv] is what node.inverse does to a row, [nout] the output_dim of a node *)
  Variable nout : St -> nat.
  Variable inv : St -> list E -> list E.
  Definition chunks (w k : nat) (r : list E) : list (list E) := map (fun i => firstn w (skipn (w * i) r)) (seq 0 k).
  Definition inverse (L : layer) (y : arr) : layer * (cexn + list (list E)) :=
    if l_training L then (L, inl XTrain) else
    let out := match l_out L with Some n => n | None => l_in L end in
    let L' := mkL (l_id L) (l_nodes L) (l_training L) (l_in L) (Some out) in
    if a_cols y =? out then
      match l_nodes L with
      | Copies _ => (L', inl XAttr)
      | One s k => if a_cols y mod nout s =? 0 then (L', inr (map (fun r => flat_map (inv s) (chunks (nout s) (a_cols y / nout s) r)) (a_rows y))) else (L', inl XValue)
      end
    else (L', inl XNode).
End Clone.
