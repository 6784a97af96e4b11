(** Model of mdp/hinet/layer.py: Layer, CloneLayer, SameInputLayer.

    A layer holds a list of references to node objects; the same object may occur several times (CloneLayer, Layer([node]*n)).
    A node object is a class [obj] (its methods, arbitrary) with a state in the heap.  Data are matrices as lists of rows over an
    arbitrary type of numbers.  A matrix without rows has no column count here (Node._check_input rejects such input).  Additional
    arguments are forwarded unaltered to every node (layer.py:155, 161, ...): they are part of the methods here.  Setting the
    dtype of the nodes (layer.py:117-120) is not modelled, and the result array takes every number as it is (in the code it has the
    dtype of the first node's output, :195). *)
From Coq Require Import List Arith Bool.
Import ListNotations.

(** Exceptions: raised by a node, TypeError, ValueError, IndexError, ZeroDivisionError, NodeException of the layer itself *)
Inductive lexn := LNode (code : nat) | LType | LValue | LIndex | LZero | LNodeExc.
Inductive lres (X : Type) := LOk (x : X) | LErr (e : lexn).
Arguments LOk {X} _.
Arguments LErr {X} _.

Section Layer.
  Variables (N : Type) (zero : N) (St : Type).
  Definition mat := list (list N).
  (** The methods and properties of a node that a layer uses *)
  Record obj := mkObj {
    o_in : St -> option nat; o_out : St -> option nat; o_dtype : St -> option nat;
    o_training : St -> bool; o_invertible : bool; o_seq : nat;     (* len(node._get_train_seq()) *)
    o_train : St -> mat -> St * lres unit;
    o_stop : St -> St * lres unit;
    o_pre : St -> mat -> St * lres unit;                           (* _pre_execution_checks *)
    o_exec : St -> mat -> St * lres mat;
    o_inv : St -> mat -> St * lres mat }.
  Variable cls : nat -> obj.                 (* class of the object with the given identity *)
  Definition heap := nat -> St.
  Definition upd (h : heap) (r : nat) (s : St) : heap := fun q => if q =? r then s else h q.

  (** ** numpy *)
  (** x[:, a:b] *)
  Definition cols (a b : nat) (x : mat) : mat := map (fun row => firstn (b - a) (skipn a row)) x.
  Definition width (x : mat) : nat := match x with [] => 0 | r :: _ => length r end.
  (** numx.zeros([n, m]) *)
  Definition zeros (n m : nat) : mat := repeat (repeat zero m) n.
  (** broadcasting of one axis to length [n] *)
  Definition fit {X} (n : nat) (l : list X) : option (list X) :=
    if length l =? n then Some l else match l with [x] => Some (repeat x n) | _ => None end.
  Definition assign_row (a b : nat) (row v : list N) : option (list N) :=
    match fit (Nat.min b (length row) - Nat.min a (length row)) v with
    | None => None
    | Some v => Some (firstn a row ++ v ++ skipn b row)
    end.
  Fixpoint assign_rows (a b : nat) (y v : mat) : option mat :=
    match y, v with
    | row :: y, w :: v =>
        match assign_row a b row w, assign_rows a b y v with Some r, Some y => Some (r :: y) | _, _ => None end
    | _, _ => Some []
    end.
  (** y[:, a:b] = v, for a <= b *)
  Definition assign (a b : nat) (v y : mat) : lres mat :=
    match fit (length y) v with
    | None => LErr LValue
    | Some v => match assign_rows a b y v with None => LErr LValue | Some y => LOk y end
    end.
  (** x.reshape(n, w), row-major *)
  Fixpoint chunks (n w : nat) (l : list N) : mat :=
    match n with O => [] | S n => firstn w l :: chunks n w (skipn w l) end.
  Definition reshape (n w : nat) (x : mat) : lres mat :=
    let l := concat x in if length l =? n * w then LOk (chunks n w l) else LErr LValue.

  (** ** Layer *)
  (** _get_output_dim_from_nodes :67-78 *)
  Fixpoint out_dim (refs : list nat) (h : heap) : option nat :=
    match refs with
    | [] => Some 0
    | r :: refs => match o_out (cls r) (h r), out_dim refs h with Some d, Some n => Some (d + n) | _, _ => None end
    end.
  (** input_dim :46-49 (TypeError for None does not occur after _check_props) *)
  Fixpoint in_dim (refs : list nat) (h : heap) : option nat :=
    match refs with
    | [] => Some 0
    | r :: refs => match o_in (cls r) (h r), in_dim refs h with Some d, Some n => Some (d + n) | _, _ => None end
    end.
  (** _check_props :80-115 *)
  Definition check_props (refs : list nat) (h : heap) (dtype : option nat) : lres (option nat) :=
    if existsb (fun r => match o_in (cls r) (h r) with None => true | Some _ => false end) refs then LErr LNodeExc else
    let found := nodup Nat.eq_dec (flat_map (fun r => match o_dtype (cls r) (h r) with None => [] | Some t => [t] end) refs) in
    match found, dtype with
    | _ :: _ :: _, _ => LErr LNodeExc
    | [t], Some d => if t =? d then LOk (Some d) else LErr LNodeExc
    | [t], None => LOk (Some t)
    | [], d => LOk d
    end.
  Record layer := mkLayer { l_in : nat; l_out : option nat; l_dtype : option nat; l_trainable : bool; l_phases : nat; l_invertible : bool }.
  (** _get_train_seq :135-145: the length of the sequence *)
  Definition seq_len (refs : list nat) : nat := fold_left (fun m r => if m <? o_seq (cls r) then o_seq (cls r) else m) refs 0.
  (** Layer.__init__ :33-65 *)
  Definition layer_init (refs : list nat) (h : heap) (dtype : option nat) : lres layer :=
    match check_props refs h dtype with
    | LErr e => LErr e
    | LOk dtype =>
        match in_dim refs h with
        | None => LErr LType
        | Some d => LOk (mkLayer d (out_dim refs h) dtype (existsb (fun r => o_training (cls r) (h r)) refs) (seq_len refs)
                           (forallb (fun r => o_invertible (cls r)) refs))
        end
    end.
  (** SameInputLayer.__init__ :291-323 *)
  Definition same_init (refs : list nat) (h : heap) (dtype : option nat) : lres layer :=
    match check_props refs h dtype with
    | LErr e => LErr e
    | LOk dtype =>
        match refs with
        | [] => LErr LIndex
        | r0 :: _ =>
            let d0 := o_in (cls r0) (h r0) in
            if existsb (fun r => match o_in (cls r) (h r), d0 with Some a, Some b => negb (a =? b) | _, _ => true end) refs then LErr LNodeExc else
            match d0 with
            | None => LErr LType
            | Some d => LOk (mkLayer d (out_dim refs h) dtype (existsb (fun r => o_training (cls r) (h r)) refs) (seq_len refs) false)
            end
        end
    end.

  (** _train :147-155 ([blk a b] is the data for a node whose columns are [a..b)); SameInputLayer._train :329-333 has the whole
      data for every node and does not read input_dim *)
  Fixpoint train_loop (blk : nat -> nat -> mat) (din : obj -> St -> option nat) (refs : list nat) (stop : nat) (h : heap) : heap * lres unit :=
    match refs with
    | [] => (h, LOk tt)
    | r :: refs =>
        match din (cls r) (h r) with
        | None => (h, LErr LType)
        | Some d =>
            if o_training (cls r) (h r) then
              match o_train (cls r) (h r) (blk stop (stop + d)) with
              | (s, LErr e) => (upd h r s, LErr e)
              | (s, LOk _) => train_loop blk din refs (stop + d) (upd h r s)
              end
            else train_loop blk din refs (stop + d) h
        end
    end.
  Definition layer_train (refs : list nat) (x : mat) : heap -> heap * lres unit := train_loop (fun a b => cols a b x) o_in refs 0.
  Definition same_train (refs : list nat) (x : mat) : heap -> heap * lres unit := train_loop (fun _ _ => x) (fun _ _ => Some 0) refs 0.

  (** _stop_training :157-163; the output_dim is set from the nodes by the caller *)
  Fixpoint layer_stop (refs : list nat) (h : heap) : heap * lres unit :=
    match refs with
    | [] => (h, LOk tt)
    | r :: refs =>
        if o_training (cls r) (h r) then
          match o_stop (cls r) (h r) with
          | (s, LErr e) => (upd h r s, LErr e)
          | (s, LOk _) => layer_stop refs (upd h r s)
          end
        else layer_stop refs h
    end.
  (** CloneLayer._stop_training :264-269 *)
  Definition clone_stop (r : nat) (h : heap) : heap * lres unit :=
    if o_training (cls r) (h r) then let (s, res) := o_stop (cls r) (h r) in (upd h r s, res) else (h, LOk tt).

  (** The loop of _pre_execution_checks :165-179 and SameInputLayer :335-346, run if output_dim is None *)
  Fixpoint pre_loop (blk : nat -> nat -> mat) (din : obj -> St -> option nat) (refs : list nat) (stop : nat) (h : heap) : heap * lres unit :=
    match refs with
    | [] => (h, LOk tt)
    | r :: refs =>
        match din (cls r) (h r) with
        | None => (h, LErr LType)
        | Some d =>
            match o_pre (cls r) (h r) (blk stop (stop + d)) with
            | (s, LErr e) => (upd h r s, LErr e)
            | (s, LOk _) => pre_loop blk din refs (stop + d) (upd h r s)
            end
        end
    end.
  Definition layer_pre (refs : list nat) (out : option nat) (x : mat) (h : heap) : heap * lres nat :=
    match out with
    | Some n => (h, LOk n)
    | None =>
        match pre_loop (fun a b => cols a b x) o_in refs 0 h with
        | (h, LErr e) => (h, LErr e)
        | (h, LOk _) => match out_dim refs h with None => (h, LErr LNodeExc) | Some n => (h, LOk n) end
        end
    end.

  (** The common loop of _execute :181-201, _inverse :203-224 (input and output dimensions switched) and SameInputLayer._execute
      :348-363 (every node gets the whole data).  [total] is the number of columns of the result; None if there are no nodes. *)
  Fixpoint blocks (op : obj -> St -> mat -> St * lres mat) (blk : nat -> nat -> mat) (din dout : obj -> St -> option nat) (total : nat)
    (refs : list nat) (in_stop out_stop : nat) (y : option mat) (h : heap) : heap * lres (option mat) :=
    match refs with
    | [] => (h, LOk y)
    | r :: refs =>
        match dout (cls r) (h r), din (cls r) (h r) with
        | Some o, Some d =>
            match op (cls r) (h r) (blk in_stop (in_stop + d)) with
            | (s, LErr e) => (upd h r s, LErr e)
            | (s, LOk v) =>
                let y0 := match y with None => zeros (length v) total | Some y => y end in
                match assign out_stop (out_stop + o) v y0 with
                | LErr e => (upd h r s, LErr e)
                | LOk y => blocks op blk din dout total refs (in_stop + d) (out_stop + o) (Some y) (upd h r s)
                end
            end
        | _, _ => (h, LErr LType)
        end
    end.
  Definition layer_execute (refs : list nat) (out : nat) (x : mat) : heap -> heap * lres (option mat) :=
    blocks o_exec (fun a b => cols a b x) o_in o_out out refs 0 0 None.
  Definition layer_inverse (refs : list nat) (inp : nat) (x : mat) : heap -> heap * lres (option mat) :=
    blocks o_inv (fun a b => cols a b x) o_out o_in inp refs 0 0 None.
  Definition same_execute (refs : list nat) (out : nat) (x : mat) : heap -> heap * lres (option mat) :=
    blocks o_exec (fun _ _ => x) (fun _ _ => Some 0) o_out out refs 0 0 None.

  (** CloneLayer._execute :271-275 and _inverse :277-281 *)
  Definition clone_op (op : obj -> St -> mat -> St * lres mat) (din : obj -> St -> option nat) (r total : nat) (x : mat) (h : heap) : heap * lres mat :=
    let n := length x in
    match din (cls r) (h r) with
    | None => (h, LErr LType)
    | Some 0 => (h, LErr LZero)
    | Some d =>
        match reshape (n * width x / d) d x with
        | LErr e => (h, LErr e)
        | LOk x =>
            match op (cls r) (h r) x with
            | (s, LErr e) => (upd h r s, LErr e)
            | (s, LOk y) => (upd h r s, reshape n total y)
            end
        end
    end.
  Definition clone_execute (r out : nat) (x : mat) : heap -> heap * lres mat := clone_op o_exec o_in r out x.
  Definition clone_inverse (r inp : nat) (x : mat) : heap -> heap * lres mat := clone_op o_inv o_out r inp x.

  (** Training of a layer through its train_seq: one entry of [data] per phase, the data of the phase in chunks *)
  Fixpoint each (f : mat -> heap -> heap * lres unit) (xs : list mat) (h : heap) : heap * lres unit :=
    match xs with
    | [] => (h, LOk tt)
    | x :: xs => match f x h with (h, LErr e) => (h, LErr e) | (h, LOk _) => each f xs h end
    end.
  Fixpoint layer_fit (train : mat -> heap -> heap * lres unit) (stop : heap -> heap * lres unit) (data : list (list mat)) (h : heap) : heap * lres unit :=
    match data with
    | [] => (h, LOk tt)
    | xs :: data =>
        match each train xs h with
        | (h, LErr e) => (h, LErr e)
        | (h, LOk _) => match stop h with (h, LErr e) => (h, LErr e) | (h, LOk _) => layer_fit train stop data h end
        end
    end.
End Layer.
