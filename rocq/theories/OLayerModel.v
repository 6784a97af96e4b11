(** Model of mdp/hinet/layer_online.py: OnlineLayer, CloneOnlineLayer, SameInputOnlineLayer, on top of the model of layers (LayerModel).

    The methods of Layer, CloneLayer and SameInputLayer are those of LayerModel; train, stop_training and the checks before execute and inverse are
    the ones of OnlineNode (mdp/signal_node_online.py), which come after Layer in the method resolution order.  Random number generators are
    identities.  The dtype of the nodes and additional arguments are not modelled (see LayerModel), nor is a node that is not a Node
    (layer_online.py:52-53) or a generator of a wrong type (signal_node_online.py:97-99). *)
From Coq Require Import List Arith ZArith Bool.
From Verif Require Import LayerModel.
Import ListNotations.
Open Scope nat_scope.

(** Exceptions: raised by a node or a method of Layer, IsNotTrainable, TrainingFinished, Training, IsNotInvertible, OnlineNodeException *)
Inductive oexn := OE (e : lexn) | ONotTrainable | OFinished | OTraining | ONotInvertible | OOnline.
Inductive ores (X : Type) := OOk (x : X) | OBad (e : oexn).
Arguments OOk {X} _.
Arguments OBad {X} _.

Section OLayer.
  Variables (N : Type) (zero : N) (St : Type).
  Notation obj := (obj N St). Notation heap := (heap St). Notation mat := (mat N).
  (** What an OnlineLayer uses of a node in addition: whether it is an OnlineNode, its training type (Some true: 'batch'), assignment of numx_rng *)
  Record oobj := mkOO { oo_obj : obj; oo_online : bool; oo_type : St -> option bool; oo_setrng : nat -> St -> St }.
  Variable ocls : nat -> oobj.
  Variable fresh : nat.                              (* the generator made by RandomState() if there is none, signal_node_online.py:222 *)
  Definition cls (r : nat) : obj := oo_obj (ocls r).
  Inductive kind := KLayer | KClone | KSame.
  Record olayer := mkOL {
    ol_kind : kind; ol_refs : list nat;              (* nodes; CloneOnlineLayer: n times the same one *)
    ol_in : nat; ol_out : option nat;
    ol_trainable : bool; ol_training : bool; ol_phase : Z; ol_started : bool;
    ol_type : option bool; ol_iter : nat; ol_rng : option nat }.
  Definition state : Type := olayer * heap.

  Definition set_out (l : olayer) (o : option nat) : olayer :=
    mkOL (ol_kind l) (ol_refs l) (ol_in l) o (ol_trainable l) (ol_training l) (ol_phase l) (ol_started l) (ol_type l) (ol_iter l) (ol_rng l).
  Definition set_train (l : olayer) (t : bool) (p : Z) (st : bool) : olayer :=
    mkOL (ol_kind l) (ol_refs l) (ol_in l) (ol_out l) (ol_trainable l) t p st (ol_type l) (ol_iter l) (ol_rng l).
  Definition set_ltype (l : olayer) (t : option bool) : olayer :=
    mkOL (ol_kind l) (ol_refs l) (ol_in l) (ol_out l) (ol_trainable l) (ol_training l) (ol_phase l) (ol_started l) t (ol_iter l) (ol_rng l).
  Definition set_iter (l : olayer) (n : nat) : olayer :=
    mkOL (ol_kind l) (ol_refs l) (ol_in l) (ol_out l) (ol_trainable l) (ol_training l) (ol_phase l) (ol_started l) (ol_type l) n (ol_rng l).
  Definition set_lrng (l : olayer) (g : option nat) : olayer :=
    mkOL (ol_kind l) (ol_refs l) (ol_in l) (ol_out l) (ol_trainable l) (ol_training l) (ol_phase l) (ol_started l) (ol_type l) (ol_iter l) g.

  (** ** Construction *)
  (** _set_numx_rng :84-89 *)
  Definition rng_nodes (refs : list nat) (g : nat) (h : heap) : heap :=
    fold_left (fun h r => if oo_online (ocls r) then upd St h r (oo_setrng (ocls r) g (h r)) else h) refs h.
  (** set_numx_rng, signal_node_online.py:90-100 *)
  Definition set_rng (g : option nat) (s : state) : state :=
    match g with None => s | Some g => (set_lrng (fst s) (Some g), rng_nodes (ol_refs (fst s)) g (snd s)) end.
  (** _check_compatibility :46-62 *)
  Definition compatible (r : nat) (h : heap) : bool := oo_online (ocls r) || negb (o_training N St (cls r) (h r)).
  (** _set_training_type_from_nodes :64-70 *)
  Definition type_of_nodes (refs : list nat) (h : heap) : option bool :=
    if existsb (fun r => oo_online (ocls r) && match oo_type (ocls r) (h r) with Some true => true | _ => false end) refs then Some true else None.
  (** The three __init__ :29-44, 111-124, 134-149; Node.__init__ (signal_node.py:265-297), OnlineNode.__init__ (signal_node_online.py:60-82) *)
  Definition ol_init (k : kind) (refs : list nat) (dt rng : option nat) (h : heap) : heap * ores olayer :=
    match (match k with KSame => same_init N St cls refs h dt | _ => layer_init N St cls refs h dt end) with
    | LErr e => (h, OBad (OE e))
    | LOk b =>
        if forallb (fun r => compatible r h) refs then
          let t := l_trainable b in
          let l := mkOL k refs (l_in b) (l_out b) t t (if t then 0 else -1)%Z false None 0 None in
          let (l, h) := set_rng rng (l, h) in
          (h, OOk (set_ltype l (type_of_nodes refs h)))
        else (h, OBad (OE LType))
    end.

  (** set_training_type :72-82 (both types are supported, signal_node_online.py:114-117) *)
  Definition ol_set_type (t : bool) (s : state) : state * ores unit :=
    match ol_type (fst s) with
    | None => ((set_ltype (fst s) (Some t), snd s), OOk tt)
    | Some u => (s, if Bool.eqb u t then OOk tt else OBad OOnline)
    end.

  (** ** Training *)
  (** _check_input, signal_node.py:469-491 and signal_node_online.py:217-227 *)
  Definition check_input (x : mat) (s : state) : state * ores unit :=
    if (length x =? 0) || negb (width N x =? ol_in (fst s)) then (s, OBad (OE LNodeExc)) else
    let s := match ol_rng (fst s) with None => set_rng (Some fresh) s | Some _ => s end in
    let s := match ol_type (fst s) with None => (set_ltype (fst s) (Some false), snd s) | Some _ => s end in
    (s, OOk tt).
  (** _train: layer.py:147-155, 329-333 *)
  Definition inner_train (l : olayer) (x : mat) (h : heap) : heap * lres unit :=
    match ol_kind l with KSame => same_train N St cls (ol_refs l) x h | _ => layer_train N St cls (ol_refs l) x h end.
  Definition step (x : mat) (n : nat) (s : state) : state * ores unit :=
    match inner_train (fst s) x (snd s) with
    | (h, LErr e) => ((fst s, h), OBad (OE e))
    | (h, LOk _) => ((set_iter (fst s) (ol_iter (fst s) + n), h), OOk tt)
    end.
  (** sample by sample, signal_node_online.py:270-278 *)
  Fixpoint steps (x : mat) (s : state) : state * ores unit :=
    match x with
    | [] => (s, OOk tt)
    | row :: x => match step [row] 1 s with (s, OBad e) => (s, OBad e) | (s, OOk _) => steps x s end
    end.
  (** train, signal_node_online.py:240-286; the only phase is _train (_get_train_seq :91-95) *)
  Definition ol_train (x : mat) (s : state) : state * ores unit :=
    if negb (ol_trainable (fst s)) then (s, OBad ONotTrainable) else
    if negb (ol_training (fst s)) then (s, OBad OFinished) else
    match check_input x s with
    | (s, OBad e) => (s, OBad e)
    | (s, OOk _) =>
        let l := set_train (fst s) (ol_training (fst s)) (ol_phase (fst s)) true in
        match ol_type l with Some true => step x (length x) (l, snd s) | _ => steps x (l, snd s) end
    end.
  (** _stop_training: layer.py:157-163, 264-269 *)
  Definition inner_stop (l : olayer) (h : heap) : heap * lres unit :=
    match ol_kind l, ol_refs l with KClone, r :: _ => clone_stop N St cls r h | KClone, [] => (h, LOk tt) | _, refs => layer_stop N St cls refs h end.
  (** stop_training, signal_node_online.py:288-309 *)
  Definition ol_stop (s : state) : state * ores unit :=
    let (l, h) := s in
    if ol_training l && negb (ol_started l) then (s, OBad OTraining) else
    if negb (ol_training l) then (s, OBad OFinished) else
    match inner_stop l h with
    | (h, LErr e) => ((l, h), OBad (OE e))
    | (h, LOk _) =>
        let l := match ol_out l with None => set_out l (out_dim N St cls (ol_refs l) h) | Some _ => l end in
        ((set_train l (negb ((if ol_trainable l then 1 - 1 else 0) =? 0)%Z) 1 false, h), OOk tt)
    end.

  (** ** Execution *)
  (** Layer._pre_execution_checks (layer.py:165-178, 335-344) *)
  Definition inner_pre (x : mat) (s : state) : state * ores unit :=
    let (l, h) := s in
    match ol_out l with
    | Some _ => (s, OOk tt)
    | None =>
        match (match ol_kind l with
               | KSame => pre_loop N St cls (fun _ _ => x) (fun _ _ => Some 0) (ol_refs l) 0 h
               | _ => pre_loop N St cls (fun a b => cols N a b x) (o_in N St) (ol_refs l) 0 h
               end) with
        | (h, LErr e) => ((l, h), OBad (OE e))
        | (h, LOk _) => match out_dim N St cls (ol_refs l) h with None => ((l, h), OBad (OE LNodeExc)) | Some n => ((set_out l (Some n), h), OOk tt) end
        end
    end.
  (** OnlineNode._pre_execution_checks (signal_node_online.py:177-193), called at layer.py:179, 346 *)
  Definition pre_exec (x : mat) (s : state) : state * ores unit :=
    match inner_pre x s with
    | (s, OBad e) => (s, OBad e)
    | (s, OOk _) =>
        match (if (ol_phase (fst s) =? 0)%Z && negb (ol_started (fst s)) then ol_train x s else (s, OOk tt)) with
        | (s, OBad e) => (s, OBad e)
        | (s, OOk _) => check_input x s
        end
    end.
  (** _execute: layer.py:181-201, 271-275, 348-363 *)
  Definition inner_exec (l : olayer) (x : mat) (h : heap) : heap * lres (option mat) :=
    match ol_out l with
    | None => (h, LErr LType)
    | Some out =>
        match ol_kind l, ol_refs l with
        | KLayer, refs => layer_execute N zero St cls refs out x h
        | KSame, refs => same_execute N zero St cls refs out x h
        | KClone, r :: _ => match clone_execute N St cls r out x h with (h, LErr e) => (h, LErr e) | (h, LOk y) => (h, LOk (Some y)) end
        | KClone, [] => (h, LErr LType)
        end
    end.
  Definition lift {X} (l : olayer) (r : heap * lres X) : state * ores X :=
    match r with (h, LErr e) => ((l, h), OBad (OE e)) | (h, LOk y) => ((l, h), OOk y) end.
  (** execute, signal_node.py:641-653 *)
  Definition ol_execute (x : mat) (s : state) : state * ores (option mat) :=
    match pre_exec x s with
    | (s, OBad e) => (s, OBad e)
    | (s, OOk _) => lift (fst s) (inner_exec (fst s) x (snd s))
    end.
  (** is_invertible: layer.py:132-133, 325-327 *)
  Definition ol_invertible (l : olayer) : bool := match ol_kind l with KSame => false | _ => forallb (fun r => o_invertible N St (cls r)) (ol_refs l) end.
  (** _inverse: layer.py:203-224, 277-281 *)
  Definition inner_inv (l : olayer) (y : mat) (h : heap) : heap * lres (option mat) :=
    match ol_kind l, ol_refs l with
    | KClone, r :: _ => match clone_inverse N St cls r (ol_in l) y h with (h, LErr e) => (h, LErr e) | (h, LOk x) => (h, LOk (Some x)) end
    | KClone, [] => (h, LErr LType)
    | _, refs => layer_inverse N zero St cls refs (ol_in l) y h
    end.
  (** inverse (signal_node.py:656-667) with _pre_inversion_checks (signal_node_online.py:197-215), _check_output (signal_node.py:493-503) *)
  Definition ol_inverse (y : mat) (s : state) : state * ores (option mat) :=
    if negb (ol_invertible (fst s)) then (s, OBad ONotInvertible) else
    let l := match ol_out (fst s) with None => set_out (fst s) (Some (ol_in (fst s))) | Some _ => fst s end in
    match ol_out l with
    | Some o => if negb (length y =? 0) && negb (width N y =? o) then ((l, snd s), OBad (OE LNodeExc)) else lift l (inner_inv l y (snd s))
    | None => ((l, snd s), OBad (OE LType))
    end.

  (** Histories of calls; a raising call leaves its partial effects *)
  Inductive call := CTrain (x : mat) | CStop | CExec (x : mat) | CInv (y : mat) | CType (t : bool).
  Definition run1 (c : call) (s : state) : state :=
    match c with
    | CTrain x => fst (ol_train x s) | CStop => fst (ol_stop s) | CExec x => fst (ol_execute x s) | CInv y => fst (ol_inverse y s) | CType t => fst (ol_set_type t s)
    end.
  Definition run (cs : list call) (s : state) : state := fold_left (fun s c => run1 c s) cs s.
End OLayer.
