(** Model of training and execution of flows, mdp/linear_flows.py:90-420 and CheckpointFlow :588-635.

    A flow is a list of nodes (behaviour and state, see NodeModel); the nodes are distinct objects.  All nodes share
    one type [I] of subclass attributes (a sum type of the attributes of the classes used).  A data iterable is a
    function from the number of the pass over it to the elements that pass yields, which covers lists (same elements
    every pass), generators and one-shot iterators (nothing in the second pass).  An element is an array with the
    additional arguments following it ([na] if it is a bare array).  Printing, warnings and crash dumps are omitted. *)
From Coq Require Import List Arith ZArith Bool.
From Verif Require Import NodeModel.
Import ListNotations.
Open Scope nat_scope.

(** The exception wrapped by FlowExceptionCR (its [parent_exception]). *)
Inductive perr := PNode (e : exn) | PFlow | PType.
(** FlowException :59, FlowExceptionCR :64 (with number of the crashing node), IndexError escaping from
    [self.flow[nodenr]] in _propagate_exception :133. *)
Inductive fexn := FExc | FExcCR (nodenr : nat) (parent : perr) | FIndexErr.
Inductive fres (R : Type) := FOk (r : R) | FErr (e : fexn).
Arguments FOk {R} _. Arguments FErr {R} _.

Section Flow.
  Variables D A I : Type.
  Variable na : A.                       (* no additional arguments *)
  Variable arglen : A -> nat.            (* number of additional arguments *)
  Variable cat : list (array D) -> option (array D).   (* numx.concatenate: None if it raises *)

  (** A node in a flow; [f_nargs] is len(_get_required_train_args(node)) :238-249. *)
  Record fnode := mkF { f_b : behaviour D A I; f_nargs : nat; f_s : node D A I }.
  Definition with_s (f : fnode) (s : node D A I) : fnode := mkF (f_b f) (f_nargs f) s.
  Definition flow := list fnode.

  Definition elt := (array D * A)%type.
  Definition iterable := nat -> list elt.

  Fixpoint update (fs : flow) (i : nat) (f : fnode) : flow :=
    match fs, i with
    | [], _ => []
    | _ :: fs, O => f :: fs
    | g :: fs, S i => g :: update fs i f
    end.

  (** Flow._execute_seq :352-362: nodes 0 .. m-1; [i] is the index of the head of [fs]. *)
  Fixpoint exec_seq (m i : nat) (fs : flow) (x : array D) : flow * fres (array D) :=
    match m, fs with
    | O, _ => (fs, FOk x)
    | S _, [] => (fs, FErr FIndexErr)
    | S m, f :: fs =>
        match execute D A I (f_b f) na x na (f_s f) with
        | (s', Ok y) => let (fs', r) := exec_seq m (S i) fs y in (with_s f s' :: fs', r)
        | (s', Err e) => (with_s f s' :: fs, FErr (FExcCR i (PNode e)))
        end
    end.

  (** Flow._inverse_seq :386-394: from the last node to the first. *)
  Fixpoint inverse_seq (i : nat) (fs : flow) (y : array D) : flow * fres (array D) :=
    match fs with
    | [] => ([], FOk y)
    | f :: fs =>
        match inverse_seq (S i) fs y with
        | (fs', FErr e) => (f :: fs', FErr e)
        | (fs', FOk z) =>
            match inverse D A I (f_b f) na z na (f_s f) with
            | (s', Ok x) => (with_s f s' :: fs', FOk x)
            | (s', Err e) => (with_s f s' :: fs', FErr (FExcCR i (PNode e)))
            end
        end
    end.

  (** The loop [for x in iterable: res.append(...)] of execute :376-380 and inverse :412-416. *)
  Fixpoint map_chunks (run1 : flow -> array D -> flow * fres (array D)) (fs : flow) (xs : list (array D))
    : flow * fres (list (array D)) :=
    match xs with
    | [] => (fs, FOk [])
    | x :: xs =>
        match run1 fs x with
        | (fs1, FErr e) => (fs1, FErr e)
        | (fs1, FOk y) =>
            match map_chunks run1 fs1 xs with
            | (fs2, FErr e) => (fs2, FErr e)
            | (fs2, FOk ys) => (fs2, FOk (y :: ys))
            end
        end
    end.

  (** Flow.execute :364-384 on an array and on an iterable; nodenr=None is [m = len fs], else [m = nodenr+1].
      A failing numx.concatenate raises numpy's ValueError; it is reported as [FExc] here. *)
  Definition flow_execute_array (fs : flow) (x : array D) : flow * fres (array D) := exec_seq (length fs) 0 fs x.
  Definition flow_execute (m : nat) (fs : flow) (xs : list (array D)) : flow * fres (array D) :=
    match map_chunks (exec_seq m 0) fs xs with
    | (fs', FErr e) => (fs', FErr e)
    | (fs', FOk ys) =>
        match xs with
        | [] => (fs', FErr FExc)
        | _ => match cat ys with Some y => (fs', FOk y) | None => (fs', FErr FExc) end
        end
    end.

  (** Flow.inverse :396-420 *)
  Definition flow_inverse_array (fs : flow) (y : array D) : flow * fres (array D) := inverse_seq 0 fs y.
  Definition flow_inverse (fs : flow) (ys : list (array D)) : flow * fres (array D) :=
    match map_chunks (inverse_seq 0) fs ys with
    | (fs', FErr e) => (fs', FErr e)
    | (fs', FOk xs) =>
        match ys with
        | [] => (fs', FErr FExc)
        | _ => match cat xs with Some x => (fs', FOk x) | None => (fs', FErr FExc) end
        end
    end.

  (** Outcome of the body of the [try] statement in _train_node. *)
  Inductive tres := TOk | TFinished (* TrainingFinishedException *) | TUpstream (* FlowExceptionCR *) | TOther (p : perr).
  Definition of_exn (e : exn) : tres := match e with TrainingFinished => TFinished | e => TOther (PNode e) end.

  (** [for x in data_iterable: ...] :171-195 *)
  Fixpoint train_chunks (i : nat) (fs : flow) (els : list elt) : flow * tres :=
    match els with
    | [] => (fs, TOk)
    | (x, a) :: els =>
        match nth_error fs i with
        | None => (fs, TOther PType)         (* not reachable: i < len(flow) *)
        | Some f =>
            if negb (f_nargs f =? 0) && negb (f_nargs f =? arglen a) then (fs, TOther PFlow) else
            match exec_seq i 0 fs x with      (* for nodenr = 0 this is x itself, :192 *)
            | (fs1, FErr _) => (fs1, TUpstream)
            | (fs1, FOk y) =>
                match train D A I (f_b f) y a (f_s f) with
                | (s', Err e) => (update fs1 i (with_s f s'), of_exn e)
                | (s', Ok _) => train_chunks i (update fs1 i (with_s f s')) els
                end
            end
        end
    end.

  (** [while True] :169-213; [j] counts the passes over the iterable; b_phases + 1 iterations always suffice. *)
  Fixpoint train_passes (fuel i j : nat) (fs : flow) (it : iterable) : flow * tres :=
    match fuel with
    | O => (fs, TOther (PNode OutOfFuel))
    | S fuel =>
        match train_chunks i fs (it j) with
        | (fs1, TOk) =>
            match it j with
            | [] => (fs1, TOther PFlow)        (* empty iterator :196-207 *)
            | _ =>
                match nth_error fs1 i with
                | None => (fs1, TOther PType)
                | Some f =>
                    if (1 <? remaining D A I (f_b f) (f_s f))%Z then
                      match stop_training D A I (f_b f) na (f_s f) with
                      | (s', Ok _) => train_passes fuel i (S j) (update fs1 i (with_s f s')) it
                      | (s', Err e) => (update fs1 i (with_s f s'), of_exn e)
                      end
                    else (fs1, TOk)
                end
            end
        | r => r
        end
    end.

  (** Flow._train_node :138-232 *)
  Definition train_node (fs : flow) (i : nat) (data : option iterable) : flow * fres unit :=
    match nth_error fs i with
    | None => (fs, FErr FIndexErr)
    | Some f =>
        match data with
        | Some it =>
            if negb (b_trainable _ _ _ (f_b f)) then (fs, FOk tt) else
            match train_passes (S (b_phases _ _ _ (f_b f))) i 0 fs it with
            | (fs', TOk) => (fs', FOk tt)
            | (fs', TFinished) => (fs', FOk tt)                      (* a warning :214-219 *)
            | (fs', TUpstream) => (fs', FErr FExc)                   (* :220-229 *)
            | (fs', TOther p) => (fs', FErr (FExcCR i p))            (* :230-232 *)
            end
        | None =>
            if n_training _ _ _ (f_s f) then (fs, FErr FExc)
            else if negb (b_trainable _ _ _ (f_b f)) then (fs, FOk tt)
            else (fs, FErr (FExcCR i PType))                         (* for x in None: TypeError *)
        end
    end.

  (** Flow._close_last_node :287-295 *)
  Definition close_last (fs : flow) : flow * fres unit :=
    match nth_error fs (length fs - 1) with
    | None => (fs, FErr FIndexErr)
    | Some f =>
        match stop_training D A I (f_b f) na (f_s f) with
        | (s', Ok _) => (update fs (length fs - 1) (with_s f s'), FOk tt)
        | (s', Err TrainingFinished) => (update fs (length fs - 1) (with_s f s'), FOk tt)
        | (s', Err e) => (update fs (length fs - 1) (with_s f s'), FErr (FExcCR (length fs - 1) (PNode e)))
        end
    end.

  (** A checkpoint function gets the node; it may do anything to it and may raise (then its exception escapes; reported as FExc).
      Its returned dictionary only updates attributes of the flow object (:630-631) and is not modelled. *)
  Definition checkpoint := fnode -> node D A I * bool.

  (** The loop over the nodes, Flow.train :343-348 and CheckpointFlow.train :623-633. The ghost log records the checkpoint calls:
      number of the node and the flow at that moment. *)
  Fixpoint train_nodes (i : nat) (fs : flow) (data : list (option iterable)) (cps : list (option checkpoint))
    (log : list (nat * flow)) : flow * fres unit * list (nat * flow) :=
    match data with
    | [] => (fs, FOk tt, log)
    | d :: data =>
        match train_node fs i d with
        | (fs', FErr e) => (fs', FErr e, log)
        | (fs', FOk _) =>
            match cps, nth_error fs' i with
            | Some c :: cps, Some f =>
                let (s', ok) := c f in
                let fs'' := update fs' i (with_s f s') in
                if ok then train_nodes (S i) fs'' data cps (log ++ [(i, fs')])
                else (fs'', FErr FExc, log ++ [(i, fs')])
            | _, _ => train_nodes (S i) fs' data (tl cps) log
            end
        end
    end.

  (** Flow.train :315-350 (with _train_check_iterables :251-285) *)
  Definition flow_train (fs : flow) (data : list (option iterable)) : flow * fres unit :=
    if negb (length data =? length fs) then (fs, FErr FExc) else
    match train_nodes 0 fs data [] [] with
    | (fs', FErr e, _) => (fs', FErr e)
    | (fs', FOk _, _) => close_last fs'
    end.

  (** Flow.train with one single array: [[x]] * len(flow), :263-264 *)
  Definition flow_train_array (fs : flow) (x : array D) : flow * fres unit :=
    flow_train fs (map (fun _ => Some (fun _ : nat => [(x, na)])) fs).

  (** CheckpointFlow.train :604-635 (and _train_check_checkpoints :593-602 for a list of checkpoints) *)
  Definition checkpoint_train (fs : flow) (data : list (option iterable)) (cps : list (option checkpoint))
    : flow * fres unit * list (nat * flow) :=
    if negb (length data =? length fs) then (fs, FErr FExc, []) else
    if negb (length cps =? length fs) then (fs, FErr FExc, []) else
    match train_nodes 0 fs data cps [] with
    | (fs', FErr e, log) => (fs', FErr e, log)
    | (fs', FOk _, log) => let (fs'', r) := close_last fs' in (fs'', r, log)
    end.
End Flow.
