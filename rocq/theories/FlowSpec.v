(** Vocabulary for the properties of flow training and execution. *)
From Coq Require Import List Arith ZArith Bool.
From Verif Require Import NodeModel NodeSpec FlowModel.
Import ListNotations.
Open Scope nat_scope.

Section Spec.
  Variables (D A I : Type) (na : A).
  Notation fnode := (fnode D A I).

  (** The train hook calls a node has received, in order. *)
  Definition trains (tr : list (event D A)) : list (event D A) :=
    filter (fun e => match e with EvTrain _ _ _ _ _ => true | _ => false end) tr.

  (** [x] sent through a list of nodes: the composition of their execute functions ([None] if one raises). *)
  Fixpoint through (fs : list fnode) (x : array D) : option (array D) :=
    match fs with
    | [] => Some x
    | f :: fs => match snd (execute D A I (f_b _ _ _ f) na x na (f_s _ _ _ f)) with
                 | Ok y => through fs y
                 | Err _ => None
                 end
    end.
  (** [y] sent backwards through a list of nodes: last node's inverse first. *)
  Fixpoint back_through (fs : list fnode) (y : array D) : option (array D) :=
    match fs with
    | [] => Some y
    | f :: fs => match back_through fs y with
                 | Some z => match snd (inverse D A I (f_b _ _ _ f) na z na (f_s _ _ _ f)) with Ok x => Some x | Err _ => None end
                 | None => None
                 end
    end.

  (** Executing has no effect but its result: the _execute hook writes no attribute. *)
  Definition pure (b : behaviour D A I) : Prop := forall v x a, exists r, b_execute _ _ _ b v x a = PRet r.
  Definition pure_inv (b : behaviour D A I) : Prop := forall v x a, exists r, b_inverse _ _ _ b v x a = PRet r.

  (** The subclass hooks never raise TrainingFinishedException themselves. *)
  Fixpoint never_finished {R} (p : prog I R) : Prop :=
    match p with
    | PRet r => r <> Err TrainingFinished
    | PSet _ k => never_finished k
    | PReq _ k => never_finished k
    end.
  Definition no_finished_exc (b : behaviour D A I) : Prop :=
    (forall v x a, b_check_args _ _ _ b v x a <> Some TrainingFinished) /\
    (forall p v x a, never_finished (b_train _ _ _ b p v x a)) /\
    (forall p v a, never_finished (b_stop _ _ _ b p v a)).

  (** A node as a user can have it: constructed and then used in any way. *)
  Definition reachable (b : behaviour D A I) (s : node D A I) : Prop :=
    (b_trainable _ _ _ b = true -> 0 < b_phases _ _ _ b) /\
    exists i0 din dout dt s0 cs, init D A I b i0 din dout dt = (s0, Ok tt) /\ s = run D A I b na cs s0.

  (** A user's node in a flow, with the two restrictions on its hooks. *)
  Definition usable (f : fnode) : Prop :=
    reachable (f_b _ _ _ f) (f_s _ _ _ f) /\ pure (f_b _ _ _ f) /\ no_finished_exc (f_b _ _ _ f).
  (** Number of training phases of a node, of those already closed, and the train calls it received. *)
  Definition phases_of (f : fnode) : nat := if b_trainable _ _ _ (f_b _ _ _ f) then b_phases _ _ _ (f_b _ _ _ f) else 0.
  Definition closed_of (f : fnode) : nat := closed (n_trace _ _ _ (f_s _ _ _ f)).
  Definition trains_of (f : fnode) : list (event D A) := trains (n_trace _ _ _ (f_s _ _ _ f)).
  (** All but the last phase closed, and the last phase has got its data. *)
  Definition only_open_last (f : fnode) : Prop :=
    S (closed_of f) = phases_of f /\ trained_in (closed_of f) (n_trace _ _ _ (f_s _ _ _ f)).

  (** The train calls a node with behaviour [f_b f] has to receive from now on when the passes over its data iterable are
      [it 0], [it 1], ... and pass [q] comes out of the preceding nodes as [outs q]: one pass per open phase, every
      element in order, converted to the dtype of the node, with its additional arguments. *)
  Definition calls_due (f : fnode) (t : option dtype) (it : nat -> list (array D * A)) (outs : nat -> list (array D)) : list (event D A) :=
    flat_map (fun q => map (fun ey => EvTrain D A (closed_of f + q) (refcast D t (snd ey)) (snd (fst ey))) (combine (it q) (outs q)))
             (seq 0 (phases_of f - closed_of f)).
End Spec.
Arguments trains {D A} _.
Arguments through {D A I} _ _ _. Arguments back_through {D A I} _ _ _.
Arguments pure {D A I} _. Arguments pure_inv {D A I} _. Arguments no_finished_exc {D A I} _. Arguments reachable {D A I} _ _ _.
Arguments never_finished {I R} _.
Arguments usable {D A I} _ _. Arguments phases_of {D A I} _. Arguments closed_of {D A I} _. Arguments trains_of {D A I} _.
Arguments only_open_last {D A I} _. Arguments calls_due {D A I} _ _ _ _.
