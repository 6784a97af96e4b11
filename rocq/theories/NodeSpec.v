(** Vocabulary in which the properties of nodes are stated: what a legal sequence of hook calls is. *)
From Coq Require Import List Arith ZArith Bool.
From Verif Require Import NodeModel.
Import ListNotations.

Section Spec.
  Variables D A : Type.
  Notation array := (array D).
  Notation event := (event D A).

  (** Number of phases closed successfully in a trace. *)
  Definition closed (tr : list event) : nat :=
    length (filter (fun e => match e with EvStop _ _ _ true => true | _ => false end) tr).

  Definition trained_in (p : nat) (tr : list event) : Prop := exists x a, In (EvTrain D A p x a) tr.

  (** A legal life of a node with [k] phases: train and stop hooks always run for the phase whose number is the
      number of phases closed before; a phase is only closed after training data was given to it; execute and
      inverse hooks only run when all phases are closed. *)
  Definition legal_event (k : nat) (before : list event) (e : event) : Prop :=
    match e with
    | EvTrain _ _ p _ _ => p = closed before /\ (p < k)%nat
    | EvStop _ _ p _ => p = closed before /\ (p < k)%nat /\ trained_in p before
    | EvExec _ _ _ _ => closed before = k
    | EvInv _ _ _ _ => closed before = k
    end.
  Definition legal_life (k : nat) (tr : list event) : Prop :=
    forall before e after, tr = before ++ e :: after -> legal_event k before e.

  (** The explicit program "train x; stop_training" repeated [k] times ([na]: no extra arguments). *)
  Fixpoint train_stop_calls (na : A) (k : nat) (x : array) : list (call D A) :=
    match k with O => [] | S k => CTrain D A x na :: CStop D A na :: train_stop_calls na k x end.
End Spec.
Arguments closed {D A} _.
Arguments trained_in {D A} _ _.
Arguments legal_event {D A} _ _ _.
Arguments legal_life {D A} _ _.
Arguments train_stop_calls {D A} _ _ _.
