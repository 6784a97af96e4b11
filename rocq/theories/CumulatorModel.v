(** Model of VariadicCumulator / Cumulator, mdp/signal_node.py:753-791, as a [behaviour] of the Node machine.
    An array payload is its list of rows; the extra positional arguments of [train] are a list of arrays
    (lists of rows) too. *)
From Coq Require Import List Arith ZArith Bool.
From Verif Require Import NodeModel.
Import ListNotations.
Open Scope nat_scope.

Section Cumulator.
  Variable V : Type.                 (* one row *)
  Definition rows := list V.

  (** A field is a Python list of chunks while collecting (:771), an array after stop_training (:784). *)
  Inductive cfield := Chunks (l : list rows) | Arr (a : rows).
  (** Attributes [tlen] and the fields, :767-772 *)
  Record cum := mkCum { c_tlen : nat; c_fields : list cfield }.

  (** [for field, data in zip(fields, args): getattr(self, field).append(data)], :777-778;
      an ndarray has no [append]: AttributeError (HookErr 0). *)
  Fixpoint append_all (fs : list cfield) (args : list rows) : option (list cfield) :=
    match fs, args with
    | Chunks l :: fs, a :: args =>
        match append_all fs args with Some r => Some (Chunks (l ++ [a]) :: r) | None => None end
    | Arr _ :: _, _ :: _ => None
    | fs, _ => Some fs
    end.

  (** Cumulator._train :774-778 (args[0] is x). When an append fails tlen is already updated; the fields
      before the failing one would be too -- that case cannot arise on a training node and the model keeps the fields. *)
  Definition cum_train (c : cum) (x : array rows) (extra : list rows) : prog cum unit :=
    let c' := mkCum (c_tlen c + a_rows x) (c_fields c) in
    match append_all (c_fields c) (a_data x :: extra) with
    | Some fs => PSet (mkCum (c_tlen c') fs) (PRet (Ok tt))
    | None => PSet c' (PRet (Err (HookErr 0)))
    end.

  (** numx.concatenate(data, 0): ValueError (HookErr 1) for an empty list.  On an array (which cannot occur
      while training) concatenation of its rows would be attempted; modelled as an error too. *)
  Definition concatenate (f : cfield) : option cfield :=
    match f with
    | Chunks [] => None
    | Chunks l => Some (Arr (concat l))
    | Arr _ => None
    end.

  (** Cumulator._stop_training :780-784, field after field. *)
  Fixpoint cum_stop_fields (tlen : nat) (done todo : list cfield) : prog cum unit :=
    match todo with
    | [] => PRet (Ok tt)
    | f :: todo =>
        match concatenate f with
        | Some f' => PSet (mkCum tlen (done ++ f' :: todo)) (cum_stop_fields tlen (done ++ [f']) todo)
        | None => PRet (Err (HookErr 1))
        end
    end.

  (** The cumulator with [nf] fields: trainable, one phase, identity execute (Node._execute :577). *)
  Definition cumulator (supported : dtype -> bool) : behaviour rows (list rows) cum :=
    mkBeh rows (list rows) cum true true false supported 1
      (fun _ _ _ => None)
      (fun _ v x extra => cum_train (v_int cum v) x extra)
      (fun _ v _ => cum_stop_fields (c_tlen (v_int cum v)) [] (c_fields (v_int cum v)))
      (fun _ x _ => PRet (Ok x))
      (fun _ y _ => PRet (Ok y)).

  (** VariadicCumulator.__init__ :764-772 *)
  Definition cum0 (nf : nat) : cum := mkCum 0 (repeat (Chunks []) nf).
End Cumulator.
Arguments Chunks {V} _. Arguments Arr {V} _. Arguments mkCum {V} _ _.
Arguments c_tlen {V} _. Arguments c_fields {V} _.
Arguments cum_train {V} _ _ _. Arguments append_all {V} _ _. Arguments cum_stop_fields {V} _ _ _.
Arguments concatenate {V} _.
