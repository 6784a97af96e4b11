(** Model of DiscreteHopfieldClassifier, mdp/nodes/classifier_nodes.py:242-357, in exact arithmetic.

    A pattern is the list of its truth values; the states of the net are lists of 1 and -1.  The orders in which numx_rand.shuffle arranges
    the rows are a parameter: [orders t] is used in sweep t.  A while loop is a function with fuel; None: out of fuel. *)
From Coq Require Import List Arith QArith Qcanon Bool.
From Verif Require Import CovModel RoutModel MiscModel.
Import ListNotations.
Open Scope Qc_scope.

(** _train_one :291-295; _num_patterns is the number of patterns *)
Definition hop_train_one (n : nat) (w : mat) (p : list bool) : mat :=
  let s := bool_to_sign p in fun i j => w i j + nth i s 0 * nth j s 0 / qn n.
(** _train :280-289 over all chunks, _stop_training :316-320 *)
Definition hop_train (n : nat) (w : mat) (ps : list (list bool)) : mat := fold_left (hop_train_one n) ps w.
Definition hop_stop (w : mat) : mat := fun i j => if (i =? j)%nat then 0 else w i j.

Section Label.
  Context (n : nat) (w : mat) (threshold : row).
  (** numx.dot(w_row, pattern) *)
  Definition field_at (s : list Qc) (r : nat) : Qc := qsum (map (fun j => w r j * nth j s 0) (seq 0 n)).
  (** one pass of the inner loop :345-355; the second component is has_converged *)
  Definition hop_update (sc : list Qc * bool) (r : nat) : list Qc * bool :=
    let (s, conv) := sc in
    let v := sign (field_at s r - threshold r) in
    if Qc_eq_dec v 0 then (s, conv)
    else if Qc_eq_dec (nth r s 0) v then (s, conv) else (set r v s, false).
  Definition hop_sweep (order : list nat) (s : list Qc) : list Qc * bool := fold_left hop_update order (s, true).
  (** the while loop :338-355 *)
  Fixpoint hop_loop (fuel t : nat) (orders : nat -> list nat) (s : list Qc) : option (list Qc) :=
    match fuel with
    | O => None
    | S fuel => let (s', conv) := hop_sweep (orders t) s in if conv then Some s' else hop_loop fuel (S t) orders s'
    end.
  (** _label_one :334-356 *)
  Definition hop_label (fuel : nat) (orders : nat -> list nat) (p : list bool) : option (list bool) :=
    option_map (fun s => sign_to_bool s true) (hop_loop fuel 0 orders (bool_to_sign p)).
End Label.
