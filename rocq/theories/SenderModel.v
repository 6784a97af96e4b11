(** Model of SenderBiNode._execute, bimdp/nodes/miscnodes.py:17-26; [rid] is _recipient_id. The message is a dict with one key. *)
From Coq Require Import String List.
From Verif Require Import BiModel.
Import ListNotations.
Local Open Scope string_scope.
Section Sender.
  Variable X : Type.
  Definition sender_key (rid : option string) : string :=
    match rid with
    | Some (String c s) => append (append (String c s) "->") "msg_x"
    | _ => "msg_x"
    end.
  Definition sender_execute (rid : option string) (x : X) (no_x : bool) : option X * list (string * X) := (if no_x then None else Some x, [(sender_key rid, x)]).
End Sender.
