(** Properties of SenderBiNode: C505. How keys are read by the nodes is in BiModel.v (parse_key). *)
From Coq Require Import String List.
From Verif Require Import BiModel BiProps SenderModel.
Import ListNotations.
Local Open Scope string_scope.
(** the message has exactly the data under the key msg_x, addressed to the recipient if its id is not empty and has no separator, to any node if there is none *)
Theorem C505_addressed : forall X rid (x : X) no_x, good_id rid -> exists k, snd (sender_execute X (Some rid) x no_x) = [(k, x)] /\ parse_key k = BOk (Some (rid, "msg_x")).
Proof.
  intros X rid x no_x G. eexists. split; [reflexivity|]. pose proof (parse_key_spec rid "msg_x" G eq_refl) as P. unfold sender_key. destruct rid as [|c s]; [destruct G; congruence|]. rewrite <- P. f_equal. unfold spec_key. clear.
  generalize (String c s). intros t. induction t as [|d t IH]; [reflexivity|]. cbn in *. now f_equal.
Qed.
Theorem C505_all : forall X (x : X) no_x rid, rid = None \/ rid = Some "" -> snd (sender_execute X rid x no_x) = [("msg_x", x)] /\ parse_key "msg_x" = BOk None.
Proof. intros X x no_x rid [->| ->]; split; reflexivity. Qed.
Theorem C505_x : forall X rid (x : X), fst (sender_execute X rid x false) = Some x /\ fst (sender_execute X rid x true) = None.
Proof. intros. split; reflexivity. Qed.
(** ids with the separator: the reading of the key raises ValueError, or the key is that of no node *)
Theorem C505_refuted : forall X (x : X), (exists k, snd (sender_execute X (Some "a->b") x false) = [(k, x)] /\ parse_key k = BErr EValue) /\ (exists k, snd (sender_execute X (Some "->b") x false) = [(k, x)] /\ parse_key k = BOk None /\ k <> "msg_x").
Proof. intros X x. split; eexists; (split; [reflexivity|]); [reflexivity|split; [reflexivity|discriminate]]. Qed.
Example ex_C505 : sender_execute nat (Some "sfa") 7 true = (None, [("sfa->msg_x", 7)]). Proof. reflexivity. Qed.
