(** Properties of the slides of a trace: C506, C507 *)
From Coq Require Import String List Arith Bool Lia.
From Verif Require Import SlideModel.
Import ListNotations.

Section Slides.
  Variables N S R : Type.
  Notation trace := (trace N S R). Notation callbacks := (callbacks N S).
  Lemma callbacks_ok l : forall s s', callbacks s l = (s', true) -> exists rs, l = map Some rs /\ t_index _ _ s' = t_index _ _ s + length rs /\ t_files _ _ s' = t_files _ _ s ++ seq (t_index _ _ s) (length rs) /\
    t_nodes _ _ s' = t_nodes _ _ s ++ map snd rs /\ t_sections _ _ s' = t_sections _ _ s ++ flat_map (fun r => match fst r with Some x => [x] | None => [] end) rs /\ t_open _ _ s' = t_open _ _ s.
  Proof.
    induction l as [|r l IH]; intros s s' E; cbn in E.
    - injection E as <-. exists []. cbn. rewrite !app_nil_r. repeat split. lia.
    - destruct r as [[sec n]|]; cbn in E; [|discriminate]. destruct (IH _ _ E) as (rs & -> & H1 & H2 & H3 & H4 & H5). exists ((sec, n) :: rs). cbn [t_index t_files t_nodes t_sections t_open begin_frame] in *.
      split; [reflexivity|]. cbn [length seq map flat_map fst snd]. split; [lia|]. split; [rewrite H2, <- app_assoc; reflexivity|]. split; [rewrite H3, <- app_assoc; reflexivity|]. split; [|exact H5]. rewrite H4. destruct sec; [rewrite <- app_assoc; reflexivity|reflexivity].
  Qed.
  (** ** C506: after an execution without exception there is one slide for every call of the callback, numbered from zero, with the id of its node, and either all or none have a section id *)
  Theorem C506_slides : forall l r debug s files nodes secs res, trace l (inl r) debug = (s, inl (files, nodes, secs, res)) ->
    exists rs, l = map Some rs /\ res = r /\ files = seq 0 (length rs) /\ nodes = map snd rs /\ t_open _ _ s = [] /\ (secs = None /\ Forall (fun x => fst x = None) rs \/ exists ss, secs = Some ss /\ map fst rs = map Some ss).
  Proof.
    intros l r debug s files nodes secs res E. unfold SlideModel.trace in E. destruct (callbacks (reset N S) l) as [s1 ok] eqn:C. destruct ok; [|destruct debug; discriminate].
    destruct (callbacks_ok l _ _ C) as (rs & -> & _ & H2 & H3 & H4 & H5). cbn in H2, H3, H4, H5. exists rs. split; [reflexivity|].
    assert (LF : length (flat_map (fun r : option S * N => match fst r with Some x => [x] | None => [] end) rs) <= length rs) by (clear; induction rs as [|[[x|] n] rs IH]; cbn; lia).
    destruct (t_sections N S s1) as [|x ss] eqn:Es.
    - injection E as <- <- <- <- <-. repeat split; try assumption. left. split; [reflexivity|]. clear - H4. induction rs as [|[[x|] n] rs IH]; [constructor|discriminate|]. constructor; [reflexivity|now apply IH].
    - destruct (negb _) eqn:L; [discriminate|]. apply negb_false_iff, Nat.eqb_eq in L. injection E as <- <- <- <- <-. repeat split; try assumption. right. exists (x :: ss). split; [reflexivity|]. rewrite H4 in L |- *. rewrite H2, seq_length in L. clear - L.
      induction rs as [|[[y|] n] rs IH]; [reflexivity| |].
      + cbn in *. f_equal. apply IH. lia.
      + exfalso. cbn in L. assert (LF : length (flat_map (fun r : option S * N => match fst r with Some x => [x] | None => [] end) rs) <= length rs) by (clear; induction rs as [|[[x|] m] rs IH]; cbn; lia). lia.
  Qed.
  (** every such execution gives a result, and some calls with and some without a section id raise *)
  Theorem C506_result : forall rs r debug, (Forall (fun x => fst x = None) rs \/ Forall (fun x => fst x <> None) rs) -> exists s v, trace (map Some rs) (inl r) debug = (s, inl v).
  Proof.
    intros rs r debug H. unfold SlideModel.trace. destruct (callbacks (reset N S) (map Some rs)) as [s1 ok] eqn:C.
    assert (ok = true) as ->. { clear H. revert C. generalize (reset N S). induction rs as [|[sec n] rs IH]; intros s0 C; cbn in C; [now injection C|]. eapply IH. exact C. }
    destruct (callbacks_ok _ _ _ C) as (rs' & E & _ & H2 & H3 & H4 & H5). assert (rs' = rs) as -> by (clear - E; revert rs' E; induction rs as [|a rs IH]; intros [|b rs'] E; try discriminate; [reflexivity|]; injection E as -> E; f_equal; now apply IH). cbn in H2, H4.
    destruct (t_sections N S s1) as [|x ss] eqn:Es; [eauto|]. assert (L : length (x :: ss) = length (t_files N S s1)).
    { rewrite H2, seq_length, H4. destruct H as [H|H].
      - exfalso. assert (flat_map (fun r : option S * N => match fst r with Some x => [x] | None => [] end) rs = []) as Z by (clear - H; induction H as [|[sec n] rs E _ IH]; [reflexivity|]; cbn in *; subst; exact IH). rewrite Z in H4. discriminate.
      - clear - H. induction H as [|[[y|] n] rs E _ IH]; [reflexivity| |contradiction]. cbn. f_equal. exact IH. }
    rewrite L, Nat.eqb_refl. cbn [negb]. eauto.
  Qed.
  (** ** C507: debug: the exception is reported as a TraceDebugException with the slides: instead AttributeError is raised, and the last file is left open *)
  Theorem C507_refuted : forall l fin, (exists e, fin = inr e) \/ In None l -> exists s, trace l fin true = (s, inr (TAttr N S)) /\ t_open _ _ s <> [].
  Proof.
    intros l fin H. unfold SlideModel.trace. destruct (callbacks (reset N S) l) as [s1 ok] eqn:C. assert (F : exists e, (if ok then fin else inr 0) = inr e).
    { destruct ok; [|eauto]. destruct H as [H|H]; [exact H|]. destruct (callbacks_ok _ _ _ C) as (rs & -> & _). apply in_map_iff in H as (x & E & _). discriminate. }
    destruct F as (e & ->). cbn. eexists. split; [reflexivity|]. cbn. intros Z. apply (f_equal (@length nat)) in Z. rewrite app_length in Z. cbn in Z. lia.
  Qed.
  (** without debug the exception of the flow is handed on *)
  Theorem C507_raise : forall rs e, exists s, trace (map Some rs) (inr e) false = (s, inr (TFlow N S e)) /\ t_open _ _ s = [].
  Proof.
    intros rs e. unfold SlideModel.trace. destruct (callbacks (reset N S) (map Some rs)) as [s1 ok] eqn:C. assert (ok = true) as ->. { revert C. generalize (reset N S). induction rs as [|[sec n] rs IH]; intros s0 C; cbn in C; [now injection C|]. eapply IH. exact C. }
    exists s1. split; [reflexivity|]. now destruct (callbacks_ok _ _ _ C) as (rs' & _ & _ & _ & _ & _ & ->).
  Qed.
End Slides.
Example ex_C506 : snd (trace nat nat nat [Some (Some 7, 1); Some (Some 7, 2)] (inl 5) false) = inl ([0; 1], [1; 2], Some [7; 7], 5) /\ snd (trace nat nat nat [Some (Some 7, 1); Some (None, 2)] (inl 5) false) = inr (TMismatch nat nat).
Proof. split; reflexivity. Qed.
Example ex_C507 : trace nat nat nat [Some (None, 1); None] (inl 5) true = (mkT nat nat 1 [0; 1; 1] [1] [] [1], inr (TAttr nat nat)).
Proof. reflexivity. Qed.
