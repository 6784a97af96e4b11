(** Properties C06, C07, C68-C71 (flows as containers). *)
From Coq Require Import List Arith ZArith Bool Lia.
From Verif Require Import PyList FlowListModel.
Import ListNotations.
Open Scope nat_scope.

(** *** Vocabulary *)
(** Adjacent nodes with both dimensions set agree. *)
Definition consistent (dims : dimf) (l : list value) : Prop :=
  forall i a b o n, nth_error l i = Some (VNode a) -> nth_error l (S i) = Some (VNode b) ->
    snd (dims a) = Some o -> fst (dims b) = Some n -> o = n.
Definition is_iadd (o : op) : bool := match o with OIaddFlow _ _ | OIaddValue _ _ => true | _ => false end.
Definition raised (r : result) : Prop := exists e, r = RExc e.

(** States reached by operations on existing objects, raising or not, except that no [+=] raised. *)
Inductive reach (dims : dimf) : st -> Prop :=
| reach_init : reach dims (mkSt [] [])
| reach_step s o : reach dims s -> valid s o -> (is_iadd o = true -> ~ raised (snd (step dims s o))) -> reach dims (fst (step dims s o)).

(** The flow an operation is meant to change. *)
Definition target (o : op) : option nat :=
  match o with
  | OSetItem f _ _ | OSetSlice f _ _ _ | ODelItem f _ | ODelSlice f _ | OIaddFlow f _ | OIaddValue f _
  | OAppend f _ | OExtend f _ | OInsert f _ _ | OPop f _ => Some f
  | _ => None
  end.

(** *** Proofs *)
Lemma check_ok dims l : check_nodes dims l = None -> consistent dims l.
Proof.
  induction l as [|a l IH]; intros H i x y o n; [destruct i; discriminate|].
  destruct l as [|b l]; [intros _ H2; destruct i; cbn in H2; [discriminate|destruct i; discriminate]|].
  cbn [check_nodes] in H. destruct a as [a|]; [|discriminate]. destruct b as [b|]; [|discriminate].
  destruct (check_dims (snd (dims a)) (fst (dims b))) as [e|] eqn:E; [discriminate|].
  destruct i as [|i].
  - cbn. intros [= <-] [= <-] Ho Hi. rewrite Ho, Hi in E. unfold check_dims in E.
    destruct o as [|o]; cbn in E; destruct n as [|n]; try discriminate; try reflexivity.
    destruct (Nat.eqb_spec o n); [congruence|discriminate].
  - cbn [nth_error]. apply (IH H i).
Qed.

Lemma upd_len {T} (l : list T) i v : length (upd l i v) = length l.
Proof. revert i. induction l as [|x l IH]; intros [|i]; cbn; auto. Qed.
Lemma upd_same {T} (l : list T) i v d : i < length l -> nth i (upd l i v) d = v.
Proof. revert i. induction l as [|x l IH]; intros [|i] H; cbn in *; try lia; auto. apply IH. lia. Qed.
Lemma upd_other {T} (l : list T) i j v d : i <> j -> nth j (upd l i v) d = nth j l d.
Proof. revert i j. induction l as [|x l IH]; intros [|i] [|j] H; cbn; try reflexivity; try lia. apply IH. lia. Qed.

Definition wfst (s : st) : Prop := forall f, f < length (flows s) -> nth f (flows s) (length (heap s)) < length (heap s).
Definition inv (dims : dimf) (s : st) : Prop :=
  wfst s /\ forall f, f < length (flows s) -> check_nodes dims (nodes s f) = None.

Lemma nodes_old s l fs f : wfst s -> f < length (flows s) -> nth f fs (length (heap s ++ [l])) = nth f (flows s) (length (heap s)) ->
  nodes (mkSt (heap s ++ [l]) fs) f = nodes s f.
Proof. intros W H E. unfold nodes, lst. cbn [heap flows]. rewrite E, app_nth1 by (apply W; exact H). reflexivity. Qed.

Lemma nth_dflt {T} (l : list T) i d d' : i < length l -> nth i l d = nth i l d'.
Proof. intros. apply nth_indep. assumption. Qed.

Lemma alloc_nodes s l f : wfst s -> f < length (flows s) -> nodes (alloc s l) f = nodes s f.
Proof. intros W H. apply nodes_old; auto. apply nth_dflt. exact H. Qed.
Lemma alloc_wf s l : wfst s -> wfst (alloc s l).
Proof.
  intros W f H. cbn in *. rewrite (nth_dflt _ _ _ (length (heap s))) by exact H. rewrite app_length. cbn. specialize (W f H). lia.
Qed.

Lemma accept_same s f l s' e dims : accept dims s f l = (s', RExc e) -> s' = s.
Proof. unfold accept. destruct (check_nodes dims l); congruence. Qed.
Lemma accept_ok s f l s' r dims : accept dims s f l = (s', r) -> ~ raised r -> wfst s -> f < length (flows s) ->
  wfst s' /\ length (flows s') = length (flows s) /\ nodes s' f = l /\ check_nodes dims l = None /\
  (forall g, g < length (flows s) -> g <> f -> nodes s' g = nodes s g) /\
  (forall k, k < length (heap s) -> lst s' k = lst s k).
Proof.
  unfold accept. destruct (check_nodes dims l) as [e|] eqn:E; intros H Hr W Hf.
  { injection H as <- <-. destruct Hr. eexists; reflexivity. }
  injection H as <- <-. cbn [flows heap].
  assert (forall g, g < length (flows s) -> g <> f -> nth g (upd (flows s) f (length (heap s))) (length (heap s ++ [l])) = nth g (flows s) (length (heap s))) as Ho.
  { intros g Hg Hne. rewrite upd_other by auto. apply nth_dflt. exact Hg. }
  split.
  { intros g Hg. cbn in *. rewrite upd_len in Hg. destruct (Nat.eq_dec g f) as [->|Hne].
    - rewrite upd_same by exact Hf. rewrite app_length. cbn. lia.
    - rewrite Ho by auto. rewrite app_length. cbn. specialize (W g Hg). lia. }
  split; [apply upd_len|]. split.
  { unfold nodes, lst. cbn. rewrite upd_same by exact Hf. rewrite app_nth2, Nat.sub_diag by lia. reflexivity. }
  split; [reflexivity|]. split.
  { intros g Hg Hne. apply nodes_old; auto. }
  intros k Hk. unfold lst. cbn. apply app_nth1. exact Hk.
Qed.

Lemma mk_flow_of_ok s l s' r dims : mk_flow_of dims s l = (s', r) -> wfst s -> 
  (raised r /\ s' = s) \/
  (r = RFlow (length (flows s)) /\ wfst s' /\ length (flows s') = S (length (flows s)) /\ nodes s' (length (flows s)) = l /\
   check_nodes dims l = None /\ (forall g, g < length (flows s) -> nodes s' g = nodes s g) /\ (forall k, k < length (heap s) -> lst s' k = lst s k)).
Proof.
  unfold mk_flow_of, mk_flow, alloc, lst. cbn [heap flows]. rewrite app_nth2, Nat.sub_diag by lia. cbn [nth].
  destruct (check_nodes dims l) as [e|] eqn:E; intros [= <- <-] W; [left; split; [eexists; reflexivity|reflexivity]|right].
  cbn [heap flows].
  assert (forall g, g < length (flows s) -> nth g (flows s ++ [length (heap s)]) (length (heap s ++ [l])) = nth g (flows s) (length (heap s))) as Ho.
  { intros g Hg. rewrite app_nth1 by exact Hg. apply nth_dflt. exact Hg. }
  split; [reflexivity|]. split.
  { intros g Hg. cbn in *. rewrite app_length in Hg. cbn in Hg. destruct (Nat.eq_dec g (length (flows s))) as [->|Hne].
    - rewrite app_nth2, Nat.sub_diag by lia. cbn. rewrite app_length. cbn. lia.
    - rewrite Ho by lia. rewrite app_length. cbn. assert (g < length (flows s)) as Hg' by lia. specialize (W g Hg'). lia. }
  split; [rewrite app_length; cbn; lia|]. split.
  { unfold nodes, lst. cbn. rewrite (app_nth2 (flows s)), Nat.sub_diag by lia. cbn. rewrite app_nth2, Nat.sub_diag by lia. reflexivity. }
  split; [reflexivity|]. split; [intros g Hg; apply nodes_old; auto|]. intros k Hk. apply app_nth1. exact Hk.
Qed.

(** What an operation other than += does: raise and change nothing, or change/create one flow, without touching a list object. *)
Definition effect (dims : dimf) (s : st) (o : op) (s' : st) (r : result) : Prop :=
  (raised r /\ s' = s) \/
  (~ raised r /\ wfst s' /\ (forall k, k < length (heap s) -> lst s' k = lst s k) /\
   length (flows s) <= length (flows s') /\
   (forall g, g < length (flows s) -> target o <> Some g -> nodes s' g = nodes s g) /\
   (forall g, g < length (flows s') -> nodes s' g = nodes s g \/ check_nodes dims (nodes s' g) = None) /\
   (forall g, length (flows s) <= g < length (flows s') -> check_nodes dims (nodes s' g) = None)).

Lemma effect_accept dims s o f l s' r : accept dims s f l = (s', r) -> wfst s -> f < length (flows s) -> target o = Some f -> effect dims s o s' r.
Proof.
  intros E W Hf Ht. unfold accept in E.
  assert ((exists e, r = RExc e) \/ ~ raised r) as [Hr|Hr].
  { destruct (check_nodes dims l); injection E as <- <-; [left; eauto|right; intros [e He]; discriminate]. }
  - left. split; [exact Hr|]. destruct Hr as [e ->]. eapply accept_same. exact E.
  - right. destruct (accept_ok s f l s' r dims E Hr W Hf) as (H1 & H2 & H3 & H4 & H5 & H6).
    split; [exact Hr|]. split; [exact H1|]. split; [exact H6|]. split; [lia|]. split.
    { intros g Hg Hne. apply H5; [exact Hg|]. congruence. }
    split; [|intros g Hg; lia]. intros g Hg. destruct (Nat.eq_dec g f) as [->|Hne]; [right; congruence|left; apply H5; [lia|exact Hne]].
Qed.
Lemma effect_same dims s o r : wfst s -> ~ raised r -> effect dims s o s r.
Proof. intros W Hr. right. split; [exact Hr|]. split; [exact W|]. repeat split; auto. intros g Hg. lia. Qed.
Lemma effect_exc dims s o e : effect dims s o s (RExc e).
Proof. left. split; [eexists; reflexivity|reflexivity]. Qed.
Lemma effect_new dims s o l s' r : mk_flow_of dims s l = (s', r) -> wfst s -> effect dims s o s' r.
Proof.
  intros E W. destruct (mk_flow_of_ok s l s' r dims E W) as [(H1 & H2)|(H1 & H2 & H3 & H4 & H5 & H6 & H7)]; [left; auto|right].
  split; [rewrite H1; intros [e He]; discriminate|]. split; [exact H2|]. split; [exact H7|]. split; [lia|]. split; [auto|]. split.
  - intros g Hg. destruct (Nat.eq_dec g (length (flows s))) as [->|Hne]; [right; congruence|left; apply H6; lia].
  - intros g Hg. assert (g = length (flows s)) as -> by lia. congruence.
Qed.

Lemma step_effect dims s o : wfst s -> valid s o -> is_iadd o = false -> effect dims s o (fst (step dims s o)) (snd (step dims s o)).
Proof.
  intros W Hv Hi.
  assert (forall x r, (x, r) = (fst (x, r), snd (x, r)) :> st * result) as _ by reflexivity.
  assert (forall f l (o : op), f < length (flows s) -> target o = Some f -> effect dims s o (fst (accept dims s f l)) (snd (accept dims s f l))) as Ha.
  { intros f l o' Hf Ht. destruct (accept dims s f l) eqn:E. eapply effect_accept; eassumption. }
  assert (forall l o, effect dims s o (fst (mk_flow_of dims s l)) (snd (mk_flow_of dims s l))) as Hn.
  { intros l o'. destruct (mk_flow_of dims s l) eqn:E. eapply effect_new; eassumption. }
  assert (forall f sl v0 v1 o, f < length (flows s) -> target o = Some f -> effect dims s o (fst (setslice dims s f sl v0 v1)) (snd (setslice dims s f sl v0 v1))) as Hs.
  { intros f sl v0 v1 o' Hf Ht. unfold setslice. destruct (negb (forallb isnode v0)); [apply effect_exc|].
    unfold of_pres. destruct (set_slice (nodes s f) sl v1); [apply Ha; assumption|apply effect_exc]. }
  assert (forall (T : Type) (r : option T) k o, (forall l, effect dims s o (fst (k l)) (snd (k l))) -> effect dims s o (fst (of_opt s r k)) (snd (of_opt s r k))) as Ho.
  { intros T [l|] k o' H; [apply H|apply effect_exc]. }
  assert (forall r k o, (forall l, effect dims s o (fst (k l)) (snd (k l))) -> effect dims s o (fst (of_pres s r k)) (snd (of_pres s r k))) as Hp.
  { intros [l|e] k o' H; [apply H|apply effect_exc]. }
  assert (forall v, ~ raised (RValue v)) as Hrv by (intros v [e He]; discriminate).
  destruct o; cbn [step valid is_iadd] in *; try discriminate; try (apply Hs; [tauto|reflexivity]); try (apply Ho; intros l'); try (apply Hp; intros l').
  - right. cbn [fst snd]. split; [intros [e He]; discriminate|]. split; [apply alloc_wf; exact W|]. split.
    { intros k Hk. unfold lst. cbn. apply app_nth1. exact Hk. }
    split; [cbn; lia|]. split; [intros g Hg _; apply alloc_nodes; assumption|]. split; [|cbn; intros g Hg; lia].
    intros g Hg. left. apply alloc_nodes; assumption.
  - unfold mk_flow. destruct (check_nodes dims (lst s r)) as [e|] eqn:E; [apply effect_exc|]. cbn [fst snd].
    assert (forall g, g < length (flows s) -> nodes {| heap := heap s; flows := flows s ++ [r] |} g = nodes s g) as Hold.
    { intros g Hg. unfold nodes, lst. cbn. rewrite app_nth1 by exact Hg. reflexivity. }
    assert (nodes {| heap := heap s; flows := flows s ++ [r] |} (length (flows s)) = lst s r) as Hnew.
    { unfold nodes, lst. cbn. rewrite (app_nth2 (flows s)), Nat.sub_diag by lia. reflexivity. }
    right. split; [intros [e He]; discriminate|]. split.
    { intros g Hg. cbn in *. rewrite app_length in Hg. cbn in Hg. destruct (Nat.eq_dec g (length (flows s))) as [->|Hne].
      - rewrite app_nth2, Nat.sub_diag by lia. exact Hv.
      - rewrite app_nth1 by lia. apply W. lia. }
    split; [reflexivity|]. cbn [flows]. rewrite app_length. cbn [length]. split; [lia|]. split; [auto|]. split.
    + intros g Hg. destruct (Nat.eq_dec g (length (flows s))) as [->|Hne]; [right; congruence|left; apply Hold; lia].
    + intros g Hg. assert (g = length (flows s)) as -> by lia. congruence.
  - apply effect_same; [exact W|apply Hrv].
  - apply Hn.
  - unfold setitem. destruct (negb (isnode v)); [apply effect_exc|]. apply Ho. intros l'. apply Ha; [exact Hv|reflexivity].
  - apply Ha; [exact Hv|reflexivity].
  - apply Ha; [exact Hv|reflexivity].
  - apply Hn.
  - destruct (isnode v); [apply Hn|apply effect_exc].
  - unfold getitem, of_opt. destruct (get_item (nodes s f) i) as [v|]; [|apply effect_exc].
    unfold delitem, of_opt. destruct (del_item (nodes s f) i) as [l'|]; [|apply effect_exc].
    pose proof (Ha f l' (OPop f i) Hv eq_refl) as H. destruct (accept dims s f l') as [s1 r1]. cbn [fst snd] in H.
    destruct H as [(Hr & ->)|(Hr & H)].
    + destruct Hr as [e ->]. cbn. apply effect_exc.
    + assert (forall R : st * result, R = match r1 with RExc e => (s1, RExc e) | _ => (s1, RValue v) end -> R = (s1, RValue v)) as Hr1.
      { intros R ->. destruct r1; try reflexivity. destruct Hr. eexists; reflexivity. }
      rewrite (Hr1 _ eq_refl). cbn [fst snd]. right. split; [apply Hrv|exact H].
Qed.

Lemma iadd_ok dims s f vs : wfst s -> f < length (flows s) -> (forall g, g < length (flows s) -> check_nodes dims (nodes s g) = None) ->
  ~ raised (snd (iadd dims s f vs)) -> inv dims (fst (iadd dims s f vs)).
Proof.
  intros W Hf Hc Hr. unfold iadd in *. destruct (check_nodes dims (nodes s f ++ vs)) as [e|] eqn:E.
  { destruct Hr. eexists; reflexivity. }
  cbn [fst]. pose proof (W f Hf) as Wf. split.
  - intros g Hg. cbn in *. rewrite upd_len. apply W. exact Hg.
  - intros g Hg. cbn in Hg. unfold nodes, lst in *. cbn [heap flows]. rewrite upd_len.
    destruct (Nat.eq_dec (nth g (flows s) (length (heap s))) (nth f (flows s) (length (heap s)))) as [Heq|Hne].
    + rewrite Heq. rewrite upd_same by exact Wf. exact E.
    + rewrite upd_other by auto. apply Hc. exact Hg.
Qed.

Lemma reach_inv dims s : reach dims s -> inv dims s.
Proof.
  induction 1 as [|s o Hr (W & Hc) Hv Hi].
  - split; intros f Hf; cbn in Hf; lia.
  - destruct (is_iadd o) eqn:Ei.
    + specialize (Hi eq_refl). destruct o; try discriminate; cbn [step] in *.
      * apply iadd_ok; auto. cbn in Hv. tauto.
      * destruct (isnode v); [apply iadd_ok; auto|split; auto].
    + destruct (step_effect dims s o W Hv Ei) as [(H1 & H2)|(H1 & H2 & H3 & H4 & H5 & H6 & H7)]; [rewrite H2; split; auto|].
      split; [exact H2|]. intros g Hg. destruct (H6 g Hg) as [He|He]; [|exact He].
      destruct (Nat.lt_ge_cases g (length (flows s))) as [Hlt|Hge]; [rewrite He; apply Hc; exact Hlt|apply H7; lia].
Qed.

(** C06. Every flow is dimensionally consistent in every state reached by container operations, raising ones included - as
    long as no [+=] raised. *)
Theorem C06_flows_consistent :
  forall dims s, reach dims s -> forall f, f < length (flows s) -> consistent dims (nodes s f).
Proof. intros dims s H f Hf. apply check_ok. apply (reach_inv dims s H). exact Hf. Qed.
Print Assumptions C06_flows_consistent.

(** A raising [+=] leaves an inconsistent flow. *)
Definition dims1 : dimf := fun id => match id with 0 => (Some 2, Some 3) | 1 => (Some 3, Some 4) | 2 => (Some 7, None) | _ => (None, None) end.
Theorem C06_iadd_refuted :
  exists dims s o e, reach dims s /\ valid s o /\ snd (step dims s o) = RExc e /\ 
    ~ consistent dims (nodes (fst (step dims s o)) 0).
Proof.
  exists dims1, (fst (step dims1 (fst (step dims1 (mkSt [] []) (ONewList [VNode 0; VNode 1]))) (OFlow 0))), (OIaddValue 0 (VNode 2)), PyValueError.
  split.
  { apply reach_step; [apply reach_step; [apply reach_init|exact I|discriminate]|cbn; lia|discriminate]. }
  split; [cbn; lia|]. split; [reflexivity|]. intros H. specialize (H 1 1 2 4 7 eq_refl eq_refl eq_refl eq_refl). discriminate.
Qed.
Print Assumptions C06_iadd_refuted.

(** C07. A raising operation changes nothing at all - except [+=]. *)
Theorem C07_failing_edit_atomic :
  forall dims s o e, reach dims s -> valid s o -> is_iadd o = false ->
  snd (step dims s o) = RExc e -> fst (step dims s o) = s.
Proof.
  intros dims s o e Hr Hv Hi He. destruct (reach_inv dims s Hr) as (W & _).
  destruct (step_effect dims s o W Hv Hi) as [(_ & H)|(H & _)]; [exact H|]. destruct H. exists e. exact He.
Qed.
Print Assumptions C07_failing_edit_atomic.
Theorem C07_iadd_refuted :
  exists dims s o e, reach dims s /\ valid s o /\ snd (step dims s o) = RExc e /\ nodes (fst (step dims s o)) 0 <> nodes s 0.
Proof.
  exists dims1, (fst (step dims1 (fst (step dims1 (mkSt [] []) (ONewList [VNode 0; VNode 1]))) (OFlow 0))), (OIaddValue 0 (VNode 2)), PyValueError.
  split.
  { apply reach_step; [apply reach_step; [apply reach_init|exact I|discriminate]|cbn; lia|discriminate]. }
  split; [cbn; lia|]. split; [reflexivity|]. discriminate.
Qed.
Print Assumptions C07_iadd_refuted.

Example C06_case :
  let s := run dims1 (mkSt [] []) [ONewList [VNode 0; VNode 1]; OFlow 0; OAppend 0 (VNode 2); OAppend 0 (VNode 5); OInsert 0 (-1) (VNode 6);
                                   OGetSlice 0 (mkSlice None None (Some 2%Z)); ODelItem 0 5; OAddFlow 1 0; OIaddValue 1 (VNode 2); OPop 0 0] in
  map (nodes s) [0; 1; 2] = [[VNode 1; VNode 6; VNode 5]; [VNode 0; VNode 6; VNode 2]; [VNode 0; VNode 6; VNode 0; VNode 1; VNode 6; VNode 5]].
Proof. vm_compute. reflexivity. Qed.

(** C68. Editing a flow with anything but [+=] leaves every other flow and every list object (for instance the list a flow was
    built from) as they were. *)
Theorem C68_edits_are_isolated :
  forall dims s o, reach dims s -> valid s o -> is_iadd o = false ->
  let s' := fst (step dims s o) in
  (forall g, g < length (flows s) -> target o <> Some g -> nodes s' g = nodes s g) /\
  (forall k, k < length (heap s) -> lst s' k = lst s k).
Proof.
  intros dims s o Hr Hv Hi. destruct (reach_inv dims s Hr) as (W & _).
  destruct (step_effect dims s o W Hv Hi) as [(_ & H)|(_ & _ & H1 & _ & H2 & _)]; cbn zeta; [rewrite H|]; auto.
Qed.
Print Assumptions C68_edits_are_isolated.
(** [+=] changes the list the flow was built from, and with it another flow built from that list. *)
Theorem C68_iadd_refuted :
  exists dims s o, reach dims s /\ valid s o /\ target o = Some 0 /\ snd (step dims s o) = RFlow 0 /\ 1 < length (flows s) /\
    nodes (fst (step dims s o)) 1 <> nodes s 1.
Proof.
  exists dims1, (fst (step dims1 (fst (step dims1 (fst (step dims1 (mkSt [] []) (ONewList [VNode 0]))) (OFlow 0))) (OFlow 0))), (OIaddValue 0 (VNode 1)).
  split.
  { apply reach_step; [apply reach_step; [apply reach_step; [apply reach_init|exact I|discriminate]|cbn; lia|discriminate]|cbn; lia|discriminate]. }
  repeat split; cbn; try lia. discriminate.
Qed.
Print Assumptions C68_iadd_refuted.
Example C68_case :
  let s := run dims1 (mkSt [] []) [ONewList [VNode 0; VNode 1]; OFlow 0; OFlow 0; OAppend 0 (VNode 5); ODelItem 1 0] in
  (nodes s 0, nodes s 1, lst s 0) = ([VNode 0; VNode 1; VNode 5], [VNode 1], [VNode 0; VNode 1]).
Proof. vm_compute. reflexivity. Qed.

(** C69. The operations do to the sequence of nodes what the list operation of that name does. *)
Definition list_insert {T} (l : list T) (i : Z) (x : T) : list T :=   (* list.insert *)
  let n := Z.of_nat (length l) in
  let k := Z.to_nat (Z.max 0 (Z.min n (if (i <? 0)%Z then i + n else i))) in firstn k l ++ x :: skipn k l.
Definition list_op (s : st) (o : op) : option (list value) :=
  let l f := nodes s f in
  match o with
  | OAppend f v | OIaddValue f v | OAddValue f v => Some (l f ++ [v])
  | OExtend f g | OIaddFlow f g | OAddFlow f g => Some (l f ++ l g)
  | OInsert f i v => Some (list_insert (l f) i v)
  | OPop f i | ODelItem f i => del_item (l f) i
  | OSetItem f i v => set_item (l f) i v
  | OSetSlice f sl _ vs => match set_slice (l f) sl vs with POk r => Some r | PErr _ => None end
  | ODelSlice f sl => match del_slice (l f) sl with POk r => Some r | PErr _ => None end
  | OGetSlice f sl => match get_slice (l f) sl with POk r => Some r | PErr _ => None end
  | _ => None
  end.
(** The flow that holds the result: the changed one, or a new one. *)
Definition result_flow (s : st) (o : op) : nat := match target o with Some f => f | None => length (flows s) end.
Definition is_edit (o : op) : bool := match o with ONewList _ | OFlow _ | OGetItem _ _ => false | _ => true end.

Lemma accept_nodes dims s f l : wfst s -> f < length (flows s) -> ~ raised (snd (accept dims s f l)) -> nodes (fst (accept dims s f l)) f = l.
Proof. intros W Hf Hr. destruct (accept dims s f l) as [s' r] eqn:E. eapply accept_ok; eassumption. Qed.
Lemma new_nodes dims s l : wfst s -> ~ raised (snd (mk_flow_of dims s l)) -> nodes (fst (mk_flow_of dims s l)) (length (flows s)) = l.
Proof.
  intros W Hr. destruct (mk_flow_of dims s l) as [s' r] eqn:E. destruct (mk_flow_of_ok s l s' r dims E W) as [(H & _)|H]; [contradiction|].
  destruct H as (_ & _ & _ & H & _). exact H.
Qed.
Lemma iadd_nodes dims s f vs : wfst s -> f < length (flows s) -> nodes (fst (iadd dims s f vs)) f = nodes s f ++ vs.
Proof.
  intros W Hf. unfold iadd. destruct (check_nodes dims (nodes s f ++ vs)); cbn [fst]; unfold nodes at 1, lst; cbn [heap flows];
    rewrite upd_len, upd_same by (apply W; exact Hf); reflexivity.
Qed.

Theorem C69_acts_like_list :
  forall dims s o, reach dims s -> valid s o -> is_edit o = true -> ~ raised (snd (step dims s o)) ->
  Some (nodes (fst (step dims s o)) (result_flow s o)) = list_op s o.
Proof.
  intros dims s o Hr Hv He. destruct (reach_inv dims s Hr) as (W & _).
  assert (forall e, ~ ~ raised (RExc e)) as Hx by (intros e H; apply H; eexists; reflexivity).
  destruct o; try discriminate; unfold result_flow; cbn [target list_op step valid] in *.
  - unfold of_pres. destruct (get_slice (nodes s f) s0); cbn [snd]; intros H; [|destruct (Hx _ H)]. rewrite new_nodes; auto.
  - unfold setitem, of_opt. destruct (negb (isnode v)); cbn [snd]; intros H; [destruct (Hx _ H)|].
    destruct (set_item (nodes s f) i v); [|destruct (Hx _ H)]. rewrite accept_nodes; auto.
  - unfold setslice, of_pres. destruct (negb (forallb isnode vs0)); cbn [snd]; intros H; [destruct (Hx _ H)|].
    destruct (set_slice (nodes s f) s0 vs1); [|destruct (Hx _ H)]. rewrite accept_nodes; auto.
  - unfold delitem, of_opt. destruct (del_item (nodes s f) i); intros H; [|destruct (Hx _ H)]. rewrite accept_nodes; auto.
  - unfold of_pres. destruct (del_slice (nodes s f) s0); intros H; [|destruct (Hx _ H)]. rewrite accept_nodes; auto.
  - intros H. rewrite new_nodes; auto.
  - destruct (isnode v); intros H; [|destruct (Hx _ H)]. rewrite new_nodes; auto.
  - intros H. rewrite iadd_nodes; tauto.
  - destruct (isnode v); intros H; [|destruct (Hx _ H)]. rewrite iadd_nodes; auto.
  - unfold setslice, plain. rewrite set_slice_end. cbn [of_pres]. destruct (negb (forallb isnode [v])); intros H; [destruct (Hx _ H)|].
    rewrite accept_nodes; auto.
  - unfold setslice, plain. rewrite set_slice_end. cbn [of_pres]. destruct (negb (forallb isnode (nodes s g))); intros H; [destruct (Hx _ H)|].
    rewrite accept_nodes; tauto.
  - unfold setslice, plain. rewrite set_slice_insert. cbn [of_pres]. destruct (negb (forallb isnode [v])); intros H; [destruct (Hx _ H)|].
    rewrite accept_nodes; auto.
  - unfold getitem, of_opt. destruct (get_item (nodes s f) i) as [v|]; intros H; [|destruct (Hx _ H)].
    unfold delitem, of_opt in *. destruct (del_item (nodes s f) i) as [l|]; [|destruct (Hx _ H)].
    destruct (accept dims s f l) as [s' r] eqn:E.
    assert (~ raised r) as Hr1. { intros [e ->]. destruct (Hx _ H). }
    assert (fst (match r with RExc e => (s', RExc e) | _ => (s', RValue v) end) = s') as -> by (destruct r; reflexivity).
    f_equal. eapply accept_ok; eassumption.
Qed.
Print Assumptions C69_acts_like_list.

(** C70. Assigning an iterable of nodes to a slice puts exactly these nodes there. This holds for sequences (C69 with
    [vs0 = vs1]); it is false for a one-shot iterator, which the type check uses up: the slice is deleted. *)
Theorem C70_slice_iterator_refuted :
  exists dims s o, reach dims s /\ valid s o /\ o = OSetSlice 0 (plain 0 1) [VNode 3] [] /\ snd (step dims s o) = RNone /\
    nodes s 0 = [VNode 0; VNode 1] /\ nodes (fst (step dims s o)) 0 = [VNode 1].
Proof.
  exists dims1, (fst (step dims1 (fst (step dims1 (mkSt [] []) (ONewList [VNode 0; VNode 1]))) (OFlow 0))), (OSetSlice 0 (plain 0 1) [VNode 3] []).
  split.
  { apply reach_step; [apply reach_step; [apply reach_init|exact I|discriminate]|cbn; lia|discriminate]. }
  repeat split; cbn; try lia.
Qed.
Print Assumptions C70_slice_iterator_refuted.

(** C71. A list of nodes whose set dimensions agree is accepted by the constructor.  True if no output_dim is 0; false
    otherwise: [(out and inp) is not None] lets out = 0, inp = None through to the error branch. *)
Theorem C71_consistent_accepted :
  forall dims l, (forall v, In v l -> exists a, v = VNode a /\ snd (dims a) <> Some 0) -> consistent dims l -> check_nodes dims l = None.
Proof.
  intros dims. induction l as [|x l IH]; intros Hn Hc; [reflexivity|]. destruct l as [|y l]; [reflexivity|].
  cbn [check_nodes]. destruct (Hn x (or_introl eq_refl)) as (a & -> & Ha). destruct (Hn y (or_intror (or_introl eq_refl))) as (b & -> & Hb).
  assert (check_dims (snd (dims a)) (fst (dims b)) = None) as ->.
  { specialize (Hc 0 a b). cbn in Hc. destruct (snd (dims a)) as [[|o]|]; [congruence| |reflexivity].
    destruct (fst (dims b)) as [n|]; [|reflexivity]. specialize (Hc (S o) n eq_refl eq_refl eq_refl eq_refl). subst n.
    unfold check_dims. rewrite Nat.eqb_refl. reflexivity. }
  apply IH; [intros v Hv; apply Hn; right; exact Hv|]. intros i. exact (Hc (S i)).
Qed.
Print Assumptions C71_consistent_accepted.
Theorem C71_consistent_accepted_refuted :
  exists dims l, consistent dims l /\ (forall v, In v l -> isnode v = true) /\ check_nodes dims l = Some PyTypeError.
Proof.
  exists (fun id => match id with 0 => (Some 2, Some 0) | _ => (None, None) end), [VNode 0; VNode 1].
  split; [|split; [intros v [<-|[<-|[]]]; reflexivity|reflexivity]].
  intros [|i] a b o n; cbn.
  - intros [= <-] [= <-] _ H. discriminate.
  - destruct i; cbn; [discriminate|]. destruct i; discriminate.
Qed.
Print Assumptions C71_consistent_accepted_refuted.
Example C71_case : check_nodes dims1 [VNode 0; VNode 1; VNode 5; VNode 2] = None /\ check_nodes dims1 [VNode 0; VNode 2] = Some PyValueError.
Proof. split; reflexivity. Qed.
