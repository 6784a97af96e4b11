(** Properties of BiFlowNode (BiFlowNodeModel.v). *)
From Coq Require Import List Arith ZArith Bool String Lia.
From Verif Require Import BiFlowNodeModel.
Import ListNotations.
Open Scope nat_scope.

(** ** The nodes behind the BiFlowNodes *)
Fixpoint flat (t : tree) : list tree := match t with Sub _ _ kids => flat_map flat kids | t => [t] end.
Definition flatl : list tree -> list tree := flat_map flat.
Definition ids_of (o : option string) : list string := match o with Some s => [s] | None => [] end.
(** the ids of the nodes of the flat flow; of the BiFlowNodes *)
Definition leaf_id (t : tree) : list string := match t with Leaf id _ => ids_of id | _ => [] end.
Definition ids (L : list tree) : list string := flat_map leaf_id L.
Fixpoint sub_ids (t : tree) : list string := match t with Sub id _ kids => ids_of id ++ flat_map sub_ids kids | _ => [] end.
(** no BiFlowNode is empty, none has a request stored *)
Fixpoint fine (t : tree) : bool := match t with Sub _ rq kids => match rq, kids with None, _ :: _ => forallb fine kids | _, _ => false end | _ => true end.

Fixpoint tsize (t : tree) : nat := match t with Sub _ _ kids => S (fold_right (fun u a => tsize u + a) 0 kids) | _ => 1 end.
Definition size (ts : list tree) : nat := fold_right (fun u a => tsize u + a) 0 ts.

Lemma tree_ind' : forall P : tree -> Prop, (forall id k, P (Leaf id k)) -> (forall k, P (Norm k)) ->
  (forall id rq kids, Forall P kids -> P (Sub id rq kids)) -> forall t, P t.
Proof.
  intros P H1 H2 H3. fix IH 1. intros [id k | k | id rq kids]; [apply H1 | apply H2 | apply H3].
  induction kids as [|u l IHl]; constructor; [apply IH | exact IHl].
Qed.

(** position of the node with an id *)
Fixpoint fpos (s : string) (L : list tree) : option nat :=
  match L with [] => None | t :: L => match t with
                                      | Leaf id _ => if same_id id s then Some 0 else option_map S (fpos s L)
                                      | _ => option_map S (fpos s L) end end.

Lemma same_id_iff : forall o s, same_id o s = true <-> In s (ids_of o).
Proof. intros [i|] s; cbn; [rewrite String.eqb_eq | ]; intuition congruence. Qed.
Lemma same_id_not : forall o s, same_id o s = false <-> ~ In s (ids_of o).
Proof. intros o s. rewrite <- same_id_iff. destruct (same_id o s); intuition congruence. Qed.

Lemma fpos_none : forall s L, fpos s L = None <-> ~ In s (ids L).
Proof.
  induction L as [|t L IH]; cbn; [intuition|]. rewrite in_app_iff. destruct t as [id k|k|id rq kids]; cbn.
  - destruct (same_id id s) eqn:E.
    + apply same_id_iff in E. intuition congruence.
    + apply same_id_not in E. destruct (fpos s L); cbn; intuition congruence.
  - destruct (fpos s L); cbn; intuition congruence.
  - destruct (fpos s L); cbn; intuition congruence.
Qed.
Lemma fpos_app : forall s A B, fpos s (A ++ B) = match fpos s A with Some p => Some p | None => option_map (fun p => List.length A + p) (fpos s B) end.
Proof.
  induction A as [|t A IH]; intros B; cbn; [now destruct (fpos s B)|].
  destruct t as [id k|k|id rq kids]; cbn; [destruct (same_id id s); [reflexivity|]| |]; rewrite IH; destruct (fpos s A); cbn; try reflexivity; now destruct (fpos s B).
Qed.
Lemma ids_app : forall A B, ids (A ++ B) = ids A ++ ids B.
Proof. intros. unfold ids. apply flat_map_app. Qed.
Lemma flatl_app : forall A B, flatl (A ++ B) = flatl A ++ flatl B.
Proof. intros. unfold flatl. apply flat_map_app. Qed.
Lemma fpos_lt : forall s L p, fpos s L = Some p -> p < List.length L.
Proof.
  induction L as [|t L IH]; intros p H; cbn in *; [congruence|].
  destruct t as [id k|k|id rq kids]; [destruct (same_id id s); [injection H; lia|]| |]; destruct (fpos s L) eqn:E; cbn in H; try congruence; injection H as <-; specialize (IH _ eq_refl); lia.
Qed.
(** in a list with distinct ids the node is found wherever the search starts *)
Lemma fpos_mid : forall s A B C q, NoDup (ids (A ++ B ++ C)) -> fpos s B = Some q -> fpos s (A ++ B ++ C) = Some (List.length A + q).
Proof.
  intros s A B C q ND H. rewrite !fpos_app. assert (fpos s A = None) as ->.
  { apply fpos_none. intros IA. rewrite !ids_app in ND.
    assert (In s (ids B)) as IB. { destruct (in_dec string_dec s (ids B)) as [|N]; [assumption|]. apply fpos_none in N. congruence. }
    clear - ND IA IB. induction (ids A) as [|a l IH]; [easy|]. cbn in ND. inversion ND as [|? ? N1 N2]; subst. destruct IA as [->|IA]; [|tauto].
    apply N1. rewrite !in_app_iff. tauto. }
  now rewrite H.
Qed.

Lemma NoDup_parts : forall (a b : list string), NoDup (a ++ b) -> NoDup a /\ NoDup b.
Proof.
  induction a as [|x a IH]; intros b H; [split; [constructor|exact H]|]. inversion H as [|? ? N1 N2]; subst. destruct (IH _ N2) as [I1 I2]. split; [|exact I2].
  constructor; [|exact I1]. intros Hx. apply N1. apply in_app_iff. now left.
Qed.

(** ** request and search *)
Lemma go_search : forall s kids i,
  (fix go l := match l with
               | [] => ([], false)
               | u :: l => let (u', b) := request s u in if b then (u' :: l, true) else let (l', b') := go l in (u' :: l', b')
               end) kids = (fst (search s kids i), match snd (search s kids i) with Some _ => true | None => false end).
Proof.
  induction kids as [|u l IH]; intros i; [reflexivity|]. cbn [search]. destruct (request s u) as [u' b]. destruct b; [reflexivity|].
  rewrite (IH (i + 1)). now destruct (search s l (i + 1)) as [l' [j|]].
Qed.
Lemma request_sub : forall s id rq kids, request s (Sub id rq kids) =
  if same_id id s then (Sub id rq kids, true) else
  match search s kids 0 with (kids', Some _) => (Sub id (Some (QId s)) kids', true) | (kids', None) => (Sub id rq kids', false) end.
Proof.
  intros. cbn [request]. destruct (same_id id s); [reflexivity|]. rewrite (go_search s kids 0). now destruct (search s kids 0) as [k' [j|]].
Qed.
(** what search does to a list *)
Lemma search_shape : forall s ts i ts' o, search s ts i = (ts', o) ->
  match o with
  | None => Forall (fun u => snd (request s u) = false) ts
  | Some j => exists A t C, ts = A ++ t :: C /\ j = i + List.length A /\ Forall (fun u => snd (request s u) = false) A /\ snd (request s t) = true
                            /\ ts' = map (fun u => fst (request s u)) A ++ fst (request s t) :: C
  end /\ (o = None -> ts' = map (fun u => fst (request s u)) ts).
Proof.
  induction ts as [|u ts IH]; intros i ts' o H; cbn in H.
  - injection H as <- <-. split; [constructor|reflexivity].
  - destruct (request s u) as [u' b] eqn:Eu. destruct b.
    + injection H as <- <-. split; [|congruence]. exists [], u, ts. rewrite Eu. cbn. repeat split; [lia|constructor].
    + destruct (search s ts (i + 1)) as [l' o'] eqn:El. injection H as <- <-. destruct (IH _ _ _ El) as [IH1 IH2]. split.
      * destruct o' as [j|].
        -- destruct IH1 as (A & t & C & -> & -> & F & St & ->). exists (u :: A), t, C. cbn. rewrite Eu. cbn. repeat split; [lia| |assumption].
           constructor; [now rewrite Eu|assumption].
        -- constructor; [now rewrite Eu|assumption].
      * intros E. cbn. rewrite Eu. cbn. f_equal. auto.
Qed.
Lemma request_false : forall s t, snd (request s t) = false -> fst (request s t) = t.
Proof.
  intros s. induction t as [id k|k|id rq kids IH] using tree_ind'; intros H; try reflexivity. rewrite request_sub in *.
  destruct (same_id id s); [reflexivity|]. destruct (search s kids 0) as [k' [j|]] eqn:E; [discriminate|]. cbn. f_equal.
  destruct (search_shape _ _ _ _ _ E) as [F M]. rewrite (M eq_refl). clear - IH F. induction F as [|u l Hu _ IHl]; [reflexivity|]. inversion IH; subst. cbn. f_equal; auto.
Qed.
Lemma map_request_false : forall s A, Forall (fun u => snd (request s u) = false) A -> map (fun u => fst (request s u)) A = A.
Proof. intros s A F. induction F; cbn; [reflexivity|]. f_equal; [now apply request_false|assumption]. Qed.
Lemma search_none : forall s ts i ts', search s ts i = (ts', None) -> ts' = ts.
Proof. intros s ts i ts' H. destruct (search_shape _ _ _ _ _ H) as [F M]. rewrite (M eq_refl). now apply map_request_false. Qed.
Lemma search_some : forall s ts i ts' j, search s ts i = (ts', Some j) -> exists A t C u, ts = A ++ t :: C /\ j = i + List.length A /\ request s t = (u, true)
  /\ Forall (fun u => snd (request s u) = false) A /\ ts' = A ++ u :: C.
Proof.
  intros s ts i ts' j H. destruct (search_shape _ _ _ _ _ H) as [(A & t & C & E1 & E2 & F & St & E3) _]. rewrite (map_request_false _ _ F) in E3.
  exists A, t, C, (fst (request s t)). repeat split; auto. rewrite <- St. now destruct (request s t).
Qed.
(** the search finds a node iff the id is one of the flat flow or of a BiFlowNode *)
Lemma search_app_false : forall s A ts i, Forall (fun u => snd (request s u) = false) A ->
  search s (A ++ ts) i = (A ++ fst (search s ts (i + List.length A)), snd (search s ts (i + List.length A))).
Proof.
  induction A as [|a A IH]; intros ts i F; cbn.
  - replace (i + 0) with i by lia. now destruct (search s ts i).
  - inversion F as [|? ? F1 F2]; subst. pose proof (request_false _ _ F1) as F3. destruct (request s a) as [a' b]. cbn in F1, F3. subst.
    rewrite (IH ts (i + 1) F2). replace (i + S (List.length A)) with (i + 1 + List.length A) by lia. now destruct (search s ts (i + 1 + List.length A)).
Qed.
Lemma request_found : forall s t, ~ In s (sub_ids t) -> snd (request s t) = match fpos s (flat t) with Some _ => true | None => false end.
Proof.
  intros s. induction t as [id k|k|id rq kids IH] using tree_ind'; intros N; cbn [flat fpos].
  - cbn. now destruct (same_id id s).
  - reflexivity.
  - rewrite request_sub. cbn in N. rewrite in_app_iff in N. destruct (same_id id s) eqn:E; [apply same_id_iff in E; tauto|].
    assert (match snd (search s kids 0) with Some _ => true | None => false end = match fpos s (flat_map flat kids) with Some _ => true | None => false end) as G.
    { assert (~ In s (flat_map sub_ids kids)) as N2 by tauto. clear - IH N2. generalize 0. induction kids as [|u l IHl]; intros i; [reflexivity|]. cbn [search flat_map] in *.
      rewrite in_app_iff in N2. inversion IH as [|? ? I1 I2]; subst. specialize (I1 (fun H => N2 (or_introl H))). rewrite fpos_app.
      destruct (request s u) as [u' b]. cbn in I1. destruct (fpos s (flat u)).
      - now subst.
      - subst. specialize (IHl I2 (fun H => N2 (or_intror H)) (i + 1)). destruct (search s l (i + 1)) as [l' [j|]]; cbn in *; destruct (fpos s (flat_map flat l)); cbn; congruence. }
    destruct (search s kids 0) as [k' [j|]]; cbn in *; destruct (fpos s (flat_map flat kids)); congruence.
Qed.
(** asking again changes nothing *)
Lemma request_idem : forall s t u b, request s t = (u, b) -> request s u = (u, b).
Proof.
  intros s. induction t as [id k|k|id rq kids IH] using tree_ind'; intros u b H.
  - cbn in H. injection H as <- <-. reflexivity.
  - cbn in H. injection H as <- <-. reflexivity.
  - rewrite request_sub in H. destruct (same_id id s) eqn:E.
    + injection H as <- <-. rewrite request_sub. now rewrite E.
    + destruct (search s kids 0) as [k' [j|]] eqn:Es; injection H as <- <-; rewrite request_sub, E.
      * destruct (search_some _ _ _ _ _ Es) as (A & t & C & v & -> & -> & Rt & F & ->). rewrite (search_app_false _ _ _ _ F). cbn.
        apply Forall_app in IH. destruct IH as [_ IH]. inversion IH as [|? ? I1 _]; subst. rewrite (I1 _ _ Rt). reflexivity.
      * pose proof (search_none _ _ _ _ Es) as ->. now rewrite Es.
Qed.

Section Nested.
  Context {X Mg W : Type}.
  Variable emptyb : Mg -> bool.
  Variable leaf_exec : nat -> X -> option Mg -> W -> W * (fexn + ret X Mg).
  Variable norm_exec : nat -> X -> W -> W * (fexn + X).
  Variable is_none : X -> bool.
  Variable hdr : option string -> Mg -> Mg * target * bool.
  Notation ret := (ret X Mg).
  Notation norm := (drop_empty Mg emptyb).
  Notation seq := (seq X Mg W emptyb leaf_exec norm_exec is_none hdr).
  Notation exec_node := (exec_node X Mg W leaf_exec norm_exec is_none hdr).

  (** the execution of a node which is no BiFlowNode *)
  Definition run1 (t : tree) (x : X) (m : option Mg) (w : W) : W * (fexn + ret) :=
    match t with
    | Leaf _ k => leaf_exec k x m w
    | Norm k => let (w', r) := norm_exec k x w in (w', match r with inl e => inl e | inr y => inr (mkRet X Mg y m None) end)
    | Sub _ _ _ => (w, inl XType)
    end.
  Definition nret (r : ret) : ret := mkRet X Mg (r_x _ _ r) (norm (r_m _ _ r)) (r_t _ _ r).
  (** there is data or a message which is not empty *)
  Definition full (x : X) (m : option Mg) : Prop := is_none x = false \/ norm m <> None.

  (** The ids of BiFlowNodes, and what is known about the nodes: *)
  Variable subs : list string.
  Variable okm : option Mg -> Prop.
  Definition step_target (o : option target) : Prop :=
    match o with None => True | Some (TInt z) => z = 1%Z | Some (TStr s) => s <> ""%string /\ ~ In s subs | Some TNone => False end.
  Hypothesis okm_none : okm None.
  (** messages have no keys for BiFlowNodes, no 'target' and no 'method' *)
  Hypothesis okm_hdr : forall id g, okm (Some g) -> hdr id g = (g, TNone, false).
  (** an empty message is like no message for a node that gets data *)
  Hypothesis leaf_empty : forall k x g w, emptyb g = true -> is_none x = false -> leaf_exec k x (Some g) w = leaf_exec k x None w.
  (** nodes send the execution to the next node or to an id *)
  Hypothesis leaf_target : forall k x m w w' r, leaf_exec k x m w = (w', inr r) -> okm m -> step_target (r_t _ _ r) /\ okm (r_m _ _ r) /\ full (r_x _ _ r) (r_m _ _ r).
  Hypothesis norm_data : forall k x w w' y, norm_exec k x w = (w', inr y) -> is_none y = false.

  Lemma norm_norm : forall m, norm (norm m) = norm m.
  Proof. intros [g|]; [|reflexivity]. cbn. destruct (emptyb g) eqn:E; cbn; [reflexivity|now rewrite E]. Qed.
  Lemma okm_norm : forall m, okm m -> okm (norm m).
  Proof. intros [g|] H; [|exact H]. cbn. now destruct (emptyb g). Qed.
  Lemma full_norm : forall x m, full x m -> full x (norm m).
  Proof. unfold full. intros x m H. now rewrite norm_norm. Qed.
  Lemma run1_target : forall t x m w w' r, run1 t x m w = (w', inr r) -> okm m -> step_target (r_t _ _ r) /\ okm (r_m _ _ r) /\ full (r_x _ _ r) (r_m _ _ r).
  Proof.
    intros [id k|k|id rq kids] x m w w' r H O; cbn in H.
    - now apply leaf_target in H.
    - destruct (norm_exec k x w) as [w1 [e|y]] eqn:E; [discriminate|]. injection H as <- <-. cbn. split; [exact I|]. split; [exact O|]. left. now apply norm_data in E.
    - discriminate.
  Qed.
  Lemma run1_norm : forall t x m w, full x m ->
    run1 t x (norm m) w = run1 t x m w \/ exists w' r, run1 t x m w = (w', inr r) /\ run1 t x (norm m) w = (w', inr (nret r)).
  Proof.
    intros t x [g|] w F; [|now left]. cbn. destruct (emptyb g) eqn:E; [|now left]. destruct t as [id k|k|id rq kids]; cbn.
    - left. symmetry. apply leaf_empty; [exact E|]. destruct F as [F|F]; [exact F|]. cbn in F. now rewrite E in F.
    - destruct (norm_exec k x w) as [w1 [e|y]]; [now left|]. right. eexists w1, _. split; [reflexivity|]. unfold nret. cbn. now rewrite E.
    - now left.
  Qed.

  (** the run of a flat flow: place, data, message and state; number of executions; state and result in the end *)
  Inductive R (L : list tree) : nat -> X -> option Mg -> W -> nat -> W -> fexn + ret -> Prop :=
  | R_end : forall p x m w, p = List.length L -> R L p x m w 0 w (inr (mkRet X Mg x m None))
  | R_err : forall p t x m w w' e, nth_error L p = Some t -> run1 t x m w = (w', inl e) -> R L p x m w 1 w' (inl e)
  | R_next : forall p t x m w w' r d w2 o, nth_error L p = Some t -> run1 t x m w = (w', inr r) -> r_t _ _ r = None \/ r_t _ _ r = Some (TInt 1) ->
      R L (p + 1) (r_x _ _ r) (norm (r_m _ _ r)) w' d w2 o -> R L p x m w (S d) w2 o
  | R_jump : forall p t x m w w' r s q d w2 o, nth_error L p = Some t -> run1 t x m w = (w', inr r) -> r_t _ _ r = Some (TStr s) -> s <> "exit"%string ->
      fpos s L = Some q -> R L q (r_x _ _ r) (norm (r_m _ _ r)) w' d w2 o -> R L p x m w (S d) w2 o
  | R_out : forall p t x m w w' r s, nth_error L p = Some t -> run1 t x m w = (w', inr r) -> r_t _ _ r = Some (TStr s) -> s = "exit"%string \/ fpos s L = None ->
      R L p x m w 1 w' (inr (mkRet X Mg (r_x _ _ r) (norm (r_m _ _ r)) (Some (TStr s)))).

  Lemma R_det : forall L p x m w d w1 o1, R L p x m w d w1 o1 -> forall d2 w2 o2, R L p x m w d2 w2 o2 -> w1 = w2 /\ o1 = o2.
  Proof.
    intros L p x m w d w1 o1 H.
    assert (forall i t, nth_error L i = Some t -> i < List.length L) as B by (intros i t Hi; apply nth_error_Some; congruence).
    induction H as [p x m w E|p t x m w w' e E1 E2|p t x m w w' r d w2 o E1 E2 E3 _ IH|p t x m w w' r s q d w2 o E1 E2 E3 Ne E4 _ IH|p t x m w w' r s E1 E2 E3 E4];
      intros d' w2' o2' H2; inversion H2; subst;
      repeat match goal with
      | [ H : nth_error ?L (List.length ?L) = Some _ |- _ ] => apply B in H; lia
      | [ H1 : nth_error ?L ?p = Some _, H2 : nth_error ?L ?p = Some _ |- _ ] => rewrite H1 in H2; injection H2 as <-
      | [ H1 : run1 ?t ?x ?m ?w = _, H2 : run1 ?t ?x ?m ?w = _ |- _ ] => rewrite H1 in H2; injection H2; intros; subst; clear H2
      | [ H1 : r_t _ _ ?r = Some (TStr ?a), H2 : r_t _ _ ?r = Some (TStr ?b) |- _ ] => rewrite H1 in H2; injection H2 as <-
      | [ H1 : fpos ?s ?L = Some _, H2 : fpos ?s ?L = Some _ |- _ ] => rewrite H1 in H2; injection H2 as <-
      end; try discriminate; try (split; reflexivity);
      repeat match goal with [ H : _ = _ \/ _ = _ |- _ ] => destruct H end; try congruence; try (eapply IH; eassumption).
  Qed.

  (** what follows a part of the run with result o1; q is the place after the part *)
  Definition cont (L : list tree) (q : nat) (w1 : W) (o1 : fexn + ret) (d : nat) (w2 : W) (o2 : fexn + ret) : Prop :=
    match o1 with
    | inl e => w2 = w1 /\ o2 = inl e
    | inr r => match r_t _ _ r with
               | Some (TStr s) => if String.eqb s "exit" then w2 = w1 /\ o2 = inr (nret r) else
                                  match fpos s L with None => w2 = w1 /\ o2 = inr (nret r) | Some q => R L q (r_x _ _ r) (norm (r_m _ _ r)) w1 d w2 o2 end
               | _ => R L q (r_x _ _ r) (norm (r_m _ _ r)) w1 d w2 o2
               end
    end.
  Lemma nth_mid : forall (A B C : list tree) p, p < List.length B -> nth_error (A ++ B ++ C) (List.length A + p) = nth_error B p.
  Proof. intros. rewrite nth_error_app2 by lia. replace (List.length A + p - List.length A) with p by lia. now rewrite nth_error_app1 by lia. Qed.
  Lemma leaf_embed : forall A t C x m w w1 o1 d2 w2 o2, run1 t x m w = (w1, o1) -> match o1 with inl _ => True | inr r => step_target (r_t _ _ r) end ->
    cont (A ++ t :: C) (List.length A + 1) w1 o1 d2 w2 o2 -> exists d', R (A ++ t :: C) (List.length A) x m w d' w2 o2.
  Proof.
    intros A t C x m w w1 o1 d2 w2 o2 H St Co.
    assert (nth_error (A ++ t :: C) (List.length A) = Some t) as N by (rewrite nth_error_app2 by lia; now rewrite Nat.sub_diag).
    destruct o1 as [e|r]; cbn in Co.
    - destruct Co as [-> ->]. eexists. eapply R_err; eassumption.
    - destruct (r_t _ _ r) as [[|z|s]|] eqn:E; cbn in St; [easy| | |].
      + subst z. eexists. eapply R_next; try eassumption. now right.
      + destruct (String.eqb_spec s "exit") as [->|Ne].
        * destruct Co as [-> ->]. exists 1. unfold nret. rewrite E. eapply R_out; try eassumption. now left.
        * destruct (fpos s (A ++ t :: C)) as [q|] eqn:Eq.
          -- eexists. eapply R_jump; eassumption.
          -- destruct Co as [-> ->]. exists 1. unfold nret. rewrite E. eapply R_out; try eassumption. now right.
      + eexists. eapply R_next; try eassumption. now left.
  Qed.
  Lemma embed : forall A B C p x m w d w1 o1, NoDup (ids (A ++ B ++ C)) -> R B p x m w d w1 o1 -> norm m = m ->
    forall d2 w2 o2, cont (A ++ B ++ C) (List.length A + List.length B) w1 o1 d2 w2 o2 -> exists d', R (A ++ B ++ C) (List.length A + p) x m w d' w2 o2.
  Proof.
    intros A B C p x m w d w1 o1 ND H.
    assert (forall i t, nth_error B i = Some t -> i < List.length B) as Lt by (intros i t Hi; apply nth_error_Some; congruence).
    induction H as [p x m w E|p t x m w w' e E1 E2|p t x m w w' r d w2 o E1 E2 E3 _ IH|p t x m w w' r s q d w2 o E1 E2 E3 Ne E4 _ IH|p t x m w w' r s E1 E2 E3 E4];
      intros Nm d2 w3 o3 Co.
    - cbn in Co. subst p. rewrite Nm in Co. eauto.
    - cbn in Co. destruct Co as [-> ->]. eexists. eapply R_err; [rewrite nth_mid; [eassumption|eauto]|eassumption].
    - destruct (IH (norm_norm _) _ _ _ Co) as [d' Hd]. exists (S d'). eapply R_next; [rewrite nth_mid; [eassumption|eauto]|eassumption|eassumption|].
      now rewrite <- Nat.add_assoc.
    - destruct (IH (norm_norm _) _ _ _ Co) as [d' Hd]. exists (S d'). eapply R_jump; [rewrite nth_mid; [eassumption|eauto]|eassumption|eassumption|eassumption| |exact Hd].
      now apply fpos_mid.
    - cbn in Co. rewrite norm_norm in Co. destruct (String.eqb_spec s "exit") as [->|Ne].
      + destruct Co as [-> ->]. exists 1. unfold nret. cbn. rewrite norm_norm. eapply R_out; [rewrite nth_mid; [eassumption|eauto]|eassumption|eassumption|now left].
      + destruct (fpos s (A ++ B ++ C)) as [q|] eqn:Eq.
        * eexists. eapply R_jump; [rewrite nth_mid; [eassumption|eauto]|eassumption|eassumption|eassumption|eassumption|eassumption].
        * destruct Co as [-> ->]. exists 1. unfold nret. cbn. rewrite norm_norm. eapply R_out; [rewrite nth_mid; [eassumption|eauto]|eassumption|eassumption|now right].
  Qed.
  Lemma decompose : forall A B C P x m w d w2 o2, NoDup (ids (A ++ B ++ C)) -> R (A ++ B ++ C) P x m w d w2 o2 -> norm m = m ->
    forall p, P = List.length A + p -> p < List.length B ->
    exists d1 w1 o1 d2, R B p x m w d1 w1 o1 /\ cont (A ++ B ++ C) (List.length A + List.length B) w1 o1 d2 w2 o2 /\ d1 <= d /\ d2 < d.
  Proof.
    intros A B C P x m w d w2 o2 ND H.
    induction H as [P x m w E|P t x m w w' e E1 E2|P t x m w w' r d w2 o E1 E2 E3 Hr IH|P t x m w w' r s q d w2 o E1 E2 E3 Ne E4 Hr IH|P t x m w w' r s E1 E2 E3 E4];
      intros Nm p -> Lp; try (rewrite nth_mid in E1 by assumption).
    - rewrite !app_length in E. lia.
    - exists 1, w', (inl e), 0. split; [eapply R_err; eassumption|]. cbn. repeat split; lia.
    - destruct (Nat.eq_dec (p + 1) (List.length B)) as [Eb|Nb].
      + exists 1, w', (inr (mkRet X Mg (r_x _ _ r) (norm (r_m _ _ r)) None)), d. repeat split; [|cbn|lia|lia].
        * eapply R_next; [eassumption|eassumption|eassumption|]. now apply R_end.
        * rewrite norm_norm. replace (List.length A + List.length B) with (List.length A + p + 1) by lia. exact Hr.
      + destruct (IH (norm_norm _) (p + 1) ltac:(lia) ltac:(lia)) as (d1 & w1 & o1 & d2 & H1 & H2 & H3 & H4). exists (S d1), w1, o1, d2.
        repeat split; [|exact H2|lia|lia]. eapply R_next; eassumption.
    - destruct (fpos s B) as [q'|] eqn:Eb.
      + pose proof (fpos_mid _ A _ C _ ND Eb) as Em. rewrite Em in E4. injection E4 as <-.
        destruct (IH (norm_norm _) q' ltac:(lia) ltac:(now apply fpos_lt in Eb)) as (d1 & w1 & o1 & d2 & H1 & H2 & H3 & H4). exists (S d1), w1, o1, d2.
        repeat split; [|exact H2|lia|lia]. eapply R_jump; eassumption.
      + exists 1, w', (inr (mkRet X Mg (r_x _ _ r) (norm (r_m _ _ r)) (Some (TStr s)))), d. repeat split; [|cbn|lia|lia].
        * eapply R_out; try eassumption. now right.
        * apply String.eqb_neq in Ne. rewrite Ne, E4, norm_norm. exact Hr.
    - exists 1, w', (inr (mkRet X Mg (r_x _ _ r) (norm (r_m _ _ r)) (Some (TStr s)))), 0. repeat split; [|cbn|lia|lia].
      + eapply R_out; try eassumption. destruct E4 as [E4|E4]; [now left|right]. apply fpos_none. apply fpos_none in E4. rewrite !ids_app, !in_app_iff in E4. tauto.
      + unfold nret. cbn. rewrite !norm_norm. destruct (String.eqb_spec s "exit") as [->|Ne]; [easy|]. destruct E4 as [E4|E4]; [congruence|]. rewrite E4. easy.
  Qed.

  (** ** Nested flows *)
  Definition wf (ts : list tree) : Prop := forallb fine ts = true /\ NoDup (ids (flatl ts)) /\ incl (flat_map sub_ids ts) subs.
  Definition good_id (s : string) : Prop := s <> ""%string /\ ~ In s subs.
  (** the nodes st are ts, maybe with requests stored, such that the execution at i starts at the place p of the flat flow *)
  Definition entry (ts st : list tree) (i p : nat) : Prop :=
    (st = ts /\ i < List.length ts /\ p = List.length (flatl (firstn i ts)))
    \/ (exists s, good_id s /\ s <> "exit"%string /\ search s ts 0 = (st, Some i) /\ fpos s (flatl ts) = Some p).
  Definition node_entry (t u : tree) (p : nat) : Prop :=
    (u = t /\ p = 0) \/ (exists s, good_id s /\ s <> "exit"%string /\ request s t = (u, true) /\ fpos s (flat t) = Some p).

  Lemma wf_mid : forall A t C, wf (A ++ t :: C) -> fine t = true /\ incl (sub_ids t) subs /\ NoDup (ids (flatl A ++ flat t ++ flatl C)).
  Proof.
    intros A t C (H1 & H2 & H3). rewrite forallb_app in H1. cbn in H1. apply andb_prop in H1. destruct H1 as [_ H1]. apply andb_prop in H1. destruct H1 as [H1 _].
    rewrite flatl_app in H2. split; [exact H1|]. split; [|exact H2]. intros s Hs. apply H3. rewrite flat_map_app, in_app_iff. right. cbn. apply in_app_iff. now left.
  Qed.
  Lemma wf_kids : forall A id rq kids C, wf (A ++ Sub id rq kids :: C) -> rq = None /\ kids <> [] /\ wf kids.
  Proof.
    intros A id rq kids C H. destruct (wf_mid _ _ _ H) as (F & I & N). cbn in F. destruct rq; [discriminate|]. destruct kids as [|u l]; [discriminate|]. split; [reflexivity|]. split; [discriminate|].
    split; [exact F|]. split.
    - rewrite !ids_app in N. apply NoDup_parts in N. destruct N as [_ N]. now apply NoDup_parts in N.
    - intros s Hs. apply I. cbn [sub_ids]. apply in_app_iff. now right.
  Qed.
  Lemma search_out : forall s A, Forall (fun u => snd (request s u) = false) A -> ~ In s (flat_map sub_ids A) -> fpos s (flatl A) = None.
  Proof.
    intros s A F. induction F as [|u l Hu _ IH]; intros N; [reflexivity|]. cbn in *. rewrite in_app_iff in N. rewrite fpos_app. rewrite request_found in Hu by tauto.
    destruct (fpos s (flat u)); [discriminate|]. unfold flatl in *. now rewrite IH by tauto.
  Qed.
  Lemma entry_node : forall ts st i p, wf ts -> entry ts st i p -> exists A t C u p', ts = A ++ t :: C /\ st = A ++ u :: C /\ i = List.length A /\ p = List.length (flatl A) + p'
    /\ node_entry t u p'.
  Proof.
    intros ts st i p Wf [(-> & Hi & ->)|(s & Gs & Ne & Hs & Hp)].
    - destruct (nth_error ts i) as [t|] eqn:E; [|apply nth_error_None in E; lia]. destruct (nth_error_split _ _ E) as (A & C & -> & <-).
      exists A, t, C, t, 0. repeat split; auto; [|now left]. rewrite firstn_app, Nat.sub_diag, firstn_all. cbn. rewrite app_nil_r. lia.
    - destruct (search_some _ _ _ _ _ Hs) as (A & t & C & u & -> & -> & Rt & F & ->). destruct Wf as (_ & _ & I).
      assert (~ In s (flat_map sub_ids (A ++ t :: C))) as N by (intros H; apply Gs; now apply I). rewrite flat_map_app, in_app_iff in N.
      rewrite flatl_app, fpos_app, (search_out s A F) in Hp by tauto. cbn [flatl flat_map] in Hp. rewrite fpos_app in Hp. cbn in N. rewrite in_app_iff in N.
      assert (snd (request s t) = true) as Rf by now rewrite Rt. rewrite request_found in Rf by tauto. destruct (fpos s (flat t)) as [p'|] eqn:Ep; [|discriminate].
      cbn in Hp. injection Hp as <-. exists A, t, C, u, p'. repeat split; auto. right. exists s. auto.
  Qed.
  (** the execution of a BiFlowNode is that of its flow *)
  Lemma exec_sub : forall A id kids C u p x m w, wf (A ++ Sub id None kids :: C) -> node_entry (Sub id None kids) u p -> full x m -> okm m ->
    exists kids1 i, entry kids kids1 i p /\ forall sq, exec_node sq u x m w =
      match sq kids1 x m (Z.of_nat i) w with
      | None => None
      | Some (k2, w', inl e) => Some (Sub id None k2, w', inl e)
      | Some (k2, w', inr (RStop _ _ _ _)) => None
      | Some (k2, w', inr (RRet _ _ r)) => Some (Sub id None k2, w', inr r)
      end.
  Proof.
    intros A id kids C u p x m w Wf Ne Fu Om. destruct (wf_kids _ _ _ _ _ Wf) as (_ & Nk & Wk).
    assert (match m with None => is_none x | Some _ => false end = false) as Nb.
    { destruct m as [g|]; [reflexivity|]. destruct Fu as [Fu|Fu]; [exact Fu|]. now destruct Fu. }
    assert (header Mg hdr id m = (m, TNone, false)) as Hh by (destruct m as [g|]; [cbn; now rewrite okm_hdr|reflexivity]).
    destruct Ne as [[-> ->]|(s & Gs & Nex & Rs & Fp)].
    - exists kids, 0. split; [left; repeat split; [destruct kids; [easy|cbn; lia]]|]. intros sq. cbn [exec_node]. rewrite Nb, Hh. cbn [get_method get_target to_index].
      destruct kids as [|k1 ks]; [easy|]. cbn -[Z.of_nat]. replace (0 >=? Z.of_nat (S (List.length ks)))%Z with false by (symmetry; rewrite Z.geb_leb; apply Z.leb_gt; lia).
      change (Z.of_nat 0) with 0%Z. destruct (sq (k1 :: ks) x m 0%Z w) as [[[k2 w'] [e|[r|]]]|]; try reflexivity. unfold combine. now destruct (r_t _ _ r).
    - rewrite request_sub in Rs. assert (same_id id s = false) as Ei.
      { apply same_id_not. intros H. apply Gs. destruct (wf_mid _ _ _ Wf) as (_ & I & _). apply I. cbn. apply in_app_iff. now left. }
      rewrite Ei in Rs. destruct (search s kids 0) as [kids1 [j|]] eqn:Es; [|discriminate]. injection Rs as <-.
      exists kids1, j. split; [right; exists s; auto|]. intros sq. cbn [exec_node]. rewrite Nb, Hh. cbn [get_method get_target].
      destruct Gs as [Gs _]. apply String.eqb_neq in Gs, Nex. rewrite Gs. cbn [to_index]. rewrite Nex.
      assert (search s kids1 0 = (kids1, Some j)) as Es2.
      { destruct (search_some _ _ _ _ _ Es) as (A' & t & C' & u & -> & -> & Rt & F & ->). rewrite (search_app_false _ _ _ _ F). cbn. now rewrite (request_idem _ _ _ _ Rt). }
      rewrite Es2. destruct (sq kids1 x m (Z.of_nat j) w) as [[[k2 w'] [e|[r|]]]|]; try reflexivity. unfold combine. now destruct (r_t _ _ r).
  Qed.

  Definition end_target (o : option target) : Prop := match o with None => True | Some (TStr s) => good_id s | _ => False end.
  Definition agree (r : fexn + res X Mg) (o : fexn + ret) : Prop :=
    match r, o with inl e, inl e' => e = e' | inr (RRet _ _ a), inr b => nret a = b /\ end_target (r_t _ _ a) /\ okm (r_m _ _ a) /\ full (r_x _ _ a) (r_m _ _ a) | _, _ => False end.

  Lemma firstn_mid : forall (A : list tree) t C, firstn (List.length A + 1) (A ++ t :: C) = A ++ [t].
  Proof. intros. rewrite firstn_app. replace (List.length A + 1 - List.length A) with 1 by lia. rewrite firstn_all2 by lia. reflexivity. Qed.
  (** the step after the node *)
  Lemma follow_ok : forall A t C r, let ts := A ++ t :: C in wf ts -> step_target (r_t _ _ r) -> okm (r_m _ _ r) -> full (r_x _ _ r) (r_m _ _ r) ->
    (exists a, follow X Mg emptyb (TInt 1) ts r (Z.of_nat (List.length A)) = (ts, inr (inl a))
        /\ agree (inr (RRet _ _ a)) (inr (nret a)) /\ forall w, exists d, cont (flatl ts) (List.length (flatl A) + List.length (flat t)) w (inr r) d w (inr (nret a)))
    \/ (exists st j q, follow X Mg emptyb (TInt 1) ts r (Z.of_nat (List.length A)) = (st, inr (inr (r_x _ _ r, r_m _ _ r, Z.of_nat j))) /\ entry ts st j q
        /\ forall w d w2 o2, cont (flatl ts) (List.length (flatl A) + List.length (flat t)) w (inr r) d w2 o2 <-> R (flatl ts) q (r_x _ _ r) (norm (r_m _ _ r)) w d w2 o2).
  Proof.
    intros A t C r ts Wf St Om Fu. unfold follow, cont.
    assert (List.length (flatl A) + List.length (flat t) = List.length (flatl (A ++ [t]))) as Lq.
    { rewrite flatl_app, app_length. cbn. now rewrite app_nil_r. }
    assert (forall z : unit, (exists a, (if (Z.of_nat (List.length A) + 1 =? Z.of_nat (List.length ts))%Z then (ts, inr (inl (mkRet X Mg (r_x _ _ r) (norm (r_m _ _ r)) None)))
             else if (Z.of_nat (List.length A) + 1 =? -1)%Z then (ts, inr (inl (mkRet X Mg (r_x _ _ r) (r_m _ _ r) (Some (TInt (-1)))))) else (ts, inr (inr (r_x _ _ r, r_m _ _ r, (Z.of_nat (List.length A) + 1)%Z))))
             = (ts, inr (inl a) : fexn + (ret + (X * option Mg * Z))) /\ agree (inr (RRet _ _ a)) (inr (nret a))
             /\ forall w, exists d, R (flatl ts) (List.length (flatl A) + List.length (flat t)) (r_x _ _ r) (norm (r_m _ _ r)) w d w (inr (nret a)))
      \/ (exists st j q, (if (Z.of_nat (List.length A) + 1 =? Z.of_nat (List.length ts))%Z then (ts, inr (inl (mkRet X Mg (r_x _ _ r) (norm (r_m _ _ r)) None)))
             else if (Z.of_nat (List.length A) + 1 =? -1)%Z then (ts, inr (inl (mkRet X Mg (r_x _ _ r) (r_m _ _ r) (Some (TInt (-1)))))) else (ts, inr (inr (r_x _ _ r, r_m _ _ r, (Z.of_nat (List.length A) + 1)%Z))))
             = (st, inr (inr (r_x _ _ r, r_m _ _ r, Z.of_nat j)) : fexn + (ret + (X * option Mg * Z))) /\ entry ts st j q
             /\ forall w d w2 o2, R (flatl ts) (List.length (flatl A) + List.length (flat t)) (r_x _ _ r) (norm (r_m _ _ r)) w d w2 o2 <-> R (flatl ts) q (r_x _ _ r) (norm (r_m _ _ r)) w d w2 o2)) as Nx.
    { intros _. destruct (Z.eqb_spec (Z.of_nat (List.length A) + 1) (Z.of_nat (List.length ts))) as [E|E].
      - left. eexists. split; [reflexivity|]. split; [cbn; repeat split; [now apply okm_norm|now apply full_norm]|].
        intros w. exists 0. unfold nret. cbn. rewrite norm_norm. apply R_end. rewrite Lq. f_equal. unfold ts in *. rewrite app_length in E. cbn in E.
        destruct C; [reflexivity|cbn in E; lia].
      - right. destruct (Z.eqb_spec (Z.of_nat (List.length A) + 1) (-1)); [lia|]. exists ts, (List.length A + 1), (List.length (flatl (A ++ [t]))). split; [do 4 f_equal; lia|].
        split; [left; split; [reflexivity|]; split|rewrite Lq; reflexivity].
        + unfold ts in *. rewrite app_length in *. cbn in *. lia.
        + unfold ts. now rewrite firstn_mid. }
    specialize (Nx tt). destruct (r_t _ _ r) as [[|z|s]|] eqn:Et; cbn [step_target] in St.
    - easy.
    - subst z. exact Nx.
    - cbn [to_index]. destruct (String.eqb_spec s "exit") as [->|Ne].
      + left. eexists. split; [reflexivity|]. split; [cbn; rewrite ?Et; cbn; repeat split; auto; apply St|]. intros w. exists 0. unfold nret. cbn. now rewrite Et.
      + assert (Hsub : ~ In s (flat_map sub_ids ts)) by (intros H; apply St; now apply Wf).
        destruct (search s ts 0) as [st [j|]] eqn:Es.
        * right. destruct (search_some _ _ _ _ _ Es) as (A' & t' & C' & u & E1 & -> & Rt & F & E3).
          assert (exists q, fpos s (flatl ts) = Some q) as [q Hq].
          { destruct (fpos s (flatl ts)) as [q|] eqn:Eq; [eauto|]. exfalso. rewrite E1, flatl_app, fpos_app in Eq. rewrite E1, flat_map_app, in_app_iff in Hsub. cbn in Hsub. rewrite in_app_iff in Hsub.
            rewrite (search_out s A' F) in Eq by tauto. cbn in Eq. rewrite fpos_app in Eq. assert (snd (request s t') = true) as Rf by now rewrite Rt. rewrite request_found in Rf by tauto.
            destruct (fpos s (flat t')); [discriminate Eq|discriminate Rf]. }
          exists st, (0 + List.length A'), q. split; [reflexivity|]. split; [right; exists s; repeat split; auto; apply St|]. rewrite Hq. reflexivity.
        * left. pose proof (search_none _ _ _ _ Es) as ->. eexists. split; [reflexivity|]. split; [cbn; rewrite ?Et; cbn; repeat split; auto; apply St|].
          intros w. exists 0. destruct (search_shape _ _ _ _ _ Es) as [F _]. rewrite (search_out s ts F Hsub). unfold nret. cbn. now rewrite Et.
    - exact Nx.
  Qed.

  Lemma upd_mid : forall (A : list tree) u t C, upd (A ++ u :: C) (List.length A) t = A ++ t :: C.
  Proof. induction A; intros; cbn; [reflexivity|]. now rewrite IHA. Qed.
  Lemma index_nat : forall len i, i < len -> index len (Z.of_nat i) = Some i.
  Proof.
    intros len i H. unfold index. replace (Z.of_nat i <? - Z.of_nat len)%Z with false by (symmetry; apply Z.ltb_ge; lia).
    replace (Z.of_nat i <? 0)%Z with false by (symmetry; apply Z.ltb_ge; lia). replace (Z.of_nat i <? Z.of_nat len)%Z with true by (symmetry; apply Z.ltb_lt; lia). now rewrite Nat2Z.id.
  Qed.
  (** the loop at a place where it can be *)
  Lemma seq_at : forall n A u C x m w, seq (S n) None (A ++ u :: C) x m (Z.of_nat (List.length A)) w =
    match exec_node (seq n None) u x m w with
    | None => None
    | Some (t', w', inl e) => Some (A ++ t' :: C, w', inl e)
    | Some (t', w', inr r) =>
        match follow X Mg emptyb (TInt 1) (A ++ t' :: C) r (Z.of_nat (List.length A)) with
        | (ts', inl e) => Some (ts', w', inl e)
        | (ts', inr (inl r')) => Some (ts', w', inr (RRet _ _ r'))
        | (ts', inr (inr (y, m', j))) => seq n None ts' y m' j w'
        end
    end.
  Proof.
    intros. cbn [BiFlowNodeModel.seq]. rewrite index_nat by (rewrite app_length; cbn; lia). rewrite nth_error_app2 by lia. rewrite Nat.sub_diag. cbn [nth_error].
    destruct (exec_node (seq n None) u x m w) as [[[t' w'] [e|r]]|]; [now rewrite upd_mid|now rewrite upd_mid|reflexivity].
  Qed.

  Lemma cont_nret : forall L q w r d w2 o2, cont L q w (inr (nret r)) d w2 o2 <-> cont L q w (inr r) d w2 o2.
  Proof. intros. unfold cont, nret. cbn. rewrite norm_norm. destruct (r_t _ _ r) as [[]|]; reflexivity. Qed.
  Definition is_leaf (t : tree) : Prop := match t with Sub _ _ _ => False | _ => True end.
  Lemma leaf_entry : forall t u p, is_leaf t -> node_entry t u p -> u = t /\ p = 0 /\ flat t = [t].
  Proof.
    intros t u p Hl [[-> ->]|(s & _ & _ & Rs & Fp)]; [destruct t; easy|]. destruct t as [id k|k|]; [|discriminate|easy]. cbn in *. injection Rs as <- Es. rewrite Es in Fp. now injection Fp as <-.
  Qed.
  Lemma exec_leaf : forall sq t x m w, is_leaf t -> exec_node sq t x m w = Some (t, fst (run1 t x m w), snd (run1 t x m w)).
  Proof. intros sq [id k|k|] x m w H; [| |easy]; cbn; [now destruct (leaf_exec k x m w)|now destruct (norm_exec k x w) as [w1 [e|y]]]. Qed.
  Lemma run1_norm' : forall t x m w w1 ro, full x m -> run1 t x m w = (w1, ro) -> exists ro', run1 t x (norm m) w = (w1, ro') /\
    match ro, ro' with inl e, inl e' => e = e' | inr r, inr r' => nret r = nret r' | _, _ => False end.
  Proof.
    intros t x m w w1 ro Fu H. destruct (run1_norm t x m w Fu) as [E|(w' & r & E1 & E2)].
    - rewrite E, H. eexists. split; [reflexivity|]. now destruct ro.
    - rewrite E1 in H. injection H as -> <-. rewrite E2. eexists. split; [reflexivity|]. unfold nret. cbn. now rewrite norm_norm.
  Qed.
  Lemma nret_cont : forall L q w r r' d w2 o2, nret r = nret r' -> cont L q w (inr r) d w2 o2 <-> cont L q w (inr r') d w2 o2.
  Proof. intros. rewrite <- cont_nret, H, cont_nret. reflexivity. Qed.
  Lemma nret_t : forall r r', nret r = nret r' -> r_t _ _ r = r_t _ _ r'.
  Proof. intros r r' H. apply (f_equal (r_t X Mg)) in H. exact H. Qed.
  Lemma flatl_mid : forall A t C, flatl (A ++ t :: C) = flatl A ++ flat t ++ flatl C.
  Proof. intros. now rewrite flatl_app. Qed.

  (** a nested run is a run of the flat flow *)
  Lemma sound : forall n ts st i p x m w ts' w' r, wf ts -> entry ts st i p -> full x m -> okm m -> seq n None st x m (Z.of_nat i) w = Some (ts', w', r) ->
    ts' = ts /\ exists d o, R (flatl ts) p x (norm m) w d w' o /\ agree r o.
  Proof.
    induction n as [|n IH]; intros ts st i p x m w ts' w' r Wf En Fu Om H; [discriminate|].
    destruct (entry_node _ _ _ _ Wf En) as (A & t & C & u & p' & -> & -> & -> & -> & Ne). rewrite seq_at in H.
    (* the node *)
    assert (forall t' w1 ro, exec_node (seq n None) u x m w = Some (t', w1, ro) -> t' = t /\ match ro with inl _ => True | inr r => step_target (r_t _ _ r) /\ okm (r_m _ _ r) /\ full (r_x _ _ r) (r_m _ _ r) end
            /\ forall d2 w2 o2, cont (flatl (A ++ t :: C)) (List.length (flatl A) + List.length (flat t)) w1 ro d2 w2 o2 ->
                exists d', R (flatl (A ++ t :: C)) (List.length (flatl A) + p') x (norm m) w d' w2 o2) as Node.
    { intros t' w1 ro Ex. assert (is_leaf t \/ exists id rq kids, t = Sub id rq kids) as [Hl|(id & rq & kids & ->)] by (destruct t; cbn; eauto).
      - destruct (leaf_entry _ _ _ Hl Ne) as (-> & -> & Ft). rewrite exec_leaf in Ex by exact Hl. destruct (run1 t x m w) as [w2 r2] eqn:Er. injection Ex as <- <- <-.
        split; [reflexivity|]. split; [destruct r2; [exact I|now apply run1_target in Er]|]. intros d2 w3 o2 Co. rewrite flatl_mid, Ft in *. cbn [List.length] in Co.
        destruct (run1_norm' _ _ _ _ _ _ Fu Er) as (ro' & Er' & Eq). rewrite Nat.add_0_r. eapply leaf_embed; [exact Er'| |].
        + destruct ro' as [|r']; [exact I|]. apply run1_target in Er'; [apply Er'|now apply okm_norm].
        + destruct r2 as [e|r2], ro' as [e'|r']; try easy; [subst; exact Co|]. apply (nret_cont _ _ _ _ _ _ _ _ Eq). exact Co.
      - destruct (wf_kids _ _ _ _ _ Wf) as (-> & _ & Wk). destruct (exec_sub _ _ _ _ _ _ _ _ w Wf Ne Fu Om) as (kids1 & j & Ek & Es). rewrite Es in Ex.
        destruct (seq n None kids1 x m (Z.of_nat j) w) as [[[k2 w2] [e|[a|]]]|] eqn:Eq; try discriminate; injection Ex as <- <- <-;
          destruct (IH _ _ _ _ _ _ _ _ _ _ Wk Ek Fu Om Eq) as (-> & d & o & HR & Ag); (split; [reflexivity|]); cbn in Ag; destruct o as [e'|b]; try easy.
        + subst. split; [exact I|]. intros d2 w3 o2 Co. rewrite flatl_mid in *. eapply embed; [|exact HR|apply norm_norm|exact Co]. now apply wf_mid in Wf.
        + destruct Ag as (<- & Et & Oa & Fa). split; [repeat split; auto; destruct (r_t _ _ a) as [[]|]; cbn in *; try easy; apply Et|]. intros d2 w3 o2 Co. rewrite flatl_mid in *.
          eapply embed; [now apply wf_mid in Wf|exact HR|apply norm_norm|]. apply cont_nret. exact Co. }
    destruct (exec_node (seq n None) u x m w) as [[[t' w1] [e|r0]]|] eqn:Ex; [| |discriminate].
    - destruct (Node _ _ _ eq_refl) as (-> & _ & Gl). injection H as <- <- <-. split; [reflexivity|]. destruct (Gl 0 w1 (inl e)) as [d' Hd]; [easy|]. exists d', (inl e). split; [exact Hd|reflexivity].
    - destruct (Node _ _ _ eq_refl) as (-> & (St & O0 & F0) & Gl).
      destruct (follow_ok A t C r0 Wf St O0 F0) as [(a & Ef & Ag & Co)|(st' & j & q & Ef & En' & Co)]; rewrite Ef in H.
      + injection H as <- <- <-. split; [reflexivity|]. destruct (Co w1) as [d Hd]. destruct (Gl _ _ _ Hd) as [d' Hd']. exists d', (inr (nret a)). auto.
      + destruct (IH _ _ _ _ _ _ _ _ _ _ Wf En' F0 O0 H) as (-> & d & o & HR & Ag). split; [reflexivity|]. apply Co in HR. destruct (Gl _ _ _ HR) as [d' Hd']. eauto.
  Qed.

  (** more fuel does not matter *)
  Lemma exec_mono : forall (sq sq' : list tree -> X -> option Mg -> Z -> W -> option (list tree * W * (fexn + res X Mg))) t x m w v,
    (forall ts x m i w v, sq ts x m i w = Some v -> sq' ts x m i w = Some v) -> exec_node sq t x m w = Some v -> exec_node sq' t x m w = Some v.
  Proof.
    intros sq sq' [id k|k|id rq kids] x m w v Hs H; cbn in *; try exact H. destruct (match m with None => is_none x | Some _ => false end); [exact H|].
    destruct (header Mg hdr id m) as [[m1 tg] inv]. destruct (get_method inv rq tg (List.length kids)) as [rq1 tg1]. destruct (get_target rq1) as [rq2 goal].
    destruct (to_index kids goal 0) as [kids1 [e|[i|]]]; try exact H. destruct (sq kids1 x m1 i w) as [v1|] eqn:E; [|discriminate]. now rewrite (Hs _ _ _ _ _ _ E).
  Qed.
  Lemma seq_mono : forall n stop ts x m i w v, seq n stop ts x m i w = Some v -> seq (S n) stop ts x m i w = Some v.
  Proof.
    induction n as [|n IH]; intros stop ts x m i w v H; [discriminate|]. cbn [BiFlowNodeModel.seq] in H. remember (S n) as n1. cbn [BiFlowNodeModel.seq]. subst n1.
    destruct (match stop with Some k => (i =? Z.of_nat k)%Z | None => false end); [exact H|]. destruct (index (List.length ts) i) as [k|]; [|exact H]. destruct (nth_error ts k) as [t|]; [|exact H].
    destruct (exec_node (seq n None) t x m w) as [[[t' w'] r]|] eqn:E; [|discriminate]. rewrite (exec_mono _ (seq (S n) None) _ _ _ _ _ (fun ts x m i w v => IH None ts x m i w v) E).
    destruct r as [e|r]; [exact H|]. destruct (follow X Mg emptyb (TInt 1) (upd ts k t') r i) as [ts' [e|[r'|[[y m'] j]]]]; try exact H. now apply IH.
  Qed.
  Lemma seq_le : forall n n' stop ts x m i w v, n <= n' -> seq n stop ts x m i w = Some v -> seq n' stop ts x m i w = Some v.
  Proof. intros n n' stop ts x m i w v H. induction H; [auto|]. intros. apply seq_mono. auto. Qed.

  Lemma fine_flat : forall t, fine t = true -> flat t <> [].
  Proof.
    induction t as [id k|k|id rq kids IH] using tree_ind'; intros F; try discriminate. cbn in F. destruct rq; [discriminate|]. destruct kids as [|u l]; [discriminate|]. cbn in *.
    apply andb_prop in F. inversion IH as [|? ? I1 _]; subst. intros H. apply app_eq_nil in H. now apply I1.
  Qed.
  Lemma leaf_decompose : forall A t C x m w d w2 o2, R (A ++ t :: C) (List.length A) x m w d w2 o2 ->
    exists w1 o1 d2, run1 t x m w = (w1, o1) /\ cont (A ++ t :: C) (List.length A + 1) w1 o1 d2 w2 o2 /\ d2 < d.
  Proof.
    intros A t C x m w d w2 o2 H. assert (nth_error (A ++ t :: C) (List.length A) = Some t) as N by (rewrite nth_error_app2 by lia; now rewrite Nat.sub_diag).
    inversion H; subst.
    - rewrite app_length in *. cbn in *. lia.
    - assert (t0 = t) by congruence. subst. exists w2, (inl e), 0. repeat split; auto.
    - assert (t0 = t) by congruence. subst. exists w', (inr r), d0. split; [assumption|]. split; [|lia]. cbn. match goal with [ H : _ \/ _ |- _ ] => destruct H as [E|E]; rewrite E; assumption end.
    - assert (t0 = t) by congruence. subst. exists w', (inr r), d0. split; [assumption|]. split; [|lia]. cbn.
      match goal with [ H : r_t _ _ _ = _ |- _ ] => rewrite H end. match goal with [ H : _ <> _ |- _ ] => apply String.eqb_neq in H; rewrite H end. match goal with [ H : fpos _ _ = _ |- _ ] => rewrite H end. assumption.
    - assert (t0 = t) by congruence. subst. exists w2, (inr r), 0. split; [assumption|]. split; [|lia]. cbn.
      match goal with [ H : r_t _ _ _ = _ |- _ ] => rewrite H; unfold nret; rewrite H end. destruct (String.eqb_spec s "exit"); [easy|]. match goal with [ H : _ \/ _ |- _ ] => destruct H as [E|E]; [congruence|rewrite E; easy] end.
  Qed.
  Lemma size_mid : forall A id rq kids C, size kids < size (A ++ Sub id rq kids :: C).
  Proof. intros. induction A as [|a A IH]; cbn in *; unfold size in *; lia. Qed.
  Lemma node_complete : forall A t C u p x m w d w' o, wf (A ++ t :: C) -> node_entry t u p -> full x m -> okm m ->
    (forall id kids kids1 j d1 w1 o1, t = Sub id None kids -> entry kids kids1 j p -> d1 <= d -> R (flatl kids) p x (norm m) w d1 w1 o1 ->
       exists n v, seq n None kids1 x m (Z.of_nat j) w = Some v) ->
    R (flatl (A ++ t :: C)) (List.length (flatl A) + p) x (norm m) w d w' o ->
    exists n w1 ro d2, exec_node (seq n None) u x m w = Some (t, w1, ro)
      /\ match ro with inl _ => True | inr r => step_target (r_t _ _ r) /\ okm (r_m _ _ r) /\ full (r_x _ _ r) (r_m _ _ r) end
      /\ cont (flatl (A ++ t :: C)) (List.length (flatl A) + List.length (flat t)) w1 ro d2 w' o /\ d2 < d.
  Proof.
    intros A t C u p x m w d w' o Wf Ne Fu Om IHk HR. rewrite flatl_mid in *.
    assert (is_leaf t \/ exists id rq kids, t = Sub id rq kids) as [Hl|(id & rq & kids & ->)] by (destruct t; cbn; eauto).
    - destruct (leaf_entry _ _ _ Hl Ne) as (-> & -> & Ft). rewrite Ft in *. rewrite Nat.add_0_r in HR.
      destruct (leaf_decompose _ _ _ _ _ _ _ _ _ HR) as (w1 & o1 & d2 & Er' & Co & Lt).
      destruct (run1 t x m w) as [w2 ro] eqn:Er. destruct (run1_norm' _ _ _ _ _ _ Fu Er) as (ro' & Er2 & Eq). rewrite Er' in Er2. injection Er2 as -> ->.
      exists 0, w2, ro, d2. rewrite exec_leaf by exact Hl. rewrite Er. split; [reflexivity|]. split; [destruct ro; [exact I|now apply run1_target in Er]|].
      split; [|exact Lt]. destruct ro as [e|r], ro' as [e'|r']; try easy; [now subst|]. now apply (nret_cont _ _ _ _ _ _ _ _ Eq).
    - destruct (wf_kids _ _ _ _ _ Wf) as (-> & _ & Wk). destruct (exec_sub _ _ _ _ _ _ _ _ w Wf Ne Fu Om) as (kids1 & j & Ek & Es).
      assert (p < List.length (flat (Sub id None kids))) as Lp.
      { destruct Ne as [[_ ->]|(s & _ & _ & _ & Fp)]; [|now apply fpos_lt in Fp]. pose proof (fine_flat _ (proj1 (wf_mid _ _ _ Wf))). destruct (flat (Sub id None kids)); [easy|cbn; lia]. }
      destruct (decompose _ _ _ _ _ _ _ _ _ _ (proj2 (proj2 (wf_mid _ _ _ Wf))) HR (norm_norm _) _ eq_refl Lp) as (d1 & w1 & o1 & d2 & H1 & H2 & H3 & H4).
      destruct (IHk _ _ _ _ _ _ _ eq_refl Ek H3 H1) as (n & [[k2 w2] r] & Hn).
      destruct (sound _ _ _ _ _ _ _ _ _ _ _ Wk Ek Fu Om Hn) as (-> & d' & o' & HR' & Ag). destruct (R_det _ _ _ _ _ _ _ _ HR' _ _ _ H1) as [<- <-].
      exists n. rewrite Es, Hn. destruct r as [e|[a|]], o' as [e'|b]; try easy; cbn in Ag.
      + subst e'. exists w2, (inl e), d2. split; [reflexivity|]. split; [exact I|]. split; [exact H2|exact H4].
      + destruct Ag as (<- & Et & Oa & Fa). exists w2, (inr a), d2. split; [reflexivity|]. split; [repeat split; auto; destruct (r_t _ _ a) as [[]|]; cbn in *; try easy; apply Et|].
        split; [now apply cont_nret|exact H4].
  Qed.
  (** the nested flow ends if the flat one does *)
  Lemma complete : forall N sz d ts st i p x m w w' o, d <= N -> size ts <= sz -> wf ts -> entry ts st i p -> full x m -> okm m -> R (flatl ts) p x (norm m) w d w' o ->
    exists n v, seq n None st x m (Z.of_nat i) w = Some v.
  Proof.
    intros N. induction N as [N IHN] using lt_wf_ind. intros sz. induction sz as [sz IHs] using lt_wf_ind. intros d ts st i p x m w w' o Ld Ls Wf En Fu Om HR.
    destruct (entry_node _ _ _ _ Wf En) as (A & t & C & u & p' & -> & -> & -> & -> & Ne).
    assert (forall id kids kids1 j d1 w1 o1, t = Sub id None kids -> entry kids kids1 j p' -> d1 <= d -> R (flatl kids) p' x (norm m) w d1 w1 o1 ->
       exists n v, seq n None kids1 x m (Z.of_nat j) w = Some v) as IHk.
    { intros id kids kids1 j d1 w1 o1 -> Ek L1 H1. pose proof (size_mid A id None kids C). destruct (wf_kids _ _ _ _ _ Wf) as (_ & _ & Wk).
      apply (IHs (size kids) ltac:(lia) d1 kids kids1 j p' x m w w1 o1); auto. lia. }
    destruct (node_complete _ _ _ _ _ _ _ _ _ _ _ Wf Ne Fu Om IHk HR) as (n1 & w1 & ro & d2 & Ex & Ok & Co & Lt).
    destruct ro as [e|r0]; [exists (S n1); rewrite seq_at, Ex; eauto|]. destruct Ok as (St & O0 & F0).
    destruct (follow_ok A t C r0 Wf St O0 F0) as [(a & Ef & _ & _)|(st' & j & q & Ef & En' & Co')].
    - exists (S n1). rewrite seq_at, Ex, Ef. eauto.
    - apply Co' in Co. destruct (IHN d2 ltac:(lia) (size (A ++ t :: C)) d2 _ _ _ _ _ _ _ _ _ (le_n _) (le_n _) Wf En' F0 O0 Co) as (n2 & v & Hv).
      exists (S (n1 + n2)), v. rewrite seq_at. rewrite (exec_mono _ (seq (n1 + n2) None) _ _ _ _ _ (fun ts x m i w v => seq_le n1 (n1 + n2) None ts x m i w v ltac:(lia)) Ex), Ef.
      apply (seq_le n2); [lia|exact Hv].
  Qed.

  (** ** C335: a BiFlowNode is executed like its nodes in the outer flow *)
  Definition same (r r' : fexn + res X Mg) : Prop := match r, r' with inl e, inl e' => e = e' | inr (RRet _ _ a), inr (RRet _ _ b) => nret a = nret b | _, _ => False end.
  Lemma flat_leaf : forall t u, In u (flat t) -> is_leaf u.
  Proof.
    induction t as [id k|k|id rq kids IH] using tree_ind'; intros u H; try (cbn in H; destruct H as [<-|[]]; exact I). cbn in H. apply in_flat_map in H. destruct H as (v & Hv & Hu).
    rewrite Forall_forall in IH. now apply (IH v).
  Qed.
  Lemma flat_flat : forall ts, flatl (flatl ts) = flatl ts.
  Proof.
    intros ts. assert (forall l, (forall u, In u l -> is_leaf u) -> flatl l = l) as G.
    { induction l as [|u l IH]; intros H; [reflexivity|]. change (flatl (u :: l)) with (flat u ++ flatl l).
      rewrite IH by (intros; apply H; now right). destruct u; [reflexivity|reflexivity|]. destruct (H _ (or_introl eq_refl)). }
    apply G. intros u H. unfold flatl in H. apply in_flat_map in H. destruct H as (v & _ & Hu). now apply flat_leaf in Hu.
  Qed.
  Lemma wf_flat : forall ts, wf ts -> wf (flatl ts).
  Proof.
    intros ts (H1 & H2 & H3). assert (forall u, In u (flatl ts) -> is_leaf u) as Lf.
    { intros u H. unfold flatl in H. apply in_flat_map in H. destruct H as (v & _ & Hu). now apply flat_leaf in Hu. }
    split; [|split].
    - apply forallb_forall. intros u Hu. apply Lf in Hu. now destruct u.
    - now rewrite flat_flat.
    - intros s Hs. apply in_flat_map in Hs. destruct Hs as (u & Hu & Hs). apply Lf in Hu. now destruct u.
  Qed.
  Lemma entry_0 : forall ts, ts <> [] -> entry ts ts 0 0.
  Proof. intros [|t ts] H; [easy|]. left. repeat split. cbn. lia. Qed.
  Theorem C335_flat : forall ts x m w, ts <> [] -> wf ts -> full x m -> okm m ->
    (forall n ts' w' r, seq n None ts x m 0 w = Some (ts', w', r) -> ts' = ts /\ exists n' r', seq n' None (flatl ts) x m 0 w = Some (flatl ts, w', r') /\ same r r')
    /\ (forall n fs' w' r, seq n None (flatl ts) x m 0 w = Some (fs', w', r) -> exists n' r', seq n' None ts x m 0 w = Some (ts, w', r') /\ same r' r).
  Proof.
    intros ts x m w Nn Wf Fu Om.
    assert (flatl ts <> []) as Nf.
    { destruct ts as [|t ts]; [easy|]. cbn. destruct Wf as (F & _). cbn in F. apply andb_prop in F. pose proof (fine_flat t (proj1 F)) as Ft. destruct (flat t); easy. }
    pose proof (wf_flat _ Wf) as Wg.
    assert (forall r r' o, agree r o -> agree r' o -> same r r') as Ag.
    { intros [e|[a|]] [e'|[b|]] [e2|c]; cbn; intros; try easy; try congruence. intuition congruence. }
    split.
    - intros n ts' w' r H. destruct (sound n ts ts 0 0 x m w ts' w' r Wf (entry_0 _ Nn) Fu Om H) as (-> & d & o & HR & A1). split; [reflexivity|].
      rewrite <- (flat_flat ts) in HR. destruct (complete d _ d (flatl ts) (flatl ts) 0 0 x m w w' o (le_n _) (le_n _) Wg (entry_0 _ Nf) Fu Om HR) as (n' & [[fs' w2] r'] & H').
      destruct (sound n' _ _ 0 0 _ _ _ _ _ _ Wg (entry_0 _ Nf) Fu Om H') as (-> & d2 & o2 & HR2 & A2). destruct (R_det _ _ _ _ _ _ _ _ HR _ _ _ HR2) as [<- <-].
      exists n', r'. split; [exact H'|]. eapply Ag; eassumption.
    - intros n fs' w' r H. destruct (sound n _ _ 0 0 _ _ _ _ _ _ Wg (entry_0 _ Nf) Fu Om H) as (-> & d & o & HR & A1). rewrite flat_flat in HR.
      destruct (complete d _ d ts ts 0 0 x m w w' o (le_n _) (le_n _) Wf (entry_0 _ Nn) Fu Om HR) as (n' & [[ts' w2] r'] & H').
      destruct (sound n' ts ts 0 0 _ _ _ _ _ _ Wf (entry_0 _ Nn) Fu Om H') as (-> & d2 & o2 & HR2 & A2). destruct (R_det _ _ _ _ _ _ _ _ HR _ _ _ HR2) as [<- <-].
      exists n', r'. split; [exact H'|]. eapply Ag; eassumption.
  Qed.
End Nested.

(** ** C339: a message with the method 'inverse' goes through the nodes from the last to the first *)
Section Inverse.
  Context {X Mg W : Type}.
  Variable emptyb : Mg -> bool.
  Variable leaf_exec : nat -> X -> option Mg -> W -> W * (fexn + ret X Mg).
  Variable norm_exec : nat -> X -> W -> W * (fexn + X).
  Variable is_none : X -> bool.
  Variable hdr : option string -> Mg -> Mg * target * bool.
  Notation ret := (ret X Mg).
  Notation seq := (seq X Mg W emptyb leaf_exec norm_exec is_none hdr).
  Notation exec := (exec X Mg W emptyb leaf_exec norm_exec is_none hdr).
  Variable inv : option Mg -> Prop.
  Hypothesis inv_some : ~ inv None.
  Hypothesis inv_hdr : forall id g, inv (Some g) -> hdr id g = (g, TNone, true) \/ hdr id g = (g, TInt (-1), true).
  Hypothesis inv_leaf : forall k x m w w' r, leaf_exec k x m w = (w', inr r) -> inv m -> r_t _ _ r = Some (TInt (-1)) /\ inv (r_m _ _ r).

  (** the nodes one after the other *)
  Fixpoint chain (L : list tree) (x : X) (m : option Mg) (w : W) : W * (fexn + ret) :=
    match L with
    | [] => (w, inr (mkRet X Mg x m (Some (TInt (-1)))))
    | Leaf _ k :: L => match leaf_exec k x m w with (w', inl e) => (w', inl e) | (w', inr r) => chain L (r_x _ _ r) (r_m _ _ r) w' end
    | _ :: _ => (w, inl XType)
    end.
  Lemma chain_app : forall A B x m w, chain (A ++ B) x m w = match chain A x m w with (w', inl e) => (w', inl e) | (w', inr r) => chain B (r_x _ _ r) (r_m _ _ r) w' end.
  Proof. induction A as [|[id k|k|id rq kids] A IH]; intros; cbn; try reflexivity. destruct (leaf_exec k x m w) as [w' [e|r]]; [reflexivity|apply IH]. Qed.
  (** no normal nodes, no empty BiFlowNodes; the only request stored is that of the only node of a BiFlowNode *)
  Fixpoint calm (t : tree) : bool :=
    match t with
    | Leaf _ _ => true
    | Norm _ => false
    | Sub _ rq kids => match kids with [] => false | _ => true end && match rq with None => true | Some (QIdx 0) => List.length kids =? 1 | _ => false end && forallb calm kids
    end.
  Lemma reset_flat : forall t, flat (reset_rq t) = flat t.
  Proof. induction t as [id k|k|id rq kids IH] using tree_ind'; try reflexivity. cbn. rewrite flat_map_concat_map, map_map, flat_map_concat_map. f_equal. apply map_ext_in. now rewrite Forall_forall in IH. Qed.

  Definition goes (t : tree) : Prop := forall x m w, calm t = true -> inv m -> exists n t', calm t' = true /\ reset_rq t' = reset_rq t
    /\ exec n t x m w = Some (t', fst (chain (rev (flat t)) x m w), snd (chain (rev (flat t)) x m w))
    /\ match snd (chain (rev (flat t)) x m w) with inl _ => True | inr r => r_t _ _ r = Some (TInt (-1)) /\ inv (r_m _ _ r) end.
  Lemma reset_size : forall t, tsize (reset_rq t) = tsize t.
  Proof.
    induction t as [id k|k|id rq kids IH] using tree_ind'; try reflexivity. cbn. f_equal. induction IH as [|u l Hu _ IHl]; [reflexivity|]. cbn. now rewrite Hu, IHl.
  Qed.
  Lemma goes_seq : forall N, (forall t, tsize t <= N -> goes t) -> forall A t C, (forall u, In u (A ++ t :: C) -> tsize u <= N) -> forallb calm (A ++ t :: C) = true -> forall x m w, inv m ->
    let c := chain (rev (flatl (A ++ [t]))) x m w in
    exists n ts', forallb calm ts' = true /\ map reset_rq ts' = map reset_rq (A ++ t :: C)
      /\ seq n None (A ++ t :: C) x m (Z.of_nat (List.length A)) w = Some (ts', fst c, match snd c with inl e => inl e | inr r => inr (RRet _ _ r) end)
      /\ match snd c with inl _ => True | inr r => r_t _ _ r = Some (TInt (-1)) /\ inv (r_m _ _ r) end.
  Proof.
    intros N G A. induction A as [|a A IH] using rev_ind; intros t C Sz Cm x m w Im; cbv zeta.
    all: rewrite flatl_app, rev_app_distr, chain_app; replace (flatl [t]) with (flat t) by (cbn; now rewrite app_nil_r).
    all: rewrite forallb_app in Cm; cbn [forallb] in Cm; apply andb_prop in Cm; destruct Cm as [Ca Cb]; apply andb_prop in Cb; destruct Cb as [Ct Cc].
    all: assert (tsize t <= N) as St by (apply Sz; apply in_app_iff; right; now left).
    all: destruct (G t St x m w Ct Im) as (n1 & t' & Ct' & Rt & Ex & Ok).
    all: match goal with |- context [seq _ None (?B ++ _ :: _)] => assert (forallb calm (B ++ t' :: C) = true) as Cts by (rewrite forallb_app; cbn [forallb]; rewrite Ct', Cc; try rewrite Ca; reflexivity);
      assert (map reset_rq (B ++ t' :: C) = map reset_rq (B ++ t :: C)) as Rts by (rewrite !map_app; cbn; now rewrite Rt) end.
    all: destruct (chain (rev (flat t)) x m w) as [w1 [e|r]]; cbn [fst snd] in *;
      [match type of Cts with forallb _ ?l = _ => exists (S n1), l end; split; [exact Cts|]; split; [exact Rts|]; split; [rewrite seq_at; unfold BiFlowNodeModel.exec in Ex; rewrite Ex; reflexivity|exact I]|].
    - destruct Ok as [Ok1 Ok2]. exists (S n1), ([] ++ t' :: C). split; [exact Cts|]. split; [exact Rts|]. split; [|cbn; easy].
      rewrite seq_at. unfold BiFlowNodeModel.exec in Ex. rewrite Ex. unfold follow. rewrite Ok1. cbn -[Z.of_nat]. destruct (Z.eqb_spec (-1) (Z.of_nat (S (List.length C)))); [lia|].
      reflexivity.
    - destruct Ok as [Ok1 Ok2]. rewrite <- !app_assoc in *. cbn [app] in *.
      assert (forall u, In u (A ++ a :: t' :: C) -> tsize u <= N) as Sz'.
      { intros u Hu. apply in_app_iff in Hu. destruct Hu as [Hu|[<-|[<-|Hu]]]; try (apply Sz; apply in_app_iff; cbn; tauto). rewrite <- reset_size, Rt, reset_size. exact St. }
      destruct (IH a (t' :: C) Sz' Cts (r_x _ _ r) (r_m _ _ r) w1 Ok2) as (n2 & ts2 & C2 & R2 & S2 & O2).
      exists (S (n1 + n2)), ts2. split; [exact C2|]. split; [now rewrite R2|]. split; [|exact O2].
      replace (A ++ a :: t :: C) with ((A ++ [a]) ++ t :: C) by now rewrite <- app_assoc.
      rewrite seq_at. unfold BiFlowNodeModel.exec in Ex. rewrite (exec_mono _ _ _ _ _ (seq (n1 + n2) None) _ _ _ _ _ (fun ts x m i w v => seq_le emptyb leaf_exec norm_exec is_none hdr n1 (n1 + n2) None ts x m i w v ltac:(lia)) Ex).
      unfold follow. rewrite Ok1. rewrite app_length. cbn [List.length]. replace (Z.of_nat (List.length A + 1) + -1)%Z with (Z.of_nat (List.length A)) by lia.
      destruct (Z.eqb_spec (Z.of_nat (List.length A)) (Z.of_nat (List.length ((A ++ [a]) ++ t' :: C)))) as [E|_]; [rewrite !app_length in E; cbn in E; lia|].
      destruct (Z.eqb_spec (Z.of_nat (List.length A)) (-1)); [lia|]. rewrite <- app_assoc. cbn [app].
      apply (seq_le _ _ _ _ _ n2); [lia|exact S2].
  Qed.
  Lemma all_goes : forall N t, tsize t <= N -> goes t.
  Proof.
    induction N as [|N IH]; intros t Sz; [destruct t; cbn in Sz; lia|]. intros x m w Ct Im. destruct t as [id k|k|id rq kids]; [| discriminate |].
    - exists 0, (Leaf id k). split; [reflexivity|]. split; [reflexivity|]. cbn. destruct (leaf_exec k x m w) as [w' [e|r]] eqn:E; cbn; [easy|].
      destruct (inv_leaf _ _ _ _ _ _ E Im) as [E1 E2]. split; [|easy]. destruct r as [y my ty]. cbn in *. now subst.
    - cbn [calm] in Ct. apply andb_prop in Ct. destruct Ct as [Ct Ck]. apply andb_prop in Ct. destruct Ct as [Cn Cr].
      assert (0 < List.length kids) as Lk by (destruct kids; [discriminate|cbn; lia]).
      assert (forall u, In u kids -> tsize u <= N) as Sk.
      { intros u Hu. cbn in Sz. assert (tsize u <= fold_right (fun u a => tsize u + a) 0 kids); [|lia]. clear - Hu. induction kids as [|v l IHl]; [easy|]. destruct Hu as [->|Hu]; cbn; [lia|]. specialize (IHl Hu). lia. }
      destruct (exists_last (l := kids) ltac:(intros ->; cbn in Lk; lia)) as (A & t & Ekids).
      destruct (goes_seq N IH A t [] ltac:(now rewrite <- Ekids) ltac:(now rewrite <- Ekids) x m w Im) as (n & ks & Ks & Rs & Es & Ok). rewrite <- Ekids in *.
      assert (List.length A = List.length kids - 1) as La by (rewrite Ekids, app_length; cbn; lia). rewrite La in Es. clear La Ekids A t. cbn [flat]. fold (flatl kids).
      assert (List.length ks = List.length kids) as Lks by (rewrite <- (map_length reset_rq), Rs, map_length; reflexivity).
      destruct m as [g|]; [|easy].
      assert (exists rq2 goal tg1, (let '(_, tg, iv) := header Mg hdr id (Some g) in let (rq1, tg1) := get_method iv rq tg (List.length kids) in let (rq2, goal) := get_target rq1 in (rq2, goal, tg1)) = (rq2, goal, tg1)
              /\ header Mg hdr id (Some g) = (Some g, snd (fst (header Mg hdr id (Some g))), true)
              /\ to_index kids goal 0 = (kids, inr (Some (Z.of_nat (List.length kids - 1)))) /\ match rq2 with None => true | Some (QIdx 0) => List.length kids =? 1 | _ => false end = true) as (rq2 & goal & tg1 & Eh & Ehd & Ei & Eq).
      { assert (forall z, (z <? Z.of_nat (List.length kids))%Z = true -> (0 <=? z)%Z = true -> to_index kids (TInt z) 0 = (kids, inr (Some z))) as Ti.
        { intros z H1 H2. apply Z.ltb_lt in H1. apply Z.leb_le in H2. cbn. replace (z <? 0)%Z with false by (symmetry; apply Z.ltb_ge; lia).
          replace (z >=? Z.of_nat (List.length kids))%Z with false by (symmetry; rewrite Z.geb_leb; apply Z.leb_gt; lia). reflexivity. }
        cbn [header]. destruct (inv_hdr id g Im) as [-> | ->]; cbn [get_method fst snd].
        all: destruct rq as [[s|[|q]]|]; try discriminate Cr; cbn [get_target].
        all: try (apply Nat.eqb_eq in Cr; rewrite Cr; eexists _, _, _; split; [reflexivity|]; split; [reflexivity|]; split; [rewrite Ti; [reflexivity| |]|]; [apply Z.ltb_lt; lia|reflexivity|reflexivity]).
        all: destruct (List.length kids - 1) as [|q] eqn:El; cbn [get_target]; eexists _, _, _; (split; [reflexivity|]); (split; [reflexivity|]); split;
          try (rewrite Ti; [reflexivity|apply Z.ltb_lt; lia|apply Z.leb_le; lia]); try reflexivity; apply Nat.eqb_eq; lia. }
      exists n, (Sub id rq2 ks). split; [cbn [calm]; rewrite Ks, Lks, Eq; destruct ks; [cbn in Lks; lia|reflexivity]|]. split; [cbn; now rewrite Rs|].
      split; [|exact Ok]. unfold BiFlowNodeModel.exec, exec_node. destruct (header Mg hdr id (Some g)) as [[m1 tg] iv]. cbn [fst snd] in Ehd. injection Ehd as -> ->.
      destruct (get_method true rq tg (List.length kids)) as [rq1 tg']. destruct (get_target rq1) as [rq3 goal3]. injection Eh as -> -> ->. rewrite Ei. cbn beta iota. rewrite Es.
      destruct (chain (rev (flatl kids)) x (Some g) w) as [w1 [e|r]]; cbn; [reflexivity|]. destruct Ok as [Ok1 _]. cbn in Ok1. unfold combine. now rewrite Ok1.
  Qed.
  Theorem C339_inverse : forall t x m w, calm t = true -> inv m -> exists n t', reset_rq t' = reset_rq t /\ calm t' = true
    /\ exec n t x m w = Some (t', fst (chain (rev (flat t)) x m w), snd (chain (rev (flat t)) x m w)).
  Proof. intros t x m w Ct Im. destruct (all_goes (tsize t) t (le_n _) x m w Ct Im) as (n & t' & H1 & H2 & H3 & _). exists n, t'. auto. Qed.
  Lemma search_leaf : forall A s k C i, Forall is_leaf A -> Forall (fun t => match t with Leaf id _ => same_id id s = false | _ => True end) A ->
    search s (A ++ Leaf (Some s) k :: C) i = (A ++ Leaf (Some s) k :: C, Some (i + List.length A)).
  Proof.
    induction A as [|a A IH]; intros s k C i Hl Hs; cbn; [rewrite String.eqb_refl, Nat.add_0_r; reflexivity|]. inversion_clear Hl. inversion_clear Hs.
    assert (request s a = (a, false)) as -> by (destruct a; cbn in *; [congruence|reflexivity|easy]). rewrite IH by assumption. now rewrite Nat.add_1_r, Nat.add_succ_r.
  Qed.
  (** with an inner node as target of the outer flow (stored by _request_node_id) it starts at this node *)
  Theorem C339_target : forall id s A k C x g w, Forall is_leaf A -> Forall (fun t => match t with Leaf id _ => same_id id s = false | _ => True end) A ->
    s <> ""%string -> s <> "exit"%string -> forallb calm (A ++ Leaf (Some s) k :: C) = true -> inv (Some g) -> hdr id g = (g, TNone, true) ->
    let c := chain (rev (flatl (A ++ [Leaf (Some s) k]))) x (Some g) w in
    exists n t', exec n (Sub id (Some (QId s)) (A ++ Leaf (Some s) k :: C)) x (Some g) w = Some (t', fst c, snd c).
  Proof.
    intros id s A k C x g w Hl Hs N1 N2 Cm Im Hh. cbv zeta. set (N := fold_right (fun u a => tsize u + a) 0 (A ++ Leaf (Some s) k :: C)).
    assert (forall u, In u (A ++ Leaf (Some s) k :: C) -> tsize u <= N) as Sz.
    { unfold N. clear. induction (A ++ Leaf (Some s) k :: C) as [|v l IHl]; intros u Hu; [easy|]. destruct Hu as [->|Hu]; cbn; [lia|]. specialize (IHl u Hu). lia. }
    destruct (goes_seq N (all_goes N) A _ C Sz Cm x (Some g) w Im) as (n & ks & _ & _ & Es & Ok). cbv zeta in Es, Ok. exists n. eexists. unfold BiFlowNodeModel.exec, exec_node, header. rewrite Hh.
    cbn [get_method get_target]. rewrite (proj2 (String.eqb_neq _ _) N1). cbn [to_index]. rewrite (proj2 (String.eqb_neq _ _) N2). rewrite search_leaf by assumption. cbn [Nat.add]. rewrite Es.
    destruct (chain (rev (flatl (A ++ [Leaf (Some s) k]))) x (Some g) w) as [w1 [e|r]]; cbn [fst snd] in *; [reflexivity|]. destruct Ok as [Ok _]. unfold combine. rewrite Ok. reflexivity.
  Qed.
End Inverse.

(** ** Concrete nodes for examples: the data is the list of the nodes visited, None if there is none; the state counts executions *)
Definition ex_leaf (tg : nat -> nat -> option target) (k : nat) (x : option (list nat)) (m : option (list nat)) (w : nat) : nat * (fexn + ret (option (list nat)) (list nat)) :=
  (S w, inr (mkRet _ _ (match x with Some l => Some (l ++ [k]) | None => None end) m (tg k w))).
Definition ex_norm (k : nat) (x : option (list nat)) (w : nat) : nat * (fexn + option (list nat)) := (S w, inr (match x with Some l => Some (l ++ [k]) | None => Some [k] end)).
Definition ex_none (x : option (list nat)) : bool := match x with None => true | Some _ => false end.
Definition ex_empty (m : list nat) : bool := match m with [] => true | _ => false end.
(** the key 7 is the method 'inverse' *)
Definition ex_hdr (id : option string) (m : list nat) : list nat * target * bool := (m, TNone, existsb (Nat.eqb 7) m).
Definition ex_seq tg n := seq (option (list nat)) (list nat) nat ex_empty (ex_leaf tg) ex_norm ex_none ex_hdr n None.
Definition ex_exec tg n := exec (option (list nat)) (list nat) nat ex_empty (ex_leaf tg) ex_norm ex_none ex_hdr n.
Definition nx : nat -> nat -> option target := fun _ _ => None.
Local Open Scope string_scope.
Local Open Scope nat_scope.
Local Open Scope list_scope.
Definition ex_ts : list tree := [Leaf (Some "a") 0; Sub (Some "s") None [Leaf (Some "b") 1; Sub None None [Norm 5; Leaf (Some "c") 2]]; Leaf (Some "d") 3].
(** node 3 sends the data back to c once *)
Definition back_c (k w : nat) : option target := if (k =? 3) && (w <? 5) then Some (TStr "c") else None.

Example C335_ex :
  wf ["s"] ex_ts /\ flatl ex_ts = [Leaf (Some "a") 0; Leaf (Some "b") 1; Norm 5; Leaf (Some "c") 2; Leaf (Some "d") 3]
  /\ ex_seq back_c 20 ex_ts (Some []) None 0 0 = Some (ex_ts, 7, inr (RRet _ _ (mkRet _ _ (Some [0; 1; 5; 2; 3; 2; 3]) None None)))
  /\ ex_seq back_c 20 (flatl ex_ts) (Some []) None 0 0 = Some (flatl ex_ts, 7, inr (RRet _ _ (mkRet _ _ (Some [0; 1; 5; 2; 3; 2; 3]) None None))).
Proof.
  split; [|split; [|split]]; try reflexivity. split; [reflexivity|]. split; [|intros s Hs; exact Hs]. cbn. repeat constructor; cbn; intuition congruence.
Qed.

(** ** C336: relative targets across the border of a BiFlowNode *)
Definition step (z : Z) (k0 k w : nat) : option target := if (k =? k0) && (w <=? k0) then Some (TInt z) else None.
Theorem C336_refuted : exists (tg : nat -> nat -> option target) (ts : list tree) (x : option (list nat)) w1 w2 a b,
  forallb fine ts = true /\ ex_seq tg 20 ts x None 0 0 = Some (ts, w1, inr (RRet _ _ a)) /\ ex_seq tg 20 (flatl ts) x None 0 0 = Some (flatl ts, w2, inr (RRet _ _ b)) /\ r_x _ _ a <> r_x _ _ b.
Proof.
  exists (step (-1) 2), [Sub None None [Leaf None 0; Leaf None 1]; Leaf None 2], (Some []), 6, 5, (mkRet _ _ (Some [0; 1; 2; 0; 1; 2]) None None), (mkRet _ _ (Some [0; 1; 2; 1; 2]) None None).
  repeat split; try reflexivity. discriminate.
Qed.
Theorem C336_refuted_index : exists (tg : nat -> nat -> option target) (ts : list tree) (x : option (list nat)) w1 w2 b,
  forallb fine ts = true /\ ex_seq tg 20 ts x None 0 0 = Some (ts, w1, inl XIndex) /\ ex_seq tg 20 (flatl ts) x None 0 0 = Some (flatl ts, w2, inr (RRet _ _ b)).
Proof.
  exists (step 2 1), [Sub None None [Leaf None 0; Leaf None 1]; Leaf None 2; Leaf None 3], (Some []), 2, 3, (mkRet _ _ (Some [0; 1; 3]) None None).
  repeat split; reflexivity.
Qed.
(** inside a flow a relative target is followed *)
Theorem C336_relative : forall X Mg W emptyb leaf_exec norm_exec is_none hdr n ts i id k x m (w w' : W) (r : ret X Mg) z,
  nth_error ts i = Some (Leaf id k) -> leaf_exec k x m w = (w', inr r) -> r_t _ _ r = Some (TInt z) -> (0 <= Z.of_nat i + z < Z.of_nat (List.length ts))%Z ->
  seq X Mg W emptyb leaf_exec norm_exec is_none hdr (S n) None ts x m (Z.of_nat i) w
  = seq X Mg W emptyb leaf_exec norm_exec is_none hdr n None ts (r_x _ _ r) (r_m _ _ r) (Z.of_nat i + z) w'.
Proof.
  intros X Mg W emptyb leaf_exec norm_exec is_none hdr n ts i id k x m w w' r z Hn Hl Ht Hz. destruct (nth_error_split _ _ Hn) as (A & C & -> & <-).
  rewrite seq_at. cbn [exec_node]. rewrite Hl. unfold follow. rewrite Ht.
  destruct (Z.eqb_spec (Z.of_nat (List.length A) + z) (Z.of_nat (List.length (A ++ Leaf id k :: C)))); [lia|]. destruct (Z.eqb_spec (Z.of_nat (List.length A) + z) (-1)); [lia|]. reflexivity.
Qed.
Example C336_ex : ex_seq (step (-1) 2) 20 [Leaf None 0; Leaf None 1; Leaf None 2] (Some []) None 0 0 = Some ([Leaf None 0; Leaf None 1; Leaf None 2], 5, inr (RRet _ _ (mkRet _ _ (Some [0; 1; 2; 1; 2]) None None))).
Proof. reflexivity. Qed.

(** ** C337: training *)
Section Train.
  Context {X Mg W : Type}.
  Variable emptyb : Mg -> bool.
  Variable leaf_exec : nat -> X -> option Mg -> W -> W * (fexn + ret X Mg).
  Variable norm_exec : nat -> X -> W -> W * (fexn + X).
  Variable leaf_train : nat -> X -> option Mg -> W -> W * (fexn + option (ret X Mg)).
  Variable norm_train : nat -> X -> W -> W * option fexn.
  Variable leaf_stop : nat -> option Mg -> W -> W * (fexn + option (ret X Mg)).
  Variable norm_stop : nat -> W -> W * option fexn.
  Variable is_none : X -> bool.
  Variable hdr : option string -> Mg -> Mg * target * bool.
  Notation ret := (ret X Mg).
  Notation seq := (seq X Mg W emptyb leaf_exec norm_exec is_none hdr).
  Notation train_hook := (train_hook X Mg W emptyb leaf_exec norm_exec leaf_train norm_train is_none hdr).
  Notation stop_hook := (stop_hook X Mg W emptyb leaf_exec norm_exec leaf_stop norm_stop is_none hdr).
  (** nodes without a target of their own, one after the other *)
  Fixpoint forward (L : list tree) (x : X) (m : option Mg) (w : W) : W * (fexn + (X * option Mg)) :=
    match L with
    | [] => (w, inr (x, m))
    | t :: L => match run1 leaf_exec norm_exec t x m w with (w', inl e) => (w', inl e) | (w', inr r) => forward L (r_x _ _ r) (r_m _ _ r) w' end
    end.
  Hypothesis leaf_next : forall k x m w w' r, leaf_exec k x m w = (w', inr r) -> r_t _ _ r = None.
  Lemma run1_next : forall t x m w w' r, run1 leaf_exec norm_exec t x m w = (w', inr r) -> r_t _ _ r = None.
  Proof. intros [id k|k|id rq kids] x m w w' r H; cbn in H; [eauto|destruct (norm_exec k x w) as [w1 [e|y]]; [discriminate|now injection H as <- <-]|discriminate]. Qed.
  Lemma seq_forward : forall B A t C x m w, Forall is_leaf B ->
    seq (S (List.length B)) (Some (List.length (A ++ B))) (A ++ B ++ t :: C) x m (Z.of_nat (List.length A)) w
    = Some (A ++ B ++ t :: C, fst (forward B x m w), match snd (forward B x m w) with inl e => inl e | inr (y, m') => inr (RStop _ _ y m') end).
  Proof.
    induction B as [|b B IH]; intros A t C x m w Hl.
    - cbn [List.length BiFlowNodeModel.seq app]. rewrite app_nil_r, Z.eqb_refl. reflexivity.
    - inversion Hl as [|? ? Hb HB]; subst. cbn [List.length]. remember (S (List.length B)) as n. cbn [BiFlowNodeModel.seq app]. rewrite app_length. cbn [List.length].
      destruct (Z.eqb_spec (Z.of_nat (List.length A)) (Z.of_nat (List.length A + S (List.length B)))); [lia|].
      rewrite index_nat by (rewrite app_length; cbn; lia). rewrite nth_error_app2 by lia. rewrite Nat.sub_diag. cbn [nth_error].
      rewrite exec_leaf by exact Hb. cbn [forward]. destruct (run1 leaf_exec norm_exec b x m w) as [w' [e|r]] eqn:Er; cbn [fst snd]; rewrite upd_mid; [reflexivity|].
      unfold follow. rewrite (run1_next _ _ _ _ _ _ Er). destruct (Z.eqb_spec (Z.of_nat (List.length A) + 1) (Z.of_nat (List.length (A ++ b :: B ++ t :: C)))) as [E|_].
      { rewrite app_length in E. cbn in E. rewrite app_length in E. cbn in E. lia. }
      destruct (Z.eqb_spec (Z.of_nat (List.length A) + 1) (-1)); [lia|]. subst n.
      specialize (IH (A ++ [b]) t C (r_x _ _ r) (r_m _ _ r) w' HB). rewrite <- !app_assoc in IH. cbn [app] in IH. rewrite !app_length in IH. cbn [List.length] in IH.
      replace (Z.of_nat (List.length A) + 1)%Z with (Z.of_nat (List.length A + 1)) by lia. exact IH.
  Qed.
  (** train in the phase of the node t: the nodes before it are executed, t is trained with their output *)
  Theorem C337_train : forall B id l C x m w, Forall is_leaf B ->
    exists n, let h := train_hook n (List.length B) None (B ++ Leaf id l :: C) x m w in
      match forward B x m w with
      | (w1, inl e) => h = Some (None, B ++ Leaf id l :: C, w1, inl e)
      | (w1, inr (y, m')) =>
          match leaf_train l y m' w1 with
          | (w2, inl e) => h = Some (None, B ++ Leaf id l :: C, w2, inl e)
          | (w2, inr None) => h = Some (None, B ++ Leaf id l :: C, w2, inr None)
          | (w2, inr (Some r)) => True
          end
      end.
  Proof.
    intros B id l C x m w Hl. exists (S (S (List.length B))). cbv zeta. unfold BiFlowNodeModel.train_hook. cbn [get_target to_index]. rewrite Z.add_0_r.
    replace (0 >=? Z.of_nat (List.length (B ++ Leaf id l :: C)))%Z with false by (symmetry; rewrite Z.geb_leb; apply Z.leb_gt; rewrite app_length; cbn; lia). cbn [Z.ltb Z.compare].
    remember (S (List.length B)) as n1 eqn:En. cbn [train_loop]. subst n1. pose proof (seq_forward B [] (Leaf id l) C x m w Hl) as Hs. cbn [app List.length Z.of_nat] in Hs. rewrite Hs.
    destruct (forward B x m w) as [w1 [e|[y m']]]; cbn [fst snd]; [reflexivity|]. rewrite nth_error_app2 by lia. rewrite Nat.sub_diag. cbn [nth_error].
    destruct (leaf_train l y m' w1) as [w2 [e|[r|]]]; reflexivity || exact I.
  Qed.
  (** a result with a relative target into the flow is followed: its data go from that node to the training node, which is trained again *)
  Theorem C337_train_back : forall A B id l C x m w w1 y m' w2 r w3 y2 m2 w4, Forall is_leaf (A ++ B) ->
    forward (A ++ B) x m w = (w1, inr (y, m')) -> leaf_train l y m' w1 = (w2, inr (Some r)) -> r_t _ _ r = Some (TInt (- Z.of_nat (List.length B))) ->
    forward B (r_x _ _ r) (r_m _ _ r) w2 = (w3, inr (y2, m2)) -> leaf_train l y2 m2 w3 = (w4, inr None) ->
    exists n, train_hook n (List.length (A ++ B)) None (A ++ B ++ Leaf id l :: C) x m w = Some (None, A ++ B ++ Leaf id l :: C, w4, inr None).
  Proof.
    intros A B id l C x m w w1 y m' w2 r w3 y2 m2 w4 Hl F1 T1 Tr F2 T2. exists (S (S (S (List.length (A ++ B))))). unfold BiFlowNodeModel.train_hook. cbn [get_target to_index]. rewrite Z.add_0_r.
    replace (0 >=? Z.of_nat (List.length (A ++ B ++ Leaf id l :: C)))%Z with false by (symmetry; rewrite Z.geb_leb; apply Z.leb_gt; rewrite !app_length; cbn; lia). cbn [Z.ltb Z.compare].
    remember (S (List.length (A ++ B))) as n1 eqn:En. remember (S n1) as n2 eqn:En2. cbn [train_loop]. subst n2.
    pose proof (seq_forward (A ++ B) [] (Leaf id l) C x m w Hl) as Hs. cbn [app List.length Z.of_nat] in Hs. rewrite <- app_assoc in Hs. rewrite F1 in Hs. cbn [fst snd] in Hs. rewrite <- En in Hs.
    rewrite (seq_le _ _ _ _ _ n1 (S n1) _ _ _ _ _ _ _ ltac:(lia) Hs). 
    assert (nth_error (A ++ B ++ Leaf id l :: C) (List.length (A ++ B)) = Some (Leaf id l)) as Hn by (rewrite app_assoc, nth_error_app2, Nat.sub_diag by lia; reflexivity).
    rewrite Hn, T1. unfold follow. rewrite Tr. rewrite app_length. replace (Z.of_nat (List.length A + List.length B) + - Z.of_nat (List.length B))%Z with (Z.of_nat (List.length A)) by lia.
    destruct (Z.eqb_spec (Z.of_nat (List.length A)) (Z.of_nat (List.length (A ++ B ++ Leaf id l :: C)))) as [E|_]; [rewrite !app_length in E; cbn in E; lia|].
    destruct (Z.eqb_spec (Z.of_nat (List.length A)) (-1)); [lia|]. cbn [train_loop].
    assert (Forall is_leaf B) as Hb by (apply Forall_app in Hl; tauto).
    pose proof (seq_forward B A (Leaf id l) C (r_x _ _ r) (r_m _ _ r) w2 Hb) as Hs2. rewrite F2 in Hs2. cbn [fst snd] in Hs2. rewrite app_length in Hs2.
    rewrite (seq_le _ _ _ _ _ (S (List.length B)) n1 _ _ _ _ _ _ _ ltac:(rewrite En, app_length; lia) Hs2). rewrite app_length in Hn. rewrite Hn, T2. reflexivity.
  Qed.
  (** a node whose stop_training returns nothing *)
  Theorem C337_stop_none : forall n B id l C m w w1, leaf_stop l m w = (w1, inr None) -> stop_hook n (List.length B) (B ++ Leaf id l :: C) m w = Some (B ++ Leaf id l :: C, w1, inr None).
  Proof. intros n B id l C m w w1 Hs. unfold BiFlowNodeModel.stop_hook. rewrite nth_error_app2 by lia. rewrite Nat.sub_diag. cbn [nth_error]. now rewrite Hs. Qed.
  (** a result without target of a node which is not the last goes to the next node *)
  Theorem C337_stop : forall n B id l t C m w w1 r, leaf_stop l m w = (w1, inr (Some r)) -> r_t _ _ r = None ->
    stop_hook n (List.length B) (B ++ Leaf id l :: t :: C) m w =
      match seq n None (B ++ Leaf id l :: t :: C) (r_x _ _ r) (r_m _ _ r) (Z.of_nat (List.length B) + 1) w1 with
      | Some (ts2, w2, inl e) => Some (ts2, w2, inl e)
      | Some (ts2, w2, inr (RRet _ _ r')) => Some (ts2, w2, inr (Some r'))
      | _ => None
      end.
  Proof.
    intros n B id l t C m w w1 r Hs Ht. unfold BiFlowNodeModel.stop_hook. rewrite nth_error_app2 by lia. rewrite Nat.sub_diag. cbn [nth_error]. rewrite Hs, Ht. unfold follow. rewrite Ht. cbn [to_index].
    replace (Z.of_nat (List.length B) + 1 <? 0)%Z with false by (symmetry; apply Z.ltb_ge; lia).
    replace (Z.of_nat (List.length B) + 1 >=? Z.of_nat (List.length (B ++ Leaf id l :: t :: C)))%Z with false by (symmetry; rewrite Z.geb_leb; apply Z.leb_gt; rewrite app_length; cbn; lia).
    destruct (seq n None (B ++ Leaf id l :: t :: C) (r_x _ _ r) (r_m _ _ r) (Z.of_nat (List.length B) + 1) w1) as [[[ts2 w2] [e|[r'|]]]|]; reflexivity.
  Qed.
  (** the last node: nothing but an exception *)
  Theorem C337_last : forall n B id l m w w1 r, leaf_stop l m w = (w1, inr (Some r)) -> r_t _ _ r = None ->
    stop_hook n (List.length B) (B ++ [Leaf id l]) m w = Some (B ++ [Leaf id l], w1, inl XFlow).
  Proof.
    intros n B id l m w w1 r Hs Ht. unfold BiFlowNodeModel.stop_hook. rewrite nth_error_app2 by lia. rewrite Nat.sub_diag. cbn [nth_error]. rewrite Hs, Ht. unfold follow. rewrite Ht. cbn [to_index].
    replace (Z.of_nat (List.length B) + 1 <? 0)%Z with false by (symmetry; apply Z.ltb_ge; lia).
    replace (Z.of_nat (List.length B) + 1 >=? Z.of_nat (List.length (B ++ [Leaf id l])))%Z with true; [reflexivity|]. symmetry. rewrite Z.geb_leb. apply Z.leb_le. rewrite app_length. cbn. lia.
  Qed.
End Train.
Definition ex_train (tg : nat -> nat -> option target) (k : nat) (x m : option (list nat)) (w : nat) : nat * (fexn + option (ret (option (list nat)) (list nat))) := (w + 100, inr None).
Definition ex_stop (k : nat) (m : option (list nat)) (w : nat) : nat * (fexn + option (ret (option (list nat)) (list nat))) := (w, inr (Some (mkRet _ _ (Some [k + 10]) None None))).
Definition no_norm (k : nat) (w : nat) : nat * option fexn := (w, None).
Definition ex_train_back (k : nat) (x m : option (list nat)) (w : nat) : nat * (fexn + option (ret (option (list nat)) (list nat))) :=
  if w <? 10 then (w + 10, inr (Some (mkRet _ _ (Some [9]) None (Some (TInt (-1)))))) else (w + 100, inr None).
Example C337_ex_back : train_hook _ _ nat ex_empty (ex_leaf nx) ex_norm ex_train_back (fun _ _ w => (w, None)) ex_none ex_hdr 9 2 None [Leaf None 0; Leaf None 1; Leaf None 2] (Some []) None 0
  = Some (None, [Leaf None 0; Leaf None 1; Leaf None 2], 113, inr None).
Proof. reflexivity. Qed.
Example C337_ex : stop_hook _ _ nat ex_empty (ex_leaf nx) ex_norm ex_stop no_norm ex_none ex_hdr 9 0 [Leaf None 0; Leaf None 1; Leaf None 2] None 0
  = Some ([Leaf None 0; Leaf None 1; Leaf None 2], 2, inr (Some (mkRet _ _ (Some [10; 1; 2]) None None)))
  /\ stop_hook _ _ nat ex_empty (ex_leaf nx) ex_norm ex_stop no_norm ex_none ex_hdr 9 2 [Leaf None 0; Leaf None 1; Leaf None 2] None 0
  = Some ([Leaf None 0; Leaf None 1; Leaf None 2], 0, inl XFlow)
  /\ train_hook _ _ nat ex_empty (ex_leaf nx) ex_norm (ex_train nx) (fun _ _ w => (w, None)) ex_none ex_hdr 9 1 None [Leaf None 0; Leaf None 1] (Some []) None 0
  = Some (None, [Leaf None 0; Leaf None 1], 101, inr None).
Proof. repeat split. Qed.

Theorem C337_refuted : exists (stop : nat -> option (list nat) -> nat -> nat * (fexn + option (ret (option (list nat)) (list nat)))) ts (r : ret (option (list nat)) (list nat)),
  stop 2 None 0 = (0, inr (Some r)) /\ nth_error ts 2 = Some (Leaf None 2) /\
  stop_hook _ _ nat ex_empty (ex_leaf nx) ex_norm stop no_norm ex_none ex_hdr 9 2 ts None 0 = Some (ts, 0, inl XFlow).
Proof. exists ex_stop, [Leaf None 0; Leaf None 1; Leaf None 2], (mkRet _ _ (Some [12]) None None). repeat split; reflexivity. Qed.

(** ** C338: looking for a node *)
Theorem C338_reset : forall s t, reset_rq (fst (request s t)) = reset_rq t /\ flat (fst (request s t)) = flat t.
Proof.
  intros s. induction t as [id k|k|id rq kids IH] using tree_ind'; [split; reflexivity|split; reflexivity|]. rewrite request_sub. destruct (same_id id s); [split; reflexivity|].
  assert (forall o kids', search s kids 0 = (kids', o) -> map reset_rq kids' = map reset_rq kids /\ flat_map flat kids' = flat_map flat kids) as G.
  { intros [j|] kids' H; [|apply search_none in H; now subst]. destruct (search_some _ _ _ _ _ H) as (A & t & C & u & -> & -> & Rt & F & ->). apply Forall_app in IH. destruct IH as [_ IH]. inversion IH as [|? ? [I1 I2] _]; subst.
    rewrite Rt in *. cbn in I1, I2. rewrite !map_app, !flat_map_app. cbn. now rewrite I1, I2. }
  destruct (search s kids 0) as [kids' [j|]] eqn:E; destruct (G _ _ eq_refl) as [G1 G2]; cbn; now rewrite G1, G2.
Qed.
Theorem C338_found : forall s t, ~ In s (sub_ids t) -> snd (request s t) = true <-> In s (ids (flat t)).
Proof.
  intros s t N. rewrite (request_found s t N). destruct (fpos s (flat t)) as [p|] eqn:E.
  - split; [intros _|reflexivity]. destruct (in_dec string_dec s (ids (flat t))) as [H|H]; [exact H|]. apply fpos_none in H. congruence.
  - apply fpos_none in E. split; [discriminate|easy].
Qed.
(** but the next execution of a BiFlowNode depends on it *)
Theorem C338_refuted : exists (t : tree) (s : string) (x : option (list nat)) t1 t2 a b,
  fine t = true /\ ex_exec nx 9 t x None 0 = Some (t1, 2, inr a) /\ ex_exec nx 9 (fst (request s t)) x None 0 = Some (t2, 1, inr b) /\ r_x _ _ a <> r_x _ _ b.
Proof.
  exists (Sub None None [Leaf (Some "a") 0; Leaf (Some "b") 1]), "b", (Some []), (Sub None None [Leaf (Some "a") 0; Leaf (Some "b") 1]), (Sub None None [Leaf (Some "a") 0; Leaf (Some "b") 1]),
    (mkRet _ _ (Some [0; 1]) None None), (mkRet _ _ (Some [1]) None None). repeat split; try reflexivity. discriminate.
Qed.
Example C338_ex : request "c" (Sub (Some "s") None [Leaf (Some "b") 1; Sub None None [Norm 5; Leaf (Some "c") 2]])
  = (Sub (Some "s") (Some (QId "c")) [Leaf (Some "b") 1; Sub None (Some (QId "c")) [Norm 5; Leaf (Some "c") 2]], true).
Proof. reflexivity. Qed.

Example C339_ex : let t := Sub None None [Leaf None 0; Sub None None [Leaf None 1]; Leaf None 2] in calm t = true
  /\ ex_exec (fun _ _ => Some (TInt (-1))) 9 t (Some []) (Some [7]) 0 = Some (Sub None None [Leaf None 0; Sub None (Some (QIdx 0)) [Leaf None 1]; Leaf None 2], 3, inr (mkRet _ _ (Some [2; 1; 0]) (Some [7]) (Some (TInt (-1))))).
Proof. split; reflexivity. Qed.

Example C339_ex_target : ex_exec (fun _ _ => Some (TInt (-1))) 9 (Sub None (Some (QId "b"%string)) [Leaf None 0; Leaf (Some "b"%string) 1; Leaf None 2]) (Some []) (Some [7]) 0
  = Some (Sub None None [Leaf None 0; Leaf (Some "b"%string) 1; Leaf None 2], 2, inr (mkRet _ _ (Some [1; 0]) (Some [7]) (Some (TInt (-1))))).
Proof. reflexivity. Qed.

(** ** C340: CloneBiLayer with one instance of a BiFlowNode *)
Section Clone.
  Context {X Mg W : Type}.
  Variable emptyb : Mg -> bool.
  Variable leaf_exec : nat -> X -> option Mg -> W -> W * (fexn + ret X Mg).
  Variable norm_exec : nat -> X -> W -> W * (fexn + X).
  Variable is_none : X -> bool.
  Variable hdr : option string -> Mg -> Mg * target * bool.
  Notation ret := (ret X Mg).
  Notation exec := (exec X Mg W emptyb leaf_exec norm_exec is_none hdr).
  Variable subs : list string.
  Variable okm : option Mg -> Prop.
  Hypothesis okm_none : okm None.
  Hypothesis okm_hdr : forall id g, okm (Some g) -> hdr id g = (g, TNone, false).
  Hypothesis leaf_empty : forall k x g w, emptyb g = true -> is_none x = false -> leaf_exec k x (Some g) w = leaf_exec k x None w.
  Hypothesis leaf_target : forall k x m w w' r, leaf_exec k x m w = (w', inr r) -> okm m -> step_target subs (r_t _ _ r) /\ okm (r_m _ _ r) /\ full emptyb is_none (r_x _ _ r) (r_m _ _ r).
  Hypothesis norm_data : forall k x w w' y, norm_exec k x w = (w', inr y) -> is_none y = false.
  (** every part executed by t as it was at first *)
  Fixpoint each (n : nat) (t : tree) (parts : list (X * option Mg)) (w : W) : option (W * (fexn + list ret)) :=
    match parts with
    | [] => Some (w, inr [])
    | (x, m) :: parts =>
        match exec n t x m w with
        | None => None
        | Some (_, w', inl e) => Some (w', inl e)
        | Some (_, w', inr r) => match each n t parts w' with None => None | Some (w2, inl e) => Some (w2, inl e) | Some (w2, inr l) => Some (w2, inr (r :: l)) end
        end
    end.
  Lemma exec_same : forall n id kids x m w t' w' r, wf subs [Sub id None kids] -> full emptyb is_none x m -> okm m -> exec n (Sub id None kids) x m w = Some (t', w', r) -> t' = Sub id None kids.
  Proof.
    intros n id kids x m w t' w' r Wf Fu Om H. destruct (wf_kids subs [] id None kids [] Wf) as (_ & _ & Wk).
    destruct (exec_sub emptyb leaf_exec norm_exec is_none hdr subs okm okm_hdr [] id kids [] (Sub id None kids) 0 x m w Wf (or_introl (conj eq_refl eq_refl)) Fu Om) as (kids1 & j & Ek & Es).
    unfold BiFlowNodeModel.exec in H. rewrite Es in H. destruct (seq X Mg W emptyb leaf_exec norm_exec is_none hdr n None kids1 x m (Z.of_nat j) w) as [[[k2 w2] q]|] eqn:Eq; [|discriminate].
    destruct (sound emptyb leaf_exec norm_exec is_none hdr subs okm okm_none okm_hdr leaf_empty leaf_target norm_data n _ _ _ _ _ _ _ _ _ _ Wk Ek Fu Om Eq) as (-> & _).
    destruct q as [e|[a|]]; [|  |discriminate]; now injection H as <- _ _.
  Qed.
  Theorem C340_clone : forall n id kids parts w, wf subs [Sub id None kids] -> Forall (fun p => full emptyb is_none (fst p) (snd p) /\ okm (snd p)) parts ->
    match clone_same X Mg W emptyb leaf_exec norm_exec is_none hdr n (Sub id None kids) parts w with Some (_, w', r) => Some (w', r) | None => None end = each n (Sub id None kids) parts w.
  Proof.
    intros n id kids parts w Wf F. revert w. induction F as [|[x m] parts [Fu Om] _ IH]; intros w; [reflexivity|]. cbn [clone_same each fst snd] in *.
    destruct (exec n (Sub id None kids) x m w) as [[[t' w'] [e|r]]|] eqn:E; try reflexivity. rewrite (exec_same _ _ _ _ _ _ _ _ _ Wf Fu Om E). rewrite <- IH.
    destruct (clone_same X Mg W emptyb leaf_exec norm_exec is_none hdr n (Sub id None kids) parts w') as [[[t2 w2] [e|l]]|]; reflexivity.
  Qed.
End Clone.
Definition ex_clone := clone_same (option (list nat)) (list nat) nat ex_empty (ex_leaf nx) ex_norm ex_none ex_hdr 9.
(** a node inside is the target: the first part starts there, the second one at the first node *)
Theorem C340_refuted : exists (t : tree) (s : string) (x : option (list nat)) t' a b,
  fine t = true /\ snd (request s t) = true /\ ex_clone (fst (request s t)) [(x, None); (x, None)] 0 = Some (t', 3, inr [a; b]) /\ r_x _ _ a = Some [1] /\ r_x _ _ b = Some [0; 1].
Proof.
  exists (Sub None None [Leaf (Some "a") 0; Leaf (Some "b") 1]), "b", (Some []), (Sub None None [Leaf (Some "a") 0; Leaf (Some "b") 1]), (mkRet _ _ (Some [1]) None None), (mkRet _ _ (Some [0; 1]) None None).
  repeat split; reflexivity.
Qed.
Example C340_ex : let t := Sub None None [Leaf (Some "a") 0; Leaf (Some "b") 1] in ex_clone t [(Some [], None); (Some [], None)] 0
  = Some (t, 4, inr [mkRet _ _ (Some [0; 1]) None None; mkRet _ _ (Some [0; 1]) None None]).
Proof. reflexivity. Qed.

(** ** C341: no data and an empty message *)
(** a node returns (None, {}); the next one takes it only outside of a BiFlowNode *)
Definition ex_gone (k : nat) (x m : option (list nat)) (w : nat) : nat * (fexn + ret (option (list nat)) (list nat)) :=
  match x, m with None, None => (w, inl XBoth) | _, _ => (S w, inr (mkRet _ _ None (Some []) None)) end.
Theorem C341_refuted : exists (leaf : nat -> option (list nat) -> option (list nat) -> nat -> nat * (fexn + ret (option (list nat)) (list nat))) ts (x : option (list nat)) w1 w2 b,
  let run := seq _ _ nat ex_empty leaf ex_norm ex_none ex_hdr 9 None in
  forallb fine ts = true /\ run ts x None 0%Z 0 = Some (ts, w1, inl XBoth) /\ run (flatl ts) x None 0%Z 0 = Some (flatl ts, w2, inr b).
Proof.
  exists ex_gone, [Sub None None [Leaf None 0]; Leaf None 1], (Some []), 1, 2, (RRet _ _ (mkRet _ _ None None None)). repeat split; reflexivity.
Qed.
Example C341_ex : seq _ _ nat ex_empty ex_gone ex_norm ex_none ex_hdr 9 None [Sub None None [Leaf None 0]; Leaf None 1] (Some []) None 0 0 = Some ([Sub None None [Leaf None 0]; Leaf None 1], 1, inl XBoth).
Proof. reflexivity. Qed.
