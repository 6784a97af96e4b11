(** Proofs about GraphModel. *)
From Coq Require Import List Arith Bool Lia Permutation.
From Verif Require Import GraphModel.
Import ListNotations.

(** ** Bookkeeping invariant *)
Definition inv (g : graph) : Prop :=
  NoDup (g_nodes g) /\ (forall n, In n (g_nodes g) -> n < g_next g) /\
  NoDup (g_edges g) /\ (forall e, In e (g_edges g) -> e < length (g_ends g)) /\
  (forall e, In e (g_edges g) -> In (head_of g e) (g_nodes g) /\ In (tail_of g e) (g_nodes g)) /\
  (forall n, g_ein g n = filter (fun e => tail_of g e =? n) (g_edges g)) /\
  (forall n, g_eout g n = filter (fun e => head_of g e =? n) (g_edges g)).

Lemma inv_empty : inv empty.
Proof. unfold inv, empty; cbn. repeat split; try constructor; try (intros; contradiction); intros e []. Qed.

Lemma NoDup_snoc {T} (l : list T) x : NoDup l -> ~ In x l -> NoDup (l ++ [x]).
Proof.
  intros H Hx. apply (Permutation_NoDup (l := x :: l)); [apply Permutation_cons_append|]. constructor; assumption.
Qed.

Lemma inv_add_node g : inv g -> inv (fst (add_node g)).
Proof.
  intros (I1 & I2 & I3 & I4 & I5 & I6 & I7). unfold add_node; cbn [fst]. unfold inv; cbn.
  split; [apply NoDup_snoc; [exact I1|intros H; apply I2 in H; lia]|].
  split; [intros n H; apply in_app_or in H as [H|[<-|[]]]; [apply I2 in H|]; lia|].
  split; [exact I3|]. split; [exact I4|]. split; [|split; [exact I6|exact I7]].
  intros e He. destruct (I5 e He). split; apply in_or_app; left; assumption.
Qed.

Lemma ends_old g h t e : e < length (g_ends g) -> nth e (g_ends g ++ [(h, t)]) (0, 0) = nth e (g_ends g) (0, 0).
Proof. intros. apply app_nth1. assumption. Qed.
Lemma ends_new g h t : nth (length (g_ends g)) (g_ends g ++ [(h, t)]) (0, 0) = (h, t).
Proof. rewrite app_nth2, Nat.sub_diag by lia. reflexivity. Qed.

Lemma inv_add_edge g h t : inv g -> In h (g_nodes g) -> In t (g_nodes g) -> inv (fst (add_edge g h t)).
Proof.
  intros (I1 & I2 & I3 & I4 & I5 & I6 & I7) Hh Ht. unfold add_edge; cbn [fst]. unfold inv, head_of, tail_of; cbn.
  split; [exact I1|]. split; [exact I2|].
  split; [apply NoDup_snoc; [exact I3|intros H; apply I4 in H; lia]|].
  split; [intros e H; rewrite app_length; cbn; apply in_app_or in H as [H|[<-|[]]]; [apply I4 in H|]; lia|].
  split.
  { intros e H. apply in_app_or in H as [H|[<-|[]]].
    - rewrite ends_old by (apply I4; exact H). exact (I5 e H).
    - rewrite ends_new. cbn. auto. }
  split; intros n; rewrite filter_app; cbn [filter]; rewrite ends_new; unfold fupd; cbn [fst snd].
  - assert (filter (fun e => snd (nth e (g_ends g ++ [(h, t)]) (0, 0)) =? n) (g_edges g) = g_ein g n) as ->.
    { rewrite I6. apply filter_ext_in. intros e He. unfold tail_of. rewrite ends_old by (apply I4; exact He). reflexivity. }
    rewrite (Nat.eqb_sym n t). destruct (Nat.eqb_spec t n) as [->|]; [reflexivity|rewrite app_nil_r; reflexivity].
  - assert (filter (fun e => fst (nth e (g_ends g ++ [(h, t)]) (0, 0)) =? n) (g_edges g) = g_eout g n) as ->.
    { rewrite I7. apply filter_ext_in. intros e He. unfold head_of. rewrite ends_old by (apply I4; exact He). reflexivity. }
    rewrite (Nat.eqb_sym n h). destruct (Nat.eqb_spec h n) as [->|]; [reflexivity|rewrite app_nil_r; reflexivity].
Qed.

Lemma forallb_filter_id {T} (p : T -> bool) l : forallb p l = true -> filter p l = l.
Proof. induction l as [|x l IH]; cbn; [reflexivity|]. intros H. apply andb_true_iff in H as [H1 H2]. rewrite H1, IH by exact H2. reflexivity. Qed.
Lemma lremove_none x l : lremove x l = None <-> ~ In x l.
Proof.
  induction l as [|y l IH]; cbn; [tauto|]. destruct (Nat.eqb_spec x y) as [->|Hne]; [split; [discriminate|tauto]|].
  destruct (lremove x l).
  - split; [discriminate|]. intros H. assert (Some l0 = None) by (apply IH; tauto). discriminate.
  - split; [|reflexivity]. intros _ [Hy|Hi]; [congruence|]. exact (proj1 IH eq_refl Hi).
Qed.
Lemma lremove_some x l l' : NoDup l -> lremove x l = Some l' -> In x l /\ l' = filter (fun y => negb (y =? x)) l.
Proof.
  revert l'. induction l as [|y l IH]; intros l' Hn; cbn; [discriminate|]. inversion Hn; subst.
  destruct (Nat.eqb_spec x y) as [->|Hne].
  - intros [= <-]. split; [auto|]. rewrite Nat.eqb_refl. cbn.
    symmetry. apply forallb_filter_id. apply forallb_forall. intros z Hz. destruct (Nat.eqb_spec z y) as [->|]; [contradiction|reflexivity].
  - destruct (lremove x l) as [l1|] eqn:E; [|discriminate]. intros [= <-]. destruct (IH l1 H2 eq_refl) as [Hi ->]. split; [auto|].
    destruct (Nat.eqb_spec y x) as [->|]; [congruence|]. reflexivity.
Qed.
Lemma lremove_in x l : In x l -> exists l', lremove x l = Some l'.
Proof. intros H. destruct (lremove x l) as [l'|] eqn:E; [eauto|]. apply lremove_none in E. contradiction. Qed.

Lemma filter_comm {T} (p q : T -> bool) l : filter p (filter q l) = filter q (filter p l).
Proof.
  induction l as [|x l IH]; cbn; [reflexivity|]. destruct (q x) eqn:Eq, (p x) eqn:Ep; cbn; rewrite ?Eq, ?Ep, ?IH; reflexivity.
Qed.

(** Edge [e] removed. *)
Definition without (g : graph) (e : nat) : graph :=
  mkG (g_nodes g) (filter (fun y => negb (y =? e)) (g_edges g)) (g_ends g)
      (fupd (g_ein g) (tail_of g e) (filter (fun y => negb (y =? e)) (g_ein g (tail_of g e))))
      (fupd (g_eout g) (head_of g e) (filter (fun y => negb (y =? e)) (g_eout g (head_of g e)))) (g_next g).

Lemma remove_edge_in g e : inv g -> In e (g_edges g) -> remove_edge g e = (without g e, GOk tt).
Proof.
  intros (I1 & I2 & I3 & I4 & I5 & I6 & I7) He. unfold remove_edge, without.
  assert (In e (g_eout g (head_of g e))) as Ho by (rewrite I7; apply filter_In; split; [exact He|apply Nat.eqb_refl]).
  assert (In e (g_ein g (tail_of g e))) as Hi by (rewrite I6; apply filter_In; split; [exact He|apply Nat.eqb_refl]).
  destruct (lremove_in _ _ Ho) as [lo Elo]. rewrite Elo. cbn [g_ein].
  destruct (lremove_in _ _ Hi) as [li Eli]. rewrite Eli. cbn [g_edges].
  destruct (lremove_in _ _ He) as [le Ele]. rewrite Ele. cbn.
  assert (forall n, NoDup (g_eout g n)) as No by (intros n; rewrite I7; apply NoDup_filter; exact I3).
  assert (forall n, NoDup (g_ein g n)) as Ni by (intros n; rewrite I6; apply NoDup_filter; exact I3).
  apply lremove_some in Elo as [_ ->]; [|apply No]. apply lremove_some in Eli as [_ ->]; [|apply Ni].
  apply lremove_some in Ele as [_ ->]; [|exact I3]. reflexivity.
Qed.
Lemma remove_edge_out g e : inv g -> ~ In e (g_edges g) -> remove_edge g e = (g, GErr GValueError).
Proof.
  intros (I1 & I2 & I3 & I4 & I5 & I6 & I7) He. unfold remove_edge.
  assert (lremove e (g_eout g (head_of g e)) = None) as ->; [|reflexivity].
  apply lremove_none. rewrite I7. intros H. apply filter_In in H. tauto.
Qed.

Lemma inv_without g e : inv g -> inv (without g e).
Proof.
  intros (I1 & I2 & I3 & I4 & I5 & I6 & I7). unfold without, inv, head_of, tail_of; cbn.
  split; [exact I1|]. split; [exact I2|]. split; [apply NoDup_filter; exact I3|].
  split; [intros x H; apply filter_In in H; apply I4; tauto|]. split; [intros x H; apply filter_In in H; apply I5; tauto|].
  split; intros n; unfold fupd; rewrite filter_comm.
  - destruct (Nat.eqb_spec n (snd (nth e (g_ends g) (0, 0)))) as [->|Hne].
    + unfold tail_of. rewrite I6. reflexivity.
    + fold (tail_of g) in *. rewrite I6. symmetry. apply forallb_filter_id. apply forallb_forall. intros x Hx. apply filter_In in Hx as [_ Hx].
      apply Nat.eqb_eq in Hx. destruct (Nat.eqb_spec x e) as [->|]; [unfold tail_of in Hx; congruence|reflexivity].
  - destruct (Nat.eqb_spec n (fst (nth e (g_ends g) (0, 0)))) as [->|Hne].
    + unfold head_of. rewrite I7. reflexivity.
    + rewrite I7. symmetry. apply forallb_filter_id. apply forallb_forall. intros x Hx. apply filter_In in Hx as [_ Hx].
      apply Nat.eqb_eq in Hx. destruct (Nat.eqb_spec x e) as [->|]; [unfold head_of in Hx; congruence|reflexivity].
Qed.

Lemma inv_remove_edge g e : inv g -> inv (fst (remove_edge g e)).
Proof.
  intros Hi. destruct (in_dec Nat.eq_dec e (g_edges g)) as [He|He].
  - rewrite remove_edge_in by assumption. apply inv_without. exact Hi.
  - rewrite remove_edge_out by assumption. exact Hi.
Qed.
Lemma inv_remove_edges es : forall g, inv g -> inv (fst (remove_edges g es)).
Proof.
  induction es as [|e es IH]; intros g Hi; cbn; [exact Hi|]. pose proof (inv_remove_edge g e Hi) as H.
  destruct (remove_edge g e) as [g' [[]|x]]; [apply IH|]; exact H.
Qed.

(** Effect of removing a list of edges. *)
Lemma remove_edges_ok es : forall g g', inv g -> remove_edges g es = (g', GOk tt) ->
  g_nodes g' = g_nodes g /\ g_next g' = g_next g /\ g_ends g' = g_ends g /\ NoDup es /\ incl es (g_edges g) /\
  g_edges g' = filter (fun y => negb (mem y es)) (g_edges g).
Proof.
  induction es as [|e es IH]; intros g g' Hi; cbn [remove_edges].
  - intros [= <-]. repeat split; try constructor; [intros x []|]. symmetry. apply forallb_filter_id. apply forallb_forall. reflexivity.
  - destruct (in_dec Nat.eq_dec e (g_edges g)) as [He|He]; [|rewrite remove_edge_out by assumption; discriminate].
    rewrite remove_edge_in by assumption. intros E. destruct (IH _ _ (inv_without g e Hi) E) as (H1 & H2 & H3 & H4 & H5 & H6).
    split; [exact H1|]. split; [exact H2|]. split; [exact H3|]. split.
    { constructor; [|exact H4]. intros Hin. apply H5 in Hin. cbn in Hin. apply filter_In in Hin as [_ Hin]. rewrite Nat.eqb_refl in Hin. discriminate. }
    split; [intros x [<-|Hx]; [exact He|]; apply H5 in Hx; cbn in Hx; apply filter_In in Hx; tauto|].
    rewrite H6. cbn [without g_edges]. clear. induction (g_edges g) as [|x l IH]; cbn; [reflexivity|].
    destruct (Nat.eqb_spec x e) as [->|]; cbn; [exact IH|]. rewrite IH. reflexivity.
Qed.
Lemma mem_in x l : mem x l = true <-> In x l.
Proof.
  unfold mem. rewrite existsb_exists. split; [intros (y & Hy & E); apply Nat.eqb_eq in E; subst; exact Hy|].
  intros H. exists x. split; [exact H|apply Nat.eqb_refl].
Qed.
Lemma mem_out x l : mem x l = false <-> ~ In x l.
Proof. rewrite <- mem_in. destruct (mem x l); split; congruence. Qed.

Lemma remove_edges_success es : forall g, inv g -> NoDup es -> incl es (g_edges g) -> exists g', remove_edges g es = (g', GOk tt).
Proof.
  induction es as [|e es IH]; intros g Hi Hn Hs; cbn [remove_edges]; [eauto|]. inversion Hn; subst.
  rewrite remove_edge_in by (try exact Hi; apply Hs; left; reflexivity).
  apply IH; [apply inv_without; exact Hi|assumption|]. intros x Hx. cbn. apply filter_In. split; [apply Hs; right; exact Hx|].
  destruct (Nat.eqb_spec x e) as [->|]; [contradiction|reflexivity].
Qed.

Lemma NoDup_app_disj {T} (l1 l2 : list T) : NoDup l1 -> NoDup l2 -> (forall x, In x l1 -> ~ In x l2) -> NoDup (l1 ++ l2).
Proof.
  intros H1 H2 Hd. induction H1; cbn; [exact H2|]. constructor.
  - intros H0. apply in_app_or in H0 as [H0|H0]; [contradiction|]. exact (Hd x (or_introl eq_refl) H0).
  - apply IHNoDup. intros y Hy. apply Hd. right. exact Hy.
Qed.
Lemma NoDup_app_inv {T} (l1 l2 : list T) : NoDup (l1 ++ l2) -> forall x, In x l1 -> ~ In x l2.
Proof.
  induction l1 as [|y l1 IH]; intros H x; [intros []|]. inversion H; subst. intros [<-|Hx]; [|apply IH; assumption].
  intros Hx. apply H2. apply in_or_app. right. exact Hx.
Qed.

Lemma remove_node_ok g n : inv g -> In n (g_nodes g) -> (forall e, In e (g_edges g) -> ~ (head_of g e = n /\ tail_of g e = n)) ->
  exists g', remove_node g n = (g', GOk tt) /\ inv g' /\
    g_nodes g' = filter (fun m => negb (m =? n)) (g_nodes g) /\ g_ends g' = g_ends g /\
    g_edges g' = filter (fun e => negb ((head_of g e =? n) || (tail_of g e =? n))) (g_edges g).
Proof.
  intros Hi Hn Hl. pose proof Hi as (I1 & I2 & I3 & I4 & I5 & I6 & I7). unfold remove_node.
  change (existsb (Nat.eqb n) (g_nodes g)) with (mem n (g_nodes g)). apply mem_in in Hn as Hm. rewrite Hm. cbn [negb].
  destruct (remove_edges_success (g_ein g n ++ g_eout g n) g Hi) as [g1 E1].
  { apply NoDup_app_disj; [rewrite I6; apply NoDup_filter; exact I3|rewrite I7; apply NoDup_filter; exact I3|].
    intros e. rewrite I6, I7. rewrite !filter_In, !Nat.eqb_eq. intros (He & Ht) (_ & Hh). exact (Hl e He (conj Hh Ht)). }
  { intros e. rewrite I6, I7. intros H. apply in_app_or in H as [H|H]; apply filter_In in H; tauto. }
  pose proof (inv_remove_edges (g_ein g n ++ g_eout g n) g Hi) as Hi1. rewrite E1 in *. cbn [fst] in Hi1.
  destruct (remove_edges_ok _ _ _ Hi E1) as (H1 & H2 & H3 & H4 & H5 & H6). rewrite H1.
  destruct (lremove_in _ _ Hn) as [l El]. rewrite El. apply lremove_some in El as [_ ->]; [|exact I1].
  assert (g_edges g1 = filter (fun e => negb ((head_of g e =? n) || (tail_of g e =? n))) (g_edges g)) as He1.
  { rewrite H6. apply filter_ext_in. intros e He. f_equal. destruct (mem e (g_ein g n ++ g_eout g n)) eqn:Em.
    - apply mem_in in Em. rewrite I6, I7 in Em. apply in_app_or in Em. rewrite !filter_In in Em. symmetry. apply orb_true_iff. tauto.
    - apply mem_out in Em. rewrite I6, I7 in Em. symmetry. apply orb_false_iff.
      split; [destruct (head_of g e =? n) eqn:Eq|destruct (tail_of g e =? n) eqn:Eq]; try reflexivity;
        exfalso; apply Em; apply in_or_app; rewrite !filter_In; tauto. }
  eexists. split; [reflexivity|]. split; [|cbn; auto].
  destruct Hi1 as (K1 & K2 & K3 & K4 & K5 & K6 & K7). unfold inv, head_of, tail_of in *; cbn in *.
  split; [apply NoDup_filter; exact I1|]. split; [intros m Hm'; apply filter_In in Hm'; rewrite H2; apply I2; tauto|].
  split; [exact K3|]. split; [exact K4|]. split; [|split; assumption].
  intros e He. rewrite He1 in He. apply filter_In in He as [He Hne]. apply negb_true_iff, orb_false_iff in Hne as [N1 N2].
  rewrite H3. destruct (I5 e He) as [A1 A2]. rewrite !filter_In. unfold head_of, tail_of in *. rewrite N1, N2. auto.
Qed.

Lemma inv_remove_node g n : inv g -> inv (fst (remove_node g n)).
Proof.
  intros Hi. unfold remove_node. destruct (negb (existsb (Nat.eqb n) (g_nodes g))) eqn:En; [exact Hi|].
  apply negb_false_iff in En. apply mem_in in En.
  pose proof (inv_remove_edges (g_ein g n ++ g_eout g n) g Hi) as Hi1.
  destruct (remove_edges g (g_ein g n ++ g_eout g n)) as [g1 [[]|e]] eqn:E1; [|exact Hi1].
  (* success: no self loop, so remove_node_ok applies *)
  destruct (remove_edges_ok _ _ _ Hi E1) as (H1 & H2 & H3 & H4 & H5 & H6).
  destruct (remove_node_ok g n Hi En) as (g' & E & Hg & _).
  { intros e He (Hh & Ht). apply (NoDup_app_inv _ _ H4 e); destruct Hi as (_ & _ & _ & _ & _ & I6 & I7);
      [rewrite I6|rewrite I7]; apply filter_In; rewrite Nat.eqb_eq; auto. }
  unfold remove_node in E. change (existsb (Nat.eqb n) (g_nodes g)) with (mem n (g_nodes g)) in E. apply mem_in in En. rewrite En, E1 in E. cbn [negb] in E.
  rewrite E. exact Hg.
Qed.

Lemma inv_add_nodes k : forall g, inv g -> inv (fst (add_nodes g k)).
Proof.
  induction k as [|k IH]; intros g Hi; [exact Hi|]. change (inv (fst (let (g1, n) := add_node g in let (g2, ns) := add_nodes g1 k in (g2, n :: ns)))).
  pose proof (inv_add_node g Hi) as H. destruct (add_node g) as [g1 n]. specialize (IH g1 H). destruct (add_nodes g1 k). exact IH.
Qed.

Lemma add_edges_to_nodes h ts : forall g, g_nodes (fst (add_edges_to g h ts)) = g_nodes g.
Proof.
  induction ts as [|t ts IH]; intros g; [reflexivity|]. cbn [add_edges_to]. destruct (add_edge g h t) as [g1 e] eqn:E. specialize (IH g1).
  destruct (add_edges_to g1 h ts). cbn [fst] in *. rewrite IH. unfold add_edge in E. injection E as <- _. reflexivity.
Qed.
Lemma inv_add_edges_to h ts : forall g, inv g -> In h (g_nodes g) -> incl ts (g_nodes g) -> inv (fst (add_edges_to g h ts)).
Proof.
  induction ts as [|t ts IH]; intros g Hi Hh Hs; [exact Hi|]. cbn [add_edges_to].
  pose proof (inv_add_edge g h t Hi Hh (Hs t (or_introl eq_refl))) as H.
  destruct (add_edge g h t) as [g1 e] eqn:E. cbn [fst] in H.
  assert (g_nodes g1 = g_nodes g) as Hg by (unfold add_edge in E; injection E as <- _; reflexivity).
  specialize (IH g1 H). rewrite Hg in IH. specialize (IH Hh (fun x Hx => Hs x (or_intror Hx))). destruct (add_edges_to g1 h ts). exact IH.
Qed.
Lemma inv_add_full ts hs : forall g, inv g -> incl hs (g_nodes g) -> incl ts (g_nodes g) -> inv (fst (add_full g hs ts)).
Proof.
  induction hs as [|h hs IH]; intros g Hi Hh Ht; [exact Hi|]. cbn [add_full].
  pose proof (inv_add_edges_to h ts g Hi (Hh h (or_introl eq_refl)) Ht) as H. pose proof (add_edges_to_nodes h ts g) as Hn.
  destruct (add_edges_to g h ts) as [g1 es]. cbn [fst] in *. specialize (IH g1 H). rewrite Hn in IH.
  specialize (IH (fun x Hx => Hh x (or_intror Hx)) Ht). destruct (add_full g1 hs ts). exact IH.
Qed.

(** ** Trees *)
(** A nested sequence that denotes a tree: every sequence starts with a value. *)
Inductive is_tree : nested -> Prop :=
| T_val n : is_tree (NVal n)
| T_seq n l : Forall is_tree l -> is_tree (NSeq (NVal n :: l)).
Fixpoint vals (t : nested) : list nat := match t with NVal n => [n] | NSeq l => flat_map vals l end.
Definition root (t : nested) : nat := match t with NVal n => n | NSeq (NVal n :: _) => n | _ => 0 end.
Fixpoint tree_edges (t : nested) : list (nat * nat) :=
  match t with
  | NSeq (NVal r :: l) => flat_map (fun y => tree_edges y ++ [(r, root y)]) l
  | _ => []
  end.

Fixpoint nested_ind' (P : nested -> Prop) (Hv : forall n, P (NVal n)) (Hs : forall l, Forall P l -> P (NSeq l)) (t : nested) : P t :=
  match t with
  | NVal n => Hv n
  | NSeq l => Hs l ((fix go l := match l return Forall P l with [] => Forall_nil P | x :: l => Forall_cons x (nested_ind' P Hv Hs x) (go l) end) l)
  end.

Definition map_adds := fix go (g : graph) (l : list nested) : graph * list nested :=
  match l with [] => (g, []) | x :: l => let (g1, y) := map_add g x in let (g2, ys) := go g1 l in (g2, y :: ys) end.
Lemma map_add_seq g l : map_add g (NSeq l) = let (g', l') := map_adds g l in (g', NSeq l').
Proof. reflexivity. Qed.
Lemma map_adds_cons g x l : map_adds g (x :: l) = let (g1, y) := map_add g x in let (g2, ys) := map_adds g1 l in (g2, y :: ys).
Proof. reflexivity. Qed.
Definition reduce_list (x : nested) := fix go (g : graph) (l : list nested) : graph * gres nested :=
  match l with
  | [] => (g, GOk x)
  | y :: l =>
      match reduce_edges g y with
      | (g1, GErr e) => (g1, GErr e)
      | (g1, GOk r) => match x, r with
                       | NVal h, NVal t => go (fst (add_edge g1 h t)) l
                       | NVal h, NSeq _ => (half_edge g1 h, GErr GAttributeError)
                       | NSeq _, _ => (g1, GErr GAttributeError)
                       end
      end
  end.
Lemma reduce_seq g x l : reduce_edges g (NSeq (x :: l)) = reduce_list x g l.
Proof. reflexivity. Qed.

(** Adding only nodes. *)
Definition more_nodes (g g' : graph) (ns : list nat) : Prop :=
  g_nodes g' = g_nodes g ++ ns /\ g_edges g' = g_edges g /\ g_ends g' = g_ends g /\ g_ein g' = g_ein g /\ g_eout g' = g_eout g /\
  ns = seq (g_next g) (length ns) /\ g_next g' = g_next g + length ns.
Lemma more_nodes_trans g1 g2 g3 n1 n2 : more_nodes g1 g2 n1 -> more_nodes g2 g3 n2 -> more_nodes g1 g3 (n1 ++ n2).
Proof.
  intros (A1 & A2 & A3 & A4 & A5 & A6 & A7) (B1 & B2 & B3 & B4 & B5 & B6 & B7). unfold more_nodes.
  rewrite B1, B2, B3, B4, B5, A1, A2, A3, A4, A5, <- app_assoc. repeat split; auto.
  - rewrite app_length, seq_app, <- A6. f_equal. rewrite B6 at 1. rewrite A7. reflexivity.
  - rewrite app_length. lia.
Qed.
Lemma more_nodes_refl g : more_nodes g g [].
Proof. unfold more_nodes. rewrite app_nil_r, Nat.add_0_r. repeat split; auto. Qed.

Lemma map_add_ok t : forall g g' t', map_add g t = (g', t') -> inv g ->
  inv g' /\ more_nodes g g' (vals t') /\ (is_tree t -> is_tree t') /\ (forall l, t = NSeq l -> exists l', t' = NSeq l') /\ (forall n, t = NVal n -> exists n', t' = NVal n').
Proof.
  induction t as [n|l IH] using nested_ind'; intros g g' t'.
  - cbn. intros [= <- <-] Hi. split; [apply (inv_add_node g Hi)|]. split; [unfold more_nodes; cbn; repeat split; auto; lia|].
    split; [intros _; constructor|]. split; [discriminate|eauto].
  - rewrite map_add_seq. destruct (map_adds g l) as [g1 l1] eqn:E. intros [= <- <-] Hi.
    assert (inv g1 /\ more_nodes g g1 (flat_map vals l1) /\ (Forall is_tree l -> Forall is_tree l1) /\
            (forall n r, l = NVal n :: r -> exists n' r', l1 = NVal n' :: r')) as (H1 & H2 & H3 & H4).
    { revert g g1 l1 E Hi. induction IH as [|x l Hx Hl IHl]; intros g g1 l1 E Hi.
      - cbn in E. injection E as <- <-. split; [exact Hi|]. split; [apply more_nodes_refl|]. split; [auto|discriminate].
      - rewrite map_adds_cons in E. destruct (map_add g x) as [g2 y] eqn:E1. destruct (map_adds g2 l) as [g3 ys] eqn:E2.
        injection E as <- <-.
        destruct (Hx g g2 y E1 Hi) as (X1 & X2 & X3 & X4 & X5). destruct (IHl g2 g3 ys E2 X1) as (Y1 & Y2 & Y3 & Y4).
        split; [exact Y1|]. split; [cbn; eapply more_nodes_trans; eassumption|].
        split; [intros HF; inversion HF; subst; constructor; auto|].
        intros n r [= -> ->]. destruct (X5 n eq_refl) as [n' ->]. eauto. }
    split; [exact H1|]. split; [exact H2|]. split; [|split; [eauto|discriminate]].
    intros HT. inversion HT; subst. destruct (H4 n l0 eq_refl) as (n' & r' & ->).
    assert (Forall is_tree (NVal n' :: r')) as HF by (apply H3; constructor; [constructor|assumption]). inversion HF; subst. constructor. assumption.
Qed.

(** Adding only the edges [es]. *)
Definition more_edges (g g' : graph) (es : list (nat * nat)) : Prop :=
  g_nodes g' = g_nodes g /\ g_next g' = g_next g /\ g_ends g' = g_ends g ++ es /\
  g_edges g' = g_edges g ++ seq (length (g_ends g)) (length es).
Lemma more_edges_refl g : more_edges g g [].
Proof. unfold more_edges. rewrite !app_nil_r. auto. Qed.
Lemma more_edges_trans g1 g2 g3 n1 n2 : more_edges g1 g2 n1 -> more_edges g2 g3 n2 -> more_edges g1 g3 (n1 ++ n2).
Proof.
  intros (A1 & A2 & A3 & A4) (B1 & B2 & B3 & B4). unfold more_edges. rewrite B1, B2, B3, B4, A1, A2, A3, A4.
  rewrite !app_length, seq_app, !app_assoc. auto.
Qed.
Lemma more_edges_add g h t : more_edges g (fst (add_edge g h t)) [(h, t)].
Proof. unfold more_edges, add_edge. cbn. auto. Qed.

Lemma root_in t : is_tree t -> In (root t) (vals t).
Proof. intros []; cbn; auto. Qed.

Lemma reduce_ok t : forall g, is_tree t -> inv g -> incl (vals t) (g_nodes g) ->
  exists g', reduce_edges g t = (g', GOk (NVal (root t))) /\ inv g' /\ more_edges g g' (tree_edges t).
Proof.
  induction t as [n|l IH] using nested_ind'; intros g HT Hi Hs.
  - exists g. cbn. auto using more_edges_refl.
  - inversion HT as [|n l0 HF]; subst. inversion IH as [|? ? _ IH0]; subst. rewrite reduce_seq. cbn [root tree_edges].
    cbn [vals flat_map] in Hs. assert (In n (g_nodes g)) as Hn by (apply Hs; left; reflexivity).
    assert (incl (flat_map vals l0) (g_nodes g)) as Hs0 by (intros x Hx; apply Hs; right; exact Hx).
    clear HT IH Hs. revert g Hi Hn Hs0. induction HF as [|y l0 Hy HF IHF]; intros g Hi Hn Hs0.
    + exists g. cbn. auto using more_edges_refl.
    + inversion IH0 as [|? ? IHy IH1]; subst. cbn [flat_map] in Hs0.
      destruct (IHy g Hy Hi) as (g1 & E1 & Hi1 & M1); [intros x Hx; apply Hs0; apply in_or_app; left; exact Hx|].
      cbn [reduce_list]. rewrite E1. pose proof M1 as (N1 & _).
      pose proof (more_edges_add g1 n (root y)) as M2. pose proof M2 as (N2 & _).
      assert (inv (fst (add_edge g1 n (root y)))) as Hi2.
      { apply inv_add_edge; [exact Hi1|rewrite N1; exact Hn|]. rewrite N1. apply Hs0. apply in_or_app. left. apply root_in. exact Hy. }
      destruct (IHF IH1 (fst (add_edge g1 n (root y))) Hi2) as (g' & E' & Hi' & M').
      { rewrite N2, N1. exact Hn. }
      { rewrite N2, N1. intros x Hx. apply Hs0. apply in_or_app. right. exact Hx. }
      exists g'. split; [exact E'|]. split; [exact Hi'|].
      cbn [flat_map]. eapply more_edges_trans; [eapply more_edges_trans; [exact M1|exact M2]|exact M'].
Qed.

Lemma add_tree_ok g l : inv g -> is_tree (NSeq l) ->
  exists g' t, add_tree g l = (g', GOk t) /\ inv g' /\ is_tree t /\
    g_nodes g' = g_nodes g ++ vals t /\ vals t = seq (g_next g) (length (vals t)) /\
    g_ends g' = g_ends g ++ tree_edges t /\ g_edges g' = g_edges g ++ seq (length (g_ends g)) (length (tree_edges t)).
Proof.
  intros Hi HT. unfold add_tree. destruct (map_add g (NSeq l)) as [g1 t] eqn:E.
  destruct (map_add_ok _ _ _ _ E Hi) as (Hi1 & (M1 & M2 & M3 & M4 & M5 & M6 & M7) & HT1 & _). specialize (HT1 HT).
  destruct (reduce_ok t g1 HT1 Hi1) as (g2 & E2 & Hi2 & (N1 & N2 & N3 & N4)).
  { rewrite M1. intros x Hx. apply in_or_app. right. exact Hx. }
  rewrite E2. exists g2, t. split; [reflexivity|]. split; [exact Hi2|]. split; [exact HT1|].
  rewrite N1, N3, N4, M1, M2, M3. auto.
Qed.

(** ** Traversals *)
Inductive reach (nb : nat -> list nat) (r : nat) : nat -> Prop :=
| reach_refl : reach nb r r
| reach_next n m : reach nb r n -> In m (nb n) -> reach nb r m.

Lemma new_sons_spec sons : forall visited new v', new_sons sons visited = (new, v') -> NoDup visited ->
  v' = visited ++ new /\ NoDup v' /\ (forall x, In x sons -> In x v') /\ (forall x, In x new -> In x sons).
Proof.
  induction sons as [|s sons IH]; intros visited new v'; cbn.
  - intros [= <- <-] Hn. rewrite app_nil_r. repeat split; auto; intros x [].
  - destruct (mem s visited) eqn:Em.
    + intros E Hn. destruct (IH _ _ _ E Hn) as (H1 & H2 & H3 & H4). repeat split; auto.
      intros x [<-|Hx]; [|auto]. rewrite H1. apply in_or_app. left. apply mem_in. exact Em.
    + destruct (new_sons sons (visited ++ [s])) as [r v] eqn:E. intros [= <- <-] Hn.
      destruct (IH _ _ _ E) as (H1 & H2 & H3 & H4); [apply NoDup_snoc; [exact Hn|apply mem_out; exact Em]|].
      rewrite H1. rewrite <- app_assoc. cbn. split; [reflexivity|]. split; [rewrite H1, <- app_assoc in H2; exact H2|].
      split; [|intros x [<-|Hx]; auto]. intros x [<-|Hx]; [apply in_or_app; right; left; reflexivity|].
      specialize (H3 x Hx). rewrite H1, <- app_assoc in H3. exact H3.
Qed.

(** A loop with any order of the pending nodes. *)
Section Loop.
  Variable join : list nat -> list nat -> list nat.
  Hypothesis join_perm : forall new rest, Permutation (join new rest) (new ++ rest).
  Fixpoint loop (fuel : nat) (nb : nat -> list nat) (pending visited out : list nat) : gres (list nat) :=
    match pending with
    | [] => GOk out
    | n :: rest =>
        match fuel with
        | O => GErr GFuel
        | S fuel => let (new, visited') := new_sons (nb n) visited in loop fuel nb (join new rest) visited' (out ++ [n])
        end
    end.

  Lemma loop_ok nb root U : (forall n, reach nb root n -> In n U) ->
    forall fuel pending visited out, NoDup visited -> Permutation visited (out ++ pending) ->
      (forall x, In x visited -> reach nb root x) -> (forall x y, In x out -> In y (nb x) -> In y visited) -> In root visited ->
      length U - length out <= fuel ->
      exists l, loop fuel nb pending visited out = GOk l /\ NoDup l /\ forall x, In x l <-> reach nb root x.
  Proof.
    intros HU. induction fuel as [|fuel IH]; intros pending visited out Hn Hp Hr Hc Hroot Hf.
    - destruct pending as [|n rest].
      + exists out. split; [reflexivity|]. rewrite app_nil_r in Hp. split; [eapply Permutation_NoDup; eassumption|].
        assert (forall x, In x out <-> In x visited) as Hiff.
        { intros x. split; apply Permutation_in; [apply Permutation_sym|]; exact Hp. }
        intros x. split; [intros Hx; apply Hr, Hiff, Hx|]. induction 1 as [|a b Ha IHa Hb]; [apply Hiff; exact Hroot|].
        apply Hiff. eapply Hc; eassumption.
      + exfalso. assert (length visited <= length U) as H.
        { apply NoDup_incl_length; [exact Hn|]. intros x Hx. apply HU, Hr, Hx. }
        apply Permutation_length in Hp. rewrite app_length in Hp. cbn in Hp. lia.
    - destruct pending as [|n rest].
      + exists out. split; [reflexivity|]. rewrite app_nil_r in Hp. split; [eapply Permutation_NoDup; eassumption|].
        assert (forall x, In x out <-> In x visited) as Hiff.
        { intros x. split; apply Permutation_in; [apply Permutation_sym|]; exact Hp. }
        intros x. split; [intros Hx; apply Hr, Hiff, Hx|]. induction 1 as [|a b Ha IHa Hb]; [apply Hiff; exact Hroot|].
        apply Hiff. eapply Hc; eassumption.
      + cbn [loop]. destruct (new_sons (nb n) visited) as [new v'] eqn:E.
        destruct (new_sons_spec _ _ _ _ E Hn) as (S1 & S2 & S3 & S4).
        assert (In n visited) as Hnv.
        { eapply Permutation_in; [apply Permutation_sym; exact Hp|]. apply in_or_app. right. left. reflexivity. }
        apply IH.
        * exact S2.
        * rewrite S1. rewrite <- app_assoc. cbn. rewrite (join_perm new rest).
          transitivity ((out ++ n :: rest) ++ new); [apply Permutation_app_tail; exact Hp|].
          rewrite <- app_assoc. apply Permutation_app_head. cbn. constructor. apply Permutation_app_comm.
        * intros x Hx. rewrite S1 in Hx. apply in_app_or in Hx as [Hx|Hx]; [auto|]. eapply reach_next; [apply Hr; exact Hnv|auto].
        * intros x y Hx Hy. apply in_app_or in Hx as [Hx|[<-|[]]]; [|auto]. rewrite S1. apply in_or_app. left. eapply Hc; eassumption.
        * rewrite S1. apply in_or_app. auto.
        * rewrite app_length. cbn. lia.
  Qed.

  Lemma loop_start nb root U fuel : (forall n, reach nb root n -> In n U) -> length U <= fuel ->
    exists l, loop fuel nb [root] [root] [] = GOk l /\ NoDup l /\ forall x, In x l <-> reach nb root x.
  Proof.
    intros HU Hf. apply (loop_ok nb root U HU fuel [root] [root] []).
    - constructor; [intros []|constructor].
    - reflexivity.
    - intros x [<-|[]]. constructor.
    - intros x y [].
    - left. reflexivity.
    - cbn. lia.
  Qed.
End Loop.

Lemma dfs_is_loop : forall fuel nb s v o, dfs_loop fuel nb s v o = loop (fun new rest => rev new ++ rest) fuel nb s v o.
Proof. induction fuel as [|f IH]; intros nb [|n s] v o; cbn; try reflexivity. Qed.
Lemma bfs_is_loop : forall fuel nb s v o, bfs_loop fuel nb s v o = loop (fun new rest => rest ++ new) fuel nb s v o.
Proof. induction fuel as [|f IH]; intros nb [|n s] v o; cbn; try reflexivity. Qed.

Lemma out_in_nodes g n m : inv g -> In m (out_neighbors g n) -> In m (g_nodes g).
Proof.
  intros (_ & _ & _ & _ & I5 & _ & I7) H. unfold out_neighbors in H. rewrite I7 in H. apply in_map_iff in H as (e & <- & He).
  apply filter_In in He as [He _]. apply I5. exact He.
Qed.
Lemma in_in_nodes g n m : inv g -> In m (in_neighbors g n) -> In m (g_nodes g).
Proof.
  intros (_ & _ & _ & _ & I5 & I6 & _) H. unfold in_neighbors in H. rewrite I6 in H. apply in_map_iff in H as (e & <- & He).
  apply filter_In in He as [He _]. apply I5. exact He.
Qed.
Lemma nb_in_nodes g n m : inv g -> In m (neighbors g n) -> In m (g_nodes g).
Proof. intros Hi H. apply in_app_or in H as [H|H]; [eapply in_in_nodes|eapply out_in_nodes]; eassumption. Qed.

Lemma reach_in g nb r n : In r (g_nodes g) -> (forall x y, In y (nb x) -> In y (g_nodes g)) -> reach nb r n -> In n (g_nodes g).
Proof. intros Hr Hn H. induction H; eauto. Qed.

Lemma traversal_ok g root : inv g -> In root (g_nodes g) ->
  (exists l, dfs g root = GOk l /\ NoDup l /\ forall x, In x l <-> reach (out_neighbors g) root x) /\
  (exists l, bfs g root = GOk l /\ NoDup l /\ forall x, In x l <-> reach (out_neighbors g) root x) /\
  (exists l, undirected_dfs g root = GOk l /\ NoDup l /\ forall x, In x l <-> reach (neighbors g) root x) /\
  (exists l, undirected_bfs g root = GOk l /\ NoDup l /\ forall x, In x l <-> reach (neighbors g) root x).
Proof.
  intros Hi Hr. unfold dfs, bfs, undirected_dfs, undirected_bfs, fuel_of.
  repeat split; rewrite ?dfs_is_loop, ?bfs_is_loop; eapply loop_start with (U := g_nodes g);
    try (intros; apply Permutation_app_comm); try (intros; apply Permutation_app_tail, Permutation_sym, Permutation_rev);
    try lia; intros n Hn; (eapply reach_in; [exact Hr| |exact Hn]); intros x y Hy;
    first [eapply out_in_nodes; eassumption|eapply nb_in_nodes; eassumption].
Qed.

(** ** Connected components *)
Lemma nb_sym g x y : inv g -> In y (neighbors g x) -> In x (neighbors g y).
Proof.
  intros (I1 & I2 & I3 & I4 & I5 & I6 & I7). unfold neighbors, in_neighbors, out_neighbors. rewrite !I6, !I7.
  rewrite !in_app_iff, !in_map_iff. intros [(e & <- & He)|(e & <- & He)]; apply filter_In in He as [He Hx]; apply Nat.eqb_eq in Hx; subst x.
  - right. exists e. split; [reflexivity|]. apply filter_In. split; [exact He|apply Nat.eqb_refl].
  - left. exists e. split; [reflexivity|]. apply filter_In. split; [exact He|apply Nat.eqb_refl].
Qed.
Lemma reach_trans nb a b c : reach nb a b -> reach nb b c -> reach nb a c.
Proof. intros H1 H2. induction H2; [exact H1|]. eapply reach_next; eassumption. Qed.
Lemma reach_sym g a b : inv g -> reach (neighbors g) a b -> reach (neighbors g) b a.
Proof.
  intros Hi H. induction H as [|x y H IH Hy]; [constructor|]. eapply reach_trans; [|exact IH].
  eapply reach_next; [constructor|]. apply nb_sym; assumption.
Qed.

Lemma components_loop_ok g : inv g -> forall ns visited comps,
  incl ns (g_nodes g) -> visited = concat comps -> NoDup visited ->
  (forall c x, In c comps -> In x c -> forall y, In y c <-> reach (neighbors g) x y) ->
  (forall c, In c comps -> c <> []) -> incl visited (g_nodes g) ->
  exists cs, components_loop g ns visited comps = GOk cs /\ NoDup (concat cs) /\ incl (concat cs) (g_nodes g) /\
    (forall x, In x ns \/ In x visited -> In x (concat cs)) /\
    (forall c x, In c cs -> In x c -> forall y, In y c <-> reach (neighbors g) x y) /\ (forall c, In c cs -> c <> []).
Proof.
  intros Hi. induction ns as [|n ns IH]; intros visited comps Hs Hv Hn Hc Hne Hin; cbn [components_loop].
  - exists comps. rewrite <- Hv. split; [reflexivity|]. split; [exact Hn|]. split; [exact Hin|]. split; [intros x [[]|Hx]; exact Hx|]. auto.
  - destruct (mem n visited) eqn:Em.
    + destruct (IH visited comps) as (cs & H1 & H2 & H3 & H4 & H5); auto; [intros x Hx; apply Hs; right; exact Hx|].
      exists cs. split; [exact H1|]. split; [exact H2|]. split; [exact H3|]. split; [|exact H5].
      intros x [[<-|Hx]|Hx]; apply H4; auto. right. apply mem_in. exact Em.
    + assert (In n (g_nodes g)) as Hng by (apply Hs; left; reflexivity).
      destruct (traversal_ok g n Hi Hng) as (_ & _ & (c & Ec & Nc & Rc) & _). rewrite Ec.
      assert (forall x, In x c -> ~ In x visited) as Hdisj.
      { intros x Hx Hxv. apply mem_out in Em. apply Em. rewrite Hv in *. apply in_concat in Hxv as (c0 & Hc0 & Hx0).
        apply in_concat. exists c0. split; [exact Hc0|]. apply (Hc c0 x Hc0 Hx0). apply reach_sym; [exact Hi|]. apply Rc. exact Hx. }
      destruct (IH (visited ++ c) (comps ++ [c])) as (cs & H1 & H2 & H3 & H4 & H5).
      * intros x Hx. apply Hs. right. exact Hx.
      * rewrite concat_app. cbn. rewrite app_nil_r. congruence.
      * apply NoDup_app_disj; [exact Hn|exact Nc|]. intros x Hx Hxc. exact (Hdisj x Hxc Hx).
      * intros c0 x Hc0 Hx y. apply in_app_or in Hc0 as [Hc0|[<-|[]]]; [apply Hc; assumption|].
        rewrite Rc. apply Rc in Hx. split; intros Hy; [eapply reach_trans; [apply reach_sym; eassumption|exact Hy]|eapply reach_trans; eassumption].
      * intros c0 Hc0. apply in_app_or in Hc0 as [Hc0|[<-|[]]]; [auto|]. intros ->. apply (Rc n). constructor.
      * intros x Hx. apply in_app_or in Hx as [Hx|Hx]; [auto|]. apply Rc in Hx. eapply reach_in; [exact Hng| |exact Hx].
        intros a b Hb. eapply nb_in_nodes; eassumption.
      * exists cs. split; [exact H1|]. split; [exact H2|]. split; [exact H3|]. split; [|exact H5].
        intros x [[<-|Hx]|Hx]; apply H4; [right; apply in_or_app; right; apply Rc; constructor|auto|right; apply in_or_app; auto].
Qed.

Lemma components_ok g : inv g ->
  exists cs, connected_components g = GOk cs /\ Permutation (concat cs) (g_nodes g) /\ (forall c, In c cs -> c <> []) /\
    (forall c x, In c cs -> In x c -> forall y, In y c <-> reach (neighbors g) x y).
Proof.
  intros Hi. destruct (components_loop_ok g Hi (g_nodes g) [] []) as (cs & H1 & H2 & H3 & H4 & H5 & H6).
  - intros x Hx; exact Hx.
  - reflexivity.
  - constructor.
  - intros c x [].
  - intros c [].
  - intros x [].
  - exists cs. split; [exact H1|]. split; [|auto]. apply NoDup_Permutation; [exact H2|apply Hi|].
    intros x. split; [apply H3|]. intros Hx. apply H4. left. exact Hx.
Qed.

Lemma weakly_ok g : inv g -> g_nodes g <> [] ->
  exists b, is_weakly_connected g = GOk b /\ (b = true <-> forall x y, In x (g_nodes g) -> In y (g_nodes g) -> reach (neighbors g) x y).
Proof.
  intros Hi Hne. unfold is_weakly_connected. destruct (g_nodes g) as [|n ns] eqn:En; [congruence|].
  assert (In n (g_nodes g)) as Hn by (rewrite En; left; reflexivity).
  destruct (traversal_ok g n Hi Hn) as (_ & _ & (c & Ec & Nc & Rc) & _). rewrite Ec. rewrite <- En.
  eexists. split; [reflexivity|]. rewrite Nat.eqb_eq.
  assert (incl c (g_nodes g)) as Hsub.
  { intros x Hx. apply Rc in Hx. eapply reach_in; [exact Hn| |exact Hx]. intros a b Hb. eapply nb_in_nodes; eassumption. }
  split.
  - intros Hl x y Hx Hy.
    assert (incl (g_nodes g) c) as Hsup by (apply NoDup_length_incl; [exact Nc|lia|exact Hsub]).
    apply Hsup, Rc in Hx. apply Hsup, Rc in Hy. eapply reach_trans; [apply reach_sym; eassumption|exact Hy].
  - intros Hall. apply Nat.le_antisymm; [apply NoDup_incl_length; [exact Nc|exact Hsub]|].
    apply NoDup_incl_length; [apply Hi|]. intros x Hx. apply Rc. apply Hall; [exact Hn|exact Hx].
Qed.

(** ** Topological sort *)
Definition edge (g : graph) (a b : nat) : Prop := exists e, In e (g_edges g) /\ head_of g e = a /\ tail_of g e = b.
(** A path of one or more edges. *)
Inductive path (g : graph) : nat -> nat -> Prop :=
| path_one a b : edge g a b -> path g a b
| path_more a b c : path g a b -> edge g b c -> path g a c.
Lemma path_trans g a b c : path g a b -> path g b c -> path g a c.
Proof. intros H1 H2. revert a H1. induction H2; intros; [eapply path_more; eassumption|]. eapply path_more; [|eassumption]. auto. Qed.

(** Every edge into a listed node comes from a node listed earlier. *)
Definition ordered (g : graph) (l : list nat) : Prop :=
  forall a b, edge g a b -> In b l -> exists l1 l2, l = l1 ++ b :: l2 /\ In a l1.

(** Number of edges into [m] that are not among [R]. *)
Definition cnt (g : graph) (R : list nat) (m : nat) : nat := length (filter (fun e => negb (mem e R)) (g_ein g m)).

Record tinv (g : graph) (R done queue : list nat) (d : indeg) : Prop := {
  t_nodup : NoDup (done ++ queue);
  t_nodes : incl (done ++ queue) (g_nodes g);
  t_zero : forall m, In m (g_nodes g) -> (In m (done ++ queue) <-> cnt g R m = 0);
  t_d : forall m, In m (g_nodes g) -> g_ein g m <> [] -> d m = Some (cnt g R m) }.

Lemma in_ein g e : inv g -> In e (g_edges g) -> In e (g_ein g (tail_of g e)).
Proof. intros (_ & _ & _ & _ & _ & I6 & _) He. rewrite I6. apply filter_In. split; [exact He|apply Nat.eqb_refl]. Qed.

Lemma filter_mem_snoc R e l : NoDup l -> ~ In e R -> In e l ->
  length (filter (fun x => negb (mem x R)) l) = S (length (filter (fun x => negb (mem x (R ++ [e]))) l)).
Proof.
  intros Hn HR. induction Hn as [|x l Hx Hn IH]; [intros []|]. cbn [filter]. intros [->|He].
  - rewrite (proj2 (mem_out e R) HR). rewrite (proj2 (mem_in e (R ++ [e]))) by (apply in_or_app; right; left; reflexivity).
    cbn [negb length]. f_equal. f_equal. apply filter_ext_in. intros y Hy. f_equal.
    destruct (mem y R) eqn:E1, (mem y (R ++ [e])) eqn:E2; try reflexivity.
    + apply mem_in in E1. apply mem_out in E2. exfalso. apply E2. apply in_or_app. auto.
    + apply mem_out in E1. apply mem_in in E2. apply in_app_or in E2 as [E2|[<-|[]]]; contradiction.
  - specialize (IH He).
    assert (mem x (R ++ [e]) = mem x R) as ->.
    { destruct (mem x R) eqn:E1; [apply mem_in; apply in_or_app; left; apply mem_in; exact E1|].
      apply mem_out. apply mem_out in E1. intros H. apply in_app_or in H as [H|[<-|[]]]; contradiction. }
    destruct (negb (mem x R)); cbn [length]; lia.
Qed.
Lemma cnt_other g R e m : ~ In e (g_ein g m) -> cnt g (R ++ [e]) m = cnt g R m.
Proof.
  intros He. unfold cnt. f_equal. apply filter_ext_in. intros x Hx. f_equal.
  destruct (mem x R) eqn:E1; [apply mem_in; apply in_or_app; left; apply mem_in; exact E1|].
  apply mem_out. apply mem_out in E1. intros H. apply in_app_or in H as [H|[<-|[]]]; contradiction.
Qed.

Lemma topo_sons_ok g : inv g -> forall es R done queue d, NoDup es -> incl es (g_edges g) -> (forall e, In e es -> ~ In e R) ->
  tinv g R done queue d ->
  exists queue' d', topo_sons (map (tail_of g) es) queue d = Some (queue', d') /\ tinv g (R ++ es) done queue' d'.
Proof.
  intros Hi. pose proof Hi as (I1 & I2 & I3 & I4 & I5 & I6 & I7).
  induction es as [|e es IH]; intros R done queue d Hn Hs Hd T; cbn [map topo_sons].
  - rewrite app_nil_r. eauto.
  - inversion Hn as [|? ? He Hn']; subst. assert (In e (g_edges g)) as Hge by (apply Hs; left; reflexivity).
    set (m := tail_of g e). assert (In m (g_nodes g)) as Hm by (apply I5; exact Hge).
    assert (In e (g_ein g m)) as Hem by (apply in_ein; assumption).
    assert (g_ein g m <> []) as Hne by (intros E; rewrite E in Hem; exact Hem).
    assert (~ In e R) as HeR by (apply Hd; left; reflexivity).
    assert (cnt g R m = S (cnt g (R ++ [e]) m)) as Hc.
    { apply filter_mem_snoc; [rewrite I6; apply NoDup_filter; exact I3|exact HeR|exact Hem]. }
    rewrite (t_d _ _ _ _ _ T m Hm Hne), Hc.
    assert (forall x, x <> m -> cnt g (R ++ [e]) x = cnt g R x) as Ho.
    { intros x Hx. apply cnt_other. rewrite I6. intros H. apply filter_In in H as [_ H]. apply Nat.eqb_eq in H. unfold m in Hx. congruence. }
    assert (~ In m (done ++ queue)) as Hmq by (intros H; apply (t_zero _ _ _ _ _ T m Hm) in H; lia).
    replace (R ++ e :: es) with ((R ++ [e]) ++ es) by (rewrite <- app_assoc; reflexivity).
    apply IH; [exact Hn'|intros x Hx; apply Hs; right; exact Hx| |].
    { intros x Hx H. apply in_app_or in H as [H|[<-|[]]]; [|contradiction]. exact (Hd x (or_intror Hx) H). }
    assert (forall x, In x (g_nodes g) -> g_ein g x <> [] -> iset d m (S (cnt g (R ++ [e]) m) - 1) x = Some (cnt g (R ++ [e]) x)) as Td.
    { intros x Hx Hxe. unfold iset. destruct (Nat.eqb_spec x m) as [->|Hxm]; [f_equal; lia|]. rewrite Ho by exact Hxm. apply T; assumption. }
    destruct (Nat.eqb_spec (S (cnt g (R ++ [e]) m)) 1) as [E|E].
    + constructor; [| | |exact Td].
      * rewrite app_assoc. apply NoDup_snoc; [apply T|exact Hmq].
      * rewrite app_assoc. intros x Hx. apply in_app_or in Hx as [Hx|[<-|[]]]; [apply T; exact Hx|exact Hm].
      * intros x Hx. rewrite app_assoc, in_app_iff. destruct (Nat.eq_dec x m) as [->|Hxm].
        -- split; [lia|]. intros _. right. left. reflexivity.
        -- rewrite Ho by exact Hxm. rewrite <- (t_zero _ _ _ _ _ T x Hx). split; [intros [H|[H|[]]]; [exact H|congruence]|auto].
    + constructor; [apply T|apply T| |exact Td].
      intros x Hx. destruct (Nat.eq_dec x m) as [->|Hxm]; [|rewrite Ho by exact Hxm; apply T; exact Hx].
      split; [intros H; contradiction|lia].
Qed.

Lemma cnt_heads g R out m : inv g -> (forall e, In e (g_edges g) -> (In e R <-> In (head_of g e) out)) ->
  (cnt g R m = 0 <-> forall a, edge g a m -> In a out).
Proof.
  intros (_ & _ & _ & _ & _ & I6 & _) HR. unfold cnt. rewrite I6. split.
  - intros H a (e & He & <- & <-). apply HR; [exact He|]. apply length_zero_iff_nil in H.
    destruct (mem e R) eqn:E; [apply mem_in; exact E|]. exfalso.
    assert (In e (filter (fun e0 => negb (mem e0 R)) (filter (fun e0 => tail_of g e0 =? tail_of g e) (g_edges g)))) as Hin.
    { rewrite !filter_In. rewrite E, Nat.eqb_refl. auto. }
    rewrite H in Hin. exact Hin.
  - intros H. destruct (filter _ _) as [|e l] eqn:E; [reflexivity|]. exfalso.
    assert (In e (e :: l)) as Hin by (left; reflexivity). rewrite <- E in Hin. rewrite !filter_In in Hin. destruct Hin as ((He & Ht) & Hm).
    apply Nat.eqb_eq in Ht. apply negb_true_iff, mem_out in Hm. apply Hm, HR; [exact He|]. apply H. exists e. auto.
Qed.

Lemma topo_loop_ok g : inv g -> forall fuel queue d out R,
  tinv g R out queue d -> (forall e, In e (g_edges g) -> (In e R <-> In (head_of g e) out)) -> ordered g out ->
  length (g_nodes g) - length out <= fuel ->
  exists l, topo_loop fuel g queue d out = GOk l /\ NoDup l /\ incl l (g_nodes g) /\ ordered g l /\
    (forall m, In m (g_nodes g) -> (forall a, edge g a m -> In a l) -> In m l).
Proof.
  intros Hi. pose proof Hi as (I1 & I2 & I3 & I4 & I5 & I6 & I7).
  induction fuel as [|fuel IH]; intros queue d out R T HR Ho Hf; (destruct queue as [|n queue];
    [exists out; destruct T as [T1 T2 T3 _]; rewrite app_nil_r in *; repeat split; auto; intros m Hm H; apply T3; [exact Hm|]; eapply cnt_heads; eassumption|]).
  - exfalso. pose proof (NoDup_incl_length (t_nodup _ _ _ _ _ T) (t_nodes _ _ _ _ _ T)) as H. rewrite app_length in H. cbn in H. lia.
  - cbn [topo_loop]. unfold out_neighbors.
    assert (In n (g_nodes g)) as Hn by (apply T; apply in_or_app; right; left; reflexivity).
    assert (~ In n out) as Hno.
    { pose proof (t_nodup _ _ _ _ _ T) as H. apply NoDup_remove_2 in H. intros H1. apply H. apply in_or_app. auto. }
    assert (tinv g R (out ++ [n]) queue d) as T'.
    { destruct T as [T1 T2 T3 T4]. constructor; rewrite <- ?app_assoc; auto. }
    destruct (topo_sons_ok g Hi (g_eout g n) R (out ++ [n]) queue d) as (q' & d' & E & T2); auto.
    + rewrite I7. apply NoDup_filter. exact I3.
    + rewrite I7. intros e He. apply filter_In in He. tauto.
    + rewrite I7. intros e He. apply filter_In in He as [He Hh]. apply Nat.eqb_eq in Hh. intros H. apply HR in H; [|exact He]. congruence.
    + rewrite E. apply (IH q' d' (out ++ [n]) (R ++ g_eout g n)); auto.
      * intros e He. rewrite !in_app_iff, (HR e He). rewrite I7, filter_In, Nat.eqb_eq. cbn. intuition.
      * intros a b Hab Hb. apply in_app_or in Hb as [Hb|[<-|[]]].
        -- destruct (Ho a b Hab Hb) as (l1 & l2 & -> & Ha). exists l1, (l2 ++ [n]). rewrite <- app_assoc. auto.
        -- exists out, []. split; [reflexivity|]. revert a Hab.
           apply (cnt_heads g R out n Hi HR). apply (t_zero _ _ _ _ _ T n Hn). apply in_or_app. right. left. reflexivity.
      * rewrite app_length. cbn. lia.
Qed.

Lemma topo_init_ok g : forall ns queue d q' d', topo_init g ns queue d = (q', d') ->
  q' = queue ++ filter (fun n => length (g_ein g n) =? 0) ns /\
  (forall m, ~ In m ns -> d' m = d m) /\ (forall m, In m ns -> g_ein g m <> [] -> d' m = Some (length (g_ein g m))).
Proof.
  induction ns as [|n ns IH]; intros queue d q' d'; cbn [topo_init filter].
  - intros [= <- <-]. rewrite app_nil_r. split; [reflexivity|]. split; [auto|intros m []].
  - destruct (length (g_ein g n)) as [|k] eqn:E; intros H; destruct (IH _ _ _ _ H) as (H1 & H2 & H3); cbn.
    + rewrite H1, <- app_assoc. split; [reflexivity|]. split; [intros m Hm; apply H2; tauto|].
      intros m [<-|Hm] Hne; [|auto]. apply length_zero_iff_nil in E. contradiction.
    + rewrite H1. split; [reflexivity|]. split.
      * intros m Hm. rewrite H2 by tauto. unfold iset. destruct (Nat.eqb_spec m n) as [->|]; tauto.
      * intros m Hm Hne. destruct (in_dec Nat.eq_dec m ns) as [Hi|Hni]; [auto|]. destruct Hm as [<-|Hm]; [|contradiction].
        rewrite H2 by exact Hni. unfold iset. rewrite Nat.eqb_refl, E. reflexivity.
Qed.

(** Chains of edges and the pigeonhole. *)
Fixpoint chain (g : graph) (l : list nat) : Prop :=
  match l with x :: (y :: _) as l' => edge g x y /\ chain g l' | _ => True end.
Lemma chain_tail g x l : chain g (x :: l) -> chain g l.
Proof. destruct l; cbn; tauto. Qed.
Lemma chain_drop g a l : chain g (a ++ l) -> chain g l.
Proof. induction a as [|x a IH]; cbn [app]; [auto|]. intros H. apply IH. eapply chain_tail; exact H. Qed.
Lemma chain_path g b : forall x y c, chain g (x :: b ++ y :: c) -> path g x y.
Proof.
  induction b as [|z b IH]; intros x y c H.
  - apply path_one. apply H.
  - destruct H as [H1 H2]. eapply path_trans; [apply path_one; exact H1|]. eapply IH. exact H2.
Qed.
Lemma repetition (l : list nat) : ~ NoDup l -> exists a x b c, l = a ++ x :: b ++ x :: c.
Proof.
  induction l as [|y l IH]; intros H; [exfalso; apply H; constructor|]. destruct (in_dec Nat.eq_dec y l) as [Hy|Hy].
  - apply in_split in Hy as (b & c & ->). exists [], y, b, c. reflexivity.
  - destruct IH as (a & x & b & c & ->); [intros Hn; apply H; constructor; assumption|]. exists (y :: a), x, b, c. reflexivity.
Qed.

Lemma back_walk g (P : nat -> Prop) n : (forall m, P m -> exists a, edge g a m /\ P a) -> P n ->
  forall k, exists w, length w = k /\ chain g (w ++ [n]) /\ (forall x, In x (w ++ [n]) -> P x).
Proof.
  intros Hp Hn. induction k as [|k (w & Hl & Hc & HP)].
  - exists []. cbn. repeat split; auto. intros x [<-|[]]. exact Hn.
  - destruct (w ++ [n]) as [|x r] eqn:E; [destruct w; discriminate|].
    destruct (Hp x (HP x (or_introl eq_refl))) as (a & Ha & Pa). exists (a :: w). cbn [app]. rewrite E. cbn [length].
    split; [lia|]. split; [split; assumption|]. intros y [<-|Hy]; auto.
Qed.

Lemma stuck_cycle g n (out : list nat) : inv g ->
  (forall m, In m (g_nodes g) -> (forall a, edge g a m -> In a out) -> In m out) -> In n (g_nodes g) -> ~ In n out ->
  exists c, path g c c /\ (c = n \/ path g c n).
Proof.
  intros Hi Hout Hn Hno. pose proof Hi as (_ & _ & _ & _ & I5 & I6 & _).
  destruct (back_walk g (fun m => In m (g_nodes g) /\ ~ In m out) n) with (k := length (g_nodes g)) as (w & Hl & Hc & HP).
  - intros m (Hm & Hmo). destruct (existsb (fun e => negb (mem (head_of g e) out)) (g_ein g m)) eqn:E.
    + apply existsb_exists in E as (e & He & Hh). apply negb_true_iff, mem_out in Hh. rewrite I6 in He. apply filter_In in He as [He Ht].
      apply Nat.eqb_eq in Ht. exists (head_of g e). split; [exists e; auto|]. split; [apply I5; exact He|exact Hh].
    + exfalso. apply Hmo. apply Hout; [exact Hm|]. intros a (e & He & <- & <-). apply in_ein in He as He'; [|exact Hi].
      destruct (mem (head_of g e) out) eqn:Em; [apply mem_in; exact Em|]. exfalso.
      assert (existsb (fun e0 => negb (mem (head_of g e0) out)) (g_ein g (tail_of g e)) = true) as Hx.
      { apply existsb_exists. exists e. rewrite Em. auto. }
      congruence.
  - auto.
  - destruct (repetition (w ++ [n])) as (a & x & b & c & E).
    { intros Hnd. assert (length (w ++ [n]) <= length (g_nodes g)) as H by (apply NoDup_incl_length; [exact Hnd|intros y Hy; apply HP; exact Hy]).
      rewrite app_length in H. cbn in H. lia. }
    rewrite E in Hc. apply chain_drop in Hc. exists x. split; [eapply chain_path; exact Hc|].
    (* the last element is n *)
    destruct c as [|y c] using rev_ind.
    + left. assert (a ++ x :: b ++ [x] = (a ++ x :: b) ++ [x]) as H by (rewrite <- app_assoc; reflexivity). rewrite H in E.
      apply app_inj_tail in E. symmetry. apply E.
    + right. assert (a ++ x :: b ++ x :: c ++ [y] = (a ++ x :: b ++ x :: c) ++ [y]) as H by (repeat (cbn; rewrite <- ?app_assoc); reflexivity).
      rewrite H in E. apply app_inj_tail in E as [_ ->]. assert (chain g (x :: c ++ [y])) as Hc' by (apply (chain_drop g (x :: b)); cbn; exact Hc).
      eapply chain_path with (c := []). exact Hc'.
Qed.

Lemma ordered_path_in g l a b : ordered g l -> path g a b -> In b l -> In a l.
Proof.
  intros Ho H. induction H as [a b H|a b c H IH He]; intros Hb.
  - destruct (Ho a b H Hb) as (l1 & l2 & -> & Ha). apply in_or_app. auto.
  - apply IH. destruct (Ho b c He Hb) as (l1 & l2 & -> & Ha). apply in_or_app. auto.
Qed.
Lemma ordered_path_before g l a b : NoDup l -> ordered g l -> path g a b -> In b l -> exists l1 l2, l = l1 ++ b :: l2 /\ In a l1.
Proof.
  intros Hn Ho H. induction H as [a b H|a b c H IH He]; intros Hb; [apply Ho; assumption|].
  destruct (Ho b c He Hb) as (l1 & l2 & -> & Hb1). exists l1, l2. split; [reflexivity|].
  destruct IH as (l3 & l4 & E & Ha); [apply in_or_app; auto|]. apply in_split in Hb1 as (l5 & l6 & ->).
  apply in_or_app. left. assert (l3 = l5) as ->; [|exact Ha].
  rewrite <- app_assoc in E. cbn in E. clear - Hn E. rewrite <- app_assoc in Hn. cbn in Hn.
  revert l3 E Hn. induction l5 as [|x l5 IH]; intros [|y l3] E Hn; cbn in *; try reflexivity.
  - injection E as <- E. inversion Hn; subst. exfalso. apply H1. rewrite E. apply in_or_app. right. left. reflexivity.
  - injection E as -> E. inversion Hn; subst. exfalso. apply H1. apply in_or_app. right. left. reflexivity.
  - injection E as -> E. inversion Hn; subst. f_equal. apply IH; assumption.
Qed.
Lemma ordered_acyclic g l c : NoDup l -> ordered g l -> In c l -> ~ path g c c.
Proof.
  intros Hn Ho Hc H. destruct (ordered_path_before g l c c Hn Ho H Hc) as (l1 & l2 & -> & Hi).
  apply NoDup_remove_2 in Hn. apply Hn. apply in_or_app. auto.
Qed.

Lemma path_nodes g a b : inv g -> path g a b -> In a (g_nodes g) /\ In b (g_nodes g).
Proof.
  intros (_ & _ & _ & _ & I5 & _) H. induction H as [a b (e & He & <- & <-)|a b c H IH (e & He & <- & <-)]; [apply I5; exact He|].
  split; [apply IH|apply I5; exact He].
Qed.

Lemma topo_ok g : inv g ->
  exists l, NoDup l /\ incl l (g_nodes g) /\ ordered g l /\
    (forall n, In n (g_nodes g) -> (~ In n l <-> exists c, path g c c /\ (c = n \/ path g c n))) /\
    topological_sort g = if length l =? length (g_nodes g) then GOk l else GErr (GTopological l).
Proof.
  intros Hi. pose proof Hi as (I1 & I2 & I3 & I4 & I5 & I6 & I7). unfold topological_sort.
  destruct (topo_init g (g_nodes g) [] (fun _ => None)) as [q d] eqn:E. destruct (topo_init_ok _ _ _ _ _ _ E) as (Hq & _ & Hd). cbn in Hq.
  destruct (topo_loop_ok g Hi (fuel_of g) q d [] []) as (l & El & Hn & Hs & Ho & Hall).
  - assert (forall m, cnt g [] m = length (g_ein g m)) as Hc.
    { intros m. unfold cnt. f_equal. apply forallb_filter_id. apply forallb_forall. reflexivity. }
    constructor; cbn.
    + rewrite Hq. apply NoDup_filter. exact I1.
    + rewrite Hq. intros m Hm. apply filter_In in Hm. tauto.
    + intros m Hm. rewrite Hq, Hc, filter_In, Nat.eqb_eq. tauto.
    + intros m Hm Hne. rewrite Hc. auto.
  - intros e He. cbn. tauto.
  - intros a b _ [].
  - unfold fuel_of. lia.
  - exists l. repeat split; auto.
    + intros H0. apply (stuck_cycle g n l); auto.
    + intros (c & Hc & Hcn) Hin. assert (In c l) as Hcl by (destruct Hcn as [->|Hp]; [exact Hin|eapply ordered_path_in; eassumption]).
      exact (ordered_acyclic g l c Hn Ho Hcl Hc).
    + rewrite El. reflexivity.
Qed.

(** ** Order of bfs *)
Inductive walk (nb : nat -> list nat) (r : nat) : nat -> nat -> Prop :=
| walk_0 : walk nb r 0 r
| walk_S k n m : walk nb r k n -> In m (nb n) -> walk nb r (S k) m.

Definition sorted_by (dep : nat -> nat) (l : list nat) : Prop :=
  forall l1 x l2 y l3, l = l1 ++ x :: l2 ++ y :: l3 -> dep x <= dep y.

Lemma sorted_by_app dep l : forall n new, sorted_by dep l -> (forall x, In x l -> dep x <= n) -> (forall x, In x new -> dep x = n) -> sorted_by dep (l ++ new).
Proof.
  intros n new. revert l. induction new as [|z new IH]; intros l H1 H2 H3.
  - rewrite app_nil_r. exact H1.
  - replace (l ++ z :: new) with ((l ++ [z]) ++ new) by (rewrite <- app_assoc; reflexivity). apply IH.
    + intros l1 x l2 y l3 E. destruct l3 as [|w l3] using rev_ind.
      * replace (l1 ++ x :: l2 ++ [y]) with ((l1 ++ x :: l2) ++ [y]) in E by (rewrite <- app_assoc; reflexivity). apply app_inj_tail in E as [-> <-].
        rewrite (H3 z (or_introl eq_refl)). apply H2. apply in_or_app. right. left. reflexivity.
      * replace (l1 ++ x :: l2 ++ y :: l3 ++ [w]) with ((l1 ++ x :: l2 ++ y :: l3) ++ [w]) in E by (repeat (cbn; rewrite <- ?app_assoc); reflexivity).
        apply app_inj_tail in E as [E _]. eapply H1. exact E.
    + intros x Hx. apply in_app_or in Hx as [Hx|[<-|[]]]; [auto|]. rewrite (H3 _ (or_introl eq_refl)). lia.
    + intros x Hx. apply H3. right. exact Hx.
Qed.
Lemma sorted_by_ext dep dep' l : (forall x, In x l -> dep x = dep' x) -> sorted_by dep l -> sorted_by dep' l.
Proof.
  intros He H l1 x l2 y l3 E. rewrite <- !He; [eapply H; exact E| |]; rewrite E; rewrite !in_app_iff; cbn; rewrite ?in_app_iff; cbn; tauto.
Qed.

Lemma bfs_loop_sorted nb root : forall fuel queue out visited dep l, NoDup visited -> Permutation visited (out ++ queue) ->
  sorted_by dep (out ++ queue) -> (forall x, In x visited -> walk nb root (dep x) x) ->
  (forall q rest x, queue = q :: rest -> In x visited -> dep x <= S (dep q)) ->
  (forall x y, In x out -> In y (nb x) -> In y visited /\ dep y <= S (dep x)) -> In root visited -> dep root = 0 ->
  bfs_loop fuel nb queue visited out = GOk l ->
  exists dep', sorted_by dep' l /\ (forall x, In x l -> walk nb root (dep' x) x) /\
    (forall x k, walk nb root k x -> dep' x <= k).
Proof.
  induction fuel as [|fuel IH]; intros queue out visited dep l Hn Hp Hs Hw Hq Hc Hr H0; (destruct queue as [|n queue]; cbn [bfs_loop];
    [intros [= <-]; rewrite app_nil_r in *; exists dep; split; [exact Hs|]; split;
      [intros x Hx; apply Hw; eapply Permutation_in; [apply Permutation_sym; exact Hp|exact Hx]
      |intros x k Hk; assert (In x visited /\ dep x <= k) as [_ H]; [|exact H];
        induction Hk as [|k a b Hk [IH1 IH2] Hb]; [split; [exact Hr|lia]|];
        destruct (Hc a b) as [C1 C2]; [eapply Permutation_in; eassumption|exact Hb|]; split; [exact C1|lia]]|]).
  - discriminate.
  - destruct (new_sons (nb n) visited) as [new v'] eqn:E. destruct (new_sons_spec _ _ _ _ E Hn) as (S1 & S2 & S3 & S4). intros Hl.
    set (dep' := fun x => if mem x visited then dep x else S (dep n)).
    assert (forall x, In x visited -> dep' x = dep x) as Dold by (intros x Hx; unfold dep'; rewrite (proj2 (mem_in _ _) Hx); reflexivity).
    assert (forall x, In x new -> dep' x = S (dep n)) as Dnew.
    { intros x Hx. unfold dep'. rewrite (proj2 (mem_out x visited)); [reflexivity|]. intros Hv. rewrite S1 in S2. exact (NoDup_app_inv _ _ S2 x Hv Hx). }
    assert (In n visited) as Hnv by (eapply Permutation_in; [apply Permutation_sym; exact Hp|]; apply in_or_app; right; left; reflexivity).
    assert (forall x, In x (out ++ n :: queue) -> In x visited) as Hov by (intros x Hx; eapply Permutation_in; [apply Permutation_sym; exact Hp|exact Hx]).
    assert (forall x, In x v' -> dep' x <= S (dep n)) as Dle.
    { intros x Hx. rewrite S1 in Hx. apply in_app_or in Hx as [Hx|Hx]; [rewrite Dold by exact Hx; eapply Hq; [reflexivity|exact Hx]|rewrite Dnew by exact Hx; lia]. }
    assert (sorted_by dep' ((out ++ [n]) ++ queue ++ new)) as Hs'.
    { replace ((out ++ [n]) ++ queue ++ new) with ((out ++ n :: queue) ++ new) by (repeat (cbn; rewrite <- ?app_assoc); reflexivity).
      apply sorted_by_app with (n := S (dep n)); [|intros x Hx; apply Dle; rewrite S1; apply in_or_app; left; auto|exact Dnew].
      eapply sorted_by_ext; [|exact Hs]. intros x Hx. symmetry. apply Dold. auto. }
    eapply (IH (queue ++ new) (out ++ [n]) v' dep' l S2); auto.
    + rewrite S1. transitivity ((out ++ n :: queue) ++ new); [apply Permutation_app_tail; exact Hp|]. repeat (cbn; rewrite <- ?app_assoc). reflexivity.
    + intros x Hx. rewrite S1 in Hx. apply in_app_or in Hx as [Hx|Hx]; [rewrite Dold by exact Hx; auto|].
      rewrite Dnew by exact Hx. eapply walk_S; [apply Hw; exact Hnv|auto].
    + intros q rest x Eq Hx. assert (dep n <= dep' q) as Hnq.
      { rewrite <- (Dold n Hnv). eapply (Hs' out n [] q rest). rewrite Eq, <- app_assoc. reflexivity. }
      specialize (Dle x Hx). lia.
    + intros x y Hx Hy. apply in_app_or in Hx as [Hx|[<-|[]]].
      * destruct (Hc x y Hx Hy) as [C1 C2]. assert (In x visited) by (apply Hov; apply in_or_app; auto). rewrite !Dold by assumption.
        split; [rewrite S1; apply in_or_app; auto|exact C2].
      * split; [auto|]. rewrite (Dold _ Hnv). apply Dle. auto.
    + rewrite S1. apply in_or_app. auto.
    + rewrite Dold by exact Hr. exact H0.
Qed.

Lemma bfs_sorted nb fuel root l : bfs_loop fuel nb [root] [root] [] = GOk l ->
  exists dep, sorted_by dep l /\ (forall x, In x l -> walk nb root (dep x) x) /\ (forall x k, walk nb root k x -> dep x <= k).
Proof.
  intros H. eapply (bfs_loop_sorted nb root fuel [root] [] [root] (fun _ => 0) l); auto.
  - constructor; [intros []|constructor].
  - intros l1 x l2 y l3 _. lia.
  - intros x [<-|[]]. constructor.
  - intros x y [].
  - left. reflexivity.
Qed.

(** ** Full connectivity *)
Lemma add_edges_to_ok h ts : forall g, exists g', add_edges_to g h ts = (g', seq (length (g_ends g)) (length ts)) /\ more_edges g g' (map (fun t => (h, t)) ts).
Proof.
  induction ts as [|t ts IH]; intros g; cbn [add_edges_to].
  - exists g. split; [reflexivity|apply more_edges_refl].
  - pose proof (more_edges_add g h t) as M. destruct (add_edge g h t) as [g1 e] eqn:E. cbn [fst] in M.
    destruct (IH g1) as (g' & E' & M'). rewrite E'. exists g'.
    assert (e = length (g_ends g)) as -> by (unfold add_edge in E; injection E as _ <-; reflexivity).
    destruct M as (M1 & M2 & M3 & M4) eqn:EM. rewrite M3, app_length. cbn [length]. rewrite Nat.add_1_r. split; [reflexivity|].
    apply (more_edges_trans g g1 g' [(h, t)]); [repeat split; assumption|exact M'].
Qed.
Lemma add_full_ok ts hs : forall g, exists g' ess, add_full g hs ts = (g', ess) /\ more_edges g g' (flat_map (fun h => map (fun t => (h, t)) ts) hs) /\
  concat ess = seq (length (g_ends g)) (length hs * length ts) /\ map (@length nat) ess = repeat (length ts) (length hs).
Proof.
  induction hs as [|h hs IH]; intros g; cbn [add_full].
  - exists g, []. split; [reflexivity|]. split; [apply more_edges_refl|auto].
  - destruct (add_edges_to_ok h ts g) as (g1 & E1 & M1). rewrite E1. destruct (IH g1) as (g2 & ess & E2 & M2 & C2 & L2). rewrite E2.
    eexists _, _. split; [reflexivity|]. split; [eapply more_edges_trans; eassumption|].
    destruct M1 as (_ & _ & M3 & _). rewrite M3, app_length, map_length in C2. cbn. rewrite C2, L2, seq_length. split; [|reflexivity].
    rewrite <- seq_app. reflexivity.
Qed.

(** ** Degrees *)
Definition sum (l : list nat) : nat := fold_right Nat.add 0 l.
Lemma count_split (f : nat -> nat) ns es : NoDup ns -> (forall e, In e es -> In (f e) ns) ->
  sum (map (fun n => length (filter (fun e => f e =? n) es)) ns) = length es.
Proof.
  intros Hn. induction es as [|e es IH]; intros H; cbn [filter].
  - clear. induction ns; cbn; auto.
  - assert (forall m, NoDup m -> sum (map (fun n => length (if f e =? n then e :: filter (fun e => f e =? n) es else filter (fun e => f e =? n) es)) m)
            = (if mem (f e) m then 1 else 0) + sum (map (fun n => length (filter (fun e => f e =? n) es)) m)) as K.
    { clear. intros m Hm. induction Hm as [|x m Hx Hm IH]; [reflexivity|]. cbn [map sum fold_right]. unfold sum in *. rewrite IH. cbn [mem existsb].
      change (existsb (Nat.eqb (f e)) m) with (mem (f e) m). destruct (Nat.eqb_spec (f e) x) as [->|]; cbn [orb length]; [|lia].
      rewrite (proj2 (mem_out x m) Hx). lia. }
    rewrite K by exact Hn. rewrite (proj2 (mem_in (f e) ns)) by (apply H; left; reflexivity). rewrite IH; [reflexivity|].
    intros x Hx. apply H. right. exact Hx.
Qed.
