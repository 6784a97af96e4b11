(** Properties of the graph package (C15-C18, C72-C77). *)
From Coq Require Import List Arith Bool Lia Permutation.
From Verif Require Import GraphModel GraphProofs.
Import ListNotations.

(** ** Legal use of a graph *)
(** Nodes are passed in from the graph; a tree is a nested sequence in which every sequence starts with a value. Nothing is
    demanded of removals. *)
Definition legal (g : graph) (o : gop) : Prop :=
  match o with
  | OAddEdge h t => In h (g_nodes g) /\ In t (g_nodes g)
  | OAddFull a b => incl a (g_nodes g) /\ incl b (g_nodes g)
  | OAddTree l => is_tree (NSeq l)
  | _ => True
  end.
Inductive built : graph -> Prop :=
| built_empty : built empty
| built_step g o : built g -> legal g o -> built (gstep g o).

Lemma built_inv g : built g -> inv g.
Proof.
  induction 1 as [|g o Hb IH Hl]; [exact inv_empty|]. destruct o; cbn in *.
  - apply inv_add_node; exact IH.
  - apply inv_add_edge; tauto.
  - apply inv_remove_edge; exact IH.
  - apply inv_remove_node; exact IH.
  - apply inv_add_nodes; exact IH.
  - destruct (add_tree_ok g l IH Hl) as (g' & t & E & Hi & _). rewrite E. exact Hi.
  - apply inv_add_full; tauto.
Qed.

(** ** C18 *)
Theorem C18_bookkeeping : forall g, built g ->
  NoDup (g_nodes g) /\ NoDup (g_edges g) /\
  (forall n e, In e (g_ein g n) <-> In e (g_edges g) /\ tail_of g e = n) /\
  (forall n e, In e (g_eout g n) <-> In e (g_edges g) /\ head_of g e = n) /\
  (forall n, NoDup (g_ein g n) /\ NoDup (g_eout g n)) /\
  (forall e, In e (g_edges g) -> In (head_of g e) (g_nodes g) /\ In (tail_of g e) (g_nodes g)).
Proof.
  intros g Hb. destruct (built_inv g Hb) as (I1 & I2 & I3 & I4 & I5 & I6 & I7).
  split; [exact I1|]. split; [exact I3|].
  split; [intros n e; rewrite I6, filter_In, Nat.eqb_eq; tauto|].
  split; [intros n e; rewrite I7, filter_In, Nat.eqb_eq; tauto|].
  split; [intros n; rewrite I6, I7; split; apply NoDup_filter; exact I3|exact I5].
Qed.

(** What each operation does to the nodes and edges. Edges are written with their ends. *)
Definition edge_list (g : graph) : list (nat * (nat * nat)) := map (fun e => (e, (head_of g e, tail_of g e))) (g_edges g).

Lemma edge_list_more g g' es : inv g -> more_edges g g' es -> edge_list g' = edge_list g ++ combine (seq (length (g_ends g)) (length es)) es.
Proof.
  intros (_ & _ & _ & I4 & _) (M1 & M2 & M3 & M4). unfold edge_list. rewrite M4, map_app. f_equal.
  - apply map_ext_in. intros e He. unfold head_of, tail_of. rewrite M3, app_nth1 by (apply I4; exact He). reflexivity.
  - unfold head_of, tail_of. rewrite M3. clear.
    assert (forall es pre, map (fun e => (e, (fst (nth e ((g_ends g ++ pre) ++ es) (0, 0)), snd (nth e ((g_ends g ++ pre) ++ es) (0, 0))))) (seq (length (g_ends g ++ pre)) (length es)) = combine (seq (length (g_ends g ++ pre)) (length es)) es) as K.
    { clear. induction es as [|x es IH]; intros pre; [reflexivity|]. cbn [length seq map combine].
      rewrite app_nth2, Nat.sub_diag by lia. cbn [nth]. rewrite <- surjective_pairing. f_equal.
      specialize (IH (pre ++ [x])). replace (length (g_ends g ++ pre ++ [x])) with (S (length (g_ends g ++ pre))) in IH by (rewrite !app_length; cbn; lia).
      rewrite <- IH. apply map_ext. intros e. repeat (cbn; rewrite <- ?app_assoc). reflexivity. }
    specialize (K es []). rewrite app_nil_r in K. exact K.
Qed.

Theorem C18_effects : forall g, built g ->
  (forall g' n, add_node g = (g', n) -> ~ In n (g_nodes g) /\ g_nodes g' = g_nodes g ++ [n] /\ edge_list g' = edge_list g) /\
  (forall h t g' e, add_edge g h t = (g', e) -> ~ In e (g_edges g) /\ g_nodes g' = g_nodes g /\ edge_list g' = edge_list g ++ [(e, (h, t))]) /\
  (forall e, In e (g_edges g) -> exists g', remove_edge g e = (g', GOk tt) /\ g_nodes g' = g_nodes g /\
     edge_list g' = filter (fun x => negb (fst x =? e)) (edge_list g)) /\
  (forall e, ~ In e (g_edges g) -> remove_edge g e = (g, GErr GValueError)) /\
  (forall n, ~ In n (g_nodes g) -> remove_node g n = (g, GErr GException)) /\
  (forall n, In n (g_nodes g) -> (forall e, In e (g_edges g) -> ~ (head_of g e = n /\ tail_of g e = n)) ->
     exists g', remove_node g n = (g', GOk tt) /\ g_nodes g' = filter (fun m => negb (m =? n)) (g_nodes g) /\
       edge_list g' = filter (fun x => negb ((fst (snd x) =? n) || (snd (snd x) =? n))) (edge_list g)).
Proof.
  intros g Hb. pose proof (built_inv g Hb) as Hi. pose proof Hi as (I1 & I2 & I3 & I4 & I5 & I6 & I7).
  assert (forall (p : nat * (nat * nat) -> bool) l, map (fun e => (e, (head_of g e, tail_of g e))) (filter (fun e => p (e, (head_of g e, tail_of g e))) l)
    = filter p (map (fun e => (e, (head_of g e, tail_of g e))) l)) as Hf.
  { clear. intros p l. induction l as [|x l IH]; [reflexivity|]. cbn. destruct (p _); cbn; rewrite IH; reflexivity. }
  split; [|split; [|split; [|split; [|split]]]].
  - unfold add_node. intros g' n [= <- <-]. cbn. repeat split. intros H. apply I2 in H. lia.
  - intros h t g' e E. pose proof (more_edges_add g h t) as M. rewrite E in M. cbn [fst] in M.
    rewrite (edge_list_more g g' _ Hi M). assert (e = length (g_ends g)) as -> by (unfold add_edge in E; injection E as _ <-; reflexivity).
    split; [intros H; apply I4 in H; lia|]. split; [apply M|reflexivity].
  - intros e He. exists (without g e). split; [apply remove_edge_in; assumption|]. split; [reflexivity|].
    unfold edge_list. rewrite <- (Hf (fun x => negb (fst x =? e))). reflexivity.
  - intros e He. apply remove_edge_out; assumption.
  - intros n Hn. unfold remove_node. change (existsb (Nat.eqb n) (g_nodes g)) with (mem n (g_nodes g)). rewrite (proj2 (mem_out n _) Hn). reflexivity.
  - intros n Hn Hl. destruct (remove_node_ok g n Hi Hn Hl) as (g' & E & _ & N & En & Ed). exists g'. split; [exact E|]. split; [exact N|].
    unfold edge_list. rewrite <- (Hf (fun x => negb ((fst (snd x) =? n) || (snd (snd x) =? n)))). rewrite Ed.
    unfold head_of, tail_of. rewrite En. reflexivity.
Qed.

(** remove_node of a node with a self loop: the edge is listed twice by get_edges, the second removal raises ValueError, and
    the node stays in the graph. *)
Theorem C77_remove_node_refuted : exists g n, built g /\ In n (g_nodes g) /\
  snd (remove_node g n) = GErr GValueError /\ In n (g_nodes (fst (remove_node g n))).
Proof.
  exists (gstep (gstep empty OAddNode) (OAddEdge 0 0)), 0. split; [|vm_compute; auto].
  apply built_step; [apply built_step; [constructor|exact I]|]. vm_compute. auto.
Qed.
(** add_tree of a sequence that is no tree raises half-way and leaves an out-edge that is not an edge of the graph. *)
Theorem C18_bad_tree_refuted : exists g l, built g /\ snd (add_tree g l) = GErr GAttributeError /\
  exists n e, In n (g_nodes (fst (add_tree g l))) /\ In e (g_eout (fst (add_tree g l)) n) /\ ~ In e (g_edges (fst (add_tree g l))).
Proof.
  exists empty, [NVal 0; NSeq [NSeq [NVal 0]]]. split; [constructor|]. split; [reflexivity|].
  exists 0, 0. vm_compute. split; [auto|]. split; [auto|intros []].
Qed.

(** Small graphs for examples: [n] nodes and given edges. *)
Definition mk (n : nat) (es : list (nat * nat)) : graph := fold_left (fun g p => fst (add_edge g (fst p) (snd p))) es (fst (add_nodes empty n)).
Example C18_example :
  let g := mk 4 [(0, 1); (1, 2); (0, 1); (2, 3); (3, 1)] in
  g_nodes (fst (remove_node g 1)) = [0; 2; 3] /\ edge_list (fst (remove_node g 1)) = [(3, (2, 3))] /\
  snd (remove_node g 1) = GOk tt /\ g_ein g 1 = [0; 2; 4].
Proof. vm_compute. auto. Qed.

(** ** C15 *)
(** topological_sort returns an order iff there is no cycle; else it raises, with the list of the nodes not reachable from a cycle,
    themselves in order. *)
Definition acyclic (g : graph) : Prop := forall n, ~ path g n n.
Definition before (l : list nat) (a b : nat) : Prop := exists l1 l2 l3, l = l1 ++ a :: l2 ++ b :: l3.

Lemma ordered_before g l : ordered g l -> forall a b, edge g a b -> In b l -> before l a b.
Proof.
  intros Ho a b H Hb. destruct (Ho a b H Hb) as (l1 & l2 & -> & Ha). apply in_split in Ha as (l3 & l4 & ->).
  exists l3, l4, l2. rewrite <- app_assoc. reflexivity.
Qed.

Theorem C15_topological_sort : forall g, built g ->
  (acyclic g -> exists l, topological_sort g = GOk l /\ Permutation l (g_nodes g) /\ forall a b, edge g a b -> before l a b) /\
  (~ acyclic g -> exists l, topological_sort g = GErr (GTopological l) /\ NoDup l /\
     (forall n, In n l <-> In n (g_nodes g) /\ ~ exists c, path g c c /\ (c = n \/ path g c n)) /\
     forall a b, edge g a b -> In b l -> before l a b).
Proof.
  intros g Hb. pose proof (built_inv g Hb) as Hi. pose proof Hi as (I1 & I2 & I3 & I4 & I5 & I6 & I7).
  destruct (topo_ok g Hi) as (l & Hn & Hs & Ho & Hc & E). rewrite E. split.
  - intros Ha. assert (incl (g_nodes g) l) as Hall.
    { intros n H. destruct (in_dec Nat.eq_dec n l) as [Hl|Hl]; [exact Hl|]. apply Hc in Hl as (c & Hcc & _); [|exact H]. destruct (Ha c Hcc). }
    assert (Permutation l (g_nodes g)) as Hp by (apply NoDup_Permutation; [exact Hn|exact I1|intros x; split; [apply Hs|apply Hall]]).
    rewrite (Permutation_length Hp), Nat.eqb_refl. exists l. split; [reflexivity|]. split; [exact Hp|].
    intros a b H. apply (ordered_before g); [exact Ho|exact H|]. apply Hall. destruct H as (e & He & <- & <-). apply I5. exact He.
  - intros Hna. destruct (Nat.eqb_spec (length l) (length (g_nodes g))) as [El|El].
    + exfalso. apply Hna. intros n Hp. assert (incl (g_nodes g) l) as Hall by (apply NoDup_length_incl; [exact Hn|lia|exact Hs]).
      apply (ordered_acyclic g l n Hn Ho); [apply Hall; apply (path_nodes g n n Hi Hp)|exact Hp].
    + exists l. split; [reflexivity|]. split; [exact Hn|]. split; [|apply ordered_before; exact Ho].
      intros n. split.
      * intros H. split; [apply Hs; exact H|]. intros Hex. apply Hc in Hex; [|apply Hs; exact H]. contradiction.
      * intros (H1 & H2). destruct (in_dec Nat.eq_dec n l) as [Hl|Hl]; [exact Hl|]. apply Hc in Hl; [contradiction|exact H1].
Qed.
Example C15_example :
  topological_sort (mk 5 [(3, 1); (3, 1); (1, 0); (4, 2); (2, 0)]) = GOk [3; 4; 1; 2; 0] /\
  topological_sort (mk 5 [(3, 1); (1, 0); (0, 1); (3, 4); (0, 2)]) = GErr (GTopological [3; 4]) /\
  topological_sort (mk 1 [(0, 0)]) = GErr (GTopological []).
Proof. vm_compute. auto. Qed.

(** ** C16 *)
Definition reaches (g : graph) (a b : nat) : Prop := a = b \/ path g a b.
(** Undirected: a sequence of edges used in either direction. *)
Inductive joined (g : graph) : nat -> nat -> Prop :=
| joined_refl a : joined g a a
| joined_fwd a b c : joined g a b -> edge g b c -> joined g a c
| joined_bwd a b c : joined g a b -> edge g c b -> joined g a c.

Lemma out_edge g a b : inv g -> (In b (out_neighbors g a) <-> edge g a b).
Proof.
  intros (_ & _ & _ & _ & _ & _ & I7). unfold out_neighbors. rewrite I7, in_map_iff. split.
  - intros (e & <- & He). apply filter_In in He as [He Hh]. apply Nat.eqb_eq in Hh. exists e. auto.
  - intros (e & He & <- & <-). exists e. split; [reflexivity|]. apply filter_In. split; [exact He|apply Nat.eqb_refl].
Qed.
Lemma in_edge g a b : inv g -> (In b (in_neighbors g a) <-> edge g b a).
Proof.
  intros (_ & _ & _ & _ & _ & I6 & _). unfold in_neighbors. rewrite I6, in_map_iff. split.
  - intros (e & <- & He). apply filter_In in He as [He Hh]. apply Nat.eqb_eq in Hh. exists e. auto.
  - intros (e & He & <- & <-). exists e. split; [reflexivity|]. apply filter_In. split; [exact He|apply Nat.eqb_refl].
Qed.
Lemma reach_out g a b : inv g -> (reach (out_neighbors g) a b <-> reaches g a b).
Proof.
  intros Hi. split.
  - induction 1 as [|n m H IH Hm]; [left; reflexivity|]. apply out_edge in Hm; [|exact Hi]. right.
    destruct IH as [->|IH]; [apply path_one; exact Hm|eapply path_more; eassumption].
  - intros [->|H]; [constructor|]. induction H as [a b H|a b c H IH He]; eapply reach_next; try (apply out_edge; eassumption); [constructor|exact IH].
Qed.
Lemma reach_nb g a b : inv g -> (reach (neighbors g) a b <-> joined g a b).
Proof.
  intros Hi. split.
  - induction 1 as [|n m H IH Hm]; [constructor|]. apply in_app_or in Hm as [Hm|Hm].
    + apply in_edge in Hm; [|exact Hi]. eapply joined_bwd; eassumption.
    + apply out_edge in Hm; [|exact Hi]. eapply joined_fwd; eassumption.
  - induction 1 as [a|a b c H IH He|a b c H IH He]; [constructor| |]; (eapply reach_next; [exact IH|]); apply in_or_app.
    + right. apply out_edge; assumption.
    + left. apply in_edge; assumption.
Qed.

Theorem C16_traversals : forall g root, built g -> In root (g_nodes g) ->
  (exists l, dfs g root = GOk l /\ NoDup l /\ forall n, In n l <-> reaches g root n) /\
  (exists l, bfs g root = GOk l /\ NoDup l /\ forall n, In n l <-> reaches g root n) /\
  (exists l, undirected_dfs g root = GOk l /\ NoDup l /\ forall n, In n l <-> joined g root n) /\
  (exists l, undirected_bfs g root = GOk l /\ NoDup l /\ forall n, In n l <-> joined g root n).
Proof.
  intros g root Hb Hr. pose proof (built_inv g Hb) as Hi. destruct (traversal_ok g root Hi Hr) as ((l1 & E1 & N1 & R1) & (l2 & E2 & N2 & R2) & (l3 & E3 & N3 & R3) & (l4 & E4 & N4 & R4)).
  split; [|split; [|split]]; eexists; (split; [eassumption|]; split; [assumption|]); intros n; rewrite <- ?reach_out, <- ?reach_nb by exact Hi; auto.
Qed.
Example C16_example :
  let g := mk 6 [(0, 1); (1, 2); (2, 0); (2, 2); (0, 3); (4, 3)] in
  dfs g 0 = GOk [0; 3; 1; 2] /\ bfs g 1 = GOk [1; 2; 0; 3] /\ undirected_dfs g 3 = GOk [3; 4; 0; 1; 2] /\ undirected_bfs g 5 = GOk [5].
Proof. vm_compute. auto. Qed.

(** ** C76: bfs lists nodes by increasing distance *)
(** [dist]: the least number of edges of a path from the root. *)
Inductive steps (g : graph) (a : nat) : nat -> nat -> Prop :=
| steps_0 : steps g a 0 a
| steps_S k b c : steps g a k b -> edge g b c -> steps g a (S k) c.
Definition dist (g : graph) (a b k : nat) : Prop := steps g a k b /\ forall j, steps g a j b -> k <= j.

Theorem C76_bfs_by_distance : forall g root l, built g -> In root (g_nodes g) -> bfs g root = GOk l ->
  forall a b, before l a b -> exists i j, dist g root a i /\ dist g root b j /\ i <= j.
Proof.
  intros g root l Hb Hr E. pose proof (built_inv g Hb) as Hi.
  assert (forall k n, walk (out_neighbors g) root k n <-> steps g root k n) as Hw.
  { intros k n. split; induction 1; econstructor; try eassumption; apply (out_edge g); assumption. }
  destruct (bfs_sorted _ _ _ _ E) as (dep & Hs & H1 & H2). intros a b (l1 & l2 & l3 & ->). exists (dep a), (dep b).
  split; [|split]; [split; [apply Hw, H1|intros j Hj; apply H2, Hw, Hj]..|eapply Hs; reflexivity]; rewrite !in_app_iff; cbn; rewrite ?in_app_iff; cbn; tauto.
Qed.
(** A genuine depth-first order: after a node, each of its not yet visited sons in some order, with everything below. *)
Inductive dfo (g : graph) : list nat -> nat -> list nat -> Prop :=
| dfo_node seen n l : dfo_sons g (n :: seen) n l -> dfo g seen n (n :: l)
with dfo_sons (g : graph) : list nat -> nat -> list nat -> Prop :=
| dfo_done seen n : (forall s, edge g n s -> In s seen) -> dfo_sons g seen n []
| dfo_son seen n s l1 l2 : edge g n s -> ~ In s seen -> dfo g seen s l1 -> dfo_sons g (l1 ++ seen) n l2 -> dfo_sons g seen n (l1 ++ l2).
(** dfs marks a node as visited when it is put on the stack, so its order need not be a depth-first one. *)
Lemma dfs_witness_edges a b : edge (mk 4 [(0, 1); (0, 2); (0, 3); (3, 1)]) a b <-> In (a, b) [(0, 1); (0, 2); (0, 3); (3, 1)].
Proof.
  split.
  - intros (e & He & <- & <-). cbn in He. decompose [or] He; subst; vm_compute; tauto.
  - intros H. cbn in H. decompose [or] H; try contradiction;
      match goal with E : (_, _) = (_, _) |- _ => injection E as <- <- end;
      [exists 0|exists 1|exists 2|exists 3]; vm_compute; tauto.
Qed.
Lemma dfo_inv g seen n l : dfo g seen n l -> exists l', l = n :: l' /\ dfo_sons g (n :: seen) n l'.
Proof. intros []. eauto. Qed.
Lemma dfo_sons_inv g seen n l : dfo_sons g seen n l ->
  (l = [] /\ forall s, edge g n s -> In s seen) \/ exists s la l2, l = (s :: la) ++ l2 /\ edge g n s /\ dfo_sons g (s :: seen) s la.
Proof.
  intros [seen' n' H|seen' n' s l1 l2 He Hns H1 H2]; [left; auto|]. right. destruct (dfo_inv _ _ _ _ H1) as (la & -> & Hla). exists s, la, l2. auto.
Qed.
Theorem C75_dfs_order_refuted : exists g root l, built g /\ In root (g_nodes g) /\ dfs g root = GOk l /\ ~ dfo g [] root l.
Proof.
  exists (mk 4 [(0, 1); (0, 2); (0, 3); (3, 1)]), 0, [0; 3; 2; 1].
  split.
  { unfold mk, fold_left. cbn [fst snd].
    repeat match goal with |- built (fst (add_edge ?g ?h ?t)) => apply (built_step g (OAddEdge h t)); [|vm_compute; tauto] end.
    apply (built_step empty (OAddNodes 4)); [constructor|exact I]. }
  split; [vm_compute; auto|]. split; [reflexivity|]. intros H.
  destruct (dfo_inv _ _ _ _ H) as (l & El & Hs). injection El as <-.
  destruct (dfo_sons_inv _ _ _ _ Hs) as [[E _]|(s & la & l2 & E & He & Hla)]; [discriminate|]. cbn in E. injection E as <- E.
  destruct (dfo_sons_inv _ _ _ _ Hla) as [[-> Hd]|(s' & la' & l2' & -> & He' & _)].
  - assert (In 1 [3; 0]) as Hx by (apply Hd; apply dfs_witness_edges; cbn; tauto). cbn in Hx. lia.
  - cbn in E. injection E as <- _. apply dfs_witness_edges in He'. cbn in He'. intuition congruence.
Qed.
Example C76_example :
  let g := mk 4 [(0, 1); (0, 2); (0, 3); (3, 1)] in dfs g 0 = GOk [0; 3; 2; 1] /\ bfs g 0 = GOk [0; 1; 2; 3].
Proof. vm_compute. auto. Qed.

(** ** C17 *)
Theorem C17_components : forall g, built g ->
  exists cs, connected_components g = GOk cs /\ Permutation (concat cs) (g_nodes g) /\ (forall c, In c cs -> c <> []) /\
    (forall c, In c cs -> NoDup c) /\
    (forall c a b, In c cs -> In a c -> (In b c <-> joined g a b)).
Proof.
  intros g Hb. pose proof (built_inv g Hb) as Hi. destruct (components_ok g Hi) as (cs & E & P & Hne & Hc). exists cs.
  split; [exact E|]. split; [exact P|]. split; [exact Hne|]. split.
  - apply Permutation_sym, Permutation_NoDup in P; [|apply Hi]. clear - P. intros c Hin. apply in_split in Hin as (l1 & l2 & ->).
    rewrite concat_app in P. cbn in P.
    assert (forall (a b : list nat), NoDup (a ++ b) -> NoDup b) as Hr by (clear; induction a; cbn; intros b H; [exact H|inversion H; auto]).
    assert (forall (a b : list nat), NoDup (a ++ b) -> NoDup a) as Hl.
    { clear. intros a b H. apply Permutation_NoDup with (l' := b ++ a) in H; [|apply Permutation_app_comm].
      revert H. induction b; cbn; intros H; [exact H|inversion H; auto]. }
    apply Hr in P. apply Hl in P. exact P.
  - intros c a b Hc' Ha. rewrite (Hc c a Hc' Ha). apply reach_nb. exact Hi.
Qed.
Theorem C17_weakly_connected : forall g, built g -> g_nodes g <> [] ->
  exists b, is_weakly_connected g = GOk b /\ (b = true <-> forall x y, In x (g_nodes g) -> In y (g_nodes g) -> joined g x y) /\
    (b = true <-> exists c, connected_components g = GOk [c]).
Proof.
  intros g Hb Hne. pose proof (built_inv g Hb) as Hi. destruct (weakly_ok g Hi Hne) as (b & E & Hw). exists b. split; [exact E|].
  assert (b = true <-> forall x y, In x (g_nodes g) -> In y (g_nodes g) -> joined g x y) as Hj.
  { rewrite Hw. split; intros H x y Hx Hy; [apply reach_nb; [exact Hi|]|apply reach_nb; [exact Hi|]]; auto. }
  split; [exact Hj|]. rewrite Hj. destruct (C17_components g Hb) as (cs & Ec & P & Hn & Hd & Hc). rewrite Ec. split.
  - intros Hall. destruct cs as [|c [|c' cs]].
    + cbn in P. apply Permutation_nil in P. contradiction.
    + exists c. reflexivity.
    + exfalso. destruct c as [|x c]; [apply (Hn []); cbn; auto|]. destruct c' as [|y c']; [apply (Hn []); cbn; auto|].
      assert (joined g x y) as Hxy by (apply Hall; eapply Permutation_in; try exact P; cbn; [left; reflexivity|right; apply in_or_app; right; left; reflexivity]).
      apply (Hc (x :: c) x y) in Hxy; [|left; reflexivity|left; reflexivity].
      apply Permutation_sym, Permutation_NoDup in P; [|apply Hi]. cbn [concat] in P.
      eapply (NoDup_app_inv (x :: c) _ P y Hxy). left. reflexivity.
  - intros (c & [= ->]) x y Hx Hy. cbn in P. rewrite app_nil_r in P. apply (Hc c x y); [left; reflexivity| |]; eapply Permutation_in; try eassumption; apply Permutation_sym; exact P.
Qed.
(** The empty graph: nodes[0] raises IndexError. *)
Theorem C17_weakly_connected_refuted : exists g, built g /\ is_weakly_connected g = GErr GIndexError.
Proof. exists empty. split; [constructor|reflexivity]. Qed.
Example C17_example :
  connected_components (mk 6 [(0, 2); (4, 2); (1, 1); (3, 5)]) = GOk [[0; 2; 4]; [1]; [3; 5]] /\
  is_weakly_connected (mk 3 [(0, 1); (2, 1)]) = GOk true /\ is_weakly_connected (mk 3 [(0, 1); (1, 0)]) = GOk false.
Proof. vm_compute. auto. Qed.

(** ** C72 add_tree *)
(** The result has the shape of the argument with new nodes as values; the edges added go from each root to the roots of its
    sons; every new node but the root has exactly one edge in. *)
Inductive same_shape : nested -> nested -> Prop :=
| SS_val a b : same_shape (NVal a) (NVal b)
| SS_seq l l' : Forall2 same_shape l l' -> same_shape (NSeq l) (NSeq l').
Lemma map_add_shape t : forall g, same_shape t (snd (map_add g t)).
Proof.
  induction t as [n|l IH] using nested_ind'; intros g; [constructor|]. rewrite map_add_seq.
  assert (Forall2 same_shape l (snd (map_adds g l))) as H.
  { revert g. induction IH as [|x l Hx Hl IHl]; intros g; [constructor|]. rewrite map_adds_cons. specialize (Hx g). destruct (map_add g x) as [g1 y].
    specialize (IHl g1). destruct (map_adds g1 l). constructor; assumption. }
  destruct (map_adds g l). constructor. exact H.
Qed.
Lemma tree_edges_tails t : is_tree t -> Permutation (root t :: map snd (tree_edges t)) (vals t).
Proof.
  induction t as [n|l IH] using nested_ind'; intros HT; [reflexivity|]. inversion HT as [|n l0 HF]; subst. cbn [root tree_edges vals flat_map app].
  constructor. inversion IH as [|? ? _ IH0]; subst. clear HT IH. induction HF as [|y l0 Hy HF IHF]; [reflexivity|].
  inversion IH0; subst. cbn [flat_map]. rewrite !map_app. cbn [map snd]. apply Permutation_app; [|apply IHF; assumption].
  transitivity (root y :: map snd (tree_edges y)); [symmetry; apply Permutation_cons_append|auto].
Qed.
Lemma tree_edges_reach t : is_tree t -> forall (R : nat -> nat -> Prop), (forall a, R a a) ->
  (forall a b c, R a b -> In (b, c) (tree_edges t) -> R a c) -> forall n, In n (vals t) -> R (root t) n.
Proof.
  induction t as [n|l IH] using nested_ind'; intros HT R R0 R1 m Hm.
  - destruct Hm as [<-|[]]. apply R0.
  - inversion HT as [|n l0 HF]; subst. inversion IH as [|? ? _ IH0]; subst. cbn [root vals flat_map app] in *. destruct Hm as [<-|Hm]; [apply R0|].
    apply in_flat_map in Hm as (y & Hy & Hm). rewrite Forall_forall in IH0, HF.
    assert (R n (root y)) as Hr by (apply (R1 n n); [apply R0|]; apply in_flat_map; exists y; split; [exact Hy|]; apply in_or_app; right; left; reflexivity).
    apply (IH0 y Hy (HF y Hy) (fun a b => R n a -> R n b)); auto.
    intros a b c Hab Hbc Ha. apply (R1 n b c); [auto|]. apply in_flat_map. exists y. split; [exact Hy|]. apply in_or_app. auto.
Qed.

Theorem C72_add_tree : forall g l, built g -> is_tree (NSeq l) ->
  exists g' t, add_tree g l = (g', GOk t) /\ same_shape (NSeq l) t /\
    g_nodes g' = g_nodes g ++ vals t /\ NoDup (vals t) /\ (forall n, In n (vals t) -> ~ In n (g_nodes g)) /\
    edge_list g' = edge_list g ++ combine (seq (length (g_ends g)) (length (tree_edges t))) (tree_edges t) /\
    (* the added edges: a tree with the given root *)
    Permutation (root t :: map snd (tree_edges t)) (vals t) /\
    (forall n, In n (vals t) -> reaches g' (root t) n).
Proof.
  intros g l Hb HT. pose proof (built_inv g Hb) as Hi. destruct (add_tree_ok g l Hi HT) as (g' & t & E & Hi' & HT' & N & V & En & Ed).
  exists g', t. split; [exact E|]. split.
  { unfold add_tree in E. pose proof (map_add_shape (NSeq l) g) as S. destruct (map_add g (NSeq l)) as [g1 t1].
    destruct (reduce_edges g1 t1) as [g2 [r|x]]; [|discriminate]. injection E as _ <-. exact S. }
  assert (edge_list g' = edge_list g ++ combine (seq (length (g_ends g)) (length (tree_edges t))) (tree_edges t)) as Hel.
  { set (g0 := mkG (g_nodes g') (g_edges g) (g_ends g) (g_ein g) (g_eout g) (g_next g')).
    change (edge_list g) with (edge_list g0). change (g_ends g) with (g_ends g0). destruct Hi as (J1 & J2 & J3 & J4 & J5 & J6 & J7).
    pose proof Hi' as (K1 & K2 & _).
    apply edge_list_more; [|repeat split; assumption]. repeat split; auto; intros; unfold g0; cbn; rewrite N; apply in_or_app; left; apply (J5 e H). }
  split; [exact N|]. split; [rewrite V; apply seq_NoDup|]. split.
  { intros n Hn Hg. rewrite V in Hn. apply in_seq in Hn. apply Hi in Hg. lia. }
  split; [exact Hel|]. split; [apply tree_edges_tails; exact HT'|].
  apply (tree_edges_reach t HT' (reaches g')); [left; reflexivity|].
  intros a b c Hab Hbc. assert (edge g' b c) as Hbc'.
  { apply In_nth with (d := (0, 0)) in Hbc as (i & Hi1 & Hi2). exists (length (g_ends g) + i). unfold head_of, tail_of. rewrite En.
    rewrite app_nth2 by lia. replace (length (g_ends g) + i - length (g_ends g)) with i by lia. rewrite Hi2. cbn. split; [|auto].
    rewrite Ed. apply in_or_app. right. apply in_seq. lia. }
  right. destruct Hab as [->|Hab]; [apply path_one; exact Hbc'|eapply path_more; eassumption].
Qed.
Example C72_example :
  (* the tree of the doc string: (a, b, (c, d, e)) *)
  let r := add_tree empty [NVal 0; NVal 0; NSeq [NVal 0; NVal 0; NVal 0]] in
  snd r = GOk (NSeq [NVal 0; NVal 1; NSeq [NVal 2; NVal 3; NVal 4]]) /\ map snd (edge_list (fst r)) = [(0, 1); (2, 3); (2, 4); (0, 2)].
Proof. vm_compute. auto. Qed.
(** The empty tree: reduce() of an empty sequence raises TypeError. *)
Theorem C72_empty_tree_refuted : exists g, built g /\ snd (add_tree g []) = GErr GTypeError.
Proof. exists empty. split; [constructor|reflexivity]. Qed.

(** ** C73 add_full_connectivity *)
Theorem C73_full_connectivity : forall g a b, built g -> legal g (OAddFull a b) ->
  exists g' ess, add_full g a b = (g', ess) /\ g_nodes g' = g_nodes g /\
    length ess = length a /\ (forall es, In es ess -> length es = length b) /\ NoDup (concat ess) /\
    (forall e, In e (concat ess) -> ~ In e (g_edges g)) /\ g_edges g' = g_edges g ++ concat ess /\
    edge_list g' = edge_list g ++ combine (concat ess) (list_prod a b).
Proof.
  intros g a b Hb Hl. pose proof (built_inv g Hb) as Hi. destruct (add_full_ok b a g) as (g' & ess & E & M & C & L). exists g', ess.
  split; [exact E|]. pose proof M as (M1 & M2 & M3 & M4). split; [exact M1|].
  split; [rewrite <- (map_length (@length nat) ess), L; apply repeat_length|].
  split; [intros es Hes; apply (in_map (@length nat)) in Hes; rewrite L in Hes; apply repeat_spec in Hes; exact Hes|].
  split; [rewrite C; apply seq_NoDup|].
  split; [intros e He Hg; rewrite C in He; apply in_seq in He; destruct Hi as (_ & _ & _ & I4 & _); apply I4 in Hg; lia|].
  assert (flat_map (fun h => map (fun t => (h, t)) b) a = list_prod a b) as Ep by (clear; induction a; cbn; [reflexivity|rewrite IHa; reflexivity]).
  rewrite Ep in *. assert (concat ess = seq (length (g_ends g)) (length (list_prod a b))) as C' by (rewrite C, prod_length; reflexivity).
  rewrite C'. split; [exact M4|]. apply edge_list_more; assumption.
Qed.
Example C73_example :
  let g := fst (add_nodes empty 4) in
  snd (add_full g [0; 1] [2; 3; 0]) = [[0; 1; 2]; [3; 4; 5]] /\ map snd (edge_list (fst (add_full g [0; 1] [2; 3; 0]))) = [(0, 2); (0, 3); (0, 0); (1, 2); (1, 3); (1, 0)].
Proof. vm_compute. auto. Qed.

(** ** C74 degrees and edge queries *)
Theorem C74_degrees : forall g, built g ->
  sum (map (in_degree g) (g_nodes g)) = length (g_edges g) /\ sum (map (out_degree g) (g_nodes g)) = length (g_edges g) /\
  sum (map (degree g) (g_nodes g)) = 2 * length (g_edges g).
Proof.
  intros g Hb. destruct (built_inv g Hb) as (I1 & I2 & I3 & I4 & I5 & I6 & I7).
  assert (sum (map (in_degree g) (g_nodes g)) = length (g_edges g)) as H1.
  { rewrite <- (count_split (tail_of g) (g_nodes g) (g_edges g) I1) by (intros e He; apply I5; exact He). f_equal. apply map_ext. intros n.
    unfold in_degree. rewrite I6. reflexivity. }
  assert (sum (map (out_degree g) (g_nodes g)) = length (g_edges g)) as H2.
  { rewrite <- (count_split (head_of g) (g_nodes g) (g_edges g) I1) by (intros e He; apply I5; exact He). f_equal. apply map_ext. intros n.
    unfold out_degree. rewrite I7. reflexivity. }
  split; [exact H1|]. split; [exact H2|].
  assert (forall l, sum (map (degree g) l) = sum (map (in_degree g) l) + sum (map (out_degree g) l)) as K.
  { clear. induction l as [|n l IH]; [reflexivity|]. cbn in *. unfold sum in *. rewrite IH. unfold degree. lia. }
  rewrite K, H1, H2. lia.
Qed.
Theorem C74_edge_queries : forall g, built g -> forall n e,
  (forall m, In e (get_edges_in g n (Some m)) <-> In e (g_edges g) /\ head_of g e = m /\ tail_of g e = n) /\
  (forall m, In e (get_edges_out g n (Some m)) <-> In e (g_edges g) /\ head_of g e = n /\ tail_of g e = m) /\
  (forall m, In e (get_edges g n (Some m)) <-> In e (g_edges g) /\ (head_of g e = m /\ tail_of g e = n \/ head_of g e = n /\ tail_of g e = m)) /\
  (In e (get_edges g n None) <-> In e (g_edges g) /\ (tail_of g e = n \/ head_of g e = n)) /\
  length (get_edges g n None) = degree g n.
Proof.
  intros g Hb n e. destruct (C18_bookkeeping g Hb) as (_ & _ & Hin & Hout & _).
  unfold get_edges, get_edges_in, get_edges_out, degree, in_degree, out_degree.
  split; [intros m; rewrite filter_In, Nat.eqb_eq, Hin; tauto|]. split; [intros m; rewrite filter_In, Nat.eqb_eq, Hout; tauto|].
  split; [intros m; rewrite in_app_iff, !filter_In, !Nat.eqb_eq, Hin, Hout; tauto|].
  split; [rewrite in_app_iff, Hin, Hout; tauto|apply app_length].
Qed.
Example C74_example :
  let g := mk 3 [(0, 1); (0, 1); (1, 1); (1, 2)] in
  map (degree g) [0; 1; 2] = [2; 5; 1] /\ get_edges_in g 1 (Some 0) = [0; 1] /\ get_edges g 1 (Some 1) = [2; 2] /\ get_edges_out g 1 None = [2; 3].
Proof. vm_compute. auto. Qed.
