(** Proofs about NGasModel: the graph of a neural gas. *)
From Coq Require Import List Arith QArith Qcanon Bool Lia Permutation.
From Verif Require Import GraphModel GraphProofs CovModel NGasModel.
Import ListNotations.
Open Scope nat_scope.

(** ** Simple graphs *)
Definition conn (g : graph) (e a b : nat) : Prop := (head_of g e = a /\ tail_of g e = b) \/ (head_of g e = b /\ tail_of g e = a).
Definition linked (g : graph) (a b : nat) : Prop := exists e, In e (g_edges g) /\ conn g e a b.
Definition noloop (g : graph) : Prop := forall e, In e (g_edges g) -> head_of g e <> tail_of g e.
Definition single (g : graph) : Prop := forall e e' a b, In e (g_edges g) -> In e' (g_edges g) -> conn g e a b -> conn g e' a b -> e = e'.
Definition wf (g : graph) : Prop := inv g /\ noloop g /\ single g.
Definition touched (g : graph) (n : nat) : Prop := exists e, In e (g_edges g) /\ (head_of g e = n \/ tail_of g e = n).
Definition covered (g : graph) : Prop := forall n, In n (g_nodes g) -> touched g n.

Lemma head_ends g g' e : g_ends g' = g_ends g -> head_of g' e = head_of g e. Proof. unfold head_of. now intros ->. Qed.
Lemma tail_ends g g' e : g_ends g' = g_ends g -> tail_of g' e = tail_of g e. Proof. unfold tail_of. now intros ->. Qed.
Lemma conn_ends g g' e a b : g_ends g' = g_ends g -> conn g' e a b <-> conn g e a b.
Proof. intro H. unfold conn. now rewrite (head_ends _ _ e H), (tail_ends _ _ e H). Qed.
Lemma conn_sym g e a b : conn g e a b -> conn g e b a. Proof. unfold conn. tauto. Qed.
Lemma wf_sub g g' : wf g -> inv g' -> g_ends g' = g_ends g -> incl (g_edges g') (g_edges g) -> wf g'.
Proof.
  intros (_ & W1 & W2) Hi He Hs. split; [assumption|]. split.
  - intros e H. rewrite (head_ends _ _ e He), (tail_ends _ _ e He). auto.
  - intros e e' a b H1 H2. rewrite !(conn_ends _ _ _ _ _ He). intros. eapply W2; eauto.
Qed.
Lemma in_get_edges g n e : inv g -> In e (get_edges g n None) <-> In e (g_edges g) /\ (head_of g e = n \/ tail_of g e = n).
Proof.
  intros (_ & _ & _ & _ & _ & I6 & I7). unfold get_edges, get_edges_in, get_edges_out. rewrite in_app_iff, I6, I7, !filter_In, !Nat.eqb_eq. tauto.
Qed.
Lemma nodup_get_edges g n : wf g -> NoDup (get_edges g n None).
Proof.
  intros ((_ & _ & I3 & _ & _ & I6 & I7) & W1 & _). unfold get_edges, get_edges_in, get_edges_out. rewrite I6, I7. apply NoDup_app_disj; try (apply NoDup_filter; assumption).
  intros e. rewrite !filter_In, !Nat.eqb_eq. intros (H1 & H2) (_ & H3). apply (W1 e H1). congruence.
Qed.
Lemma in_get_edges_to g a b e : inv g -> In e (get_edges g a (Some b)) <-> In e (g_edges g) /\ conn g e a b.
Proof.
  intros (_ & _ & _ & _ & _ & I6 & I7). unfold get_edges, get_edges_in, get_edges_out, conn. rewrite in_app_iff, I6, I7, !filter_In, !Nat.eqb_eq. tauto.
Qed.
Lemma degree_zero g n : inv g -> (degree g n = 0 <-> ~ touched g n).
Proof.
  intro Hi. assert (E : degree g n = length (get_edges g n None)) by (unfold degree, in_degree, out_degree, get_edges; now rewrite app_length). rewrite E. split.
  - intros H (e & H1 & H2). apply length_zero_iff_nil in H. pose proof (proj2 (in_get_edges g n e Hi) (conj H1 H2)) as K. rewrite H in K. destruct K.
  - intro H. destruct (get_edges g n None) as [|e l] eqn:El; [reflexivity|]. exfalso. apply H. exists e. apply (in_get_edges g n e Hi). rewrite El. now left.
Qed.
Lemma in_neighbors g a b : inv g -> (In b (neighbors g a) <-> linked g a b).
Proof.
  intros (_ & _ & _ & _ & _ & I6 & I7). unfold neighbors, in_neighbors, out_neighbors, linked, conn. rewrite in_app_iff, !in_map_iff, I6, I7. setoid_rewrite filter_In. setoid_rewrite Nat.eqb_eq. split.
  - intros [(e & H1 & H2 & H3)|(e & H1 & H2 & H3)]; exists e; tauto.
  - intros (e & H & [[H1 H2]|[H1 H2]]); [right|left]; exists e; tauto.
Qed.
Lemma linked_nodes g a b : inv g -> linked g a b -> In a (g_nodes g) /\ In b (g_nodes g).
Proof. intros (_ & _ & _ & _ & I5 & _) (e & H & [[<- <-]|[<- <-]]); destruct (I5 e H); auto. Qed.
Lemma touched_node g n : inv g -> touched g n -> In n (g_nodes g).
Proof. intros (_ & _ & _ & _ & I5 & _) (e & H & [<-|<-]); apply (I5 e H). Qed.

(** ** adding *)
Lemma add_edge_new g a b : let (g', e) := add_edge g a b in g_nodes g' = g_nodes g /\ g_edges g' = g_edges g ++ [e] /\ e = length (g_ends g) /\ head_of g' e = a /\ tail_of g' e = b /\ length (g_ends g') = length (g_ends g) + 1
  /\ forall e', e' < length (g_ends g) -> head_of g' e' = head_of g e' /\ tail_of g' e' = tail_of g e'.
Proof. cbn. unfold head_of, tail_of. cbn. rewrite ends_new, app_length. repeat split; auto; now rewrite ends_old. Qed.
Lemma wf_add_edge g a b : wf g -> In a (g_nodes g) -> In b (g_nodes g) -> a <> b -> ~ linked g a b -> wf (fst (add_edge g a b)).
Proof.
  intros (Hi & W1 & W2) Ha Hb Hab Hl. split; [now apply inv_add_edge|]. pose proof Hi as (_ & _ & _ & I4 & _).
  pose proof (add_edge_new g a b) as N. destruct (add_edge g a b) as [g' e]. cbn [fst]. destruct N as (N1 & N2 & N3 & N4 & N5 & _ & N6).
  assert (C : forall e' x y, In e' (g_edges g) -> conn g' e' x y <-> conn g e' x y) by (intros e' x y H; unfold conn; destruct (N6 e' (I4 e' H)) as [-> ->]; reflexivity).
  split.
  - intros e' H. rewrite N2 in H. apply in_app_or in H as [H|[<-|[]]]; [destruct (N6 e' (I4 e' H)) as [-> ->]; auto|congruence].
  - assert (K : forall e' x y, In e' (g_edges g) -> conn g' e' x y -> ~ conn g' e x y).
    { intros e' x y H1 H2 H3. apply C in H2; [|assumption]. apply Hl. exists e'. split; [assumption|]. destruct H3 as [[H3 H4]|[H3 H4]]; rewrite N4 in H3; rewrite N5 in H4; subst; [assumption|now apply conn_sym]. }
    intros e1 e2 x y H1 H2 C1 C2. rewrite N2 in H1, H2. apply in_app_or in H1 as [H1|[<-|[]]]; apply in_app_or in H2 as [H2|[<-|[]]]; auto.
    + rewrite C in C1, C2 by assumption. eapply W2; eauto.
    + exfalso. eapply K; eauto.
    + exfalso. eapply K; eauto.
Qed.
Lemma wf_add_node g : wf g -> wf (fst (add_node g)).
Proof. intros W. eapply wf_sub; [exact W| | |]; cbn; [apply inv_add_node; apply W|reflexivity|]. intros e. auto. Qed.

(** ** removing *)
Lemma drop_ok g n : wf g -> In n (g_nodes g) -> exists g', drop_if_isolated g n = (g', GOk tt) /\ wf g' /\ g_edges g' = g_edges g /\ g_ends g' = g_ends g
  /\ (forall m, In m (g_nodes g') <-> In m (g_nodes g) /\ (m = n -> touched g n)).
Proof.
  intros W Hn. unfold drop_if_isolated. pose proof (degree_zero g n (proj1 W)) as Z. destruct (Nat.eqb_spec (degree g n) 0) as [E|E].
  - apply Z in E as Ht. destruct (remove_node_ok g n (proj1 W) Hn) as (g' & R & Hi & N1 & N2 & N3). { intros e He [H1 _]. apply Ht. exists e. auto. }
    assert (Ee : g_edges g' = g_edges g).
    { rewrite N3. apply forallb_filter_id. apply forallb_forall. intros e He. apply negb_true_iff, orb_false_iff. split; apply Nat.eqb_neq; intro; apply Ht; exists e; auto. }
    exists g'. split; [exact R|]. split; [eapply wf_sub; eauto; rewrite Ee; intros x; auto|]. split; [exact Ee|]. split; [exact N2|]. intro m. rewrite N1, filter_In, negb_true_iff, Nat.eqb_neq. split; intros [H1 H2]; split; auto; congruence || tauto.
  - exists g. split; [reflexivity|]. split; [assumption|]. split; [reflexivity|]. split; [reflexivity|]. intro m. split; [|tauto]. intro H. split; [assumption|]. intros _.
    destruct (get_edges g n None) as [|e l] eqn:El.
    + exfalso. apply E. apply Z. intros (e & H1 & H2). pose proof (proj2 (in_get_edges g n e (proj1 W)) (conj H1 H2)) as K. rewrite El in K. destruct K.
    + exists e. apply (in_get_edges g n e (proj1 W)). rewrite El. now left.
Qed.
Lemma remove_old_ok max ages : forall es g, wf g -> covered g -> NoDup es -> (forall e, In e es -> In e (g_edges g)) ->
  exists g', remove_old max ages es g = (g', GOk tt) /\ wf g' /\ covered g' /\ g_ends g' = g_ends g /\ (forall e, In e (g_edges g') <-> In e (g_edges g) /\ ~ (In e es /\ max < ages e)) /\ incl (g_nodes g') (g_nodes g).
Proof.
  induction es as [|e es IH]; intros g W Hc Hn Hs; cbn [remove_old].
  - exists g. repeat split; auto; try apply W; try (intros x Hx; exact Hx); try tauto.
  - apply NoDup_cons_iff in Hn as [Hne Hn]. destruct (Nat.ltb_spec max (ages e)) as [Ho|Ho].
    + assert (He : In e (g_edges g)) by (apply Hs; now left). rewrite (remove_edge_in g e (proj1 W) He).
      pose proof (inv_without g e (proj1 W)) as Hi1. set (g1 := without g e) in *. assert (E1 : g_ends g1 = g_ends g) by reflexivity. assert (N1 : g_nodes g1 = g_nodes g) by reflexivity.
      assert (S1 : forall y, In y (g_edges g1) <-> In y (g_edges g) /\ y <> e) by (intro y; cbn; rewrite filter_In, negb_true_iff, Nat.eqb_neq; tauto).
      assert (W1 : wf g1) by (eapply wf_sub; eauto; intros y Hy; apply S1 in Hy; tauto).
      assert (Hd : In (head_of g1 e) (g_nodes g1) /\ In (tail_of g1 e) (g_nodes g1)) by (destruct W as ((_ & _ & _ & _ & I5 & _) & _); apply (I5 e He)).
      assert (Hl : head_of g1 e <> tail_of g1 e) by (destruct W as (_ & Wl & _); apply (Wl e He)).
      destruct (drop_ok g1 (head_of g1 e) W1 (proj1 Hd)) as (g2 & -> & W2 & F2 & E2 & M2).
      assert (Ht2 : In (tail_of g2 e) (g_nodes g2)). { rewrite (tail_ends _ _ e E2). apply M2. split; [tauto|]. intro K. now rewrite K in Hl. }
      destruct (drop_ok g2 (tail_of g2 e) W2 Ht2) as (g3 & -> & W3 & F3 & E3 & M3). rewrite (tail_ends _ _ e E2) in M3.
      assert (T2 : forall m, touched g2 m <-> touched g1 m). { intro m. unfold touched. setoid_rewrite F2. setoid_rewrite (fun x => head_ends g1 g2 x E2). setoid_rewrite (fun x => tail_ends g1 g2 x E2). reflexivity. }
      assert (T3 : forall m, touched g3 m <-> touched g2 m). { intro m. unfold touched. setoid_rewrite F3. setoid_rewrite (fun x => head_ends g2 g3 x E3). setoid_rewrite (fun x => tail_ends g2 g3 x E3). reflexivity. }
      assert (C3 : covered g3).
      { intros m Hm. apply T3, T2. apply M3 in Hm as [Hm Hm']. apply M2 in Hm as [Hm Hm'']. destruct (Nat.eq_dec m (head_of g1 e)) as [K|K]; [rewrite K; auto|]. destruct (Nat.eq_dec m (tail_of g1 e)) as [K'|K']; [rewrite K'; apply T2; auto|].
        rewrite N1 in Hm. destruct (Hc m Hm) as (x & X1 & X2). exists x. split; [apply S1; split; [assumption|]|]; [|rewrite (head_ends g g1 x E1), (tail_ends g g1 x E1); exact X2]. intros ->. rewrite (head_ends g g1 e E1) in K. rewrite (tail_ends g g1 e E1) in K'. destruct X2; congruence. }
      destruct (IH g3 W3 C3 Hn) as (g' & R & R1 & R2 & R3 & R4 & R5). { intros x Hx. rewrite F3, F2. apply S1. split; [apply Hs; now right|]. intros ->. auto. }
      exists g'. split; [exact R|]. split; [assumption|]. split; [assumption|]. split; [congruence|]. split.
      * intro x. rewrite R4, F3, F2, S1. cbn [In]. destruct (Nat.eq_dec e x) as [->|K]; [tauto|]. split; [intros [[H1 H2] H3]; split; [assumption|]; intros [[H4|H4] H5]; [congruence|tauto]|]. intros [H1 H2]. repeat split; auto. intros [H3 H4]. apply H2. auto.
      * intros m Hm. apply R5 in Hm. apply M3 in Hm as [Hm _]. apply M2 in Hm as [Hm _]. exact Hm.
    + destruct (IH g W Hc Hn) as (g' & R & R1 & R2 & R3 & R4 & R5); [intros x Hx; apply Hs; now right|]. exists g'. split; [exact R|]. split; [assumption|]. split; [assumption|]. split; [assumption|]. split; [|assumption].
      intro x. rewrite R4. cbn [In]. split; intros [H1 H2]; (split; [assumption|]).
      * intros [[<-|H3] H4]; [lia|tauto].
      * intros [H3 H4]. apply H2. auto.
Qed.

Section Gas.
  Variable dim : nat.
  Variable argsort : list Qc -> list nat.
  Variable argmax : list Qc -> nat.
  Variable sqrtq : Qc -> Qc.
  Hypothesis argsort_perm : forall l, Permutation (argsort l) (seq 0 (length l)).
  Hypothesis argmax_range : forall l, l <> [] -> argmax l < length l.

  Lemma refresh_ok s n0 n1 : wf (gg s) -> In n0 (g_nodes (gg s)) -> In n1 (g_nodes (gg s)) -> n0 <> n1 -> exists s' e0,
    refresh s n0 n1 = (s', GOk tt) /\ wf (gg s') /\ g_nodes (gg s') = g_nodes (gg s) /\ In e0 (g_edges (gg s')) /\ conn (gg s') e0 n0 n1 /\ ag s' e0 = 0 /\ ps s' = ps s /\ er s' = er s
    /\ (forall e, In e (g_edges (gg s)) -> In e (g_edges (gg s')) /\ head_of (gg s') e = head_of (gg s) e /\ tail_of (gg s') e = tail_of (gg s) e)
    /\ (forall e, In e (g_edges (gg s')) -> e = e0 \/ (In e (g_edges (gg s)) /\ ag s' e = ag s e)).
  Proof.
    intros W H0 H1 Hne. unfold refresh. destruct (mem n1 (neighbors (gg s) n0)) eqn:Em.
    - apply mem_in, (in_neighbors _ _ _ (proj1 W)) in Em as (e0 & E1 & E2). destruct (get_edges (gg s) n0 (Some n1)) as [|e l] eqn:El.
      + exfalso. pose proof (proj2 (in_get_edges_to (gg s) n0 n1 e0 (proj1 W)) (conj E1 E2)) as K. rewrite El in K. destruct K.
      + assert (K : In e (g_edges (gg s)) /\ conn (gg s) e n0 n1) by (apply (in_get_edges_to _ _ _ _ (proj1 W)); rewrite El; now left).
        exists (set_a s (upd (ag s) e 0)), e. cbn [set_a gg ps er ag]. split; [reflexivity|]. split; [assumption|]. split; [reflexivity|]. split; [tauto|]. split; [tauto|]. split; [unfold upd; now rewrite Nat.eqb_refl|]. split; [reflexivity|]. split; [reflexivity|]. split; [auto|]. intros x Hx. unfold upd. destruct (Nat.eqb_spec x e); auto.
    - apply mem_out in Em. rewrite (in_neighbors _ _ _ (proj1 W)) in Em. pose proof (wf_add_edge (gg s) n0 n1 W H0 H1 Hne Em) as W'. pose proof (add_edge_new (gg s) n0 n1) as N. unfold add_e. destruct (add_edge (gg s) n0 n1) as [g e]. cbn [fst] in W'. destruct N as (N1 & N2 & N3 & N4 & N5 & _ & N6).
      pose proof W as ((_ & _ & _ & I4 & _) & _). eexists; exists e. split; [reflexivity|]. cbn [gg ps er ag]. split; [assumption|]. split; [assumption|]. split; [rewrite N2; apply in_or_app; right; now left|]. split; [left; auto|]. split; [unfold upd; now rewrite Nat.eqb_refl|]. split; [reflexivity|]. split; [reflexivity|]. split.
      + intros x Hx. rewrite N2. split; [apply in_or_app; now left|]. apply N6. auto.
      + intros x Hx. rewrite N2 in Hx. apply in_app_or in Hx as [Hx|[<-|[]]]; [|now left]. right. split; [assumption|]. unfold upd. destruct (Nat.eqb_spec x e); [|reflexivity]. apply I4 in Hx. lia.
  Qed.
  Lemma inc_other es : forall a e, ~ In e es -> inc_ages es a e = a e.
  Proof. unfold inc_ages. induction es as [|x es IH]; intros a e H; cbn; [reflexivity|]. rewrite IH by (intro; apply H; now right). unfold upd. destruct (Nat.eqb_spec e x); [|reflexivity]. subst. exfalso. apply H. now left. Qed.
  Lemma inc_in es : forall a e, NoDup es -> In e es -> inc_ages es a e = a e + 1.
  Proof.
    unfold inc_ages. induction es as [|x es IH]; intros a e Hn He; [destruct He|]. apply NoDup_cons_iff in Hn as [Hx Hn]. destruct He as [He|He]; cbn.
    - subst x. fold (inc_ages es (upd a e (a e + 1))). rewrite inc_other by assumption. unfold upd. now rewrite Nat.eqb_refl.
    - rewrite IH by assumption. unfold upd. destruct (Nat.eqb_spec e x); [congruence|reflexivity].
  Qed.
  Lemma perm_ids l : NoDup (argsort l) /\ (forall i, In i (argsort l) -> i < length l) /\ length (argsort l) = length l.
  Proof.
    pose proof (argsort_perm l) as P. split; [eapply Permutation_NoDup; [apply Permutation_sym; exact P|apply seq_NoDup]|]. split; [intros i Hi; apply (Permutation_in _ P) in Hi; apply in_seq in Hi; lia|]. apply Permutation_length in P. now rewrite seq_length in P.
  Qed.
  Lemma nearest_ok s x : inv (gg s) -> 2 <= length (g_nodes (gg s)) -> exists n0 n1 d0, nearest dim argsort s x = GOk (n0, n1, d0) /\ In n0 (g_nodes (gg s)) /\ In n1 (g_nodes (gg s)) /\ n0 <> n1.
  Proof.
    intros (I1 & _) H. unfold nearest. destruct (perm_ids (distances dim s x)) as (P1 & P2 & P3). assert (DL : length (distances dim s x) = length (g_nodes (gg s))) by apply map_length. rewrite DL in P2, P3.
    destruct (argsort (distances dim s x)) as [|i [|j l]]; cbn in P3; try lia.
    assert (Hi : i < length (g_nodes (gg s))) by (apply P2; now left). assert (Hj : j < length (g_nodes (gg s))) by (apply P2; right; now left).
    destruct (nth_error (g_nodes (gg s)) i) as [n0|] eqn:E0; [|apply nth_error_None in E0; lia]. destruct (nth_error (g_nodes (gg s)) j) as [n1|] eqn:E1; [|apply nth_error_None in E1; lia].
    exists n0, n1. eexists. split; [reflexivity|]. split; [eapply nth_error_In; eauto|]. split; [eapply nth_error_In; eauto|]. intros ->. apply NoDup_cons_iff in P1 as [P1 _]. apply P1. left. symmetry. apply (proj1 (NoDup_nth_error _) I1 i j Hi). congruence.
  Qed.

  (** ** boxes *)
  Definition inbox (lo hi v : row) : Prop := forall i, (lo i <= v i /\ v i <= hi i)%Qc.
  Lemma between (a b t x p : Qc) : (a <= p -> p <= b -> a <= x -> x <= b -> 0 <= t -> t <= 1 -> a <= p + t * (x - p) /\ p + t * (x - p) <= b)%Qc.
  Proof.
    intros A B C D E F. apply Qcle_minus_iff in A, B, C, D, F.
    assert (M : forall u v, (0 <= u -> 0 <= v -> 0 <= u * v)%Qc) by (intros u v U V; rewrite <- (Qcmult_0_l v); now apply Qcmult_le_compat_r).
    assert (P : forall u v, (0 <= u -> 0 <= v -> 0 <= u + v)%Qc) by (intros u v U V; apply (Qcle_trans _ (0 + 0)%Qc); [apply Qcle_refl|now apply Qcplus_le_compat]).
    split; apply Qcle_minus_iff.
    - replace (p + t * (x - p) + - a)%Qc with (t * (x + - a) + (1 + - t) * (p + - a))%Qc by ring. auto.
    - replace (b + - (p + t * (x - p)))%Qc with (t * (b + - x) + (1 + - t) * (b + - p))%Qc by ring. auto.
  Qed.
  Definition fraction (t : Qc) : Prop := (0 <= t /\ t <= 1)%Qc.
  Lemma move_box lo hi eps x p m n : fraction eps -> inbox lo hi x -> inbox lo hi (p n) -> inbox lo hi (move eps x p m n).
  Proof.
    intros [H1 H2] Hx Hp i. destruct (Nat.eq_dec n m) as [->|E].
    - assert (K : move eps x p m m i = (p m i + eps * (x i - p m i))%Qc) by (unfold move, upd; rewrite Nat.eqb_refl; ring). rewrite K. destruct (Hx i), (Hp i). now apply between.
    - assert (K : move eps x p m n = p n) by (unfold move, upd; destruct (Nat.eqb_spec n m); [contradiction|reflexivity]). rewrite K. apply Hp.
  Qed.
  Lemma moves_box lo hi eps x ms : forall p n, fraction eps -> inbox lo hi x -> inbox lo hi (p n) -> inbox lo hi (fold_left (move eps x) ms p n).
  Proof. induction ms as [|m ms IH]; intros p n H1 H2 H3; cbn; [assumption|]. apply IH; auto. now apply move_box. Qed.
  Definition boxed (lo hi : row) (s : gas) : Prop := forall n, In n (g_nodes (gg s)) -> inbox lo hi (ps s n).
  Lemma half_fraction : fraction half. Proof. split; intro H; discriminate H. Qed.

  Variables eps_b eps_n alpha d : Qc.
  Variables max_age lambda max_nodes : nat.
  Notation insert := (insert argmax alpha).
  Notation adapt := (adapt dim argsort argmax sqrtq eps_b eps_n alpha d max_age lambda max_nodes).
  Definition aged (T : nat) (s : gas) : Prop := forall e, In e (g_edges (gg s)) -> ag s e <= T.

  Lemma insert_ok s : wf (gg s) -> covered (gg s) -> g_nodes (gg s) <> [] -> exists s' n, insert s = (s', GOk tt) /\ wf (gg s') /\ covered (gg s') /\ g_nodes (gg s') = g_nodes (gg s) ++ [n]
    /\ (forall T, aged T s -> aged T s') /\ (forall lo hi, boxed lo hi s -> boxed lo hi s').
  Proof.
    intros W Hc Hn. unfold NGasModel.insert. set (g := gg s) in *. pose proof W as (Hi & Wl & Ws). pose proof Hi as (I1 & I2 & I3 & I4 & I5 & _).
    assert (Q : exists q, nth_error (g_nodes g) (argmax (map (er s) (g_nodes g))) = Some q).
    { destruct (nth_error (g_nodes g) (argmax (map (er s) (g_nodes g)))) as [q|] eqn:E; [eauto|]. apply nth_error_None in E. assert (K : map (er s) (g_nodes g) <> []) by (destruct (g_nodes g); [congruence|discriminate]). apply argmax_range in K. rewrite map_length in K. lia. }
    destruct Q as [q Eq]. rewrite Eq. apply nth_error_In in Eq as Hq. destruct (Hc q Hq) as (eq & Hq1 & Hq2).
    assert (NB : neighbors g q <> []).
    { assert (K : exists b, linked g q b). { destruct Hq2 as [<-|<-]; [exists (tail_of g eq)|exists (head_of g eq)]; exists eq; unfold conn; auto. } destruct K as [b K]. apply (in_neighbors g q b Hi) in K. intro Z. rewrite Z in K. destruct K. }
    assert (F : exists f, nth_error (neighbors g q) (argmax (map (er s) (neighbors g q))) = Some f).
    { destruct (nth_error (neighbors g q) _) as [f|] eqn:E; [eauto|]. apply nth_error_None in E. assert (K : map (er s) (neighbors g q) <> []) by (destruct (neighbors g q); [congruence|discriminate]). apply argmax_range in K. rewrite map_length in K. lia. }
    destruct F as [f Ef]. destruct (neighbors g q) as [|nb0 nb] eqn:Enb; [congruence|]. rewrite Ef. apply nth_error_In in Ef. rewrite <- Enb in Ef. apply (in_neighbors g q f Hi) in Ef as Hqf. destruct (linked_nodes g q f Hi Hqf) as [_ Hf].
    unfold add_n. fold g. change (add_node g) with (fst (add_node g), snd (add_node g)). cbv zeta. pose proof (wf_add_node g W) as W1. set (g1 := fst (add_node g)) in *. set (n := snd (add_node g)) in *. cbn [gg].
    assert (N1 : g_nodes g1 = g_nodes g ++ [n]) by reflexivity. assert (F1 : g_edges g1 = g_edges g) by reflexivity. assert (E1 : g_ends g1 = g_ends g) by reflexivity.
    assert (Hfresh : ~ In n (g_nodes g)). { intro K. apply I2 in K. unfold n in K. cbn in K. lia. }
    destruct Hqf as (e0 & K1 & K2). assert (K2' : conn g1 e0 q f) by (now apply (conn_ends g g1)).
    destruct (get_edges g1 q (Some f)) as [|e l] eqn:El. { exfalso. pose proof (proj2 (in_get_edges_to g1 q f e0 (proj1 W1)) (conj K1 K2')) as K. rewrite El in K. destruct K. }
    assert (He : In e (g_edges g1) /\ conn g1 e q f) by (apply (in_get_edges_to _ _ _ _ (proj1 W1)); rewrite El; now left). destruct He as [He He'].
    rewrite (remove_edge_in g1 e (proj1 W1) He). pose proof (inv_without g1 e (proj1 W1)) as Hi2. set (g2 := without g1 e) in *. assert (E2 : g_ends g2 = g_ends g) by reflexivity. assert (N2 : g_nodes g2 = g_nodes g ++ [n]) by reflexivity.
    assert (S2 : forall y, In y (g_edges g2) <-> In y (g_edges g) /\ y <> e) by (intro y; cbn; rewrite filter_In, negb_true_iff, Nat.eqb_neq; tauto).
    assert (W2 : wf g2) by (eapply wf_sub; [exact W1|assumption|reflexivity|]; intros y Hy; apply S2 in Hy; rewrite F1; tauto).
    assert (Hqf : q <> f). { intros ->. destruct He' as [[A B]|[A B]]; apply (Wl e He); rewrite <- (head_ends g g1 e E1), <- (tail_ends g g1 e E1); congruence. }
    assert (Q2 : In q (g_nodes g2)) by (rewrite N2; apply in_or_app; now left). assert (F2 : In f (g_nodes g2)) by (rewrite N2; apply in_or_app; now left). assert (Nn2 : In n (g_nodes g2)) by (rewrite N2; apply in_or_app; right; now left).
    assert (Qn : q <> n) by (intros ->; auto). assert (Fn : f <> n) by (intros ->; auto).
    assert (NL : forall a, ~ linked g2 a n). { intros a (y & Y1 & Y2). apply S2 in Y1 as [Y1 _]. pose proof (proj1 (conn_ends g g2 y a n E2) Y2) as Y2'. clear Y2. rename Y2' into Y2. destruct (I5 y Y1) as [J1 J2]. destruct Y2 as [[_ Y]|[Y _]]; [rewrite Y in J2|rewrite Y in J1]; auto. }
    unfold add_e at 2. cbn [gg set_g]. pose proof (wf_add_edge g2 q n W2 Q2 Nn2 Qn (NL q)) as W3. pose proof (add_edge_new g2 q n) as A3. destruct (add_edge g2 q n) as [g3 e3]. cbn [fst] in W3. destruct A3 as (N3 & F3 & L3 & H3 & T3 & L3' & O3).
    assert (NL3 : ~ linked g3 f n).
    { intros (y & Y1 & Y2). rewrite F3 in Y1. apply in_app_or in Y1 as [Y1|[<-|[]]].
      - apply (NL f). exists y. split; [assumption|]. pose proof W2 as ((_ & _ & _ & I4' & _) & _). destruct (O3 y (I4' y Y1)) as [Z1 Z2]. unfold conn in *. now rewrite Z1, Z2 in Y2.
      - destruct Y2 as [[Y _]|[Y _]]; rewrite H3 in Y; congruence. }
    unfold add_e. cbn [gg ps er ag set_g]. pose proof (wf_add_edge g3 f n W3 ltac:(now rewrite N3) ltac:(now rewrite N3) Fn NL3) as W4. pose proof (add_edge_new g3 f n) as A4. destruct (add_edge g3 f n) as [g4 e4]. cbn [fst] in W4. destruct A4 as (N4 & F4 & L4 & H4 & T4 & _ & O4).
    eexists; exists n. split; [reflexivity|]. cbn [gg ps er ag set_g set_e].
    pose proof W2 as ((_ & _ & _ & J2 & _) & _). pose proof W3 as ((_ & _ & _ & J3 & _) & _).
    assert (In4 : forall y, In y (g_edges g4) <-> (In y (g_edges g) /\ y <> e) \/ y = e3 \/ y = e4).
    { intro y. rewrite F4, in_app_iff, F3, in_app_iff, S2. cbn [In]. intuition congruence. }
    assert (Old : forall y, In y (g_edges g) -> y <> e -> head_of g4 y = head_of g y /\ tail_of g4 y = tail_of g y).
    { intros y Y1 Y2. assert (Y : In y (g_edges g2)) by (now apply S2). assert (Y3 : y < length (g_ends g3)) by (apply J3; rewrite F3; apply in_or_app; now left). destruct (O4 y Y3) as [-> ->]. destruct (O3 y (J2 y Y)) as [-> ->]. split; reflexivity. }
    assert (H3' : head_of g4 e3 = q /\ tail_of g4 e3 = n). { destruct (O4 e3 ltac:(lia)) as [-> ->]. auto. }
    split; [assumption|]. split; [|split; [|split]].
    - intros m Hm. rewrite N4, N3, N2 in Hm. apply in_app_or in Hm as [Hm|[<-|[]]]; [|exists e3; split; [apply In4; auto|tauto]].
      destruct (Nat.eq_dec m q) as [->|Mq]; [exists e3; split; [apply In4; auto|tauto]|]. destruct (Nat.eq_dec m f) as [->|Mf]; [exists e4; split; [apply In4; auto|auto]|].
      destruct (Hc m Hm) as (y & Y1 & Y2). assert (Ye : y <> e). { intros ->. destruct He' as [[A B]|[A B]]; rewrite (head_ends g g1 e E1) in A; rewrite (tail_ends g g1 e E1) in B; destruct Y2; congruence. }
      exists y. split; [apply In4; auto|]. destruct (Old y Y1 Ye) as [-> ->]. exact Y2.
    - now rewrite N4, N3.
    - intros T HT y Hy. cbn [gg ag set_e set_g] in *. apply In4 in Hy. unfold upd. destruct (Nat.eqb_spec y e4); [lia|]. destruct (Nat.eqb_spec y e3); [lia|]. destruct Hy as [[Hy _]|[Hy|Hy]]; [apply HT, Hy|contradiction|contradiction].
    - intros lo hi Hb m Hm. cbn [gg ps set_e set_g] in *. rewrite N4, N3, N2 in Hm. unfold upd. destruct (Nat.eqb_spec m n) as [->|Mn].
      + intro i. pose proof (Hb q Hq i) as [B1 B2]. pose proof (Hb f Hf i) as [B3 B4]. replace (half * (ps s q i + ps s f i))%Qc with (ps s q i + half * (ps s f i - ps s q i))%Qc.
        * apply between; auto; apply half_fraction.
        * assert (D : (half + half = 1)%Qc) by (apply Qc_is_canon; reflexivity). transitivity (half * ps s f i + ((half + half) - half) * ps s q i)%Qc; [rewrite D|]; ring.
      + apply in_app_or in Hm as [Hm|[Hm|[]]]; [now apply Hb|congruence].
  Qed.

  (** ** one step of growing neural gas *)
  Definition ready (s : gas) : Prop := wf (gg s) /\ 2 <= length (g_nodes (gg s)) /\ (covered (gg s) \/ length (g_nodes (gg s)) = 2).
  Lemma two_only (l : list nat) a b n : NoDup l -> length l = 2 -> In a l -> In b l -> a <> b -> In n l -> n = a \/ n = b.
  Proof. clear - l a b n. destruct l as [|u [|v [|]]]; cbn; intros; lia. Qed.
  Lemma two_nodes (l : list nat) a b : In a l -> In b l -> a <> b -> 2 <= length l.
  Proof. clear - l a b. destruct l as [|u [|v l]]; cbn; try lia; intros; lia. Qed.

  Lemma adapt_ok t x s : ready s -> exists s' n0 n1 d0, adapt t x s = (s', GOk tt) /\ nearest dim argsort s x = GOk (n0, n1, d0) /\ wf (gg s') /\ covered (gg s') /\ 2 <= length (g_nodes (gg s'))
    /\ length (g_nodes (gg s')) <= length (g_nodes (gg s)) + (if (t mod lambda =? 0) then 1 else 0)
    /\ (length (g_nodes (gg s')) <= length (g_nodes (gg s)) \/ length (g_nodes (gg s')) <= max_nodes)
    /\ (aged max_age s -> aged max_age s')
    /\ (t mod lambda <> 0 -> exists e, In e (g_edges (gg s')) /\ conn (gg s') e n0 n1 /\ ag s' e = 0)
    /\ (forall lo hi, fraction eps_b -> fraction eps_n -> inbox lo hi x -> boxed lo hi s -> boxed lo hi s').
  Proof.
    intros (W & H2 & Hc). unfold NGasModel.adapt. destruct (nearest_ok s x (proj1 W) H2) as (n0 & n1 & d0 & En & Hn0 & Hn1 & Hne). rewrite En. cbv zeta.
    set (s1 := set_p _ _). assert (G1 : gg s1 = gg s) by reflexivity.
    assert (A1 : ag s1 = inc_ages (get_edges (gg s) n0 None) (ag s)) by reflexivity.
    assert (P1 : ps s1 = fold_left (move eps_n x) (neighbors (gg s) n0) (move eps_b x (ps s) n0)) by reflexivity. clearbody s1.
    destruct (refresh_ok s1 n0 n1) as (s2 & e0 & R & W2 & N2 & I0 & C0 & Z0 & P2 & _ & K2 & K2'); rewrite ?G1; auto. rewrite R.
    assert (Cov2 : covered (gg s2)).
    { intros m Hm. rewrite N2, G1 in Hm. assert (Q : touched (gg s) m \/ m = n0 \/ m = n1). { destruct Hc as [Hc|Hc]; [left; now apply Hc|right]. pose proof W as ((ND & _) & _). now apply (two_only (g_nodes (gg s))). }
      destruct Q as [(e & Q1 & Q2)|Q].
      - rewrite <- G1 in Q1. destruct (K2 e Q1) as (J1 & J2 & J3). rewrite G1 in J2, J3. exists e. split; [assumption|]. now rewrite J2, J3.
      - exists e0. split; [assumption|]. destruct C0 as [[-> ->]|[-> ->]]; destruct Q as [->| ->]; auto. }
    assert (Es : forall e, In e (get_edges (gg s2) n0 None) -> In e (g_edges (gg s2))) by (intros e He; apply (in_get_edges (gg s2) n0 e (proj1 W2)) in He; tauto).
    destruct (remove_old_ok max_age (ag s2) (get_edges (gg s2) n0 None) (gg s2) W2 Cov2 (nodup_get_edges _ _ W2) Es) as (g3 & R3 & W3 & Cov3 & E3 & F3 & M3). rewrite R3.
    assert (I3 : In e0 (g_edges g3)) by (apply F3; split; [assumption|]; intros [_ K]; lia).
    assert (C3 : conn g3 e0 n0 n1) by (now apply (conn_ends (gg s2) g3 e0 n0 n1 E3)).
    destruct (linked_nodes g3 n0 n1 (proj1 W3)) as [L0 L1]; [exists e0; auto|].
    assert (Len3 : 2 <= length (g_nodes g3)) by (exact (two_nodes (g_nodes g3) n0 n1 L0 L1 Hne)).
    assert (Le3 : length (g_nodes g3) <= length (g_nodes (gg s))). { rewrite N2, G1 in M3. apply NoDup_incl_length; [|assumption]. pose proof W3 as ((ND & _) & _). exact ND. }
    assert (Ag3 : aged max_age s -> aged max_age (set_g s2 g3)).
    { intros Ha e He. cbn [set_g gg ag] in *. apply F3 in He as [He He']. destruct (K2' e He) as [->|[J1 J2]]; [lia|]. destruct (le_lt_dec (ag s2 e) max_age) as [|Hlt]; [assumption|]. exfalso. apply He'. split; [|assumption].
      destruct (in_dec Nat.eq_dec e (get_edges (gg s) n0 None)) as [Hin|Hout].
      - apply (in_get_edges (gg s2) n0 e (proj1 W2)). split; [assumption|]. destruct (K2 e J1) as (_ & J3 & J4). rewrite J3, J4, G1. apply (in_get_edges (gg s) n0 e (proj1 W)) in Hin. tauto.
      - rewrite J2, A1, inc_other in Hlt by assumption. rewrite G1 in J1. specialize (Ha e J1). lia. }
    assert (Bx3 : forall lo hi, fraction eps_b -> fraction eps_n -> inbox lo hi x -> boxed lo hi s -> boxed lo hi (set_g s2 g3)).
    { intros lo hi B1 B2 B3 B4 m Hm. cbn [set_g gg ps] in *. apply M3 in Hm. rewrite N2, G1 in Hm. rewrite P2, P1. apply moves_box; auto. apply move_box; auto. }
    set (s3 := set_g s2 g3) in *. assert (G3 : gg s3 = g3) by reflexivity. assert (A3 : ag s3 e0 = 0) by exact Z0. clearbody s3.
    destruct (t mod lambda =? 0) eqn:Et; cbn [andb]; [destruct (Nat.ltb_spec (length (g_nodes (gg s3))) max_nodes) as [Hm|Hm]|].
    - destruct (insert_ok s3) as (s4 & n & R4 & W4 & Cov4 & N4 & A4 & B4); rewrite ?G3; auto. { intro K. rewrite K in Len3. cbn in Len3. lia. } rewrite R4. rewrite G3 in *.
      eexists; exists n0, n1, d0. split; [reflexivity|]. cbn [set_e gg ps ag]. split; [reflexivity|]. split; [assumption|]. split; [assumption|]. rewrite N4, app_length. cbn [length]. split; [lia|]. split; [lia|]. split; [right; lia|]. split; [intro K; apply (A4 max_age (Ag3 K))|]. split; [apply Nat.eqb_eq in Et; lia|]. intros lo hi K1 K3 K4 K5. apply (B4 lo hi). auto.
    - eexists; exists n0, n1, d0. split; [reflexivity|]. cbn [set_e gg ps ag]. rewrite G3. split; [reflexivity|]. split; [assumption|]. split; [assumption|]. split; [assumption|]. split; [lia|]. split; [left; assumption|]. split; [intros K e He; exact (Ag3 K e He)|]. split; [intros _; exists e0; auto|]. intros lo hi K1 K3 K4 K5 m Hm'. exact (Bx3 lo hi K1 K3 K4 K5 m Hm').
    - eexists; exists n0, n1, d0. split; [reflexivity|]. cbn [set_e gg ps ag]. rewrite G3. split; [reflexivity|]. split; [assumption|]. split; [assumption|]. split; [assumption|]. split; [lia|]. split; [left; assumption|]. split; [intros K e He; exact (Ag3 K e He)|]. split; [intros _; exists e0; auto|]. intros lo hi K1 K3 K4 K5 m Hm'. exact (Bx3 lo hi K1 K3 K4 K5 m Hm').
  Qed.
  Notation adapts := (adapts dim argsort argmax sqrtq eps_b eps_n alpha d max_age lambda max_nodes).
  Lemma covered_ready s : wf (gg s) -> covered (gg s) -> 2 <= length (g_nodes (gg s)) -> ready s.
  Proof. intros. split; [assumption|]. split; auto. Qed.
  Lemma step_div t : 1 <= lambda -> t / lambda + (if (t + 1) mod lambda =? 0 then 1 else 0) <= (t + 1) / lambda.
  Proof.
    intro L. destruct (Nat.eqb_spec ((t + 1) mod lambda) 0) as [E|E]; [|rewrite Nat.add_0_r; apply Nat.div_le_mono; lia].
    pose proof (Nat.div_mod t lambda ltac:(lia)). pose proof (Nat.mod_upper_bound t lambda ltac:(lia)). pose proof (Nat.div_mod (t + 1) lambda ltac:(lia)). nia.
  Qed.
  Lemma adapts_ok : forall xs t s, ready s -> exists s', adapts t xs s = (s', t + length xs, GOk tt) /\ ready s' /\ (xs <> [] \/ covered (gg s) -> covered (gg s'))
    /\ (1 <= lambda -> length (g_nodes (gg s')) + t / lambda <= length (g_nodes (gg s)) + (t + length xs) / lambda)
    /\ length (g_nodes (gg s')) <= Nat.max (length (g_nodes (gg s))) max_nodes
    /\ (aged max_age s -> aged max_age s')
    /\ (forall lo hi, fraction eps_b -> fraction eps_n -> Forall (inbox lo hi) xs -> boxed lo hi s -> boxed lo hi s').
  Proof.
    induction xs as [|x xs IH]; intros t s R; cbn [NGasModel.adapts].
    - exists s. cbn [length]. rewrite Nat.add_0_r. split; [reflexivity|]. split; [assumption|]. split; [intros [K|K]; [congruence|assumption]|]. split; [lia|]. split; [lia|]. auto.
    - destruct (adapt_ok (t + 1) x s R) as (s1 & n0 & n1 & d0 & A & _ & W & C & L & N1 & N2 & Ag & _ & Bx). rewrite A. destruct (IH (t + 1) s1 (covered_ready s1 W C L)) as (s' & E & R' & C' & B1 & B2 & Ag' & Bx').
      exists s'. rewrite E. cbn [length]. replace (t + 1 + length xs) with (t + S (length xs)) in * by lia. split; [reflexivity|]. split; [assumption|]. split; [auto|]. split; [|split; [|split]].
      + intro Hl. specialize (B1 Hl). pose proof (step_div t Hl). lia.
      + lia.
      + auto.
      + intros lo hi K1 K2 K3 K4. inversion K3; subst. apply Bx'; auto.
  Qed.
  Lemma adapts_app : forall xs ys t s, adapts t (xs ++ ys) s = match adapts t xs s with (s', t', GOk _) => adapts t' ys s' | r => r end.
  Proof. induction xs as [|x xs IH]; intros ys t s; cbn [app NGasModel.adapts]; [reflexivity|]. destruct (adapt (t + 1) x s) as [s' [|]]; [apply IH|reflexivity]. Qed.

  (** ** neural gas *)
  Fixpoint skipl (old : nat -> bool) (l : list nat) : list nat :=
    match l with
    | [] => []
    | e :: l' => if old e then match l' with [] => [] | e2 :: r => e2 :: skipl old r end else e :: skipl old l'
    end.
  Lemma skipl_ind (P : list nat -> Prop) : P [] -> (forall e, P [e]) -> (forall e e2 r, P r -> P (e2 :: r) -> P (e :: e2 :: r)) -> forall l, P l.
  Proof. clear - P. intros P0 P1 P2. assert (H : forall l, P l /\ forall e, P (e :: l)). { induction l as [|x l [IH1 IH2]]; split; auto. } intro l. apply H. Qed.
  Lemma skipl_incl old : forall l, incl (skipl old l) l.
  Proof. clear - old. induction l as [|e|e e2 r IH1 IH2] using skipl_ind; cbn; [apply incl_refl|destruct (old e); intros y; cbn; tauto|]. destruct (old e); intros y [H|H]; [right; now left|right; right; now apply IH1|now left|right; now apply IH2]. Qed.
  Lemma skipl_keep old e : forall l, In e l -> old e = false -> In e (skipl old l).
  Proof. clear - old e.
    induction l as [|a|a a2 r IH1 IH2] using skipl_ind; cbn [skipl In]; intros H Ho; [assumption| |].
    - destruct H as [<-|[]]. rewrite Ho. now left.
    - destruct (old a) eqn:Ea; destruct H as [<-|H]; try congruence.
      + destruct H as [<-|H]; [now left|right; now apply IH1].
      + now left.
      + right. now apply IH2.
  Qed.
  Lemma skipl_one old : forall l, NoDup l -> (forall a b, In a l -> In b l -> old a = true -> old b = true -> a = b) -> forall e, In e (skipl old l) -> old e = false.
  Proof. clear - old.
    induction l as [|a l IH]; intros Hn H1 e He; [destruct He|]. apply NoDup_cons_iff in Hn as [Ha Hn]. cbn [skipl] in He. destruct (old a) eqn:Ea.
    - assert (K : In e l). { destruct l as [|b r]; [destruct He|]. destruct He as [<-|He]; [now left|right; now apply skipl_incl in He]. }
      destruct (old e) eqn:Ee; [|reflexivity]. exfalso. apply Ha. rewrite (H1 a e); auto; [now left|now right].
    - destruct He as [<-|He]; [assumption|]. apply IH; auto. intros x y X Y. apply H1; now right.
  Qed.
  Lemma sweep_ok T ages : forall fuel rest pre g, length rest < fuel -> inv g -> g_edges g = pre ++ rest -> exists g', sweep fuel (length pre) T ages g = (g', GOk tt) /\ inv g' /\ g_nodes g' = g_nodes g /\ g_ends g' = g_ends g /\ g_edges g' = pre ++ skipl (fun e => T <? ages e) rest.
  Proof. clear - T ages.
    induction fuel as [|fuel IH]; intros rest pre g Hf Hi He; [lia|]. cbn [sweep]. rewrite He. rewrite nth_error_app2, Nat.sub_diag by lia. destruct rest as [|e rest]; cbn [nth_error skipl].
    - exists g. auto.
    - cbn [length] in Hf. destruct (T <? ages e) eqn:Eo.
      + assert (In e (g_edges g)) as Hin by (rewrite He; apply in_or_app; right; now left). rewrite (remove_edge_in g e Hi Hin). pose proof (inv_without g e Hi) as Hi1.
        assert (E1 : g_edges (without g e) = pre ++ rest).
        { pose proof Hi as (_ & _ & ND & _). cbn. rewrite He in *. rewrite filter_app. cbn. rewrite Nat.eqb_refl. cbn. apply NoDup_remove_2 in ND. f_equal; apply forallb_filter_id; apply forallb_forall; intros y Hy; apply negb_true_iff, Nat.eqb_neq; intros ->; apply ND; apply in_or_app; auto. }
        destruct rest as [|e2 r].
        * rewrite app_nil_r in *. exists (without g e). split; [|auto]. destruct fuel; [cbn in Hf; lia|]. cbn [sweep]. rewrite E1. replace (nth_error pre (length pre + 1)) with (@None nat) by (symmetry; apply nth_error_None; lia). reflexivity.
        * destruct (IH r (pre ++ [e2]) (without g e)) as (g' & R1 & R2 & R3 & R4 & R5); [cbn [length] in Hf; lia|assumption|rewrite E1, <- app_assoc; reflexivity|]. rewrite app_length in R1. exists g'. split; [exact R1|]. split; [assumption|]. split; [exact R3|]. split; [exact R4|]. rewrite R5, <- app_assoc. reflexivity.
      + destruct (IH rest (pre ++ [e]) g) as (g' & R1 & R2 & R3 & R4 & R5); [lia|assumption|rewrite <- app_assoc; assumption|]. rewrite app_length in R1. exists g'. split; [exact R1|]. split; [assumption|]. split; [exact R3|]. split; [exact R4|]. rewrite R5, <- app_assoc. reflexivity.
  Qed.
  Lemma pick_ok ns : forall ids, NoDup ns -> NoDup ids -> (forall i, In i ids -> i < length ns) -> exists l, pick ns ids = GOk l /\ length l = length ids /\ incl l ns /\ NoDup l /\ (forall i n, nth_error ids i = Some n -> nth_error l i = nth_error ns n).
  Proof. clear - ns.
    intros ids Hns. induction ids as [|i ids IH]; intros Hn Hr; cbn [pick].
    - exists []. repeat split; [intros x []|constructor|]. intros [|i] n; discriminate.
    - apply NoDup_cons_iff in Hn as [Hi Hn]. destruct IH as (l & -> & L & I & N & M); [assumption|intros; apply Hr; now right|]. destruct (nth_error ns i) as [n|] eqn:E; [|apply nth_error_None in E; specialize (Hr i (or_introl eq_refl)); lia].
      exists (n :: l). split; [reflexivity|]. split; [cbn; congruence|]. split; [intros y [<-|Hy]; [eapply nth_error_In; eauto|now apply I]|]. split.
      + constructor; [|assumption]. intro K. apply In_nth_error in K as [k K]. assert (k < length ids) by (rewrite <- L; apply nth_error_Some; congruence). destruct (nth_error ids k) as [j|] eqn:Ek; [|apply nth_error_None in Ek; lia].
        rewrite (M k j Ek) in K. apply Hi. apply nth_error_In in Ek as Hj. replace i with j; [assumption|]. symmetry. apply (proj1 (NoDup_nth_error _) Hns i j); [apply Hr; now left|congruence].
      + intros [|k] m; cbn; [intros [= <-]; auto|apply M].
  Qed.
  Lemma moves_in_box lo hi h x : forall ns k p n, (forall j, fraction (h j)) -> inbox lo hi x -> inbox lo hi (p n) -> inbox lo hi (moves h x k ns p n).
  Proof. clear - lo hi h x. induction ns as [|m ns IH]; intros k p n H1 H2 H3; cbn; [assumption|]. apply IH; auto. now apply move_box. Qed.
  Definition distinct_ages (s : gas) : Prop := forall e e', In e (g_edges (gg s)) -> In e' (g_edges (gg s)) -> ag s e = ag s e' -> e = e'.
  Notation ng_adapt := (ng_adapt dim argsort).
  Notation ng_adapts := (ng_adapts dim argsort).
  Lemma ng_adapt_ok h T x s : wf (gg s) -> 2 <= length (g_nodes (gg s)) -> exists s', ng_adapt h T x s = (s', GOk tt) /\ wf (gg s') /\ g_nodes (gg s') = g_nodes (gg s)
    /\ (distinct_ages s -> distinct_ages s') /\ (distinct_ages s -> aged T s -> aged T s')
    /\ (forall lo hi, (forall k, fraction (h k)) -> inbox lo hi x -> boxed lo hi s -> boxed lo hi s').
  Proof.
    clear - dim argsort argsort_perm. intros W H2. unfold NGasModel.ng_adapt. pose proof W as ((ND & _ & NE & _) & _). destruct (perm_ids (distances dim s x)) as (Q1 & Q2 & Q3). assert (DL : length (distances dim s x) = length (g_nodes (gg s))) by apply map_length. rewrite DL in Q2, Q3.
    destruct (pick_ok (g_nodes (gg s)) (argsort (distances dim s x)) ND Q1 Q2) as (ranked & Ep & L & Ic & Nr & _). rewrite Ep. cbv zeta. rewrite Q3 in L. destruct ranked as [|n0 [|n1 rk]]; cbn in L; try lia.
    set (s1 := set_a _ _). assert (G1 : gg s1 = gg s) by reflexivity. assert (A1 : ag s1 = inc_ages (g_edges (gg s)) (ag s)) by reflexivity. assert (P1 : ps s1 = moves h x 0 (n0 :: n1 :: rk) (ps s)) by reflexivity. clearbody s1.
    assert (Hn0 : In n0 (g_nodes (gg s))) by (apply Ic; now left). assert (Hn1 : In n1 (g_nodes (gg s))) by (apply Ic; right; now left). assert (Hne : n0 <> n1). { intros ->. apply NoDup_cons_iff in Nr as [K _]. apply K. now left. }
    destruct (refresh_ok s1 n0 n1) as (s2 & e0 & R & W2 & N2 & I0 & C0 & Z0 & P2 & _ & K2 & K2'); rewrite ?G1; auto. rewrite R.
    destruct (sweep_ok T (ag s2) (S (length (g_edges (gg s2)))) (g_edges (gg s2)) [] (gg s2)) as (g3 & R3 & I3 & N3 & E3 & F3); [lia|apply W2|reflexivity|]. cbn [length app] in *. rewrite R3.
    assert (Inc : incl (g_edges g3) (g_edges (gg s2))) by (rewrite F3; apply skipl_incl).
    assert (One : forall e, In e (g_edges (gg s)) -> ag s1 e = ag s e + 1) by (intros e He; rewrite A1; now apply inc_in).
    assert (D2 : distinct_ages s -> distinct_ages s2).
    { intros Hd e e' H H' Ha. destruct (K2' e H) as [->|[J1 J2]]; destruct (K2' e' H') as [->|[J1' J2']]; try reflexivity.
      - rewrite Z0, J2', One in Ha; [lia|now rewrite <- G1].
      - rewrite Z0, J2, One in Ha; [lia|now rewrite <- G1].
      - rewrite G1 in *. rewrite J2, J2', !One in Ha by assumption. apply Hd; auto; lia. }
    eexists. split; [reflexivity|]. cbn [set_g gg ps ag]. split; [apply (wf_sub (gg s2)); assumption|]. split; [now rewrite N3, N2, G1|]. split; [|split].
    - intros Hd e e' H H' Ha. cbn [set_g gg ps ag] in *. apply (D2 Hd); auto.
    - intros Hd Ha e He. cbn [set_g gg ps ag] in *. rewrite F3 in He. apply skipl_one in He; [apply Nat.ltb_ge in He; assumption|pose proof W2 as ((_ & _ & X & _) & _); exact X|].
      intros a b A B Oa Ob. apply Nat.ltb_lt in Oa, Ob. apply (D2 Hd); auto.
      assert (Up : forall y, In y (g_edges (gg s2)) -> ag s2 y <= T + 1). { intros y Hy. destruct (K2' y Hy) as [->|[J1 J2]]; [lia|]. rewrite G1 in J1. rewrite J2, One by assumption. specialize (Ha y J1). lia. }
      pose proof (Up a A). pose proof (Up b B). lia.
    - intros lo hi B1 B2 B3 m Hm. cbn [set_g gg ps ag] in *. rewrite N3, N2, G1 in Hm. rewrite P2, P1. apply moves_in_box; auto.
  Qed.
  Lemma ng_adapts_ok h T : forall xs s, wf (gg s) -> 2 <= length (g_nodes (gg s)) -> exists s', ng_adapts h T xs s = (s', GOk tt) /\ wf (gg s') /\ g_nodes (gg s') = g_nodes (gg s)
    /\ (distinct_ages s -> distinct_ages s') /\ (distinct_ages s -> aged T s -> aged T s')
    /\ (forall lo hi, (forall k, fraction (h k)) -> Forall (inbox lo hi) xs -> boxed lo hi s -> boxed lo hi s').
  Proof.
    clear - dim argsort argsort_perm. induction xs as [|x xs IH]; intros s W H2; cbn [NGasModel.ng_adapts]; [exists s; auto 10|].
    destruct (ng_adapt_ok h T x s W H2) as (s1 & -> & W1 & N1 & D1 & A1 & B1). destruct (IH s1 W1 ltac:(now rewrite N1)) as (s' & E & W' & N' & D' & A' & B'). exists s'. split; [exact E|]. split; [assumption|]. split; [congruence|]. split; [auto|]. split; [auto|].
    intros lo hi K1 K2 K3. inversion K2; subst. auto.
  Qed.
  Variable perm : nat -> list row -> list row.
  Variable decay : nat -> nat -> Qc.
  Variable lifetime : nat -> nat.
  Notation ng_epochs := (ng_epochs dim argsort perm decay lifetime).
  Lemma ng_epochs_ok : forall n epoch xs s, wf (gg s) -> 2 <= length (g_nodes (gg s)) -> exists s', ng_epochs n epoch xs s = (s', epoch + n, GOk tt) /\ wf (gg s') /\ g_nodes (gg s') = g_nodes (gg s)
    /\ (distinct_ages s -> distinct_ages s')
    /\ ((forall k, lifetime k <= lifetime (k + 1)) -> distinct_ages s -> aged (lifetime epoch) s -> aged (lifetime (epoch + (n - 1))) s')
    /\ (forall lo hi, (forall e k, fraction (decay e k)) -> (forall e, Permutation (perm e xs) xs) -> Forall (inbox lo hi) xs -> boxed lo hi s -> boxed lo hi s').
  Proof.
    induction n as [|n IH]; intros epoch xs s W H2; cbn [NGasModel.ng_epochs]. { exists s. cbn [Nat.sub]. rewrite Nat.add_0_r. auto 10. }
    destruct (ng_adapts_ok (decay epoch) (lifetime epoch) (perm epoch xs) s W H2) as (s1 & -> & W1 & N1 & D1 & A1 & B1). destruct (IH (epoch + 1) xs s1 W1 ltac:(now rewrite N1)) as (s' & E & W' & N' & D' & A' & B'). replace (epoch + 1 + n) with (epoch + S n) in * by lia.
    exists s'. split; [exact E|]. split; [assumption|]. split; [congruence|]. split; [auto|]. split.
    - intros M Hd Ha. cbn [Nat.sub]. rewrite Nat.sub_0_r. destruct n as [|n].
      + cbn in E. assert (s1 = s') as <- by congruence. rewrite Nat.add_0_r. auto.
      + replace (epoch + S n) with (epoch + 1 + (S n - 1)) by lia. apply A'; auto. intros e He. etransitivity; [apply (A1 Hd Ha e He)|apply M].
    - intros lo hi K1 K2 K3 K4. apply B'; auto. apply B1; auto. eapply Permutation_Forall; [apply Permutation_sym, K2|assumption].
  Qed.
End Gas.
