(** Graphs given by the caller, classes, unlabeled samples, and the matrices of the eigenvalue problem of GSFA (GSFAModel.v). *)
From Coq Require Import List Arith ZArith Bool Lia Permutation Sorted Field.
From Verif Require Import OField LinAlg GenEig PCAModel SymeigModel SFAModel GSFAModel GSFAProofs.
Import ListNotations.
Open Scope nat_scope.

Lemma flat_map_ext_i {A B} (f g : A -> list B) l : (forall a, In a l -> f a = g a) -> flat_map f l = flat_map g l.
Proof. intros H. rewrite !flat_map_concat_map. f_equal. now apply map_ext_in. Qed.
(** a list sorted by a key is the list of its groups *)
Lemma filter_filter {A} (p q : A -> bool) l : filter p (filter q l) = filter (fun a => q a && p a) l.
Proof. induction l as [|a l IH]; [reflexivity|]. cbn. destruct (q a) eqn:Q; cbn; [destruct (p a)|]; now rewrite ?IH. Qed.
Lemma sorted_split {A} (f : A -> nat) a l : StronglySorted (fun u v => f u <= f v) l -> (forall u, In u l -> a <= f u) -> l = filter (fun u => f u =? a) l ++ filter (fun u => a <? f u) l.
Proof.
  induction 1 as [|u l S IH F]; intros H; [reflexivity|]. cbn [filter]. pose proof (H u (or_introl eq_refl)) as Hu. destruct (Nat.eqb_spec (f u) a) as [E|E]; destruct (Nat.ltb_spec a (f u)); try lia.
  - cbn. f_equal. apply IH. intros v Hv. apply H. now right.
  - rewrite Forall_forall in F. assert (E0 : filter (fun u => f u =? a) l = []).
    { destruct (filter (fun u => f u =? a) l) as [|v r] eqn:V; [reflexivity|]. assert (I : In v (filter (fun u => f u =? a) l)) by (rewrite V; now left). apply filter_In in I. destruct I as [I1 I2]. apply Nat.eqb_eq in I2. specialize (F v I1). lia. }
    rewrite E0. cbn. f_equal. rewrite E0 in IH. apply IH. intros v Hv. apply H. now right.
Qed.
Lemma sorted_filter {A} (R : A -> A -> Prop) p l : StronglySorted R l -> StronglySorted R (filter p l).
Proof. induction 1 as [|u l S IH F]; [constructor|]. cbn. destruct (p u); [|exact IH]. constructor; [exact IH|]. rewrite Forall_forall in *. intros v Hv. apply filter_In in Hv. now apply F. Qed.
Lemma groups {A} (f : A -> nat) : forall m a l, StronglySorted (fun u v => f u <= f v) l -> (forall u, In u l -> a <= f u < a + m) -> l = flat_map (fun v => filter (fun u => f u =? v) l) (seq a m).
Proof.
  induction m as [|m IH]; intros a l SS H.
  - destruct l as [|u l]; [reflexivity|]. specialize (H u (or_introl eq_refl)). lia.
  - cbn [seq flat_map]. rewrite (sorted_split f a l SS) at 1 by (intros; now apply H). f_equal.
    rewrite (IH (S a) (filter (fun u => a <? f u) l)).
    + apply flat_map_ext_i. intros v Hv. apply in_seq in Hv. rewrite filter_filter. apply filter_ext. intros u. destruct (Nat.ltb_spec a (f u)); destruct (Nat.eqb_spec (f u) v); cbn; try reflexivity; lia.
    + now apply sorted_filter.
    + intros u Hu. apply filter_In in Hu. destruct Hu as [Hu1 Hu2]. apply Nat.ltb_lt in Hu2. specialize (H u Hu1). lia.
Qed.

Lemma flat_map_filter {A B} (g : A -> list B) p l : (forall v, In v l -> p v = false -> g v = []) -> flat_map g (filter p l) = flat_map g l.
Proof. induction l as [|a l IH]; intros H; [reflexivity|]. cbn. destruct (p a) eqn:E; cbn; rewrite IH by (intros; apply H; [now right|assumption]); [reflexivity|]. now rewrite (H a (or_introl eq_refl) E). Qed.
Lemma perm_filter {A} (p : A -> bool) l l' : Permutation l l' -> Permutation (filter p l) (filter p l').
Proof. induction 1; cbn; [constructor|destruct (p x); [now constructor|assumption]|destruct (p y), (p x); try reflexivity; constructor|now transitivity (filter p l')]. Qed.
Lemma count_seq (l : list nat) v : length (filter (fun k => nth k l 0 =? v) (seq 0 (length l))) = count_occ Nat.eq_dec l v.
Proof.
  induction l as [|a l IH]; [reflexivity|]. cbn [length seq filter count_occ]. change (nth 0 (a :: l) 0) with a. rewrite <- seq_shift. assert (E : forall s, length (filter (fun k => nth k (a :: l) 0 =? v) (map S s)) = length (filter (fun k => nth k l 0 =? v) s)).
  { induction s as [|k s IHs]; [reflexivity|]. cbn [map filter]. change (nth (S k) (a :: l) 0) with (nth k l 0). destruct (nth k l 0 =? v); cbn [length]; now rewrite IHs. }
  destruct (Nat.eq_dec a v) as [->|NE]; [rewrite Nat.eqb_refl; cbn [length]; now rewrite E, IH|]. apply Nat.eqb_neq in NE. now rewrite NE, E, IH.
Qed.
Lemma le_list_max v (l : list nat) : In v l -> v <= list_max l.
Proof. intros H. pose proof (proj1 (list_max_le l (list_max l)) (le_n _)) as F. rewrite Forall_forall in F. now apply F. Qed.

Section G2.
  Context {K : ofield}.
  Add Field Kgs2 : (fth K).
  Notation vec := (vec (K := K)). Notation mtx := (mtx (K := K)). Notation cdc := (cdc (K := K)).
  Notation two := (f1 + f1 : K)%of.
  Notation node := (K * vec)%type. Notation edge := (K * (vec * vec))%type.
  Lemma feqb_eq (a b : K) : feqb a b = true <-> a = b.
  Proof.
    unfold feqb. rewrite andb_true_iff, !negb_true_iff. split; [intros [H1 H2]|intros ->; split; apply flt_irrefl].
    apply fle_antisym; assumption.
  Qed.
  Lemma feqb_ne (a b : K) : a <> b -> feqb a b = false.
  Proof. intros H. destruct (feqb a b) eqn:E; [|reflexivity]. apply feqb_eq in E. contradiction. Qed.
  (** ** graphs given by the caller *)
  Definition graph_nodes (w : K) (nw : list K) (x : list vec) : list node := map (fun p => (w * fst p, snd p)%of) (combine nw x).
  Definition graph_edges (w : K) (x : list vec) (l : list ((nat * nat) * K)) : list edge := map (fun e => (w * snd e, (row x (fst (fst e)), row x (snd (fst e))))%of) l.
  Definition array_edges (w : K) (x : list vec) (W : mtx) : list edge := flat_map (fun a => map (fun b => (w * W a b, (row x a, row x b))%of) (seq 0 (length x))) (seq 0 (length x)).
  Lemma combine_weighted (nw : list K) (x : list vec) : combine x (weighted nw x) = map (fun p => (snd p, vscale (fst p) (snd p))) (combine nw x).
  Proof. unfold weighted. revert x. induction nw as [|a nw IH]; intros [|v x]; cbn; [reflexivity..|]. now rewrite IH. Qed.
  Lemma graph_samples_ok w nw (x : list vec) c N E : length nw = length x -> measures c N E -> measures (graph_samples w nw x c) (N ++ graph_nodes w nw x) E.
  Proof.
    intros HL H. unfold graph_samples. apply add_samples_ok; [exact H| | |].
    - intros i. unfold graph_nodes, nsum, sumv, weighted. rewrite !map_map. cbn [fst snd]. rewrite <- fsum_map_mul. apply fsum_map_ext. intros p _. unfold vscale. ring.
    - intros i j. unfold graph_nodes, nprod, gram. rewrite combine_weighted, !map_map. cbn [fst snd]. rewrite <- fsum_map_mul. apply fsum_map_ext. intros p _. unfold vscale. ring.
    - unfold graph_nodes, nmass. rewrite map_map. cbn [fst]. rewrite fsum_map_mul. rewrite <- (map_map fst (fun a => a)), map_id. assert (E1 : map fst (combine nw x) = nw). { clear - HL. revert x HL. induction nw as [|a nw IH]; intros [|v x] L; cbn in *; try reflexivity; try discriminate. now rewrite IH by lia. } rewrite E1. ring.
  Qed.
  Definition valid (x : list vec) (l : list ((nat * nat) * K)) : Prop := forall e, In e l -> fst (fst e) < length x /\ snd (fst e) < length x.
  Lemma dict_diffs_ok w (x : list vec) l c N E : valid x l -> measures c N E -> exists sd nd, dict_diffs x l = Some (sd, nd) /\ measures (add_diffs sd nd w c) N (E ++ graph_edges w x l).
  Proof.
    intros V H. unfold dict_diffs. rewrite (proj2 (forallb_forall _ l)) by (intros e He; destruct (V e He); apply andb_true_iff; split; now apply Nat.ltb_lt).
    eexists _, _. split; [reflexivity|]. apply add_diffs_ok; [exact H| |].
    - intros i j. rewrite combine_map_l, combine_self, !map_map. cbn [fst snd]. rewrite gram_map. unfold graph_edges, eprod. rewrite map_map. cbn [fst snd]. rewrite <- fsum_map_mul. apply fsum_map_ext. intros e _. unfold vscale, dd, sub. cbn [fst snd]. ring.
    - unfold graph_edges, emass. rewrite map_map. cbn [fst]. rewrite fsum_map_mul. ring.
  Qed.
  Lemma node_weights_length nw (x : list vec) : (forall l, nw = Some l -> length l = length x) -> length (node_weights nw x) = length x.
  Proof. intros H. destruct nw as [l|]; cbn; [now apply H|apply map_length]. Qed.
  Lemma graph_dict_ok w nw (x : list vec) l c N E : (forall v, nw = Some v -> length v = length x) -> valid x l -> measures c N E ->
    exists c', up_graph w nw (Some (EDict l)) x c = (c', GOk tt) /\ up_graph_old w nw (Some (EDict l)) x c = (c', GOk tt) /\ measures c' (N ++ graph_nodes w (node_weights nw x) x) (E ++ graph_edges w x l).
  Proof.
    intros HL V H. pose proof (node_weights_length nw x HL) as L. destruct (dict_diffs_ok w x l _ _ _ V (graph_samples_ok w (node_weights nw x) x c N E L H)) as (sd & nd & ED & M).
    eexists. unfold up_graph, up_graph_old. rewrite L, Nat.eqb_refl, ED. cbn [negb]. split; [reflexivity|]. split; [reflexivity|]. exact M.
  Qed.
  Lemma array_sums w (x : list vec) W : emass (array_edges w x W) = (w * fsumn (length x) (fun a => fsumn (length x) (fun b => W a b)))%of /\
    (forall i j, eprod (array_edges w x W) i j = w * fsumn (length x) (fun a => fsumn (length x) (fun b => W a b * dd (row x a, row x b) i j)))%of.
  Proof.
    split; [|intros i j]; unfold array_edges.
    - rewrite emass_flat, <- fsumn_mul. apply fsum_map_ext. intros a _. unfold emass. rewrite map_map. cbn [fst]. now rewrite fsum_map_mul.
    - rewrite eprod_flat, <- fsumn_mul. apply fsum_map_ext. intros a _. unfold eprod. rewrite map_map. cbn [fst snd]. rewrite <- fsumn_mul. apply fsum_map_ext. intros b _. ring.
  Qed.
  Lemma graph_old_ok w nw (x : list vec) W c N E : (forall v, nw = Some v -> length v = length x) -> measures c N E ->
    exists c', up_graph_old w nw (Some (EArr (length x) (length x) W)) x c = (c', GOk tt) /\ measures c' (N ++ graph_nodes w (node_weights nw x) x) (E ++ array_edges w x W).
  Proof.
    intros HL H. pose proof (node_weights_length nw x HL) as L. assert (V : valid x (nonzero (length x) W)).
    { intros e He. unfold nonzero in He. apply in_map_iff in He. destruct He as ([a b] & <- & He). apply filter_In in He. destruct He as [He _]. apply in_prod_iff in He. destruct He as [H1 H2]. apply in_seq in H1, H2. cbn. lia. }
    destruct (dict_diffs_ok w x _ _ _ _ V (graph_samples_ok w (node_weights nw x) x c N E L H)) as (sd & nd & ED & M).
    eexists. unfold up_graph_old. rewrite L, !Nat.eqb_refl. cbn [negb andb]. rewrite ED. split; [reflexivity|]. apply (edges_eq _ _ _ _ M); rewrite ?emass_app; [f_equal|intros i j; rewrite !eprod_app; f_equal].
    - rewrite (proj1 (array_sums w x W)). unfold graph_edges, nonzero, emass. rewrite !map_map. cbn [fst snd]. rewrite fsum_filter, fsum_list_prod, <- fsumn_mul. apply fsum_map_ext. intros a _. rewrite <- fsumn_mul. apply fsum_map_ext. intros b _. cbn [fst snd].
      destruct (feqb (W a b) f0) eqn:Z; cbn [negb]; [apply feqb_eq in Z; rewrite Z; ring|reflexivity].
    - rewrite (proj2 (array_sums w x W)). unfold graph_edges, nonzero, eprod. rewrite !map_map. cbn [fst snd]. rewrite fsum_filter, fsum_list_prod, <- fsumn_mul. apply fsum_map_ext. intros a _. rewrite <- fsumn_mul. apply fsum_map_ext. intros b _. cbn [fst snd].
      destruct (feqb (W a b) f0) eqn:Z; cbn [negb]; [apply feqb_eq in Z; rewrite Z; ring|ring].
  Qed.
  (** the fast form for arrays uses the node weights in place of the sums of the edge weights *)
  Definition balanced (n : nat) (v : list K) (W : mtx) : Prop := (forall a b, a < n -> b < n -> W a b = W b a) /\ (forall a, a < n -> fsumn n (fun b => W a b) = nth a v f0).
  Lemma gram_weighted (nw : list K) (x : list vec) i j : length nw = length x -> gram x (weighted nw x) i j = fsumn (length x) (fun a => nth a nw f0 * (row x a i * row x a j))%of.
  Proof.
    intros H. unfold gram. rewrite combine_weighted, map_map. cbn [fst snd]. rewrite (fsum_map_nth (combine nw x) _ (f0, vzero)). rewrite combine_length, H, Nat.min_id. apply fsumn_ext. intros a Ha. rewrite combine_nth by exact H. unfold vscale, row. cbn [fst snd]. ring.
  Qed.
  Lemma graph_array_ok w nw (x : list vec) W c N E : (forall v, nw = Some v -> length v = length x) -> balanced (length x) (node_weights nw x) W -> measures c N E ->
    exists c', up_graph w nw (Some (EArr (length x) (length x) W)) x c = (c', GOk tt) /\ measures c' (N ++ graph_nodes w (node_weights nw x) x) (E ++ array_edges w x W).
  Proof.
    intros HL [S R] H. pose proof (node_weights_length nw x HL) as L. eexists. unfold up_graph. rewrite L, !Nat.eqb_refl. cbn [negb andb]. split; [reflexivity|].
    apply add_diffs_ok; [now apply graph_samples_ok| |rewrite (proj1 (array_sums w x W)); ring].
    intros i j. rewrite (proj2 (array_sums w x W)). f_equal. unfold msub, mscale. rewrite gram_weighted by exact L. set (n := length x) in *.
    set (P := fsumn n (fun a => nth a (node_weights nw x) f0 * (row x a i * row x a j))%of). set (Q := fsumn n (fun b => fsumn n (fun a => row x a i * W a b)%of * row x b j)%of).
    assert (P1 : fsumn n (fun a => fsumn n (fun b => W a b * (row x a i * row x a j)))%of = P).
    { unfold P. apply fsumn_ext. intros a Ha. rewrite fsumn_mulr. now rewrite R. }
    assert (P2 : fsumn n (fun a => fsumn n (fun b => W a b * (row x b i * row x b j)))%of = P).
    { rewrite fsumn_swap. rewrite <- P1. apply fsumn_ext. intros b Hb. apply fsumn_ext. intros a Ha. now rewrite S. }
    assert (Q1 : fsumn n (fun a => fsumn n (fun b => W a b * (row x a i * row x b j)))%of = Q).
    { unfold Q. rewrite fsumn_swap. apply fsumn_ext. intros b Hb. rewrite <- fsumn_mulr. apply fsumn_ext. intros a Ha. ring. }
    assert (Q2 : fsumn n (fun a => fsumn n (fun b => W a b * (row x b i * row x a j)))%of = Q).
    { rewrite fsumn_swap. rewrite <- Q1. apply fsumn_ext. intros b Hb. apply fsumn_ext. intros a Ha. now rewrite S. }
    transitivity (P + P - Q - Q)%of; [ring|]. rewrite <- P1 at 1. rewrite <- P2, <- Q1 at 1. rewrite <- Q2.
    rewrite <- fsumn_add, <- !fsumn_sub. apply fsumn_ext. intros a _. rewrite <- fsumn_add, <- !fsumn_sub. apply fsumn_ext. intros b _. unfold dd. cbn [fst snd]. ring.
  Qed.

  (** ** classes *)
  Definition lab (labels : list nat) (k : nat) : nat := nth k labels 0.
  Definition class_edges (w : K) (labels : list nat) (x : list vec) : list edge :=
    flat_map (fun a => map (fun b => (w / fn (count_occ Nat.eq_dec labels (lab labels a)), (row x a, row x b))%of) (filter (fun b => lab labels b =? lab labels a) (seq 0 (length x)))) (seq 0 (length x)).
  Definition sorts (labels o : list nat) : Prop := Permutation o (seq 0 (length labels)) /\ StronglySorted (fun a b => lab labels a <= lab labels b) o.
  Section Class.
    Variables (labels o : list nat) (x : list vec).
    Hypotheses (SO : sorts labels o) (HL : length labels = length x).
    Let F (v : nat) : list nat := filter (fun k => lab labels k =? v) o.
    Lemma in_o k : In k o -> k < length labels.
    Proof. intros H. apply (Permutation_in _ (proj1 SO)) in H. apply in_seq in H. lia. Qed.
    Lemma in_uniq v : In v (uniq labels) <-> In v labels.
    Proof. unfold uniq. rewrite filter_In, in_seq, existsb_exists. split; [intros (_ & u & H1 & H2); apply Nat.eqb_eq in H2; now subst|]. intros H. split; [apply le_list_max in H; lia|]. exists v. split; [exact H|apply Nat.eqb_refl]. Qed.
    Lemma length_F v : length (F v) = count_occ Nat.eq_dec labels v.
    Proof. rewrite <- count_seq. apply Permutation_length. unfold F. apply (perm_filter (fun k => lab labels k =? v)), (proj1 SO). Qed.
    Lemma flat_F : flat_map F (uniq labels) = o.
    Proof.
      unfold uniq. rewrite flat_map_filter.
      - symmetry. apply (groups (lab labels)); [apply (proj2 SO)|]. intros k Hk. apply in_o in Hk. assert (I : In (lab labels k) labels) by now apply nth_In. apply le_list_max in I. lia.
      - intros v _ H. destruct (F v) as [|k r] eqn:E; [reflexivity|]. assert (I : In k (F v)) by (rewrite E; now left). unfold F in I. apply filter_In in I. destruct I as [I1 I2]. apply Nat.eqb_eq in I2. apply in_o in I1.
        assert (J : existsb (Nat.eqb v) labels = true) by (apply existsb_exists; exists (lab labels k); split; [now apply nth_In|rewrite I2; apply Nat.eqb_refl]). congruence.
    Qed.
    Let Bs : list (list vec) := map (fun v => map (row x) (F v)) (uniq labels).
    Lemma concat_Bs : concat Bs = map (row x) o.
    Proof. transitivity (map (row x) (flat_map F (uniq labels))); [|now rewrite flat_F]. unfold Bs. rewrite flat_map_concat_map, concat_map, map_map. reflexivity. Qed.
    Lemma sizes_Bs : map (@length vec) Bs = map (fun v => count_occ Nat.eq_dec labels v) (uniq labels).
    Proof. unfold Bs. rewrite map_map. apply map_ext. intros v. now rewrite map_length, length_F. Qed.
    Lemma nonempty_Bs : Forall (fun B => B <> []) Bs.
    Proof.
      apply Forall_forall. intros B HB E. subst B. unfold Bs in HB. apply in_map_iff in HB. destruct HB as (v & E & Hv). apply map_eq_nil in E. pose proof (length_F v) as L. rewrite E in L. cbn in L. apply in_uniq in Hv. apply (count_occ_In Nat.eq_dec) in Hv. lia.
    Qed.
    Lemma class_sums (w : K) (g : nat -> nat -> K) :
      fsum (map (fun v => fsum (map (fun a => fsum (map (fun b => w / fn (length (F v)) * g a b) (F v))) (F v))) (uniq labels))%of
      = fsum (map (fun a => fsum (map (fun b => w / fn (count_occ Nat.eq_dec labels (lab labels a)) * g a b)%of (filter (fun b => lab labels b =? lab labels a) (seq 0 (length x))))) (seq 0 (length x))).
    Proof.
      set (H := fun a => fsum (map (fun b => w / fn (count_occ Nat.eq_dec labels (lab labels a)) * g a b)%of (filter (fun b => lab labels b =? lab labels a) (seq 0 (length x))))).
      transitivity (fsum (map H o)); [|apply fsum_perm, Permutation_map; rewrite <- HL; apply (proj1 SO)].
      rewrite <- flat_F. rewrite fsum_flat_map. apply fsum_map_ext. intros v _. apply fsum_map_ext. intros a Ha. unfold F in Ha. apply filter_In in Ha. destruct Ha as [_ Ha]. apply Nat.eqb_eq in Ha. unfold H. rewrite Ha, length_F. apply fsum_perm, Permutation_map. unfold F. apply perm_filter. rewrite <- HL. apply (proj1 SO).
    Qed.
    Lemma class_ok w c N E : measures c N E -> exists c', up_blocks w true (map (fun v => count_occ Nat.eq_dec labels v) (uniq labels)) (map (row x) o) c = (c', GOk tt) /\ measures c' (N ++ wn w x) (E ++ class_edges w labels x).
    Proof.
      intros M. destruct (blocks_ok w Bs c N E nonempty_Bs M) as (c' & E1 & M1). rewrite sizes_Bs, concat_Bs in E1. exists c'. split; [exact E1|]. rewrite concat_Bs in M1.
      assert (P : Permutation (N ++ wn w (map (row x) o)) (N ++ wn w x)). { apply Permutation_app_head. unfold wn. apply Permutation_map. rewrite <- (rows_self x) at 2. rewrite <- HL. apply Permutation_map, (proj1 SO). }
      apply nodes_perm in P. destruct P as (P1 & P2 & P3). apply (nodes_eq _ _ (N ++ wn w x)) in M1; [|assumption..]. apply (edges_eq _ _ _ _ M1); rewrite ?emass_app; [f_equal|intros i j; rewrite !eprod_app; f_equal].
      - pose proof (class_sums w (fun _ _ => f1)) as CS. unfold class_edges, cliques. rewrite !emass_flat. unfold Bs. rewrite map_map. transitivity (fsum (map (fun v => fsum (map (fun a => fsum (map (fun b => w / fn (length (F v)) * f1)%of (F v))) (F v))) (uniq labels))).
        + apply fsum_map_ext. intros v _. unfold clique. rewrite emass_we, length_prod, !map_length. rewrite (fsum_map_ext (F v) _ (fun _ => fn (length (F v)) * (w / fn (length (F v)) * f1))%of) by (intros; apply fsum_map_const). rewrite fsum_map_const, fn_mul. ring.
        + rewrite CS. apply fsum_map_ext. intros a _. unfold emass. rewrite map_map. cbn [fst]. apply fsum_map_ext. intros. ring.
      - pose proof (class_sums w (fun a b => dd (row x a, row x b) i j)) as CS. unfold class_edges, cliques. rewrite !eprod_flat. unfold Bs. rewrite map_map. etransitivity; [|etransitivity; [exact CS|]].
        + apply fsum_map_ext. intros v _. unfold clique. rewrite eprod_we. unfold pd. rewrite fsum_list_prod, map_length, map_map. rewrite <- fsum_map_mul. apply fsum_map_ext. intros a _. rewrite map_map, <- fsum_map_mul. reflexivity.
        + apply fsum_map_ext. intros a _. unfold eprod. rewrite map_map. cbn [fst snd]. reflexivity.
    Qed.
  End Class.

  (** ** groups without the edges of a sample to itself *)
  Definition others (B : list vec) : list (vec * vec) := flat_map (fun a => map (fun b => (row B a, row B b)) (filter (fun b => negb (b =? a)) (seq 0 (length B)))) (seq 0 (length B)).
  Definition loopless (w : K) (B : list vec) : list edge := we (w / (fn (length B) - f1))%of (others B).
  Lemma others_sums B (g : vec * vec -> K) : fsum (map g (others B)) = (fsum (map g (list_prod B B)) - fsum (map (fun v => g (v, v)) B))%of.
  Proof.
    unfold others. rewrite fsum_flat_map. rewrite fsum_list_prod. rewrite !(fsum_map_nth B _ vzero). rewrite <- fsumn_sub. apply fsumn_ext. intros a Ha. rewrite map_map, fsum_without by exact Ha. f_equal. rewrite (fsum_map_nth B _ vzero). reflexivity.
  Qed.
  Lemma dd_self (v : vec) i j : dd (v, v) i j = f0 :> K. Proof. unfold dd. cbn. ring. Qed.
  Lemma loopless_sums w B : 2 <= length B -> emass (loopless w B) = (fn (length B) * w)%of /\ (forall i j, eprod (loopless w B) i j = fn (length B) / (fn (length B) - f1) * eprod (clique w B) i j)%of.
  Proof.
    intros H. pose proof (fn_pred (K := K) (length B) H) as P. assert (NB1 : (fn (length B) - f1 : K)%of <> f0) by (intros Z; rewrite Z in P; unfold flt in P; now rewrite flt_irrefl in P). assert (NB : (fn (length B) : K) <> f0) by (apply fn_ne; lia). unfold loopless, clique. split; [|intros i j].
    - rewrite emass_we. pose proof (others_sums B (fun _ => f1)) as S. rewrite !fsum_map_const, length_prod, fn_mul in S. assert ((fn (length (others B)) : K) = fn (length B) * (fn (length B) - f1))%of as ->. { transitivity (fn (length (others B)) * f1 : K)%of; [ring|]. rewrite S. ring. } field. exact NB1.
    - rewrite !eprod_we. unfold pd. rewrite others_sums. rewrite (fsum_map_zero B) by (intros; apply dd_self). field. now split.
  Qed.
  Lemma loopless_ok w b (Bs : list (list vec)) c N E : 2 <= b -> Forall (fun B => length B = b) Bs -> measures c N E ->
    exists c', up_homog w (BInt b) false (concat Bs) c = (c', GOk tt) /\ measures c' (N ++ wn w (concat Bs)) (E ++ flat_map (loopless w) Bs).
  Proof.
    intros Hb F H. destruct (homog_ok w b Bs c N E ltac:(lia) F H) as (c' & E1 & M). unfold up_homog in *. destruct b as [|b']; [lia|]. set (b := S b') in *.
    destruct (negb (length (concat Bs) mod b =? 0)); [discriminate|]. cbv beta iota zeta in E1. destruct (Nat.eqb_spec b 1); [lia|]. eexists. split; [reflexivity|]. injection E1 as <-.
    pose proof (fn_pred (K := K) b Hb) as P. assert (NB1 : (fn b - f1 : K)%of <> f0) by (intros Z; rewrite Z in P; unfold flt in P; now rewrite flt_irrefl in P). assert (NB : (fn b : K) <> f0) by (apply fn_ne; lia).
    destruct M as (M1 & M2 & M3 & M4). pose proof H as (_ & _ & _ & H4).
    assert (FB : forall B, In B Bs -> length B = b) by (now apply Forall_forall).
    apply add_diffs_ok; [now apply unlabeled_ok| |].
    - intros i j. specialize (M4 i j). rewrite eprod_app in M4. unfold add_diffs, sd in M4. cbn [c_d up_unlabeled add_samples] in M4. specialize (H4 i j). unfold sd in H4.
      assert (Q : (w * (two * fn b * (gram (concat Bs) (concat Bs) i j - fn b * gram (media b (concat Bs)) (media b (concat Bs)) i j) / fn b) = eprod (cliques w Bs) i j)%of).
      { unfold madd, mscale in M4. destruct (c_d c) as [d|]; unfold mscale in *; [rewrite H4 in M4|rewrite <- H4 in M4]; cbv beta in M4.
        - match type of M4 with (?a + ?u = ?a + ?v)%of => transitivity (a + u - a)%of; [transitivity u; [reflexivity|ring]|]; rewrite M4; ring end.
        - etransitivity; [exact M4|]. ring. }
      rewrite eprod_flat. rewrite (fsum_map_ext Bs _ (fun B => fn b / (fn b - f1) * eprod (clique w B) i j)%of) by (intros B HB; rewrite (proj2 (loopless_sums w B ltac:(rewrite (FB B HB); exact Hb))), (FB B HB); reflexivity).
      rewrite fsum_map_mul. unfold cliques in Q. rewrite eprod_flat in Q. rewrite <- Q. field. now split.
    - rewrite emass_flat. rewrite (fsum_map_ext Bs _ (fun _ => fn b * w)%of) by (intros B HB; rewrite (proj1 (loopless_sums w B ltac:(rewrite (FB B HB); exact Hb))), (FB B HB); reflexivity).
      rewrite fsum_map_const, (length_concat_blocks b Bs F), div_mul_ by lia. ring.
  Qed.

  (** ** unlabeled samples *)
  Definition escale (k : K) (E : list edge) : list edge := map (fun e => (k * fst e, snd e)%of) E.
  Definition cross (w : K) (N : list node) (x : list vec) : list edge := flat_map (fun p => flat_map (fun v => [(w * fst p, (snd p, v)); (w * fst p, (v, snd p))]%of) x) N.
  Lemma escale_sums k E : emass (escale k E) = (k * emass E)%of /\ (forall i j, eprod (escale k E) i j = k * eprod E i j)%of.
  Proof. unfold escale, emass, eprod. split; [|intros i j]; rewrite map_map; cbn [fst snd]; rewrite <- fsum_map_mul; apply fsum_map_ext; intros; ring. Qed.
  Lemma cross_sums w N x : emass (cross w N x) = (two * nmass N * fn (length x) * w)%of /\
    (forall i j, eprod (cross w N x) i j = w * (two * (s2 x i j * nmass N - nsum N i * s1 x j - s1 x i * nsum N j + nprod N i j * fn (length x))))%of.
  Proof.
    split; [|intros i j]; unfold cross.
    - rewrite emass_flat. rewrite (fsum_map_ext N _ (fun p => two * fn (length x) * w * fst p)%of); [rewrite fsum_map_mul; unfold nmass; ring|]. intros p _. rewrite emass_flat. rewrite (fsum_map_ext x _ (fun _ => two * w * fst p)%of) by (intros; unfold emass; cbn [map fsum fst]; ring). rewrite fsum_map_const. ring.
    - rewrite eprod_flat. rewrite (fsum_map_ext N _ (fun p => w * two * s2 x i j * fst p - w * two * s1 x j * (fst p * snd p i) - w * two * s1 x i * (fst p * snd p j) + w * two * fn (length x) * (fst p * (snd p i * snd p j)))%of).
      + rewrite fsum_map_add, !fsum_map_sub, !fsum_map_mul. transitivity (w * two * s2 x i j * nmass N - w * two * s1 x j * nsum N i - w * two * s1 x i * nsum N j + w * two * fn (length x) * nprod N i j)%of; [reflexivity|ring].
      + intros p _. rewrite eprod_flat. rewrite (fsum_map_ext x _ (fun v => w * two * fst p * (v i * v j) - w * two * fst p * snd p i * v j - w * two * fst p * snd p j * v i + w * two * (fst p * (snd p i * snd p j)))%of) by (intros v _; unfold eprod, dd; cbn [map fsum fst snd]; ring).
        rewrite fsum_map_add, !fsum_map_sub, !fsum_map_mul, fsum_map_const. unfold s1, s2. ring.
  Qed.
  Lemma smart2_ok (x : list vec) c N E : x <> [] -> c_x c <> None -> c_d c <> None -> nmass N <> f0 -> emass E <> f0 -> measures c N E ->
    let q := nmass N in let frac := (f1 / fn 5)%of in let nw2 := (q * frac / fn (length x))%of in
    exists c', up_smart2 x c = (c', GOk tt) /\
    measures c' ((N ++ wn nw2 x) ++ wn (- (f1 / fn 40))%of x) ((escale (q / emass E * (f1 - frac))%of E ++ cross (nw2 / q)%of N x) ++ clique (- (f1 / fn 40))%of x).
  Proof.
    intros Hx HX HD Q0 E0 M q frac nw2. unfold up_smart2. pose proof M as ((M1 & M2) & M3 & M4 & M5). destruct (c_x c) as [[sl pl]|] eqn:CX; [|contradiction]. destruct (c_d c) as [d|] eqn:CD; [|contradiction].
    rewrite M3, M4. fold q. rewrite (feqb_ne (emass E)) by exact E0. rewrite (feqb_ne q) by exact Q0. fold frac nw2. set (w1 := (q / emass E * (f1 - frac))%of).
    set (c1 := mkC (Some (sl, pl)) q (Some (mscale w1 d)) (emass E * w1)%of).
    assert (MC1 : measures c1 N (escale w1 E)).
    { split; [split|split; [reflexivity|split]].
      - intros i. rewrite <- M1. unfold sx. rewrite CX. reflexivity.
      - intros i j. rewrite <- M2. unfold sp. rewrite CX. reflexivity.
      - rewrite (proj1 (escale_sums w1 E)). cbn. ring.
      - intros i j. rewrite (proj2 (escale_sums w1 E)). rewrite <- M5. unfold sd. rewrite CD. reflexivity. }
    assert (MC2 : measures (add_samples (gram x x) (sumv x) (fn (length x)) nw2 c1) (N ++ wn nw2 x) (escale w1 E)) by (apply (unlabeled_ok nw2 x); exact MC1).
    match goal with |- context [up_homog _ _ _ _ ?c3] => assert (MC3 : measures c3 (N ++ wn nw2 x) (escale w1 E ++ cross (nw2 / q)%of N x)) end.
    { apply add_diffs_ok; [exact MC2| |].
      - intros i j. rewrite (proj2 (cross_sums _ N x)). unfold mscale. rewrite gram_self. change (@sumv K) with (@s1 K). f_equal. f_equal. rewrite <- !M1, <- M2. unfold sx, sp. rewrite CX. cbn [fst snd]. fold q. ring.
      - rewrite (proj1 (cross_sums _ N x)). fold q. ring. }
    pose proof (homog_ok (- (f1 / fn 40))%of (length x) [x] _ _ _ ltac:(destruct x; [contradiction|discriminate]) ltac:(repeat constructor) MC3) as (c' & E' & M').
    cbn [concat cliques flat_map] in E', M'. rewrite app_nil_r in E'. rewrite !app_nil_r in M'. exists c'. split; [exact E'|]. exact M'.
  Qed.

  (** ** the matrices *)
  Definition wf (c : cdc) : Prop := (c_x c = None -> c_n c = f0) /\ (c_d c = None -> c_nd c = f0).
  Definition gmean (N : list node) : vec := fun i => (nsum N i / nmass N)%of.
  Definition gcov (N : list node) : mtx := fun i j => (fsum (map (fun p : node => fst p * ((snd p i - gmean N i) * (snd p j - gmean N j)))%of N) / nmass N)%of.
  Definition gder (E : list edge) : mtx := fun i j => (eprod E i j / emass E)%of.
  Lemma fix_ok c N E : wf c -> measures c N E -> nmass N <> f0 -> emass E <> f0 -> exists cm avg dm, cdc_fix c = GOk (cm, avg, dm) /\
    (forall i j, cm i j = gcov N i j) /\ (forall i, avg i = gmean N i) /\ (forall i j, dm i j = gder E i j).
  Proof.
    intros [W1 W2] ((M1 & M2) & M3 & M4 & M5) Q0 E0. unfold cdc_fix. rewrite M3 in *. rewrite M4 in *. rewrite (feqb_ne (nmass N)), (feqb_ne (emass E)) by assumption.
    destruct (c_x c) as [[s p]|] eqn:CX; [|now destruct Q0; apply W1]. destruct (c_d c) as [d|] eqn:CD; [|now destruct E0; apply W2].
    unfold sx in M1. unfold sp in M2. unfold sd in M5. rewrite CX in *. rewrite CD in *. cbn [fst snd] in *. eexists _, _, _. split; [reflexivity|]. split; [|split].
    - intros i j. unfold gcov. f_equal. rewrite M2. unfold vscale. rewrite !M1. rewrite (fsum_map_ext N _ (fun p => fst p * (snd p i * snd p j) - gmean N j * (fst p * snd p i) - gmean N i * (fst p * snd p j) + gmean N i * gmean N j * fst p)%of) by (intros; ring).
      rewrite fsum_map_add, !fsum_map_sub, !fsum_map_mul. transitivity (nprod N i j - gmean N j * nsum N i - gmean N i * nsum N j + gmean N i * gmean N j * nmass N)%of; [|reflexivity]. unfold gmean. field. exact Q0.
    - intros i. unfold vscale. rewrite M1. unfold gmean. field. exact Q0.
    - intros i j. now rewrite M5.
  Qed.
  Lemma wf_samples P s n w c : wf c -> wf (add_samples P s n w c). Proof. intros [H1 H2]. split; [discriminate|exact H2]. Qed.
  Lemma wf_diffs P n w c : wf c -> wf (add_diffs P n w c). Proof. intros [H1 H2]. split; [exact H1|discriminate]. Qed.
End G2.
