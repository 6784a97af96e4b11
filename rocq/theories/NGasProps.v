(** Properties of the neural gas nodes (NGasModel). *)
From Coq Require Import List Arith QArith Qcanon Bool Lia Permutation.
From Verif Require Import GraphModel GraphProofs CovModel NGasModel NGasProofs.
Import ListNotations.
Open Scope nat_scope.

(** the initial graph: two nodes with an edge for given start positions, else no node *)
Definition gng_init (start_poss : option (row * row)) : gas := match start_poss with Some (p, q) => start p q | None => no_gas end.
Definition points (rs : list (row * row * list row)) : list row := flat_map snd rs.

Section Gas.
  Variable dim : nat.
  Variable argsort : list Qc -> list nat.
  Variable argmax : list Qc -> nat.
  Variable sqrtq : Qc -> Qc.
  Variables eps_b eps_n alpha d : Qc.
  Variables max_age lambda max_nodes : nat.
  (** argsort sorts; argmax returns a position *)
  Definition sorts : Prop := (forall l, Permutation (argsort l) (seq 0 (length l)))
    /\ forall l i j, i < j -> j < length l -> (nth (nth i (argsort l) 0%nat) l 0 <= nth (nth j (argsort l) 0%nat) l 0)%Qc.
  Definition position : Prop := forall l, l <> [] -> argmax l < length l.
  Notation adapt := (adapt dim argsort argmax sqrtq eps_b eps_n alpha d max_age lambda max_nodes).
  Notation adapts := (adapts dim argsort argmax sqrtq eps_b eps_n alpha d max_age lambda max_nodes).
  Notation gng_train := (gng_train dim argsort argmax sqrtq eps_b eps_n alpha d max_age lambda max_nodes).
  Notation gng_trains := (gng_trains dim argsort argmax sqrtq eps_b eps_n alpha d max_age lambda max_nodes).

  Definition born (r r' : row) : gas := fst (add_n (fst (add_n no_gas r)) r').
  Lemma wf_empty : wf empty.
  Proof. split; [apply inv_empty|]. split; [intros e []|]. intros e e' a b []. Qed.
  Lemma ready_born r r' : ready (born r r') /\ length (g_nodes (gg (born r r'))) = 2 /\ aged max_age (born r r') /\ forall lo hi, inbox lo hi r -> inbox lo hi r' -> boxed lo hi (born r r').
  Proof.
    split; [|split; [reflexivity|split]].
    - split; [apply (wf_add_node _ (wf_add_node _ wf_empty))|]. split; [cbn; lia|right; reflexivity].
    - intros e [].
    - intros lo hi H H' n [<-|[<-|[]]]; assumption.
  Qed.
  Lemma ready_start p q : ready (start p q) /\ length (g_nodes (gg (start p q))) = 2 /\ covered (gg (start p q)) /\ aged max_age (start p q) /\ forall lo hi, inbox lo hi p -> inbox lo hi q -> boxed lo hi (start p q).
  Proof.
    split; [|split; [reflexivity|split; [|split]]].
    - split; [|split; [cbn; lia|right; reflexivity]]. pose proof (wf_add_node _ (wf_add_node _ wf_empty)) as W. refine (wf_add_edge _ 0 1 W _ _ _ _); cbn; auto. intros (e & [] & _).
    - intros n [<-|[<-|[]]]; exists 0; cbn; auto.
    - intros e [<-|[]]. cbn. lia.
    - intros lo hi H H' n [<-|[<-|[]]]; assumption.
  Qed.
  Hypothesis Hsort : sorts.
  Hypothesis Hpos : position.
  Lemma train_ready r r' t xs s : ready s -> gng_train r r' t xs s = adapts t xs s.
  Proof. intros (_ & H & _). unfold NGasModel.gng_train. destruct (g_nodes (gg s)); [cbn in H; lia|reflexivity]. Qed.
  Lemma trains_ready : forall rs t s, ready s -> gng_trains rs t s = adapts t (points rs) s.
  Proof.
    induction rs as [|[[r r'] xs] rs IH]; intros t s R; cbn [NGasModel.gng_trains points flat_map snd]; [reflexivity|]. fold (points rs). rewrite train_ready by assumption. rewrite adapts_app.
    destruct (adapts_ok dim argsort argmax sqrtq (proj1 Hsort) Hpos eps_b eps_n alpha d max_age lambda max_nodes xs t s R) as (s' & -> & R' & _). now apply IH.
  Qed.
  (** the state in which the first point is presented *)
  Definition first_state (o : option (row * row)) (rs : list (row * row * list row)) : gas :=
    match o, rs with None, (r, r', _) :: _ => born r r' | _, _ => gng_init o end.
  Lemma trains_init o rs : gng_trains rs 0 (gng_init o) = adapts 0 (points rs) (first_state o rs).
  Proof.
    destruct o as [[p q]|]; [apply trains_ready, ready_start|]. destruct rs as [|[[r r'] xs] rs]; [reflexivity|]. cbn [NGasModel.gng_trains points flat_map snd first_state]. fold (points rs). change (gng_train r r' 0 xs (gng_init None)) with (adapts 0 xs (born r r')). rewrite adapts_app.
    destruct (adapts_ok dim argsort argmax sqrtq (proj1 Hsort) Hpos eps_b eps_n alpha d max_age lambda max_nodes xs 0 (born r r') (proj1 (ready_born r r'))) as (s' & -> & R' & _). now apply trains_ready.
  Qed.
  Lemma first_ready o rs : o <> None \/ rs <> [] -> ready (first_state o rs) /\ length (g_nodes (gg (first_state o rs))) = 2 /\ aged max_age (first_state o rs).
  Proof. intro H. destruct o as [[p q]|]; [|destruct rs as [|[[r r'] xs] rs]; [destruct H; congruence|]]; [pose proof (ready_start p q)|pose proof (ready_born r r')]; cbn [first_state gng_init]; tauto. Qed.

  Lemma some_call (o : option (row * row)) (rs : list (row * row * list row)) : (o <> None \/ rs <> []) \/ (o = None /\ rs = []).
  Proof. destruct o; [left; left; discriminate|]. destruct rs; [auto|left; right; discriminate]. Qed.
  Lemma trains_run o rs : o <> None \/ rs <> [] -> exists s', adapts 0 (points rs) (first_state o rs) = (s', length (points rs), GOk tt) /\ ready s' /\ (points rs <> [] -> covered (gg s')) /\ aged max_age s'.
  Proof.
    intro H. destruct (first_ready o rs H) as (R & _ & A). destruct (adapts_ok dim argsort argmax sqrtq (proj1 Hsort) Hpos eps_b eps_n alpha d max_age lambda max_nodes (points rs) 0 _ R) as (s' & E & R' & C & _ & _ & A' & _). exists s'. split; [exact E|]. split; [assumption|]. split; [intro; apply C; now left|]. now apply A'.
  Qed.

  (** C187 *)
  Theorem C187_never_raises o rs : exists s, gng_trains rs 0 (gng_init o) = (s, length (points rs), GOk tt).
  Proof.
    rewrite trains_init. destruct (some_call o rs) as [H|[-> ->]]; [|eexists; reflexivity]. destruct (trains_run o rs H) as (s' & E & _). eauto.
  Qed.
  (** C188 *)
  Theorem C188_simple o rs s t r : gng_trains rs 0 (gng_init o) = (s, t, r) ->
    (forall e, In e (g_edges (gg s)) -> In (head_of (gg s) e) (g_nodes (gg s)) /\ In (tail_of (gg s) e) (g_nodes (gg s)) /\ head_of (gg s) e <> tail_of (gg s) e)
    /\ (forall e e' a b, In e (g_edges (gg s)) -> In e' (g_edges (gg s)) -> conn (gg s) e a b -> conn (gg s) e' a b -> e = e')
    /\ (points rs <> [] -> forall n, In n (g_nodes (gg s)) -> exists m, m <> n /\ In m (neighbors (gg s) n)).
  Proof.
    intro E. rewrite trains_init in E. assert (K : wf (gg s) /\ (points rs <> [] -> covered (gg s))).
    { destruct (some_call o rs) as [H|[-> ->]].
      - destruct (trains_run o rs H) as (s' & E' & R & C & _). rewrite E' in E. injection E as <- _ _. split; [apply R|auto].
      - cbn in E. injection E as <- _ _. split; [apply wf_empty|]. intro K. now elim K. }
    destruct K as [W C]. pose proof W as (Hi & Wl & Ws). split; [|split].
    - intros e He. destruct Hi as (_ & _ & _ & _ & I5 & _). destruct (I5 e He). auto.
    - exact Ws.
    - intros Hp n Hn. destruct (C Hp n Hn) as (e & He & Ht). pose proof (Wl e He). destruct Ht as [Ht|Ht]; [exists (tail_of (gg s) e)|exists (head_of (gg s) e)]; (split; [congruence|]); apply (in_neighbors _ _ _ Hi); exists e; (split; [assumption|]); unfold conn; auto.
  Qed.
  (** C189 *)
  Theorem C189_nodes o rs s t r : gng_trains rs 0 (gng_init o) = (s, t, r) -> o <> None \/ rs <> [] ->
    2 <= length (g_nodes (gg s)) /\ length (g_nodes (gg s)) <= Nat.max 2 max_nodes /\ (1 <= lambda -> length (g_nodes (gg s)) <= 2 + length (points rs) / lambda).
  Proof.
    intros E H. rewrite trains_init in E. destruct (first_ready o rs H) as (R & L & _). destruct (adapts_ok dim argsort argmax sqrtq (proj1 Hsort) Hpos eps_b eps_n alpha d max_age lambda max_nodes (points rs) 0 _ R) as (s' & E' & R' & _ & B1 & B2 & _). rewrite E' in E. injection E as <- _ _. rewrite L in *. split; [apply R'|]. split; [assumption|].
    intro Hl. specialize (B1 Hl). rewrite Nat.div_0_l in B1 by lia. cbn [Nat.add] in *. lia.
  Qed.
  (** C190 *)
  Theorem C190_ages o rs s t r : gng_trains rs 0 (gng_init o) = (s, t, r) -> forall e, In e (g_edges (gg s)) -> ag s e <= max_age.
  Proof.
    intro E. rewrite trains_init in E. destruct (some_call o rs) as [H|[-> ->]].
    - destruct (trains_run o rs H) as (s' & E' & _ & _ & A). rewrite E' in E. injection E as <- _ _. exact A.
    - cbn in E. injection E as <- _ _. intros e [].
  Qed.
  Theorem C190_fresh o rs s t r x : gng_trains rs 0 (gng_init o) = (s, t, r) -> o <> None \/ rs <> [] -> (t + 1) mod lambda <> 0 ->
    exists s' n0 n1 d0 e, adapt (t + 1) x s = (s', GOk tt) /\ nearest dim argsort s x = GOk (n0, n1, d0) /\ In e (g_edges (gg s')) /\ conn (gg s') e n0 n1 /\ ag s' e = 0.
  Proof.
    intros E H Ht. rewrite trains_init in E. destruct (first_ready o rs H) as (R & _). destruct (adapts_ok dim argsort argmax sqrtq (proj1 Hsort) Hpos eps_b eps_n alpha d max_age lambda max_nodes (points rs) 0 _ R) as (s1 & E' & R' & _). rewrite E' in E. injection E as <- <- _.
    destruct (adapt_ok dim argsort argmax sqrtq (proj1 Hsort) Hpos eps_b eps_n alpha d max_age lambda max_nodes (0 + length (points rs) + 1) x s1 R') as (s' & n0 & n1 & d0 & A & N & _ & _ & _ & _ & _ & _ & F & _). destruct (F Ht) as (e & F1 & F2 & F3). exists s', n0, n1, d0, e. auto.
  Qed.
  (** C191 *)
  Theorem C191_box o rs s t r lo hi : gng_trains rs 0 (gng_init o) = (s, t, r) -> fraction eps_b -> fraction eps_n -> Forall (inbox lo hi) (points rs) ->
    match o, rs with Some (p, q), _ => inbox lo hi p /\ inbox lo hi q | None, (r1, r2, _) :: _ => inbox lo hi r1 /\ inbox lo hi r2 | None, [] => True end ->
    forall n, In n (g_nodes (gg s)) -> inbox lo hi (ps s n).
  Proof.
    intros E F1 F2 Hd Hs. rewrite trains_init in E. destruct o as [[p q]|]; [|destruct rs as [|[[r1 r2] xs] rs]; [cbn in E; injection E as <- _ _; intros n []|]].
    - destruct (ready_start p q) as (R & _ & _ & _ & B). destruct (adapts_ok dim argsort argmax sqrtq (proj1 Hsort) Hpos eps_b eps_n alpha d max_age lambda max_nodes (points rs) 0 _ R) as (s' & E' & _ & _ & _ & _ & _ & Bx). cbn [first_state gng_init] in E. rewrite E' in E. injection E as <- _ _. apply Bx; auto. apply B; apply Hs.
    - destruct (ready_born r1 r2) as (R & _ & _ & B). cbn [first_state] in E. match type of E with NGasModel.adapts _ _ _ _ _ _ _ _ _ _ _ _ ?ys _ = _ => destruct (adapts_ok dim argsort argmax sqrtq (proj1 Hsort) Hpos eps_b eps_n alpha d max_age lambda max_nodes ys 0 _ R) as (s' & E' & _ & _ & _ & _ & _ & Bx) end. rewrite E' in E. injection E as <- _ _. apply Bx; auto. apply B; apply Hs.
  Qed.
  (** C198: several calls of train are one *)
  Theorem C198_chunks o r r' xs r2 r2' ys rs t : gng_trains ((r, r', xs) :: (r2, r2', ys) :: rs) 0 (gng_init o) = gng_trains ((r, r', xs ++ ys) :: rs) 0 (gng_init o) /\
    (forall s, 2 <= length (g_nodes (gg s)) -> gng_train r r' t xs s = gng_train r2 r2' t xs s).
  Proof.
    split; [rewrite !trains_init; cbn [points flat_map snd]; rewrite app_assoc; now destruct o|]. intros s H. unfold NGasModel.gng_train. destruct (g_nodes (gg s)); [cbn in H; lia|reflexivity].
  Qed.
  (** C199: the two nearest nodes *)
  Lemma order_min l a b rest : argsort l = a :: b :: rest -> a < length l /\ b < length l /\ forall i, i < length l -> (nth a l 0 <= nth i l 0)%Qc /\ (i <> a -> (nth b l 0 <= nth i l 0)%Qc).
  Proof.
    intro E. destruct Hsort as [P Q]. destruct (perm_ids argsort P l) as (P1 & P2 & P3). rewrite E in *. split; [apply P2; now left|]. split; [apply P2; right; now left|]. intros i Hi.
    assert (Hin : In i (argsort l)) by (apply (Permutation_in _ (Permutation_sym (P l))); apply in_seq; lia). apply (In_nth _ _ 0) in Hin as (k & K1 & K2). rewrite E in K1, K2. rewrite P3 in K1. specialize (Q l). rewrite E in Q. split.
    - destruct k as [|k]; [cbn in K2; subst; apply Qcle_refl|]. rewrite <- K2. apply (Q 0 (S k)); lia.
    - intro Hne. destruct k as [|[|k]]; [cbn in K2; congruence|cbn in K2; subst; apply Qcle_refl|]. rewrite <- K2. apply (Q 1 (S (S k))); lia.
  Qed.
  Theorem C199_nearest s x n0 n1 d0 : NoDup (g_nodes (gg s)) -> nearest dim argsort s x = GOk (n0, n1, d0) ->
    In n0 (g_nodes (gg s)) /\ In n1 (g_nodes (gg s)) /\ n0 <> n1 /\ d0 = dist dim (ps s n0) x
    /\ forall n, In n (g_nodes (gg s)) -> (d0 <= dist dim (ps s n) x)%Qc /\ (n <> n0 -> (dist dim (ps s n1) x <= dist dim (ps s n) x)%Qc).
  Proof.
    intros Hn E. unfold nearest in E. destruct (argsort (distances dim s x)) as [|a [|b rest]] eqn:Es; try discriminate.
    destruct (nth_error (g_nodes (gg s)) a) as [u|] eqn:Ea; [|discriminate]. destruct (nth_error (g_nodes (gg s)) b) as [v|] eqn:Eb; [|discriminate]. injection E as <- <- <-.
    destruct (order_min _ _ _ _ Es) as (La & Lb & Mi). assert (DL : length (distances dim s x) = length (g_nodes (gg s))) by apply map_length. rewrite DL in *.
    assert (V : forall i n, nth_error (g_nodes (gg s)) i = Some n -> nth i (distances dim s x) 0%Qc = dist dim (ps s n) x).
    { intros i n H. apply nth_error_nth. unfold distances. now apply map_nth_error with (f := fun n => dist dim (ps s n) x). }
    split; [eapply nth_error_In; eauto|]. split; [eapply nth_error_In; eauto|]. split.
    - intros ->. destruct (perm_ids argsort (proj1 Hsort) (distances dim s x)) as (P1 & _). rewrite Es in P1. apply NoDup_cons_iff in P1 as [P1 _]. apply P1. left. symmetry. apply (proj1 (NoDup_nth_error _) Hn a b La). congruence.
    - split; [now apply V|]. intros n H. apply In_nth_error in H as [i H]. assert (Li : i < length (g_nodes (gg s))) by (apply nth_error_Some; congruence). destruct (Mi i Li) as [M1 M2]. rewrite (V i n H) in M1, M2. rewrite (V b v Eb) in M2. split; [assumption|]. intro Hne. apply M2. intros ->. congruence.
  Qed.
  Theorem C199_nearest_neighbor s xs : wf (gg s) -> 2 <= length (g_nodes (gg s)) -> exists l, nearest_neighbor dim argsort sqrtq xs s = GOk l /\
    Forall2 (fun x r => In (fst r) (g_nodes (gg s)) /\ snd r = sqrtq (dist dim (ps s (fst r)) x) /\ forall n, In n (g_nodes (gg s)) -> (dist dim (ps s (fst r)) x <= dist dim (ps s n) x)%Qc) xs l.
  Proof.
    intros W H. pose proof W as ((ND & _) & _). induction xs as [|x xs (l & E & F)]; cbn [nearest_neighbor]; [exists []; split; constructor|].
    destruct (nearest_ok dim argsort (proj1 Hsort) s x (proj1 W) H) as (n0 & n1 & d0 & En & _). rewrite En, E. destruct (C199_nearest s x n0 n1 d0 ND En) as (H1 & _ & _ & -> & H2). eexists. split; [reflexivity|]. constructor; [|assumption]. cbn [fst snd]. split; [assumption|]. split; [reflexivity|]. intros n Hn. now apply H2.
  Qed.

  (** ** NeuralGasNode *)
  Variable perm : nat -> list row -> list row.
  Variable decay : nat -> nat -> Qc.
  Variable lifetime : nat -> nat.
  Notation ng_train := (ng_train dim argsort perm decay lifetime).
  (** several calls: number of epochs and data of each *)
  Fixpoint ng_trains (init : list row) (calls : list (nat * list row)) (epoch : nat) (s : gas) : gas * nat * gres unit :=
    match calls with [] => (s, epoch, GOk tt) | (n, xs) :: calls => match ng_train init n epoch xs s with (s, epoch, GOk _) => ng_trains init calls epoch s | r => r end end.
  Lemma add_ns_ok : forall l s, wf (gg s) -> g_edges (gg s) = [] -> wf (gg (add_ns s l)) /\ g_edges (gg (add_ns s l)) = [] /\ length (g_nodes (gg (add_ns s l))) = length (g_nodes (gg s)) + length l
    /\ forall lo hi, Forall (inbox lo hi) l -> boxed lo hi s -> boxed lo hi (add_ns s l).
  Proof.
    induction l as [|p l IH]; intros s W E; cbn [add_ns]; [cbn [length]; split; [assumption|]; split; [assumption|]; split; [lia|auto]|]. destruct (IH (fst (add_n s p))) as (A & B & C & D); [apply (wf_add_node _ W)|exact E|]. split; [assumption|]. split; [assumption|]. split; [rewrite C; cbn; rewrite app_length; cbn; lia|].
    intros lo hi F Hb. inversion F; subst. apply D; [assumption|]. intros n Hn. cbn in *. unfold upd. destruct (Nat.eqb_spec n (g_next (gg s))); [assumption|]. apply in_app_or in Hn as [Hn|[Hn|[]]]; [now apply Hb|congruence].
  Qed.
  Definition ng_init (poss : list row) : gas := add_ns no_gas poss.
  Lemma ng_init_ok poss : wf (gg (ng_init poss)) /\ g_edges (gg (ng_init poss)) = [] /\ length (g_nodes (gg (ng_init poss))) = length poss /\ forall lo hi, Forall (inbox lo hi) poss -> boxed lo hi (ng_init poss).
  Proof. destruct (add_ns_ok poss no_gas wf_empty eq_refl) as (A & B & C & D). split; [exact A|]. split; [exact B|]. split; [exact C|]. intros lo hi F. apply D; [assumption|]. intros n []. Qed.
  Lemma ng_trains_ok init : forall calls epoch s, wf (gg s) -> 2 <= length (g_nodes (gg s)) -> exists s', ng_trains init calls epoch s = (s', epoch + list_sum (map fst calls), GOk tt) /\ wf (gg s') /\ g_nodes (gg s') = g_nodes (gg s)
    /\ (distinct_ages s -> distinct_ages s')
    /\ ((forall k, lifetime k <= lifetime (k + 1)) -> distinct_ages s -> aged (lifetime (epoch - 1)) s -> aged (lifetime (epoch + list_sum (map fst calls) - 1)) s')
    /\ (forall lo hi, (forall e k, fraction (decay e k)) -> (forall e xs, Permutation (perm e xs) xs) -> Forall (fun c => Forall (inbox lo hi) (snd c)) calls -> boxed lo hi s -> boxed lo hi s').
  Proof.
    induction calls as [|[n xs] calls IH]; intros epoch s W H; cbn [ng_trains map list_sum fold_right fst]. { exists s. rewrite Nat.add_0_r. auto 10. }
    assert (T : ng_train init n epoch xs s = ng_epochs dim argsort perm decay lifetime n epoch xs s) by (unfold NGasModel.ng_train; destruct (g_nodes (gg s)); [cbn in H; lia|reflexivity]). rewrite T.
    destruct (ng_epochs_ok dim argsort (proj1 Hsort) perm decay lifetime n epoch xs s W H) as (s1 & E1 & W1 & N1 & D1 & A1 & B1). rewrite E1.
    destruct (IH (epoch + n) s1 W1 ltac:(now rewrite N1)) as (s' & E & W' & N' & D' & A' & B'). rewrite Nat.add_assoc. fold (list_sum (map fst calls)). exists s'. split; [exact E|]. split; [assumption|]. split; [congruence|]. split; [auto|]. split.
    - intros M Hd Ha. apply A'; auto. destruct n as [|n].
      + cbn in E1. assert (s = s1) as <- by congruence. now rewrite Nat.add_0_r.
      + replace (epoch + S n - 1) with (epoch + (S n - 1)) by lia. apply A1; auto. intros e He. etransitivity; [apply (Ha e He)|]. destruct epoch; [reflexivity|]. replace (S epoch - 1) with epoch by lia. rewrite <- Nat.add_1_r. apply M.
    - intros lo hi K1 K2 K3 K4. inversion K3; subst. apply B'; auto.
  Qed.
  (** C193 *)
  Theorem C193_nodes init poss calls : 2 <= length poss -> exists s, ng_trains init calls 0 (ng_init poss) = (s, list_sum (map fst calls), GOk tt) /\ g_nodes (gg s) = g_nodes (gg (ng_init poss)) /\ length (g_nodes (gg s)) = length poss.
  Proof. intro H. destruct (ng_init_ok poss) as (W & _ & L & _). destruct (ng_trains_ok init calls 0 (ng_init poss) W) as (s & E & _ & N & _); [lia|]. exists s. rewrite N. auto. Qed.
  Theorem C193_random init n xs calls : 2 <= length init -> exists s, ng_trains init ((n, xs) :: calls) 0 no_gas = (s, n + list_sum (map fst calls), GOk tt) /\ length (g_nodes (gg s)) = length init.
  Proof.
    intro H. destruct (C193_nodes init init ((n, xs) :: calls) H) as (s & E & _ & L). exists s. split; [|assumption]. transitivity (ng_trains init ((n, xs) :: calls) 0 (ng_init init)); [|exact E]. cbn [ng_trains]. unfold NGasModel.ng_train. destruct (ng_init_ok init) as (_ & _ & Li & _). cbn [no_gas gg empty g_nodes]. fold (ng_init init). destruct (g_nodes (gg (ng_init init))); [cbn in Li; lia|reflexivity].
  Qed.
  (** C194 *)
  Theorem C194_lifetime init poss calls s ep r : 2 <= length poss -> (forall k, lifetime k <= lifetime (k + 1)) -> ng_trains init calls 0 (ng_init poss) = (s, ep, r) -> forall e, In e (g_edges (gg s)) -> ag s e <= lifetime (ep - 1).
  Proof.
    intros H M E. destruct (ng_init_ok poss) as (W & Ee & L & _). destruct (ng_trains_ok init calls 0 (ng_init poss) W) as (s' & E' & _ & _ & _ & A & _); [lia|]. rewrite E' in E. injection E as <- <- _. apply A; auto.
    - intros e e' He. rewrite Ee in He. destruct He.
    - intros e He. rewrite Ee in He. destruct He.
  Qed.
  (** C195 *)
  Theorem C195_simple init poss calls s ep r : 2 <= length poss -> ng_trains init calls 0 (ng_init poss) = (s, ep, r) ->
    (forall e, In e (g_edges (gg s)) -> In (head_of (gg s) e) (g_nodes (gg s)) /\ In (tail_of (gg s) e) (g_nodes (gg s)) /\ head_of (gg s) e <> tail_of (gg s) e)
    /\ (forall e e' a b, In e (g_edges (gg s)) -> In e' (g_edges (gg s)) -> conn (gg s) e a b -> conn (gg s) e' a b -> e = e')
    /\ (forall e e', In e (g_edges (gg s)) -> In e' (g_edges (gg s)) -> ag s e = ag s e' -> e = e').
  Proof.
    intros H E. destruct (ng_init_ok poss) as (W & Ee & L & _). destruct (ng_trains_ok init calls 0 (ng_init poss) W) as (s' & E' & (Hi & Wl & Ws) & _ & D & _); [lia|]. rewrite E' in E. injection E as <- _ _. split; [|split; [exact Ws|]].
    - intros e He. destruct Hi as (_ & _ & _ & _ & I5 & _). destruct (I5 e He). auto.
    - apply D. intros e e' He. rewrite Ee in He. destruct He.
  Qed.
  (** C196 *)
  Theorem C196_box init poss calls s ep r lo hi : 2 <= length poss -> ng_trains init calls 0 (ng_init poss) = (s, ep, r) -> (forall e k, fraction (decay e k)) -> (forall e xs, Permutation (perm e xs) xs) ->
    Forall (inbox lo hi) poss -> Forall (fun c => Forall (inbox lo hi) (snd c)) calls -> forall n, In n (g_nodes (gg s)) -> inbox lo hi (ps s n).
  Proof. intros H E K1 K2 K3 K4. destruct (ng_init_ok poss) as (W & _ & L & B). destruct (ng_trains_ok init calls 0 (ng_init poss) W) as (s' & E' & _ & _ & _ & _ & Bx); [lia|]. rewrite E' in E. injection E as <- _ _. apply Bx; auto. Qed.
  (** C197: without n_epochs_to_train every call trains max_epochs epochs *)
  Theorem C197_epochs init poss max_epochs datas : 2 <= length poss -> exists s, ng_trains init (map (fun xs => (max_epochs, xs)) datas) 0 (ng_init poss) = (s, length datas * max_epochs, GOk tt).
  Proof.
    intro H. destruct (C193_nodes init poss (map (fun xs => (max_epochs, xs)) datas) H) as (s & E & _). exists s. rewrite E. do 2 f_equal. clear. induction datas as [|x datas IH]; [reflexivity|]. change (max_epochs + list_sum (map fst (map (fun xs => (max_epochs, xs)) datas)) = max_epochs + length datas * max_epochs). now rewrite IH.
  Qed.
End Gas.

(** ** Concrete cases *)
(** insertion sort of positions *)
Definition qle (a b : Qc) : bool := Qle_bool a b.
Fixpoint ins (l : list Qc) (i : nat) (js : list nat) : list nat := match js with [] => [i] | j :: js' => if qle (nth i l 0%Qc) (nth j l 0%Qc) then i :: js else j :: ins l i js' end.
Definition isort (l : list Qc) : list nat := fold_right (ins l) [] (seq 0 (length l)).
Definition imax (l : list Qc) : nat := last (isort l) 0.
Lemma ins_perm l i : forall js, Permutation (ins l i js) (i :: js).
Proof. induction js as [|j js IH]; cbn; [reflexivity|]. destruct (qle _ _); [reflexivity|]. rewrite IH. apply perm_swap. Qed.
Lemma fold_perm l : forall is, Permutation (fold_right (ins l) [] is) is.
Proof. induction is as [|i is IH]; cbn; [reflexivity|]. now rewrite ins_perm, IH. Qed.
Definition before (l : list Qc) (i j : nat) : Prop := (nth i l 0 <= nth j l 0)%Qc.
Lemma ins_sorted l i : forall js, ForallOrdPairs (before l) js -> ForallOrdPairs (before l) (ins l i js).
Proof.
  induction js as [|j js IH]; intro H; cbn; [repeat constructor|]. inversion H as [|? ? H1 H2]; subst. destruct (qle (nth i l 0%Qc) (nth j l 0%Qc)) eqn:E.
  - constructor; [|assumption]. apply Qle_bool_iff in E. constructor; [exact E|]. eapply Forall_impl; [|exact H1]. intros k Hk. exact (Qcle_trans _ _ _ E Hk).
  - constructor; [|auto]. eapply Permutation_Forall; [apply Permutation_sym, ins_perm|]. constructor; [|assumption]. apply Qclt_le_weak, Qcnot_le_lt. intro K. apply Qle_bool_iff in K. unfold qle in E. congruence.
Qed.
Lemma ordered_nth (l : list Qc) : forall js i j, ForallOrdPairs (before l) js -> i < j -> j < length js -> before l (nth i js 0) (nth j js 0).
Proof.
  induction js as [|a js IH]; intros i j H Hij Hj; [cbn in Hj; lia|]. inversion H as [|? ? H1 H2]; subst. destruct j as [|j]; [lia|]. cbn in Hj. destruct i as [|i]; cbn [nth].
  - rewrite Forall_forall in H1. apply H1. apply nth_In. lia.
  - apply IH; auto; lia.
Qed.
Lemma isort_sorts : sorts isort.
Proof.
  split; [intro l; apply fold_perm|]. intros l i j Hij Hj. apply (ordered_nth l (isort l)); [|assumption|].
  - unfold isort. induction (seq 0 (length l)) as [|k ks IH]; cbn; [constructor|]. now apply ins_sorted.
  - unfold isort. rewrite (Permutation_length (fold_perm l (seq 0 (length l)))), seq_length. assumption.
Qed.
Lemma imax_position : position imax.
Proof.
  intros l Hl. destruct (perm_ids isort (proj1 isort_sorts) l) as (_ & H & L). apply H. unfold imax. assert (K : isort l <> []) by (intro K; rewrite K in L; destruct l; [congruence|discriminate]).
  destruct (exists_last K) as (a & b & ->). rewrite last_last. apply in_or_app. right. now left.
Qed.
Definition v (z : Z) : row := fun i => if i =? 0 then Q2Qc (z # 1) else 0%Qc.
Definition h2 : Qc := Q2Qc (1 # 2).
Definition gng_run := gng_trains 1 isort imax (fun q => q) h2 h2 h2 h2 2 2 4.
(** 0 -- 8, then points at both ends: a node is inserted after every second point, at most four *)
Definition ex_run := gng_run [(v 0, v 0, [v 0; v 16; v 16]); (v 0, v 0, [v 1; v 0; v 16; v 2])] 0 (gng_init (Some (v 0, v 8))).
Example ex_C187 : match ex_run with (s, t, r) => (t, r, length (g_nodes (gg s)), length (g_edges (gg s))) end = (7, GOk tt, 4, 3).
Proof. vm_compute. reflexivity. Qed.
Definition show (s : gas) := (map (fun n => (n, this (ps s n 0))) (g_nodes (gg s)), map (fun e => (head_of (gg s) e, tail_of (gg s) e, ag s e)) (g_edges (gg s))).
(** from two random nodes; node 0 loses its last edge and is removed, node 3 is inserted afterwards *)
Definition drops := gng_trains 1 isort imax (fun q => q) h2 0 h2 h2 0 2 3 [(v 0, v 8, [v 0; v 8]); (v 1, v 1, [v 5; v 7])] 0 (gng_init None).
Example ex_C188 : match drops with (s, t, r) => (t, r, show s) end = (4, GOk tt, ([(1, 15 # 2); (2, 9 # 2); (3, 6 # 1)], [(1, 3, 0); (2, 3, 0)])).
Proof. vm_compute. reflexivity. Qed.
Example ex_C198 : match gng_run [(v 0, v 0, [v 0; v 16; v 16; v 1; v 0; v 16; v 2])] 0 (gng_init (Some (v 0, v 8))), ex_run with (s, t, r), (s', t', r') => (show s, t, r) = (show s', t', r') end.
Proof. vm_compute. reflexivity. Qed.
Example ex_C199 : nearest_neighbor 1 isort (fun q => q) [v 1; v 6] (start (v 0) (v 8)) = GOk [(0, Q2Qc 1); (1, Q2Qc 4)].
Proof. vm_compute. reflexivity. Qed.
(** the positions of the run above are between 0 and 16 *)
Example ex_C191 : match ex_run with (s, _, _) => forallb (fun n => Qle_bool 0 (this (ps s n 0)) && Qle_bool (this (ps s n 0)) (16 # 1)) (g_nodes (gg s)) end = true.
Proof. vm_compute. reflexivity. Qed.

(** C192: training changes the array the caller passed as start position *)
Theorem C192_start_refuted : exists p q x, match gng_run [(v 0, v 0, [x])] 0 (gng_init (Some (p, q))) with (s, _, r) => r = GOk tt /\ caller_start true p s 0 <> p 0 end.
Proof. exists (v 0), (v 8), (v 4). vm_compute. split; [reflexivity|]. intro H. discriminate H. Qed.
Theorem C192_cast p s : caller_start false p s = p.
Proof. reflexivity. Qed.

Definition ng_run (T : nat -> nat) (poss : list row) (calls : list (nat * list row)) := ng_trains 1 isort (fun _ xs => xs) (fun _ k => if k =? 0 then h2 else 0%Qc) T [] calls 0 (ng_init poss).
(** C193: with one node, IndexError after the node has been moved *)
Theorem C193_one_refuted : exists p x, match ng_run (fun _ => 5) [p] [(1, [x])] with (s, _, r) => r = GErr GIndexError /\ ps s 0 0 <> p 0 end.
Proof. exists (v 0), (v 4). vm_compute. split; [reflexivity|]. intro H. discriminate H. Qed.
Example ex_C193 : match ng_run (fun _ => 5) [v 0; v 4; v 8; v 12] [(1, [v 0; v 4; v 8; v 12; v 4])] with (s, ep, r) => (ep, r, show s) end
  = (1, GOk tt, ([(0, 0 # 1); (1, 4 # 1); (2, 8 # 1); (3, 12 # 1)], [(0, 1, 0); (2, 1, 2); (3, 2, 1)])).
Proof. vm_compute. reflexivity. Qed.
(** C194: the lifetime decreases from 9 to 0; two neighbouring edges in the list are too old, the second one stays *)
Theorem C194_lifetime_refuted : exists T poss calls, match ng_run T poss calls with (s, ep, r) => r = GOk tt /\ exists e, In e (g_edges (gg s)) /\ T (ep - 1) < ag s e end.
Proof.
  exists (fun e => if e =? 0 then 9 else 0), [v 0; v 4; v 8; v 12], [(1, [v 0; v 4; v 8; v 12; v 4]); (1, [v 4])].
  vm_compute. split; [reflexivity|]. exists 2. split; [right; now left|]. repeat constructor.
Qed.
(** C197: the default trains max_epochs in every call *)
Theorem C197_max_epochs_refuted : exists max_epochs xs, match ng_run (fun _ => 5) [v 0; v 4] [(max_epochs, xs); (max_epochs, xs)] with (_, ep, r) => r = GOk tt /\ max_epochs < ep end.
Proof. exists 1, [v 1]. vm_compute. split; [reflexivity|]. repeat constructor. Qed.
