(** Properties of the covariance classes and of some routines (C37-C41, C116-C121). *)
From Coq Require Import List Arith QArith Qcanon Bool Lia Ring_theory.
From Verif Require Import CovModel CovProofs.
Import ListNotations.
Open Scope Qc_scope.

(** C37: fix returns the covariance (or the second moments) and the mean of all rows given to update, whatever the chunks were, and resets *)
Theorem C37_covariance : forall (bias center : bool) chunks, let xs := concat chunks in
  (if bias then 1 <= length xs else 2 <= length xs)%nat ->
  exists m a, cov_fix bias center (fold_left cov_update chunks cov_init) = (cov_init, Some (m, a, length xs)) /\
    (forall i j, m i j = (if center then codev (self_pairs xs) i j else moment (self_pairs xs) i j) / norm bias (length xs)) /\
    (forall i, a i = mean xs i).
Proof.
  intros bias center chunks xs Hn.
  assert (Hne : chunks <> []) by (intros ->; cbn in Hn; destruct bias; lia).
  destruct (cov_rep_chunks chunks cov_init []) as [[Ht Ha] Hs]; [split; reflexivity|now right|].
  cbn [app] in *. fold xs in Ht, Ha. unfold cov_fix. destruct (c_acc _) as [[m a]|]; [|congruence]. destruct Ha as [Hm Ha]. rewrite Ht.
  destruct (norm_pos bias (length xs) Hn) as [H1 H2]. unfold norm in H1.
  eexists _, _. split; [reflexivity|]. split; intros; [|rewrite Ha; reflexivity].
  unfold norm. set (d := if bias then qn (length xs) else qn (length xs) - 1) in *.
  destruct center; rewrite Hm; [|reflexivity].
  rewrite codev_moment, fst_self, snd_self.
  - unfold outer. rewrite !Ha. replace (length (self_pairs xs)) with (length xs) by (symmetry; apply map_length). field. auto.
  - unfold self_pairs. destruct xs; [cbn in Hn; destruct bias; lia|discriminate].
Qed.
(** two ways of cutting the same data into chunks *)
Theorem C37_chunking : forall (bias center : bool) ch1 ch2, concat ch1 = concat ch2 -> (if bias then 1 <= length (concat ch1) else 2 <= length (concat ch1))%nat ->
  exists m1 a1 m2 a2 n, snd (cov_fix bias center (fold_left cov_update ch1 cov_init)) = Some (m1, a1, n) /\
    snd (cov_fix bias center (fold_left cov_update ch2 cov_init)) = Some (m2, a2, n) /\ (forall i j, m1 i j = m2 i j) /\ (forall i, a1 i = a2 i).
Proof.
  intros bias center ch1 ch2 E H. destruct (C37_covariance bias center ch1 H) as (m1 & a1 & E1 & M1 & A1).
  rewrite E in H. destruct (C37_covariance bias center ch2 H) as (m2 & a2 & E2 & M2 & A2). rewrite E in *.
  exists m1, a1, m2, a2, (length (concat ch2)). rewrite E1, E2. repeat split; intros; [now rewrite M1, M2|now rewrite A1, A2].
Qed.
Definition r2 (a b : Z) : row := fun i => match i with O => Q2Qc (inject_Z a) | _ => Q2Qc (inject_Z b) end.
Example C37_example : match snd (cov_fix false true (fold_left cov_update [[r2 1 2]; []; [r2 3 6; r2 5 1]] cov_init)) with
                      | Some (m, a, n) => (this (m 0 0), this (m 0 1), this (m 1 1), this (a 0), n)%nat = (4, -1, 7, 3, 3%nat)%Q
                      | None => False end.
Proof. reflexivity. Qed.

(** C38: the lagged covariance over all pairs (x(t), x(t+dt)) inside the chunks; no pair crosses a chunk boundary *)
Fixpoint dcov_updates (dt : nat) (s : dcov) (chunks : list (list row)) : dcov * bool :=
  match chunks with [] => (s, true) | x :: r => match dcov_update dt s x with (s, true) => dcov_updates dt s r | (s, false) => (s, false) end end.
Lemma dcov_chunks dt chunks : forall s ps, dcov_rep s ps -> Forall (fun x => dt < length x)%nat chunks -> (d_acc s <> None \/ chunks <> []) ->
  exists s', dcov_updates dt s chunks = (s', true) /\ dcov_rep s' (ps ++ concat (map (lag_pairs dt) chunks)) /\ d_acc s' <> None.
Proof.
  induction chunks as [|x chunks IH]; intros s ps H Hf Hc; cbn [dcov_updates map concat].
  - exists s. rewrite app_nil_r. destruct Hc; [auto|congruence].
  - inversion Hf; subst. destruct (dcov_rep_update dt s ps x) as (s1 & E & R & N); auto. rewrite E, app_assoc. apply IH; auto.
Qed.
Theorem C38_delay_covariance : forall (bias : bool) dt chunks, let ps := concat (map (lag_pairs dt) chunks) in
  chunks <> [] -> Forall (fun x => dt < length x)%nat chunks -> (if bias then 1 <= length ps else 2 <= length ps)%nat ->
  exists s m a b, dcov_updates dt dcov_init chunks = (s, true) /\ dcov_fix bias None s = (dcov_init, Some (m, a, b, length ps)) /\
    (forall i j, m i j = codev ps i j / norm bias (length ps)) /\ (forall i, a i = mean (map fst ps) i) /\ (forall i, b i = mean (map snd ps) i).
Proof.
  intros bias dt chunks ps Hne Hf Hn. destruct (dcov_chunks dt chunks dcov_init []) as (s & E & [Ht Ha] & Hs); auto; [split; reflexivity|].
  cbn [app] in *. fold ps in Ht, Ha. unfold dcov_fix. destruct (d_acc s) as [[[m a] b]|] eqn:Ed; [|congruence]. destruct Ha as (Hm & Ha & Hb).
  destruct (norm_pos bias (length ps) Hn) as [H1 H2]. unfold norm in *.
  exists s. rewrite Ed, Ht. eexists _, _, _. split; [exact E|]. split; [reflexivity|].
  set (d := if bias then qn (length ps) else qn (length ps) - 1) in *.
  split; [|split]; intros.
  - rewrite codev_moment by (destruct ps; [cbn in Hn; destruct bias; lia|discriminate]). unfold outer. now rewrite Hm, Ha, Hb.
  - unfold mean. now rewrite Ha, map_length.
  - unfold mean. now rewrite Hb, map_length.
Qed.
(** the pairs of a chunk are what they should be *)
Theorem C38_pairs : forall dt x t d, (t + dt < length x)%nat -> nth t (lag_pairs dt x) (d, d) = (nth t x d, nth (t + dt) x d).
Proof.
  intros dt x t d H. unfold lag_pairs. revert dt t H. induction x as [|a x IH]; intros dt t H; cbn [length] in H; [lia|].
  assert (Hs : forall (l : list row) k dt, nth k (skipn dt l) d = nth (k + dt)%nat l d).
  { clear. induction l as [|b l IH]; intros k [|dt]; cbn; rewrite ?Nat.add_0_r; auto; [now destruct k|].
    rewrite IH. now replace (k + S dt)%nat with (S (k + dt)) by lia. }
  assert (Hc : forall (l k : list row) t, (t < length l)%nat -> (t < length k)%nat -> nth t (combine l k) (d, d) = (nth t l d, nth t k d)).
  { clear. induction l as [|b l IH]; intros [|c k] [|t] H1 H2; cbn in *; try lia; auto. apply IH; lia. }
  rewrite Hc, Hs; auto; [cbn [length]; lia|rewrite skipn_length; cbn [length]; lia].
Qed.
(** a block that is too short raises and adds nothing to the statistics *)
Theorem C38_short_block : forall dt s x, (length x <= dt)%nat -> snd (dcov_update dt s x) = false /\ d_tlen (fst (dcov_update dt s x)) = d_tlen s /\
  (forall p, d_acc s = Some p -> d_acc (fst (dcov_update dt s x)) = Some p).
Proof.
  intros dt s x H. unfold dcov_update. destruct (d_acc s) as [[[m a] b]|] eqn:E;
    (replace (length x <? dt + 1)%nat with true by (symmetry; apply Nat.ltb_lt; lia)); cbn; repeat split; auto; discriminate.
Qed.
(** dt = 0: the result of CovarianceMatrix *)
Theorem C38_no_delay : forall (bias : bool) chunks, chunks <> [] -> Forall (fun x => x <> []) chunks -> (if bias then 1 <= length (concat chunks) else 2 <= length (concat chunks))%nat ->
  exists s m a b m' a' n, dcov_updates 0 dcov_init chunks = (s, true) /\ snd (dcov_fix bias None s) = Some (m, a, b, n) /\
    snd (cov_fix bias true (fold_left cov_update chunks cov_init)) = Some (m', a', n) /\
    (forall i j, m i j = m' i j) /\ (forall i, a i = a' i) /\ (forall i, b i = a' i).
Proof.
  intros bias chunks Hne Hf Hn.
  assert (Hp : concat (map (lag_pairs 0) chunks) = self_pairs (concat chunks)).
  { clear. induction chunks as [|x chunks IH]; [reflexivity|]. cbn [map concat]. rewrite IH. unfold self_pairs. rewrite map_app. f_equal.
    unfold lag_pairs. cbn [skipn]. induction x as [|r x IHx]; cbn; [reflexivity|]. now rewrite IHx. }
  assert (Hl : length (concat (map (lag_pairs 0) chunks)) = length (concat chunks)) by (rewrite Hp; apply map_length).
  destruct (C38_delay_covariance bias 0 chunks) as (s & m & a & b & E & F & M & A & B); auto.
  - eapply Forall_impl; [|exact Hf]. cbn. intros x Hx. destruct x; [congruence|cbn; lia].
  - rewrite Hl. exact Hn.
  - destruct (C37_covariance bias true chunks Hn) as (m' & a' & E' & M' & A').
    exists s, m, a, b, m', a', (length (concat chunks)). rewrite F, E'. cbn [snd]. rewrite Hl in *. rewrite Hp in *.
    repeat split; intros; auto.
    + now rewrite M, M'.
    + now rewrite A, A', fst_self.
    + now rewrite B, A', snd_self.
Qed.
Example C38_example : match dcov_updates 1 dcov_init [[r2 1 2; r2 3 6; r2 5 1]; [r2 0 0; r2 1 1]] with
  | (s, true) => match snd (dcov_fix false None s) with Some (m, a, b, n) => (this (m 0 0), this (m 0 1), this (a 0), this (b 1), n)%nat = (3, -(5 # 6), 4 # 3, 8 # 3, 3%nat)%Q | None => False end
  | _ => False end.
Proof. reflexivity. Qed.

(** C39: the covariance between the two signals *)
Fixpoint xcov_updates (s : xcov) (chunks : list (list row * list row)) : xcov * bool :=
  match chunks with [] => (s, true) | (x, y) :: r => match xcov_update s x y with (s, true) => xcov_updates s r | (s, false) => (s, false) end end.
Lemma xcov_chunks chunks : forall s ps, xcov_rep s ps -> Forall (fun c => length (fst c) = length (snd c)) chunks -> (x_acc s <> None \/ chunks <> []) ->
  exists s', xcov_updates s chunks = (s', true) /\ xcov_rep s' (ps ++ combine (concat (map fst chunks)) (concat (map snd chunks))) /\ x_acc s' <> None.
Proof.
  induction chunks as [|[x y] chunks IH]; intros s ps H Hf Hc; cbn [xcov_updates map concat fst snd].
  - exists s. cbn. rewrite app_nil_r. destruct Hc; [auto|congruence].
  - inversion Hf as [|? ? Hl Hf']; subst. cbn in Hl. destruct (xcov_rep_update s ps x y) as (s1 & E & R & N); auto. rewrite E.
    assert (Hcomb : forall (a b : list row) c d, length a = length b -> combine (a ++ c) (b ++ d) = combine a b ++ combine c d).
    { clear. induction a as [|u a IH]; intros [|v b] c d H; cbn in *; try lia; [reflexivity|]. f_equal. apply IH. lia. }
    rewrite Hcomb, app_assoc by exact Hl. apply IH; auto.
Qed.
Theorem C39_cross_covariance : forall (bias : bool) chunks, let xs := concat (map fst chunks) in let ys := concat (map snd chunks) in
  Forall (fun c => length (fst c) = length (snd c)) chunks -> (if bias then 1 <= length xs else 2 <= length xs)%nat ->
  exists s m a b, xcov_updates xcov_init chunks = (s, true) /\ xcov_fix bias s = (xcov_init, Some (m, a, b, length xs)) /\
    (forall i j, m i j = codev (combine xs ys) i j / norm bias (length xs)) /\ (forall i, a i = mean xs i) /\ (forall i, b i = mean ys i).
Proof.
  intros bias chunks xs ys Hf Hn. destruct (xcov_chunks chunks xcov_init []) as (s & E & [Ht Ha] & Hs); auto.
  { split; reflexivity. }
  { right. intros ->. cbn in Hn. destruct bias; lia. }
  assert (Hl : length xs = length ys).
  { unfold xs, ys. clear - Hf. induction Hf as [|c l Hc Hf IH]; cbn; [reflexivity|]. rewrite !app_length. lia. }
  cbn [app] in *. fold xs ys in Ht, Ha. unfold xcov_fix. destruct (x_acc s) as [[[m a] b]|] eqn:Ed; [|congruence]. destruct Ha as (Hm & Ha & Hb).
  rewrite combine_length, <- Hl, Nat.min_id in Ht.
  destruct (norm_pos bias (length xs) Hn) as [H1 H2]. unfold norm in *.
  exists s. rewrite Ed, Ht. eexists _, _, _. split; [exact E|]. split; [reflexivity|].
  rewrite fst_comb in Ha by exact Hl. rewrite snd_comb in Hb by exact Hl.
  set (d := if bias then qn (length xs) else qn (length xs) - 1) in *.
  split; [|split]; intros.
  - rewrite codev_moment, fst_comb, snd_comb, combine_length, <- Hl, Nat.min_id by first [exact Hl|destruct xs, ys; cbn in *; destruct bias; try lia; discriminate].
    unfold outer. rewrite Hm, Ha, Hb. field. auto.
  - unfold mean. now rewrite Ha.
  - unfold mean. now rewrite Hb, Hl.
Qed.
Theorem C39_mismatch : forall s x y, length x <> length y -> xcov_update s x y = (s, false).
Proof. intros s x y H. unfold xcov_update. now rewrite (proj2 (Nat.eqb_neq _ _) H). Qed.
Example C39_example : match xcov_updates xcov_init [([r2 1 2], [r2 4 0]); ([r2 3 6; r2 5 1], [r2 6 0; r2 8 3])] with
  | (s, true) => match snd (xcov_fix false s) with Some (m, a, b, n) => (this (m 0 0), this (m 1 1), this (a 1), this (b 0), n)%nat = (4, -3, 3, 6, 3%nat)%Q | None => False end
  | _ => False end.
Proof. reflexivity. Qed.

(** C116: DelayCovarianceMatrix.fix(A) is the lagged covariance of the transformed signal A x *)
Definition apply (k : nat) (A : mat) (x : row) : row := fun i => qsum (map (fun l => A i l * x l) (seq 0 k)).
Lemma apply_dev k A (x u : row) i : apply k A x i - apply k A u i = apply k A (fun l => x l - u l) i.
Proof.
  unfold apply. induction (seq 0 k) as [|l ls IH]; cbn; [ring|]. rewrite <- IH. ring.
Qed.
Lemma mean_apply k A xs i : mean (map (apply k A) xs) i = apply k A (mean xs) i.
Proof.
  unfold mean, apply. rewrite map_map, map_length.
  rewrite (qsum_swap (fun (x : row) l => A i l * x l)). unfold Qcdiv. rewrite <- qsum_map_mulr. apply qsum_ext. intro l.
  rewrite qsum_map_mul. ring.
Qed.
Lemma codev_apply k A ps i j : codev (map (fun p => (apply k A (fst p), apply k A (snd p))) ps) i j = mmult k A (mmult k (codev ps) (fun i j => A j i)) i j.
Proof.
  unfold codev. rewrite !map_map. cbn [fst snd].
  assert (E1 : forall l, map (fun x : row * row => apply k A (fst x)) l = map (apply k A) (map fst l)) by (intro; now rewrite map_map).
  assert (E2 : forall l, map (fun x : row * row => apply k A (snd x)) l = map (apply k A) (map snd l)) by (intro; now rewrite map_map).
  rewrite E1, E2. set (mx := mean (map fst ps)). set (my := mean (map snd ps)).
  transitivity (qsum (map (fun p : row * row => apply k A (fun l => fst p l - mx l) i * apply k A (fun l => snd p l - my l) j) ps)).
  { apply qsum_ext. intro p. rewrite !mean_apply, !apply_dev. reflexivity. }
  unfold mmult.
  transitivity (qsum (map (fun a => qsum (map (fun p : row * row => A i a * (fst p a - mx a) * apply k A (fun l => snd p l - my l) j) ps)) (seq 0 k))).
  { rewrite <- (qsum_swap (fun (p : row * row) a => A i a * (fst p a - mx a) * apply k A (fun l => snd p l - my l) j)). apply qsum_ext. intro p.
    unfold apply at 1. now rewrite <- qsum_map_mulr. }
  apply qsum_ext. intro a. rewrite <- qsum_map_mul.
  transitivity (qsum (map (fun b => qsum (map (fun p : row * row => A i a * (fst p a - mx a) * (A j b * (snd p b - my b))) ps)) (seq 0 k))).
  { rewrite <- (qsum_swap (fun (p : row * row) b => A i a * (fst p a - mx a) * (A j b * (snd p b - my b)))). apply qsum_ext. intro p.
    unfold apply. now rewrite <- qsum_map_mul. }
  apply qsum_ext. intro b.
  rewrite <- qsum_map_mulr, <- qsum_map_mul. apply qsum_ext. intro p. ring.
Qed.
Theorem C116_transformed : forall (bias : bool) dt k A chunks, let ps := concat (map (lag_pairs dt) chunks) in
  chunks <> [] -> Forall (fun x => dt < length x)%nat chunks -> (if bias then 1 <= length ps else 2 <= length ps)%nat ->
  exists s m a b, dcov_updates dt dcov_init chunks = (s, true) /\ snd (dcov_fix bias (Some (k, A)) s) = Some (m, a, b, length ps) /\
    forall i j, m i j = codev (map (fun p => (apply k A (fst p), apply k A (snd p))) ps) i j / norm bias (length ps).
Proof.
  intros bias dt k A chunks ps Hne Hf Hn. destruct (C38_delay_covariance bias dt chunks Hne Hf Hn) as (s & m & a & b & E & F & M & _).
  fold ps in F, M. unfold dcov_fix in *. destruct (d_acc s) as [[[m0 a0] b0]|] eqn:Ed; [|discriminate].
  injection F as F1 F2 F3 F4. exists s. eexists _, _, _. split; [exact E|]. split; [rewrite Ed, F4; reflexivity|].
  intros i j. rewrite codev_apply. unfold mmult, Qcdiv. rewrite <- qsum_map_mulr. apply qsum_ext. intro l.
  transitivity (A i l * (qsum (map (fun l0 : nat => codev ps l l0 * A j l0) (seq 0 k)) * / norm bias (length ps))); [|ring].
  f_equal. rewrite <- qsum_map_mulr. apply qsum_ext. intro l0.
  transitivity (m l l0 * A j l0); [rewrite <- F1, <- F4; reflexivity|]. rewrite M. unfold Qcdiv. ring.
Qed.

(** C117: VartimeCovarianceMatrix with connected chunks (time_dep=True, increments given): the moments of the trapezoid rule over the whole
    sequence.  The first chunk comes with one increment less than rows; the others, of at least two rows, with as many as rows *)
Fixpoint vcov_updates (td : bool) (s : vcov) (chunks : list (list row * delta)) : vcov * vres :=
  match chunks with [] => (s, VOk) | (x, d) :: r => match vcov_update s x d td with (s, VOk) => vcov_updates td s r | (s, VRaise) => (s, VRaise) end end.
(** textbook: mean and covariance of a function sampled at [xs] with increments [ds] *)
Definition trap_len (xs : list row) (ds : list Qc) : Qc := qsum (map fst (segs xs ds)).
Definition trap_mean (xs : list row) (ds : list Qc) : row := fun i =>
  qsum (map (fun p : Qc * (row * row) => fst p * ((fst (snd p) i + snd (snd p) i) / qn 2)) (segs xs ds)) / trap_len xs ds.
Definition trap_cov (u : row) (xs : list row) (ds : list Qc) : mat := fun i j =>
  qsum (map (fun p : Qc * (row * row) => fst p * (((fst (snd p) i - u i) * (fst (snd p) j - u j) + (snd (snd p) i - u i) * (snd (snd p) j - u j)) / qn 2)) (segs xs ds)) / trap_len xs ds.
Lemma trap_mean_seg xs ds i : trap_mean xs ds i = seg1 (segs xs ds) i / seg0 (segs xs ds).
Proof.
  unfold trap_mean, trap_len, seg1, seg0. f_equal. unfold Qcdiv. rewrite <- qsum_map_mulr. apply qsum_ext. intro p. ring.
Qed.
Lemma trap_cov_seg u xs ds i j : trap_len xs ds <> 0 -> trap_cov u xs ds i j
  = (seg2 (segs xs ds) i j - u i * seg1 (segs xs ds) j - u j * seg1 (segs xs ds) i + seg0 (segs xs ds) * (u i * u j)) / seg0 (segs xs ds).
Proof.
  intro H. unfold trap_cov, trap_len, seg1, seg2, seg0 in *. f_equal. clear H. induction (segs xs ds) as [|p l IH]; cbn [map qsum].
  - field. apply two_pos.
  - rewrite IH. pose proof two_pos as H2. change (qn 2) with (1 + (1 + 0)) in *. field. exact H2.
Qed.
Lemma vcov_seq rest : forall s l z, vcov_rep s l z ->
  Forall (fun c : list row * (Qc * list Qc) => 2 <= length (fst c) /\ length (snd (snd c)) = length (fst c) - 1)%nat rest ->
  forall xs ds, xs <> [] -> length ds = (length xs - 1)%nat -> l = segs xs ds -> z = last xs zero_row ->
  exists s', vcov_updates true s (map (fun c => (fst c, DArr (fst (snd c) :: snd (snd c)))) rest) = (s', VOk) /\
    let xs' := xs ++ concat (map fst rest) in let ds' := ds ++ concat (map (fun c => fst (snd c) :: snd (snd c)) rest) in
    length ds' = (length xs' - 1)%nat /\ vcov_rep s' (segs xs' ds') (last xs' zero_row).
Proof.
  induction rest as [|[x [d ws]] rest IH]; intros s l z Hr Hf xs ds Hx Hl -> ->; cbn [map concat vcov_updates fst snd].
  - exists s. rewrite !app_nil_r. auto.
  - inversion Hf as [|? ? [H2 Hw] Hf']; subst. cbn [fst snd] in *.
    assert (Hxne : x <> []) by (destruct x; [cbn in H2; lia|discriminate]).
    destruct (vcov_next s _ _ x (DArr (d :: ws)) (Some d) ws true Hr Hxne) as (s1 & E & _ & R1); auto.
    rewrite E. cbn [app] in R1. rewrite <- segs_app in R1 by assumption.
    destruct (IH s1 _ _ R1 Hf' (xs ++ x) (ds ++ d :: ws)) as (s' & E' & H'); auto.
    + destruct xs; [congruence|discriminate].
    + rewrite !app_length. cbn [length]. destruct xs; [congruence|]. cbn [length] in *. lia.
    + destruct x as [|y x]; [congruence|]. clear. induction xs as [|a xs IH]; [reflexivity|].
      change ((a :: xs) ++ y :: x) with (a :: (xs ++ y :: x)). cbn [last]. destruct xs as [|b xs]; [reflexivity|]. cbn [app] in *. exact IH.
    + exists s'. split; [exact E'|]. change (d :: ws ++ ?l) with ((d :: ws) ++ l). cbn zeta in H'. rewrite <- !app_assoc in H'. exact H'.
Qed.
Theorem C117_trapezoid : forall (center : bool) x1 ds1 rest,
  let xs := x1 ++ concat (map fst rest) in let ds := ds1 ++ concat (map (fun c => fst (snd c) :: snd (snd c)) rest) in
  x1 <> [] -> length ds1 = (length x1 - 1)%nat ->
  Forall (fun c : list row * (Qc * list Qc) => 2 <= length (fst c) /\ length (snd (snd c)) = length (fst c) - 1)%nat rest ->
  trap_len xs ds <> 0 ->
  exists s m a, vcov_updates true vcov_init ((x1, DArr ds1) :: map (fun c => (fst c, DArr (fst (snd c) :: snd (snd c)))) rest) = (s, VOk) /\
    snd (vcov_fix center s) = Some (m, a, trap_len xs ds) /\ (forall i, a i = trap_mean xs ds i) /\
    (forall i j, m i j = trap_cov (if center then trap_mean xs ds else zero_row) xs ds i j).
Proof.
  intros center x1 ds1 rest xs ds Hx1 Hl Hf HT.
  destruct (vcov_first vcov_init x1 (DArr ds1) ds1 true) as (s1 & E1 & R1 & _); auto.
  destruct (vcov_seq rest s1 _ _ R1 Hf x1 ds1) as (s & E & Hlen & Ht & _ & _ & Hacc); auto.
  fold xs ds in Ht, Hacc. cbn [vcov_updates]. rewrite E1. exists s.
  unfold vcov_fix. destruct (v_acc s) as [[m a]|]; [|destruct Hacc]. destruct Hacc as [Hm Ha]. cbn [snd].
  eexists _, _. split; [exact E|]. split; [rewrite Ht; reflexivity|]. split.
  - intro i. now rewrite trap_mean_seg, Ha.
  - intros i j. rewrite trap_cov_seg by exact HT. unfold trap_len in HT. fold (seg0 (segs xs ds)) in HT.
    destruct center; rewrite ?trap_mean_seg, Hm, ?Ht; unfold outer; rewrite ?Ha; unfold zero_row; field; exact HT.
Qed.
Example C117_example :
  match vcov_updates true vcov_init [([r2 0 0; r2 2 1], DArr [1]); ([r2 4 1; r2 0 3], DArr [1 + 1; 1])] with
  | (s, VOk) => match snd (vcov_fix true s) with Some (m, a, t) => (this t, this (a 0), this (a 1), this (m 0 0)) = (4, 9 # 4, 9 # 8, 39 # 16)%Q | None => False end%nat
  | _ => False end.
Proof. reflexivity. Qed.
(** C118 (refuted): fix resets the object: using it again gives what a new object gives *)
Theorem C118_vartime_reset_refuted : exists s x y, let (s1, _) := vcov_update vcov_init x DNone true in let (s2, _) := vcov_fix true s1 in
  s = s2 /\ v_tlen (fst (vcov_update s y DNone true)) <> v_tlen (fst (vcov_update vcov_init y DNone true)).
Proof. eexists _, [r2 1 1; r2 2 2], [r2 3 3; r2 4 4]. split; [reflexivity|]. vm_compute. discriminate. Qed.
(** What does hold: fix resets CovarianceMatrix, DelayCovarianceMatrix and CrossCovarianceMatrix; of VartimeCovarianceMatrix it resets the sums *)
Theorem C118_reset : (forall b c s, c_acc s <> None -> fst (cov_fix b c s) = cov_init) /\ (forall b A s, d_acc s <> None -> fst (dcov_fix b A s) = dcov_init) /\
  (forall b s, x_acc s <> None -> fst (xcov_fix b s) = xcov_init) /\
  (forall c s, v_acc s <> None -> v_acc (fst (vcov_fix c s)) = None /\ v_tlen (fst (vcov_fix c s)) = 0).
Proof.
  repeat split.
  - intros b c s H. unfold cov_fix. destruct (c_acc s) as [[m a]|]; [reflexivity|congruence].
  - intros b A s H. unfold dcov_fix. destruct (d_acc s) as [[[m a] b']|]; [reflexivity|congruence].
  - intros b s H. unfold xcov_fix. destruct (x_acc s) as [[[m a] b']|]; [reflexivity|congruence].
  - unfold vcov_fix. destruct (v_acc s) as [[m a]|]; [reflexivity|congruence].
  - unfold vcov_fix. destruct (v_acc s) as [[m a]|]; [reflexivity|congruence].
Qed.
(** C119 (refuted): chunks of one row may be used with connected chunks: the length is the sum of the increments *)
Theorem C119_one_row_refuted : exists x1 d1 x2 d2, length x2 = 1%nat /\ length d2 = 1%nat /\
  let (s, o) := vcov_updates true vcov_init [(x1, DArr d1); (x2, DArr d2)] in o = VOk /\ v_tlen s <> qsum (d1 ++ d2).
Proof. exists [r2 1 1; r2 2 2], [1], [r2 3 3], [1]. vm_compute. repeat split; discriminate. Qed.

(** C41 (refuted): cov2 is the covariance *)
Theorem C41_cov2_refuted : exists xs, length xs = 2%nat /\ cov2 xs xs 0%nat 0%nat <> codev (self_pairs xs) 0%nat 0%nat / (qn 2 - 1).
Proof. exists [r2 1 0; r2 1 0]. vm_compute. split; [reflexivity|discriminate]. Qed.
(** What does hold: it is off by the product of the means divided by n-1; so it is right for signals with zero mean *)
Theorem C41_cov2 : forall xs ys i j, length xs = length ys -> (2 <= length xs)%nat ->
  cov2 xs ys i j = codev (combine xs ys) i j / norm false (length xs) + mean xs i * mean ys j / norm false (length xs).
Proof.
  intros xs ys i j Hl Hn. destruct (norm_pos false (length xs) Hn) as [H1 H2]. unfold norm in *.
  rewrite codev_moment by (destruct xs, ys; cbn in *; try lia; discriminate).
  rewrite fst_comb, snd_comb, combine_length, <- Hl, Nat.min_id by exact Hl.
  unfold cov2, outer, mean. rewrite <- Hl. fold (colsum xs i) (colsum ys j). change (tmult xs ys i j) with (moment (combine xs ys) i j).
  field. auto.
Qed.

(** ** Rotations *)
Section Ring.
  Variables (F : Type) (zero one : F) (add mul sub : F -> F -> F) (opp : F -> F).
  Hypothesis Rth : ring_theory zero one add mul sub opp eq.
  Add Ring Fring : Rth.
  Local Notation fmat := (fmat F).
  Local Notation fsum := (fsum F zero add).
  Local Notation fmult := (fmult F zero add mul).
  Local Notation rot_cols := (rot_cols F add mul sub).
  Local Notation rot_rows := (rot_rows F add mul sub).
  Local Notation cov_rotate := (cov_rotate F add mul sub).
  Local Notation givens := (givens F zero one opp).

  Lemma fsum_add {A} (f g : A -> F) l : fsum (map (fun k => add (f k) (g k)) l) = add (fsum (map f l)) (fsum (map g l)).
  Proof. unfold CovModel.fsum. induction l as [|a l IH]; cbn [map fold_right]; [ring|]. rewrite IH. ring. Qed.
  Lemma fsum_lin {A} (c : F) (f : A -> F) l : fsum (map (fun k => mul c (f k)) l) = mul c (fsum (map f l)).
  Proof. unfold CovModel.fsum. induction l as [|a l IH]; cbn [map fold_right]; [ring|]. rewrite IH. ring. Qed.
  Lemma fsum_ext {A} (f g : A -> F) l : (forall x, f x = g x) -> fsum (map f l) = fsum (map g l).
  Proof. intro H. unfold CovModel.fsum. induction l as [|a l IH]; cbn [map fold_right]; [reflexivity|]. now rewrite H, IH. Qed.
  Lemma fsum_pick (g : nat -> F) i : forall n a, (a <= i < a + n)%nat -> fsum (map (fun k => if (k =? i)%nat then g k else zero) (seq a n)) = g i.
  Proof.
    unfold CovModel.fsum. induction n as [|n IH]; intros a H; [lia|]. cbn [seq map fold_right]. destruct (Nat.eqb_spec a i) as [->|Hne].
    - replace (fold_right add zero (map (fun k => if (k =? i)%nat then g k else zero) (seq (S i) n))) with zero; [ring|].
      symmetry. assert (G : forall n b, (i < b)%nat -> fold_right add zero (map (fun k => if (k =? i)%nat then g k else zero) (seq b n)) = zero).
      { clear - Rth. induction n as [|n IH]; intros b Hb; cbn; [reflexivity|]. rewrite IH by lia. destruct (Nat.eqb_spec b i); [lia|]. ring. }
      apply G. lia.
    - rewrite IH by lia. ring.
  Qed.
  Lemma givens_row (c s : F) i j d a (f : nat -> F) : i <> j -> (i < d)%nat -> (j < d)%nat -> (a < d)%nat ->
    fsum (map (fun k => mul (givens c s i j a k) (f k)) (seq 0 d)) =
      if (a =? i)%nat then sub (mul c (f i)) (mul s (f j)) else if (a =? j)%nat then add (mul s (f i)) (mul c (f j)) else f a.
  Proof.
    intros Hij Hi Hj Ha. unfold CovModel.givens. destruct (Nat.eqb_spec a i) as [->|Hai]; [|destruct (Nat.eqb_spec a j) as [->|Haj]].
    - transitivity (fsum (map (fun k => add (if (k =? i)%nat then mul c (f k) else zero) (if (k =? j)%nat then mul (opp s) (f k) else zero)) (seq 0 d))).
      + apply fsum_ext. intro k. destruct (Nat.eqb_spec k i); destruct (Nat.eqb_spec k j); subst; try congruence; ring.
      + rewrite fsum_add, (fsum_pick (fun k => mul c (f k))), (fsum_pick (fun k => mul (opp s) (f k))) by lia. ring.
    - transitivity (fsum (map (fun k => add (if (k =? i)%nat then mul s (f k) else zero) (if (k =? j)%nat then mul c (f k) else zero)) (seq 0 d))).
      + apply fsum_ext. intro k. destruct (Nat.eqb_spec k i); destruct (Nat.eqb_spec k j); subst; try congruence; ring.
      + rewrite fsum_add, (fsum_pick (fun k => mul s (f k))), (fsum_pick (fun k => mul c (f k))) by lia. ring.
    - transitivity (fsum (map (fun k => if (k =? a)%nat then f k else zero) (seq 0 d))); [|apply (fsum_pick f); lia].
      apply fsum_ext. intro k. rewrite (Nat.eqb_sym a k). destruct (k =? a)%nat; ring.
  Qed.
  (** C40: rotate is conjugation with the rotation matrix *)
  Theorem C40_rotate : forall c s i j d (m : fmat) a b, i <> j -> (i < d)%nat -> (j < d)%nat -> (a < d)%nat -> (b < d)%nat ->
    cov_rotate c s i j m a b = fmult d (fmult d (givens c s i j) m) (ftrans F (givens c s i j)) a b.
  Proof.
    intros c s i j d m a b Hij Hi Hj Ha Hb. unfold CovModel.fmult at 1, ftrans.
    transitivity (fsum (map (fun k => mul (givens c s i j b k) (fmult d (givens c s i j) m a k)) (seq 0 d))).
    2:{ apply fsum_ext. intro k. ring. }
    rewrite (givens_row c s i j d b (fun k => fmult d (givens c s i j) m a k)) by assumption.
    unfold CovModel.fmult. rewrite !(givens_row c s i j d a (fun k => m k _)) by assumption.
    unfold CovModel.cov_rotate, CovModel.rot_rows, CovModel.rot_cols, set_row, set_col.
    repeat match goal with |- context [(?x =? ?y)%nat] => destruct (Nat.eqb_spec x y); subst; try congruence; try lia end; ring.
  Qed.
  (** rotating the data (routines.rotate) rotates their second moments *)
  Theorem C40_rotate_data : forall c s i j n (x : fmat) a b, i <> j ->
    fmult n (ftrans F (rot_cols c s i j x)) (rot_cols c s i j x) a b = cov_rotate c s i j (fmult n (ftrans F x) x) a b.
  Proof.
    intros c s i j n x a b Hij. unfold CovModel.fmult, ftrans, CovModel.cov_rotate, CovModel.rot_rows, CovModel.rot_cols, set_row, set_col.
    assert (H : forall (p q r t : F) (f g h k : nat -> F), fsum (map (fun l => mul (add (mul p (f l)) (mul q (g l))) (add (mul r (h l)) (mul t (k l)))) (seq 0 n))
       = add (add (mul (mul p r) (fsum (map (fun l => mul (f l) (h l)) (seq 0 n)))) (mul (mul p t) (fsum (map (fun l => mul (f l) (k l)) (seq 0 n)))))
             (add (mul (mul q r) (fsum (map (fun l => mul (g l) (h l)) (seq 0 n)))) (mul (mul q t) (fsum (map (fun l => mul (g l) (k l)) (seq 0 n)))))).
    { intros. rewrite <- !fsum_lin, <- !fsum_add. apply fsum_ext. intro l. ring. }
    (* every column of the rotated data is a combination of two columns *)
    set (co := fun b => if (b =? j)%nat then (s, i, c, j) else if (b =? i)%nat then (c, i, opp s, j) else (one, b, zero, b)).
    assert (Hco : forall a0 b, (if (b =? j)%nat then add (mul s (x a0 i)) (mul c (if (j =? i)%nat then sub (mul c (x a0 i)) (mul s (x a0 j)) else x a0 j))
                           else if (b =? i)%nat then sub (mul c (x a0 i)) (mul s (x a0 j)) else x a0 b)
       = let '(p, u, q, v) := co b in add (mul p (x a0 u)) (mul q (x a0 v))).
    { intros a0 b0. unfold co. destruct (Nat.eqb_spec j i); [congruence|]. destruct (b0 =? j)%nat; [ring|]. destruct (b0 =? i)%nat; ring. }
    transitivity (fsum (map (fun k => mul (let '(p, u, q, v) := co a in add (mul p (x k u)) (mul q (x k v))) (let '(p, u, q, v) := co b in add (mul p (x k u)) (mul q (x k v)))) (seq 0 n))).
    { apply fsum_ext. intro k. now rewrite <- !Hco. }
    clear Hco. unfold co.
    repeat match goal with |- context [(?x =? ?y)%nat] => destruct (Nat.eqb_spec x y); subst; try congruence end; rewrite ?H; ring.
  Qed.
  (** rotating back *)
  Theorem C40_rotate_inverse : forall c s i j (m : fmat) a b, i <> j -> add (mul c c) (mul s s) = one ->
    cov_rotate c (opp s) i j (cov_rotate c s i j m) a b = m a b.
  Proof.
    intros c s i j m a b Hij H1. unfold CovModel.cov_rotate, CovModel.rot_rows, CovModel.rot_cols, set_row, set_col.
    assert (HH : forall v, mul (add (mul c c) (mul s s)) v = v) by (intro v; rewrite H1; ring). clear H1.
    repeat match goal with |- context [(?x =? ?y)%nat] => destruct (Nat.eqb_spec x y); subst; try congruence end;
    first [reflexivity
          |match goal with |- _ = ?v => transitivity (mul (add (mul c c) (mul s s)) v); [ring|apply HH] end
          |match goal with |- _ = ?v => transitivity (mul (add (mul c c) (mul s s)) (mul (add (mul c c) (mul s s)) v)); [ring|rewrite !HH; reflexivity] end].
  Qed.
  (** permute exchanges rows and columns; symmetrize gives a symmetric matrix and keeps symmetric ones *)
  Theorem C40_permute : forall i j (m : fmat) a b, cov_permute F i j m a b = m (transp i j a) (transp i j b).
  Proof.
    intros i j m a b. unfold cov_permute, swap_cols, swap_rows, set_row, set_col, transp.
    repeat match goal with |- context [(?x =? ?y)%nat] => destruct (Nat.eqb_spec x y); subst; try congruence end; reflexivity.
  Qed.
  Theorem C40_symmetrize : forall half (m : fmat), (forall a b, symmetrize F add mul half m a b = symmetrize F add mul half m b a) /\
    (add half half = one -> (forall a b, m a b = m b a) -> forall a b, symmetrize F add mul half m a b = m a b).
  Proof.
    intros half m. unfold symmetrize. split; [intros; ring|]. intros H Hs a b. rewrite (Hs b a).
    transitivity (mul (add half half) (m a b)); [ring|]. rewrite H. ring.
  Qed.
  (** C120: mult_diag is the product with the diagonal matrix; transform is T^t C T *)
  Theorem C120_mult_diag : forall d v (m : fmat) a b, (a < d)%nat -> (b < d)%nat ->
    mult_diag F mul true v m a b = fmult d (diag F zero v) m a b /\ mult_diag F mul false v m a b = fmult d m (diag F zero v) a b.
  Proof.
    intros d v m a b Ha Hb. unfold mult_diag, ftrans, CovModel.fmult, diag. split; symmetry.
    - transitivity (fsum (map (fun k => if (k =? a)%nat then mul (v k) (m k b) else zero) (seq 0 d))); [|apply (fsum_pick (fun k => mul (v k) (m k b))); lia].
      apply fsum_ext. intro k. rewrite (Nat.eqb_sym a k). destruct (Nat.eqb_spec k a); subst; ring.
    - transitivity (fsum (map (fun k => if (k =? b)%nat then mul (v k) (m a k) else zero) (seq 0 d))); [|apply (fsum_pick (fun k => mul (v k) (m a k))); lia].
      apply fsum_ext. intro k. destruct (Nat.eqb_spec k b); subst; ring.
  Qed.
  (** C121, what does hold: an array of as many weights as matrices scales each matrix by its weight *)
  Theorem C121_weight_array : forall l ms, length l = length ms -> exists ms', cov_weight F mul (WArray F l) ms = Some ms' /\ length ms' = length ms /\
    forall k a b d, (k < length ms)%nat -> nth k ms' d a b = mul (nth k ms d a b) (nth k l zero).
  Proof.
    intros l ms H. unfold cov_weight. rewrite H, Nat.eqb_refl. eexists; split; [reflexivity|]. rewrite map_length, combine_length, H, Nat.min_id.
    split; [reflexivity|]. revert ms H. induction l as [|w l IH]; intros [|m ms] H k a b d Hk; cbn in *; try lia.
    destruct k as [|k]; [reflexivity|]. apply IH; lia.
  Qed.
  (** C121 (refuted): weight accepts a single value or any sequence *)
  Theorem C121_weight_refuted : forall (m : fmat), (exists w, cov_weight F mul (WNumber F w) [m] = None) /\ (exists l, length l = 1%nat /\ cov_weight F mul (WList F l) [m] = None).
  Proof. intro m. split; [exists one|exists [one]]; auto. Qed.
End Ring.
Example C40_example : (* rotation by 90 degrees exchanges the variances *)
  let m : nat -> nat -> Z := fun a b => match a, b with O, O => 4 | 1%nat, 1%nat => 9 | _, _ => 1 end%Z in
  (cov_rotate Z Z.add Z.mul Z.sub 0%Z 1%Z 0 1 m 0%nat 0%nat, cov_rotate Z Z.add Z.mul Z.sub 0%Z 1%Z 0 1 m 1%nat 1%nat, cov_rotate Z Z.add Z.mul Z.sub 0%Z 1%Z 0 1 m 0%nat 1%nat) = (9, 4, -1)%Z.
Proof. reflexivity. Qed.
