(** Auxiliary facts about the covariance classes (CovModel.v). *)
From Coq Require Import List Arith QArith Qcanon Bool Lia.
From Verif Require Import CovModel.
Import ListNotations.
Open Scope Qc_scope.

(** ** Sums *)
Lemma qsum_app l1 l2 : qsum (l1 ++ l2) = qsum l1 + qsum l2.
Proof. induction l1 as [|a l IH]; cbn; [ring|]. rewrite IH. ring. Qed.
Lemma qsum_map_add {A} (f g : A -> Qc) l : qsum (map (fun x => f x + g x) l) = qsum (map f l) + qsum (map g l).
Proof. induction l as [|a l IH]; cbn; [ring|]. rewrite IH. ring. Qed.
Lemma qsum_map_mul {A} (c : Qc) (f : A -> Qc) l : qsum (map (fun x => c * f x) l) = c * qsum (map f l).
Proof. induction l as [|a l IH]; cbn; [ring|]. rewrite IH. ring. Qed.
Lemma qsum_map_mulr {A} (c : Qc) (f : A -> Qc) l : qsum (map (fun x => f x * c) l) = qsum (map f l) * c.
Proof. induction l as [|a l IH]; cbn; [ring|]. rewrite IH. ring. Qed.
Lemma qsum_ext {A} (f g : A -> Qc) l : (forall x, f x = g x) -> qsum (map f l) = qsum (map g l).
Proof. intro H. induction l as [|a l IH]; cbn; [reflexivity|]. now rewrite IH, H. Qed.
Lemma qsum_zero {A} (l : list A) : qsum (map (fun _ => 0) l) = 0.
Proof. induction l as [|a l IH]; cbn; [reflexivity|]. rewrite IH. ring. Qed.
Lemma qsum_swap {A B} (f : A -> B -> Qc) l k :
  qsum (map (fun a => qsum (map (fun b => f a b) k)) l) = qsum (map (fun b => qsum (map (fun a => f a b) l)) k).
Proof.
  induction l as [|a l IH]; cbn; [symmetry; apply qsum_zero|]. now rewrite IH, <- qsum_map_add.
Qed.
Lemma qsum_const {A} (c : Qc) (l : list A) : qsum (map (fun _ => c) l) = qn (length l) * c.
Proof. induction l as [|a l IH]; cbn; [ring|]. rewrite IH. ring. Qed.

(** ** Natural numbers as rationals *)
Lemma qn_add a b : qn (a + b) = qn a + qn b.
Proof. induction a as [|a IH]; cbn; [ring|]. rewrite IH. ring. Qed.
Lemma qn_nonneg n : 0 <= qn n.
Proof.
  induction n as [|n IH]; cbn; [apply Qcle_refl|]. apply Qcle_trans with (0 + 0); [rewrite Qcplus_0_l; apply Qcle_refl|].
  apply Qcplus_le_compat; [discriminate|exact IH].
Qed.
Lemma qn_pos n : n <> O -> qn n <> 0.
Proof.
  destruct n as [|n]; [congruence|]. intros _ H. cbn in H.
  assert (Hn := qn_nonneg n). replace (qn n) with (Qcopp 1) in Hn; [now apply Hn|].
  transitivity (1 + qn n - 1); [rewrite H; ring|ring].
Qed.
Lemma qn_pred n : (1 <= n)%nat -> qn n - 1 = qn (n - 1).
Proof. intro H. destruct n as [|n]; [lia|]. cbn [qn]. replace (S n - 1)%nat with n by lia. ring. Qed.
Lemma norm_pos (bias : bool) n : (if bias then 1 <= n else 2 <= n)%nat -> norm bias n <> 0 /\ qn n <> 0.
Proof.
  unfold norm. intro H. destruct bias.
  - split; apply qn_pos; lia.
  - rewrite qn_pred by lia. split; apply qn_pos; lia.
Qed.
Lemma two_pos : qn 2 <> 0.
Proof. apply qn_pos. lia. Qed.

(** ** Products of deviations *)
Lemma dev_expand (ps : list (row * row)) i j u v :
  qsum (map (fun p : row * row => (fst p i - u) * (snd p j - v)) ps)
  = moment ps i j - u * qsum (map (fun p : row * row => snd p j) ps) - v * qsum (map (fun p : row * row => fst p i) ps) + qn (length ps) * (u * v).
Proof.
  unfold moment. induction ps as [|p ps IH]; cbn [map qsum length qn]; [ring|]. rewrite IH. ring.
Qed.
Lemma colsum_fst (ps : list (row * row)) i : qsum (map (fun x : row => x i) (map fst ps)) = qsum (map (fun p : row * row => fst p i) ps).
Proof. now rewrite map_map. Qed.
Lemma colsum_snd (ps : list (row * row)) i : qsum (map (fun x : row => x i) (map snd ps)) = qsum (map (fun p : row * row => snd p i) ps).
Proof. now rewrite map_map. Qed.
Lemma codev_moment ps i j : ps <> [] ->
  codev ps i j = moment ps i j - colsum (map fst ps) i * colsum (map snd ps) j / qn (length ps).
Proof.
  intro Hne. assert (Hn : qn (length ps) <> 0) by (apply qn_pos; destruct ps; [congruence|cbn; lia]).
  unfold codev. rewrite dev_expand. unfold mean, colsum. rewrite !colsum_fst, !colsum_snd, !map_length. now field.
Qed.
Lemma moment_app p q i j : moment (p ++ q) i j = moment p i j + moment q i j.
Proof. unfold moment. now rewrite map_app, qsum_app. Qed.
Lemma colsum_app p q i : colsum (p ++ q) i = colsum p i + colsum q i.
Proof. unfold colsum. now rewrite map_app, qsum_app. Qed.
Lemma tmult_self x i j : tmult x x i j = moment (self_pairs x) i j.
Proof. unfold tmult, moment, self_pairs. f_equal. rewrite map_map. induction x as [|a x IH]; cbn; [reflexivity|]. now rewrite IH. Qed.
Lemma fst_self x : map fst (self_pairs x) = x.
Proof. unfold self_pairs. rewrite map_map. apply map_id. Qed.
Lemma snd_self x : map snd (self_pairs x) = x.
Proof. unfold self_pairs. rewrite map_map. apply map_id. Qed.

(** ** CovarianceMatrix *)
Definition cov_rep (s : cov) (xs : list row) : Prop :=
  c_tlen s = length xs /\
  match c_acc s with
  | None => xs = []
  | Some (m, a) => (forall i j, m i j = moment (self_pairs xs) i j) /\ (forall i, a i = colsum xs i)
  end.
Lemma cov_rep_update s xs x : cov_rep s xs -> cov_rep (cov_update s x) (xs ++ x) /\ c_acc (cov_update s x) <> None.
Proof.
  unfold cov_rep, cov_update. intros [Ht Ha]. destruct (c_acc s) as [[m a]|]; cbn [c_acc c_tlen].
  - destruct Ha as [Hm Ha]. split; [|discriminate]. rewrite app_length, Ht. split; [reflexivity|]. split; intros.
    + unfold self_pairs. rewrite map_app, moment_app, Hm. now rewrite tmult_self.
    + now rewrite colsum_app, Ha.
  - subst xs. cbn [length app] in *. rewrite Ht. split; [|discriminate]. split; [reflexivity|]. split; intros; [rewrite tmult_self|]; unfold zero_mat, zero_row; ring.
Qed.
Lemma cov_rep_chunks chunks : forall s xs, cov_rep s xs -> (c_acc s <> None \/ chunks <> []) ->
  cov_rep (fold_left cov_update chunks s) (xs ++ concat chunks) /\ c_acc (fold_left cov_update chunks s) <> None.
Proof.
  induction chunks as [|x chunks IH]; intros s xs H Hc; cbn.
  - rewrite app_nil_r. split; auto. destruct Hc; congruence.
  - rewrite app_assoc. destruct (cov_rep_update _ _ x H). apply IH; auto.
Qed.

(** ** DelayCovarianceMatrix *)
Lemma combine_firstn_l {A B} : forall (x : list A) (y : list B) k, length y = k -> combine (firstn k x) y = combine x y.
Proof.
  induction x as [|a x IH]; intros y k Hy; [now rewrite firstn_nil|]. destruct y as [|b y]; destruct k as [|k]; try discriminate; [reflexivity|].
  cbn. f_equal. apply IH. now injection Hy.
Qed.
Lemma map_fst_combine_firstn {A B} : forall (x : list A) (y : list B), (length y <= length x)%nat -> map fst (combine x y) = firstn (length y) x.
Proof.
  induction x as [|a x IH]; intros [|b y] H; cbn in *; try lia; auto. f_equal. apply IH. lia.
Qed.
Lemma map_snd_combine_le {A B} : forall (x : list A) (y : list B), (length y <= length x)%nat -> map snd (combine x y) = y.
Proof.
  induction x as [|a x IH]; intros [|b y] H; cbn in *; try lia; auto. f_equal. apply IH. lia.
Qed.
Lemma lag_fst dt x : map fst (lag_pairs dt x) = firstn (length x - dt) x.
Proof. unfold lag_pairs. rewrite map_fst_combine_firstn; rewrite skipn_length; [reflexivity|lia]. Qed.
Lemma lag_snd dt x : map snd (lag_pairs dt x) = skipn dt x.
Proof. unfold lag_pairs. apply map_snd_combine_le. rewrite skipn_length. lia. Qed.
Lemma lag_length dt x : length (lag_pairs dt x) = (length x - dt)%nat.
Proof. unfold lag_pairs. rewrite combine_length, skipn_length. lia. Qed.
Lemma colsum_split k x i : colsum x i = colsum (firstn k x) i + colsum (skipn k x) i.
Proof. now rewrite <- colsum_app, firstn_skipn. Qed.
Definition dcov_rep (s : dcov) (ps : list (row * row)) : Prop :=
  d_tlen s = length ps /\
  match d_acc s with
  | None => ps = []
  | Some (m, a, b) => (forall i j, m i j = moment ps i j) /\ (forall i, a i = colsum (map fst ps) i) /\ (forall i, b i = colsum (map snd ps) i)
  end.
Lemma dcov_rep_update dt s ps x : dcov_rep s ps -> (dt < length x)%nat ->
  exists s', dcov_update dt s x = (s', true) /\ dcov_rep s' (ps ++ lag_pairs dt x) /\ d_acc s' <> None.
Proof.
  unfold dcov_rep, dcov_update. intros [Ht Ha] Hlen.
  assert (Hlt : (length x <? dt + 1)%nat = false) by (apply Nat.ltb_ge; lia).
  assert (HT : forall i j, tmult (firstn (length x - dt) x) (skipn dt x) i j = moment (lag_pairs dt x) i j).
  { intros i j. unfold tmult, moment, lag_pairs. rewrite combine_firstn_l; [reflexivity|apply skipn_length]. }
  assert (H1 : forall i, colsum x i - colsum (skipn (length x - dt) x) i = colsum (map fst (lag_pairs dt x)) i).
  { intro i. rewrite lag_fst, (colsum_split (length x - dt) x i). ring. }
  assert (H2 : forall i, colsum x i - colsum (firstn dt x) i = colsum (map snd (lag_pairs dt x)) i).
  { intro i. rewrite lag_snd, (colsum_split dt x i). ring. }
  destruct (d_acc s) as [[[m a] b]|]; rewrite Hlt; eexists; (split; [reflexivity|]); cbn [d_acc d_tlen x_acc x_tlen]; (split; [|discriminate]).
  - destruct Ha as (Hm & Ha & Hb). rewrite app_length, lag_length, Ht. split; [reflexivity|]. repeat split; intros.
    + now rewrite moment_app, Hm, HT.
    + now rewrite map_app, colsum_app, Ha, H1.
    + now rewrite map_app, colsum_app, Hb, H2.
  - subst ps. cbn [length app] in *. rewrite lag_length, Ht. split; [reflexivity|]. repeat split; intros; rewrite ?HT, ?H1, ?H2; unfold zero_mat, zero_row; ring.
Qed.

(** ** CrossCovarianceMatrix *)
Definition xcov_rep (s : xcov) (ps : list (row * row)) : Prop :=
  x_tlen s = length ps /\
  match x_acc s with
  | None => ps = []
  | Some (m, a, b) => (forall i j, m i j = moment ps i j) /\ (forall i, a i = colsum (map fst ps) i) /\ (forall i, b i = colsum (map snd ps) i)
  end.
Lemma fst_comb {A B} : forall (x : list A) (y : list B), length x = length y -> map fst (combine x y) = x.
Proof. induction x as [|a x IH]; intros [|b y] H; cbn in *; try lia; auto. f_equal. apply IH. lia. Qed.
Lemma snd_comb {A B} : forall (x : list A) (y : list B), length x = length y -> map snd (combine x y) = y.
Proof. induction x as [|a x IH]; intros [|b y] H; cbn in *; try lia; auto. f_equal. apply IH. lia. Qed.
Lemma xcov_rep_update s ps x y : xcov_rep s ps -> length x = length y ->
  exists s', xcov_update s x y = (s', true) /\ xcov_rep s' (ps ++ combine x y) /\ x_acc s' <> None.
Proof.
  unfold xcov_rep, xcov_update. intros [Ht Ha] Hlen. rewrite Hlen, Nat.eqb_refl.
  assert (HT : forall i j, tmult x y i j = moment (combine x y) i j) by reflexivity.
  destruct (x_acc s) as [[[m a] b]|]; eexists; (split; [reflexivity|]); cbn [d_acc d_tlen x_acc x_tlen]; (split; [|discriminate]).
  - destruct Ha as (Hm & Ha & Hb). rewrite app_length, combine_length, Ht, Hlen, Nat.min_id. split; [reflexivity|]. repeat split; intros.
    + now rewrite moment_app, Hm, HT.
    + now rewrite map_app, colsum_app, Ha, fst_comb.
    + now rewrite map_app, colsum_app, Hb, snd_comb.
  - subst ps. cbn [length app] in *. rewrite combine_length, Ht, Hlen, Nat.min_id. split; [reflexivity|].
    repeat split; intros; rewrite ?HT, ?fst_comb, ?snd_comb by auto; unfold zero_mat, zero_row; ring.
Qed.

(** ** Segments of a sampled function *)
Definition segs (xs : list row) (ds : list Qc) : list (Qc * (row * row)) := combine ds (combine xs (tl xs)).
Definition seg2 (l : list (Qc * (row * row))) : mat := fun i j =>
  qsum (map (fun p : Qc * (row * row) => fst p * (fst (snd p) i * fst (snd p) j + snd (snd p) i * snd (snd p) j)) l) / qn 2.
Definition seg1 (l : list (Qc * (row * row))) : row := fun i => qsum (map (fun p : Qc * (row * row) => fst p * (fst (snd p) i + snd (snd p) i)) l) / qn 2.
Definition seg0 (l : list (Qc * (row * row))) : Qc := qsum (map fst l).
Lemma seg2_app p q i j : seg2 (p ++ q) i j = seg2 p i j + seg2 q i j.
Proof. unfold seg2. rewrite map_app, qsum_app. field. apply two_pos. Qed.
Lemma seg1_app p q i : seg1 (p ++ q) i = seg1 p i + seg1 q i.
Proof. unfold seg1. rewrite map_app, qsum_app. field. apply two_pos. Qed.
Lemma seg0_app p q : seg0 (p ++ q) = seg0 p + seg0 q.
Proof. unfold seg0. now rewrite map_app, qsum_app. Qed.
Lemma seg2_one d p q i j : seg2 [(d, (p, q))] i j = d * (p i * p j + q i * q j) / qn 2.
Proof. unfold seg2. cbn [map qsum fst snd]. field. apply two_pos. Qed.
Lemma seg1_one d p q i : seg1 [(d, (p, q))] i = d * (p i + q i) / qn 2.
Proof. unfold seg1. cbn [map qsum fst snd]. field. apply two_pos. Qed.
Lemma wsum2_segs ws : forall x i j, length ws = (length x - 1)%nat ->
  wsum2 ws (tl x) i j / qn 2 + wsum2 ws (firstn (length x - 1) x) i j / qn 2 = seg2 (segs x ws) i j.
Proof.
  intros x i j H.
  transitivity ((wsum2 ws (tl x) i j + wsum2 ws (firstn (length x - 1) x) i j) / qn 2); [field; apply two_pos|].
  unfold seg2, segs, wsum2. f_equal. revert ws H. destruct x as [|a x]; [intros [|w ws] H; try discriminate; cbn; ring|].
  cbn [tl length]. rewrite Nat.sub_succ, Nat.sub_0_r. revert a. induction x as [|b x IH]; intros a [|w ws] H; cbn in H; try lia; [cbn; ring|].
  cbn [length firstn combine map qsum fst snd]. rewrite <- (IH b) by lia. ring.
Qed.
Lemma wsum_segs ws : forall x i, length ws = (length x - 1)%nat ->
  wsum ws (firstn (length x - 1) x) i / qn 2 + wsum ws (tl x) i / qn 2 = seg1 (segs x ws) i.
Proof.
  intros x i H.
  transitivity ((wsum ws (firstn (length x - 1) x) i + wsum ws (tl x) i) / qn 2); [field; apply two_pos|].
  unfold seg1, segs, wsum. f_equal. revert ws H. destruct x as [|a x]; [intros [|w ws] H; try discriminate; cbn; ring|].
  cbn [tl length]. rewrite Nat.sub_succ, Nat.sub_0_r. revert a. induction x as [|b x IH]; intros a [|w ws] H; cbn in H; try lia; [cbn; ring|].
  cbn [length firstn combine map qsum fst snd]. rewrite <- (IH b) by lia. ring.
Qed.
Lemma wsum0_segs ws : forall x, length ws = (length x - 1)%nat -> qsum ws = seg0 (segs x ws).
Proof.
  intros x H. unfold seg0, segs. f_equal. symmetry. apply fst_comb. rewrite combine_length. destruct x; cbn [length tl] in *; lia.
Qed.
Lemma segs_app : forall xs ys ds d es, xs <> [] -> ys <> [] -> length ds = (length xs - 1)%nat ->
  segs (xs ++ ys) (ds ++ d :: es) = segs xs ds ++ (d, (last xs zero_row, hd zero_row ys)) :: segs ys es.
Proof.
  unfold segs. induction xs as [|a xs IH]; intros ys ds d es Hx Hy Hl; [congruence|].
  destruct xs as [|b xs].
  - cbn in Hl. destruct ds; [|discriminate]. cbn [app tl last]. destruct ys as [|y ys]; [congruence|]. reflexivity.
  - cbn [length] in Hl. destruct ds as [|e ds]; [cbn in Hl; lia|].
    specialize (IH ys ds d es). cbn [app tl combine] in IH |- *. rewrite IH; [reflexivity|discriminate|assumption|cbn in *; lia].
Qed.
Definition vcov_rep (s : vcov) (l : list (Qc * (row * row))) (z : row) : Prop :=
  v_tlen s = seg0 l /\ v_last s = z /\ (0 < v_chunks s)%nat /\
  match v_acc s with
  | None => False
  | Some (m, a) => (forall i j, m i j = seg2 l i j) /\ (forall i, a i = seg1 l i)
  end.
(** the increments used by update, and those of the gap *)
Lemma vcov_first s x dt ws (td : bool) : (v_chunks s = 0)%nat -> v_acc s = None -> v_tlen s = 0 -> x <> [] ->
  match dt with DNone => ws = repeat 1 (length x - 1) | DConst q => 0 < q /\ ws = repeat q (length x - 1) | DArr l => l = ws end ->
  length ws = (length x - 1)%nat ->
  exists s', vcov_update s x dt td = (s', VOk) /\ vcov_rep s' (segs x ws) (last x zero_row) /\ v_chunks s' = 1%nat.
Proof.
  intros Hc Ha Ht Hx Hd Hl. unfold vcov_update. rewrite Hc. cbn [Nat.ltb Nat.leb andb].
  assert (Hbad : match dt with
             | DArr l => (td && false && (length x - 1 =? length l)%nat) || (negb (length l =? length x)%nat && negb (length l =? length x - 1)%nat)
             | DConst q => if Qclt_le_dec 0 q then false else true
             | DNone => false end = false).
  { destruct dt as [|q|l]; [reflexivity| |].
    - destruct Hd as [Hq _]. destruct (Qclt_le_dec 0 q) as [|Hle]; [reflexivity|]. exfalso. eapply Qclt_not_le; eassumption.
    - subst l. rewrite andb_false_r. cbn [andb orb]. rewrite Hl, Nat.eqb_refl. apply andb_false_r. }
  replace (td && false) with false in * by now rewrite andb_false_r.
  rewrite Hbad, Ha. unfold vcov_gap. rewrite Hc. cbn [Nat.ltb Nat.leb].
  assert (Hws : match dt with DNone => repeat 1 (length x - 1) | DConst q => repeat q (length x - 1) | DArr l => dt_tail (length x) l end = ws).
  { destruct dt as [|q|l]; [now symmetry|now symmetry|]. subst l. unfold dt_tail. rewrite Hl, Nat.sub_diag. now destruct (length x) as [|[|]]. }
  rewrite Hws. eexists; split; [reflexivity|]. split; [|cbn; lia]. unfold vcov_rep. cbn [v_tlen v_last v_chunks v_acc]. rewrite Ht. split; [|split; [reflexivity|split; [lia|]]].
  - rewrite (wsum0_segs _ x Hl). ring.
  - split; intros; [rewrite <- (wsum2_segs _ x _ _ Hl)|rewrite <- (wsum_segs _ x _ Hl)]; unfold zero_mat, zero_row; ring.
Qed.
(** a further chunk, connected by the increment [d] (None: not connected) *)
Lemma vcov_next s l z x dt (d : option Qc) ws (td : bool) : vcov_rep s l z -> x <> [] ->
  match dt with
  | DNone => ws = repeat 1 (length x - 1) /\ d = (if td then Some 1 else None)
  | DConst q => 0 < q /\ ws = repeat q (length x - 1) /\ d = (if td then Some q else None)
  | DArr l => match d with
              | Some d => l = d :: ws /\ (2 <= length x)%nat
              | None => l = ws /\ td = false
              end
  end -> length ws = (length x - 1)%nat ->
  exists s', vcov_update s x dt td = (s', VOk) /\ v_chunks s' = S (v_chunks s) /\
    vcov_rep s' (l ++ match d with Some d => [(d, (z, hd zero_row x))] | None => [] end ++ segs x ws) (last x zero_row).
Proof.
  intros (Ht & Hz & Hc & Hacc) Hx Hd Hl. unfold vcov_update.
  assert (Hc' : (0 <? v_chunks s)%nat = true) by now apply Nat.ltb_lt. rewrite Hc', andb_true_r.
  destruct (v_acc s) as [[m a]|]; [|destruct Hacc]. destruct Hacc as [Hm Ha].
  assert (Hbad : match dt with
             | DArr l => (td && (length x - 1 =? length l)%nat) || (negb (length l =? length x)%nat && negb (length l =? length x - 1)%nat)
             | DConst q => if Qclt_le_dec 0 q then false else true
             | DNone => false end = false).
  { destruct dt as [|q|k]; [reflexivity| |].
    - destruct Hd as [Hq _]. destruct (Qclt_le_dec 0 q) as [|Hle]; [reflexivity|]. exfalso. eapply Qclt_not_le; eassumption.
    - destruct d as [d|].
      + destruct Hd as [-> H2]. cbn [length]. rewrite Hl. replace (S (length x - 1)) with (length x) by lia.
        replace (length x - 1 =? length x)%nat with false by (symmetry; apply Nat.eqb_neq; lia). rewrite andb_false_r, Nat.eqb_refl. reflexivity.
      + destruct Hd as [-> ->]. rewrite Hl, Nat.eqb_refl. cbn. apply andb_false_r. }
  rewrite Hbad. clear Hbad.
  assert (Hws : match dt with DNone => repeat 1 (length x - 1) | DConst q => repeat q (length x - 1) | DArr l => dt_tail (length x) l end = ws).
  { destruct dt as [|q|k]; [symmetry; apply Hd|symmetry; apply Hd|]. destruct d as [d|].
    - destruct Hd as [-> H2]. unfold dt_tail. cbn [length]. rewrite Hl. replace (S (length x - 1) - (length x - 1))%nat with 1%nat by lia.
      destruct (length x) as [|[|]]; [lia|lia|reflexivity].
    - destruct Hd as [-> ->]. unfold dt_tail. rewrite Hl, Nat.sub_diag. now destruct (length x) as [|[|]]. }
  assert (Hgap : vcov_gap s m a x dt td = match d with Some d => (addgap m a z (hd zero_row x) d, v_tlen s + d) | None => (m, a, v_tlen s) end).
  { unfold vcov_gap. rewrite Hc'. rewrite Hz. destruct dt as [|q|k].
    - destruct Hd as [_ ->]. now destruct td.
    - destruct Hd as (_ & _ & ->). now destruct td.
    - destruct d as [d|].
      + destruct Hd as [-> H2]. cbn [length]. rewrite Hl. replace (S (length x - 1)) with (length x) by lia. now rewrite Nat.eqb_refl.
      + destruct Hd as [-> ->]. rewrite Hl. destruct x as [|y x]; [congruence|]. cbn [length].
        replace (S (length x) - 1 =? S (length x))%nat with false by (symmetry; apply Nat.eqb_neq; lia). reflexivity. }
  rewrite Hgap, Hws.
  destruct d as [d|]; cbn [addgap]; eexists; (split; [reflexivity|]); (split; [reflexivity|]); unfold vcov_rep; cbn [v_tlen v_last v_chunks v_acc app].
  - rewrite (wsum0_segs _ x Hl), seg0_app, Ht. split; [unfold seg0; cbn; ring|]. split; [reflexivity|]. split; [lia|].
    split; intros; rewrite ?seg2_app, ?seg1_app.
    + rewrite Hm. change ((d, (z, hd zero_row x)) :: segs x ws) with ([(d, (z, hd zero_row x))] ++ segs x ws).
      rewrite seg2_app, <- (wsum2_segs _ x _ _ Hl). rewrite seg2_one. unfold outer. field. apply two_pos.
    + rewrite Ha. change ((d, (z, hd zero_row x)) :: segs x ws) with ([(d, (z, hd zero_row x))] ++ segs x ws).
      rewrite seg1_app, <- (wsum_segs _ x _ Hl). rewrite seg1_one. field. apply two_pos.
  - rewrite (wsum0_segs _ x Hl), seg0_app, Ht. split; [reflexivity|]. split; [reflexivity|]. split; [lia|].
    split; intros; rewrite ?seg2_app, ?seg1_app.
    + rewrite Hm, <- (wsum2_segs _ x _ _ Hl). ring.
    + rewrite Ha, <- (wsum_segs _ x _ Hl). ring.
Qed.
