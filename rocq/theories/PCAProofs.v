(** Proofs about PCAModel: what the covariance accumulator computes, and what stop_training keeps of the eigensystem. *)
From Coq Require Import List Arith ZArith Bool Lia Sorting.Sorted Field.
From Verif Require Import OField LinAlg PCAModel.
Import ListNotations.
Open Scope nat_scope.

Section Lists.
  Context {A : Type}.
  Implicit Types l : list A.
  Lemma nth_firstn_lt l m i d : i < m -> nth i (firstn m l) d = nth i l d.
  Proof. revert m i. induction l; intros [|m] [|i] H; try lia; cbn; auto. apply IHl. lia. Qed.
  Lemma firstn_min l m : firstn m l = firstn (Nat.min m (length l)) l.
  Proof. destruct (le_lt_dec m (length l)); [now rewrite Nat.min_l|]. rewrite Nat.min_r by lia. now rewrite firstn_all, firstn_all2 by lia. Qed.
  Lemma skipn_rev_firstn l s : rev (skipn s l) = firstn (length l - s) (rev l).
  Proof.
    destruct (le_lt_dec s (length l)) as [H|H].
    - rewrite <- (firstn_skipn s l) at 3. rewrite rev_app_distr. replace (length l - s) with (length (rev (skipn s l))) by (rewrite rev_length, skipn_length; lia).
      rewrite firstn_app, firstn_all, Nat.sub_diag. cbn. now rewrite app_nil_r.
    - rewrite skipn_all2 by lia. replace (length l - s) with 0 by lia. reflexivity.
  Qed.
  Lemma filter_length_le (p : A -> bool) l : length (filter p l) <= length l.
  Proof. induction l; cbn; [lia|]. destruct (p a); cbn; lia. Qed.
  Lemma pyslice_end (a : Z) l : pyslice a (Z.of_nat (length l)) l = skipn (Z.to_nat (if (a <? 0)%Z then Z.max 0 (Z.of_nat (length l) + a) else Z.min a (Z.of_nat (length l)))) l.
  Proof.
    unfold pyslice. set (s := Z.to_nat (if (a <? 0)%Z then _ else _)). replace (Z.of_nat (length l) <? 0)%Z with false by (symmetry; apply Z.ltb_ge; lia).
    rewrite Z.min_id, Nat2Z.id. apply firstn_all2. rewrite skipn_length. lia.
  Qed.
End Lists.

Section Sort.
  Context {K : ofield}.
  Definition fge (a b : K) : Prop := (b <= a)%of.
  Lemma sorted_app (R : K -> K -> Prop) l a : StronglySorted R l -> Forall (fun b => R b a) l -> StronglySorted R (l ++ [a]).
  Proof.
    induction 1; intros F; cbn; [repeat constructor|]. inversion F; subst. constructor; [auto|]. apply Forall_app. split; [assumption|]. now repeat constructor.
  Qed.
  Lemma sorted_rev (D : list K) : StronglySorted fle D -> StronglySorted fge (rev D).
  Proof.
    induction 1 as [|a l S IH F]; cbn; [constructor|]. apply sorted_app; [exact IH|]. apply Forall_forall. intros x Hx. apply in_rev in Hx.
    rewrite Forall_forall in F. now apply F.
  Qed.
  Lemma filter_none (p : K -> bool) (l : list K) : (forall x, In x l -> p x = false) -> filter p l = [].
  Proof. induction l as [|a l IH]; cbn; intros H; [reflexivity|]. rewrite (H a) by auto. apply IH. auto. Qed.
  (** an upward closed filter of a descending list is a prefix *)
  Lemma filter_prefix (p : K -> bool) (l : list K) : StronglySorted fge l -> (forall a b, (a <= b)%of -> p a = true -> p b = true) ->
    filter p l = firstn (length (filter p l)) l.
  Proof.
    intros S M. induction S as [|a l S IH F]; [reflexivity|]. cbn. destruct (p a) eqn:E; cbn; [now rewrite <- IH|].
    rewrite filter_none; [reflexivity|]. intros x Hx. destruct (p x) eqn:X; [|reflexivity]. rewrite Forall_forall in F. rewrite (M x a) in E; [discriminate| |exact X]. now apply F.
  Qed.
End Sort.

Section Spec.
  Context {K : ofield}.
  Add Field Kf : (fth K).
  Notation vec := (vec (K := K)). Notation mtx := (mtx (K := K)).
  Open Scope of_scope.
  (** mean and covariance (with N-1) of a list of rows *)
  Definition dmean (xs : list vec) : vec := fun i => fsum (map (fun x : vec => x i) xs) / fn (length xs).
  Definition dcov (xs : list vec) : mtx := fun i j => fsum (map (fun x : vec => (x i - dmean xs i) * (x j - dmean xs j)) xs) / (fn (length xs) - 1).
  Definition accs (chunks : list (list vec)) : acc := fold_left acc_update chunks acc_new.
  Lemma accs_gen chunks : forall s xs, (forall i j, a_m s i j = fsum (map (fun x : vec => x i * x j) xs)) -> (forall i, a_s s i = fsum (map (fun x : vec => x i) xs)) ->
    a_n s = length xs -> let s' := fold_left acc_update chunks s in
    (forall i j, a_m s' i j = fsum (map (fun x : vec => x i * x j) (xs ++ concat chunks))) /\
    (forall i, a_s s' i = fsum (map (fun x : vec => x i) (xs ++ concat chunks))) /\ a_n s' = length (xs ++ concat chunks).
  Proof.
    induction chunks as [|c chunks IH]; intros s xs Hm Hs Hn; cbn [fold_left concat]; [rewrite app_nil_r; auto|].
    specialize (IH (acc_update s c) (xs ++ c)). rewrite <- app_assoc in IH. apply IH; cbn.
    - intros i j. now rewrite map_app, fsum_app, Hm.
    - intros i. now rewrite map_app, fsum_app, Hs.
    - now rewrite app_length, Hn.
  Qed.
  Lemma accs_sum chunks : let s' := accs chunks in
    (forall i j, a_m s' i j = fsum (map (fun x : vec => x i * x j) (concat chunks))) /\
    (forall i, a_s s' i = fsum (map (fun x : vec => x i) (concat chunks))) /\ a_n s' = length (concat chunks).
  Proof. apply (accs_gen chunks acc_new []); reflexivity. Qed.
  Lemma fix_cov chunks i j : (2 <= length (concat chunks))%nat -> fst (acc_fix true (accs chunks)) i j = dcov (concat chunks) i j.
  Proof.
    intros H. destruct (accs_sum chunks) as [Hm [Hs Hn]]. unfold acc_fix. cbn [fst]. rewrite Hm, !Hs, Hn. unfold dcov, dmean. set (xs := concat chunks) in *. clearbody xs. clear - H.
    assert (N0 : fn (length xs) <> (0 : K)) by (apply fn_ne; lia).
    assert (N1 : fn (length xs) - 1 <> (0 : K)) by (intros E; symmetry in E; revert E; now apply flt_ne, fn_pred).
    set (N := fn (length xs)) in *.
    set (mi := fsum (map (fun x : vec => x i) xs) / N). set (mj := fsum (map (fun x : vec => x j) xs) / N).
    rewrite (fsum_map_ext xs (fun x => (x i - mi) * (x j - mj)) (fun x => (x i * x j - x i * mj) - (mi * x j - mi * mj))) by (intros; ring).
    rewrite !fsum_map_sub, fsum_map_mulr, fsum_map_mul, fsum_map_const. fold N. unfold mi, mj. field. split; assumption.
  Qed.
  Lemma fix_mean chunks i : snd (acc_fix true (accs chunks)) i = dmean (concat chunks) i.
  Proof. destruct (accs_sum chunks) as [Hm [Hs Hn]]. cbn. now rewrite Hs, Hn. Qed.
  Lemma dcov_sym xs i j : dcov xs i j = dcov xs j i.
  Proof. unfold dcov. f_equal. apply fsum_map_ext. intros. ring. Qed.
  Lemma quad_cov n (C : mtx) xs a b : (forall i j, C i j = dcov xs i j) ->
    quad n C a b = fsum (map (fun x => dot n (sub x (dmean xs)) a * dot n (sub x (dmean xs)) b) xs) / (fn (length xs) - 1).
  Proof.
    intros HC. set (iN := fn (length xs) - 1).
    transitivity (fsum (map (fun x => dot n (sub x (dmean xs)) a * dot n (sub x (dmean xs)) b) xs) * finv iN); [|symmetry; apply (Fdiv_def (fth K))].
    rewrite <- fsum_map_mulr. unfold quad, mulv.
    transitivity (fsumn n (fun i => fsumn n (fun j => fsum (map (fun x => a i * (sub x (dmean xs) i * sub x (dmean xs) j) * b j * finv iN) xs)))).
    - apply fsumn_ext. intros i _. rewrite <- fsumn_mul. apply fsumn_ext. intros j _. rewrite HC. unfold dcov. fold iN.
      rewrite (Fdiv_def (fth K)), <- fsum_map_mulr, <- fsum_map_mulr, <- fsum_map_mul. apply fsum_map_ext. intros. unfold sub. ring.
    - rewrite (fsumn_ext n _ (fun i => fsum (map (fun x => fsumn n (fun j => a i * (sub x (dmean xs) i * sub x (dmean xs) j) * b j * finv iN)) xs))) by (intros; apply fsumn_fsum).
      rewrite fsumn_fsum. apply fsum_map_ext. intros x _. unfold dot. rewrite <- !fsumn_mulr. apply fsumn_ext. intros i _.
      rewrite <- fsumn_mul, <- fsumn_mulr. apply fsumn_ext. intros j _. ring.
  Qed.
  Lemma cov_psd n C xs : (forall i j, C i j = dcov xs i j) -> (2 <= length xs)%nat -> psd n C.
  Proof. intros HC H w. rewrite (quad_cov n C xs) by exact HC. apply fdiv_pos; [|now apply fn_pred]. apply fsum_map_nonneg. intros. apply fsq. Qed.
  Lemma cov_symmetric n C xs : (forall i j, C i j = dcov xs i j) -> symmetric n C.
  Proof. intros HC i j _ _. rewrite !HC. apply dcov_sym. Qed.
  (** projections of the centred data have mean zero *)
  Lemma proj_mean n xs w : xs <> [] -> fsum (map (fun x => dot n (sub x (dmean xs)) w) xs) = 0.
  Proof.
    intros H. unfold dot. rewrite <- fsumn_fsum. apply fsumn_zero. intros i _. rewrite fsum_map_mulr. unfold sub. rewrite fsum_map_sub, fsum_map_const. unfold dmean.
    assert (fn (length xs) <> (0 : K)) by (apply fn_ne; destruct xs; [congruence|cbn; lia]). field. assumption.
  Qed.
  Lemma nth_cumsum (l : list K) : forall c i, (i < length l)%nat -> nth i (cumsum c l) 0 = c + fsum (firstn (S i) l).
  Proof.
    induction l as [|a l IH]; intros c [|i] H; cbn in H; try lia; [cbn [cumsum nth firstn fsum]; ring|]. cbn [cumsum nth]. rewrite IH by lia. rewrite (firstn_cons (S i)). cbn [fsum]. ring.
  Qed.
  Lemma cumsum_length l : forall c : K, length (cumsum c l) = length l. Proof. induction l; cbn; auto. Qed.
  Lemma searchsorted_spec (l : list K) q : (searchsorted l q <= length l)%nat /\ (forall i, (i < searchsorted l q)%nat -> nth i l 0 < q) /\
    ((searchsorted l q < length l)%nat -> q <= nth (searchsorted l q) l 0).
  Proof.
    induction l as [|a l [L [IH1 IH2]]]; cbn; [repeat split; intros; lia|]. destruct (fltb a q) eqn:E.
    - repeat split; [lia| |]; [intros [|i] Hi; [exact E|apply IH1; lia]|intros H; cbn; apply IH2; lia].
    - repeat split; [lia| |]; [intros; lia|]. intros _. exact E.
  Qed.
End Spec.

(** number of components kept when output_dim is the integer k *)
Definition kept (svd : bool) (dim k : nat) : nat :=
  if k =? 0 then dim else if k <=? dim then k else if svd && (k <? 2 * dim) then k - dim else dim.

Lemma range_kept {A} (svd : bool) (dim k : nat) (l : list A) : length l = dim -> 1 <= k ->
  let rng := Some (Z.of_nat dim - Z.of_nat k + 1, Z.of_nat dim)%Z in
  rev (if svd then svd_range rng l else eig_range dim rng l) = firstn (kept svd dim k) (rev l).
Proof.
  intros L Hk rng. unfold kept. destruct (Nat.eqb_spec k 0) as [|_]; [lia|].
  assert (S : forall a m, (0 <= a)%Z -> m = dim - Z.to_nat a -> rev (pyslice a (Z.of_nat dim) l) = firstn m (rev l)).
  { intros a m Ha ->. rewrite <- L at 1. rewrite pyslice_end, skipn_rev_firstn, L. f_equal.
    destruct (Z.ltb_spec a 0); lia. }
  assert (S0 : forall a m, (a < 0)%Z -> m = dim - Z.to_nat (Z.max 0 (Z.of_nat dim + a)) -> rev (pyslice a (Z.of_nat dim) l) = firstn m (rev l)).
  { intros a m Ha ->. rewrite <- L at 1. rewrite pyslice_end, skipn_rev_firstn, L. f_equal.
    destruct (Z.ltb_spec a 0); lia. }
  destruct svd; cbn [andb].
  - unfold svd_range, rng. destruct (Nat.leb_spec k dim); [apply S; lia|]. destruct (Nat.ltb_spec k (2 * dim)); apply S0; lia.
  - unfold eig_range, rng, clamp. replace (if k <=? dim then k else dim) with (Nat.min k dim) by (destruct (Nat.leb_spec k dim); lia).
    destruct dim as [|dim]; [destruct l; [|discriminate]; cbn [rev]; rewrite firstn_nil; repeat destruct (_ <? _)%Z; unfold pyslice; now rewrite skipn_nil, firstn_nil|].
    rewrite Z.ltb_irrefl. destruct (Z.ltb_spec (Z.of_nat (Datatypes.S dim) - Z.of_nat k + 1) 1).
    + destruct (Z.ltb_spec (Z.of_nat (Datatypes.S dim)) 1); [lia|]. destruct (Z.ltb_spec (Z.of_nat (Datatypes.S dim)) 1); [lia|]. apply S; lia.
    + destruct (Z.ltb_spec (Z.of_nat (Datatypes.S dim)) (Z.of_nat (Datatypes.S dim) - Z.of_nat k + 1)); [lia|].
      destruct (Z.ltb_spec (Z.of_nat (Datatypes.S dim)) (Z.of_nat (Datatypes.S dim) - Z.of_nat k + 1)); [lia|]. apply S; lia.
Qed.

Section Stop.
  Context {K : ofield}.
  Add Field Kf2 : (fth K).
  Notation vec := (vec (K := K)). Notation mtx := (mtx (K := K)).
  Variable eigh : option (Z * Z) -> nat -> mtx -> option (list K * list vec).
  Variable svd_ : nat -> mtx -> option (list K * list vec).
  Variable sqrt_ : K -> K.
  Variable dim : nat.
  Variable svd reduce : bool.
  Variables var_abs var_rel : K.
  Variable var_part : option K.
  Variable whiten : bool.
  Notation stop := (pca_stop eigh svd_ sqrt_ dim svd reduce var_abs var_rel var_part whiten).
  (** the numerical routines deliver an eigensystem of a symmetric positive semidefinite matrix, or fail *)
  Hypothesis eigh_ok : forall rng c D V, symmetric dim c -> psd dim c -> eigh rng dim c = Some (D, V) -> eigensystem dim c D V.
  Hypothesis svd_ok : forall c D V, symmetric dim c -> psd dim c -> svd_ dim c = Some (D, V) -> eigensystem dim c D V.

  Lemma trains_ok (chunks : list (list vec)) : forall (s : pca) a, p_training s = true -> p_acc s = Some a -> exists s0, pca_trains s chunks = (s0, POk tt) /\
    p_acc s0 = Some (fold_left acc_update chunks a) /\ p_out s0 = p_out s /\ p_desired s0 = p_desired s /\ p_training s0 = true /\
    p_started s0 = (match chunks with [] => p_started s | _ => true end).
  Proof.
    clear. induction chunks as [|x r IH]; intros s a Ht Ha; [exists s; cbn; auto 7|]. cbn [pca_trains]. unfold pca_train. rewrite Ht, Ha. cbn [negb].
    destruct (IH (mkP (p_out s) (p_desired s) (Some (acc_update a x)) (p_tlen s) (p_avg s) (p_d s) (p_v s) (p_vartot s) (p_expl s) true true) _ eq_refl eq_refl) as [s0 [E [A [O [D [T St]]]]]].
    exists s0. cbn in *. rewrite E. repeat split; auto. rewrite St. now destruct r.
  Qed.
  Definition frac (o : @odim K) : bool := match o with OFrac _ => true | _ => false end.
  Definition asked (o : @odim K) : nat := match o with OInt k => kept svd dim k | _ => dim end.
  Lemma solve_ok (s : pca (K := K)) out rng c d v : symmetric dim c -> psd dim c -> adjust dim s = (out, rng) -> solve eigh svd_ dim svd rng c = POk (d, v) ->
    exists D V, eigensystem dim c D V /\ let m := match p_out s with Some k => kept svd dim k | None => dim end in
      rev d = firstn m (rev D) /\ rev v = firstn m (rev V).
  Proof.
    intros Sc Pc A So. unfold solve in So.
    assert (X : exists D V, eigensystem dim c D V /\ d = (if svd then svd_range rng D else eig_range dim rng D) /\ v = (if svd then svd_range rng V else eig_range dim rng V)).
    { destruct svd.
      - destruct (svd_ dim c) as [[D V]|] eqn:E; [|discriminate]. injection So as <- <-. exists D, V. split; [now apply svd_ok|]. auto.
      - destruct (eigh rng dim c) as [[D V]|] eqn:E; [|discriminate]. injection So as <- <-. exists D, V. split; [now apply (eigh_ok rng)|]. auto. }
    destruct X as [D [V [ES [-> ->]]]]. exists D, V. split; [exact ES|]. cbv zeta. destruct ES as [LD [LV _]].
    assert (N : rng = None -> rev (if svd then svd_range rng D else eig_range dim rng D) = firstn dim (rev D) /\ rev (if svd then svd_range rng V else eig_range dim rng V) = firstn dim (rev V)).
    { intros ->. unfold svd_range, eig_range. split; (destruct svd; rewrite firstn_all2; [reflexivity|rewrite rev_length; lia|reflexivity|rewrite rev_length; lia]). }
    unfold adjust in A. destruct (p_out s) as [k|].
    - assert (A' : rng = if 1 <=? k then Some (Z.of_nat dim - Z.of_nat k + 1, Z.of_nat dim)%Z else None) by (destruct (p_desired s); now injection A as _ <-).
      destruct (Nat.leb_spec 1 k) as [Hk|Hk].
      + subst rng. split; now apply range_kept.
      + replace (kept svd dim k) with dim by (replace k with 0 by lia; reflexivity). now apply N.
    - apply N. destruct (p_desired s); now injection A as _ <-.
  Qed.
  Lemma firstn_firstn_min {A} (a b : nat) (l : list A) : firstn a (firstn b l) = firstn (Nat.min a b) l.
  Proof. apply firstn_firstn. Qed.
  Lemma rev_desc (D : list K) (V : list vec) c : eigensystem dim c D V -> StronglySorted fge (rev D).
  Proof. intros ES. apply sorted_rev. apply ES. Qed.
  Lemma sorted_firstn (R : K -> K -> Prop) m (l : list K) : StronglySorted R l -> StronglySorted R (firstn m l).
  Proof.
    intros H. revert m. induction H as [|a l S IH F]; intros [|m]; cbn; [constructor|constructor|constructor|]. constructor; [apply IH|].
    apply Forall_forall. intros x Hx. rewrite Forall_forall in F. apply F. rewrite <- (firstn_skipn m l). apply in_or_app. now left.
  Qed.
  Lemma fmax_in (l : list K) : l <> [] -> In (fmax l) l.
  Proof.
    clear. intros H. unfold fmax. assert (G : forall r, let x := fold_right (fun a b => if fltb b a then a else b) (hd f0 l) r in x = hd f0 l \/ In x r).
    { induction r as [|a r IH]; cbn; [now left|]. destruct (fltb _ a); [right; now left|]. destruct IH as [E|E]; [now left|right; now right]. }
    destruct (G l) as [E|E]; [rewrite E|exact E]. destruct l; [congruence|now left].
  Qed.
  Lemma fmax_ge (l : list K) a : In a l -> (a <= fmax l)%of.
  Proof.
    clear. unfold fmax. generalize (hd f0 l) as h. intros h. revert a. induction l as [|b l IH]; intros a []; cbn.
    - subst. destruct (fltb _ a) eqn:E; [apply fle_refl|exact E].
    - destruct (fltb _ b) eqn:E; [|now apply IH]. eapply fle_trans; [now apply IH|]. now apply flt_le.
  Qed.
  Lemma quot_mono (q m a b : K) : (0 < m)%of -> (a <= b)%of -> fltb q (a / m)%of = true -> fltb q (b / m)%of = true.
  Proof.
    clear. intros Hm Hab H. apply (flt_le_trans _ (a / m)%of); [exact H|]. rewrite !(Fdiv_def (fth K)). apply fle_mul; [|exact Hab]. now apply flt_le, finv_pos.
  Qed.
  Lemma filter_prefix_n (p : K -> bool) (l L : list K) n : l = firstn n L -> StronglySorted fge L -> (forall a b, (a <= b)%of -> p a = true -> p b = true) ->
    exists n', n' <= n /\ filter p l = firstn n' L.
  Proof.
    clear. intros -> S M. exists (length (filter p (firstn n L))). assert (L1 : length (filter p (firstn n L)) <= n) by (etransitivity; [apply filter_length_le|]; rewrite firstn_length; lia).
    split; [exact L1|]. rewrite filter_prefix at 1; [|now apply sorted_firstn|exact M]. rewrite firstn_firstn. f_equal. lia.
  Qed.
  Lemma filter_filter (p q : K -> bool) l : filter p (filter q l) = filter (fun a => q a && p a) l.
  Proof. clear. induction l as [|a l IH]; cbn; [reflexivity|]. destruct (q a); cbn; [|exact IH]. destruct (p a); now rewrite IH. Qed.
  (** the condition of reduce=True on an eigenvalue; m: the largest eigenvalue among those greater than var_abs *)
  Definition part_ok (vt a : K) : bool := match var_part with Some q => if fltb f0 q || fltb q f0 then fltb q (a / vt)%of else true | None => true end.
  Definition big (m vt a : K) : bool := fltb var_abs a && (fltb var_rel (a / m)%of && part_ok vt a).
  Lemma filter_all (p : K -> bool) l : (forall x, In x l -> p x = true) -> filter p l = l.
  Proof. clear. induction l as [|a l IH]; cbn; intros H; [reflexivity|]. rewrite (H a) by auto. f_equal. auto. Qed.
  Lemma shrink_ok vt out1 (L : list K) n (v : list vec) out2 d2 v2 : reduce = true -> (0 <= var_abs)%of -> StronglySorted fge L ->
    (forall a, In a L -> (0 < a)%of -> (0 < vt)%of) -> shrink reduce var_abs var_rel var_part vt out1 (firstn n L) v = POk (out2, d2, v2) ->
    exists n' m, n' <= n /\ d2 = firstn n' L /\ length d2 = n' /\ v2 = firstn n' v /\ out2 = Some n' /\
      In m (firstn n L) /\ (var_abs < m)%of /\ (forall a, In a (firstn n L) -> (a <= m)%of) /\ d2 = filter (big m vt) (firstn n L).
  Proof.
    intros Hr Va S Pos. unfold shrink. rewrite Hr. set (e := filter (fun a => fltb var_abs a) (firstn n L)). intros H.
    assert (Ne : e <> []) by (intros E; now rewrite E in H). assert (Hm : In (fmax e) e) by (now apply fmax_in). pose proof Hm as Hm'. apply filter_In in Hm'. destruct Hm' as [M1 M2].
    assert (Mp : (0 < fmax e)%of) by (exact (fle_lt_trans _ _ _ Va M2)).
    assert (Vp : (0 < vt)%of) by (apply (Pos (fmax e)); [rewrite <- (firstn_skipn n L); apply in_or_app; now left|exact Mp]).
    set (m := fmax e) in *. set (d1 := filter (fun a => fltb var_rel (a / m)%of) e) in *.
    assert (H' : POk (Some (length (filter (part_ok vt) d1)), filter (part_ok vt) d1, firstn (length (filter (part_ok vt) d1)) v) = POk (out2, d2, v2)).
    { replace (filter (part_ok vt) d1) with (match var_part with Some q => if fltb f0 q || fltb q f0 then filter (fun a => fltb q (a / vt)%of) d1 else d1 | None => d1 end).
      - destruct e; [congruence|exact H].
      - unfold part_ok. destruct var_part as [q|]; [destruct (fltb f0 q || fltb q f0); [reflexivity|]|]; symmetry; now apply filter_all. }
    clear H. injection H' as <- <- <-.
    destruct (filter_prefix_n (fun a => fltb var_abs a) (firstn n L) L n eq_refl S) as [n1 [N1 E1]]; [intros x y Hxy Hx; exact (flt_le_trans _ _ _ Hx Hxy)|]. fold e in E1.
    destruct (filter_prefix_n (fun a => fltb var_rel (a / m)%of) e L n1 E1 S) as [n2 [N2 E2]]; [intros; now apply (quot_mono _ _ a)|]. fold d1 in E2.
    destruct (filter_prefix_n (part_ok vt) d1 L n2 E2 S) as [n3 [N3 E3]].
    { intros a b Hab. unfold part_ok. destruct var_part as [q|]; [|auto]. destruct (_ || _); [|auto]. now apply quot_mono. }
    exists (length (filter (part_ok vt) d1)), m. assert (L3 : length (filter (part_ok vt) d1) <= n3) by (rewrite E3, firstn_length; lia).
    split; [lia|]. split; [|split; [reflexivity|split; [reflexivity|split; [reflexivity|split; [exact M1|split; [exact M2|split]]]]]].
    - rewrite E3 at 1. rewrite E3, firstn_length. apply firstn_min.
    - intros a Ha. destruct (fle_or_lt a m) as [|Lt]; [assumption|]. apply fmax_ge. unfold e. apply filter_In. split; [exact Ha|]. exact (flt_trans K _ _ _ M2 Lt).
    - unfold d1, e. rewrite !filter_filter. apply filter_ext. intros a. unfold big. now rewrite andb_assoc.
  Qed.
  Lemma fsum_ge_in (l : list K) a : (forall x, In x l -> (0 <= x)%of) -> In a l -> (a <= fsum l)%of.
  Proof.
    clear. induction l as [|b l IH]; intros H []; cbn [fsum].
    - subst. apply fle_sub. replace (a + fsum l - a)%of with (fsum l) by ring. apply fsum_nonneg. apply Forall_forall. intros. apply H. now right.
    - apply fle_trans with (fsum l); [apply IH; auto; intros; apply H; now right|]. apply fle_sub. replace (b + fsum l - fsum l)%of with b by ring. apply H. now left.
  Qed.
  Lemma eig_in_nonneg c (D : list K) (V : list vec) : eigensystem dim c D V -> psd dim c -> forall x, In x D -> (0 <= x)%of.
  Proof.
    clear. intros ES P x Hx. apply (In_nth _ _ f0) in Hx. destruct Hx as [k [Hk <-]]. apply (eig_nonneg dim c D V ES P). destruct ES as [<- _]. exact Hk.
  Qed.
  Hypothesis var_abs_ok : reduce = true -> (0 <= var_abs)%of.
  (** the state after a successful stop_training, non-whitened vectors *)
  Lemma stop_ok (s : pca (K := K)) a s' : p_acc s = Some a -> symmetric dim (fst (acc_fix true a)) -> psd dim (fst (acc_fix true a)) ->
    stop s = (s', POk tt) -> exists D V md mv raw, let c := fst (acc_fix true a) in
      eigensystem dim c D V /\ md <= dim /\ mv <= dim /\ p_d s' = firstn md (rev D) /\ raw = firstn mv (rev V) /\
      p_avg s' = snd (acc_fix true a) /\ p_vartot s' = fsumn dim (fun i => c i i) /\ p_tlen s' = a_n a /\ p_training s' = false /\
      (if whiten then whiten_v sqrt_ (p_d s') raw = POk (p_v s') else p_v s' = raw) /\
      (p_desired s = None -> md = mv) /\ (p_desired s = None -> reduce = false -> md = match p_out s with Some k => kept svd dim k | None => dim end) /\
      p_expl s' = (if fltb f0 (p_vartot s') || fltb (p_vartot s') f0 then Some (fsum (p_d s') / p_vartot s')%of else None) /\
      (reduce = true -> md = mv /\ p_out s' = Some md /\ exists k m, md <= k /\ (p_desired s = None -> k = match p_out s with Some k => kept svd dim k | None => dim end) /\
         In m (firstn k (rev D)) /\ (var_abs < m)%of /\ (forall a, In a (firstn k (rev D)) -> (a <= m)%of) /\ p_d s' = filter (big m (p_vartot s')) (firstn k (rev D))) /\
      (reduce = false -> p_desired s = None -> p_out s' = match p_out s with None => Some dim | Some k => Some k end) /\
      (reduce = false -> forall q, p_desired s = Some q -> p_out s = None -> let pos := filter (fun a => fltb f0 a) (rev D) in
         let n := searchsorted (cumsum f0 (map (fun a => a / p_vartot s')%of pos)) q + 1 in p_out s' = Some n /\ md = Nat.min n (length pos) /\ mv = Nat.min n dim).
  Proof.
    intros Ha Sc Pc. unfold pca_stop. destruct (p_training s); cbn [negb andb]; [|discriminate]. destruct (p_started s); cbn [negb]; [|discriminate]. rewrite Ha.
    destruct (acc_fix true a) as [c avg]. cbn [fst snd] in *. destruct (adjust dim s) as [out rng] eqn:Ad. destruct (solve eigh svd_ dim svd rng c) as [[d v]|e] eqn:So; [|discriminate].
    destruct (solve_ok s out rng c d v Sc Pc Ad So) as [D [V [ES [Hd Hv]]]]. set (m := match p_out s with Some k => kept svd dim k | None => dim end) in *.
    destruct (negb _ && existsb _ d); [discriminate|]. rewrite Hd, Hv.
    pose proof ES as [LD [LV _]]. pose proof (rev_desc _ _ _ ES) as Srt.
    assert (Hm : m <= dim) by (unfold m, kept; destruct (p_out s) as [k|]; [|lia]; destruct (k =? 0); [lia|]; destruct (Nat.leb_spec k dim); [lia|]; destruct svd; cbn [andb]; [destruct (Nat.ltb_spec k (2 * dim))|]; lia).
    set (vt := fsumn dim (fun i => c i i)).
    (* the cut *)
    assert (C1 : exists md mv out1, cut (p_desired s) vt out (firstn m (rev D)) (firstn m (rev V)) = (out1, firstn md (rev D), firstn mv (rev V)) /\ md <= dim /\ mv <= dim /\ md <= mv /\
      (p_desired s = None -> md = mv /\ md = m /\ out1 = out) /\
      (forall q, p_desired s = Some q -> p_out s = None -> let pos := filter (fun a => fltb f0 a) (rev D) in
         let n := searchsorted (cumsum f0 (map (fun a => a / vt)%of pos)) q + 1 in out1 = Some n /\ md = Nat.min n (length pos) /\ mv = Nat.min n dim)).
    { unfold cut. destruct (p_desired s) as [q|].
      - assert (Fp : filter (fun a => fltb f0 a) (firstn m (rev D)) = firstn (length (filter (fun a => fltb f0 a) (firstn m (rev D)))) (rev D)).
        { rewrite filter_prefix at 1; [|now apply sorted_firstn|intros x y Hxy Hx; exact (flt_le_trans _ _ _ Hx Hxy)].
          rewrite firstn_firstn. f_equal. apply Nat.min_l. etransitivity; [apply filter_length_le|]. rewrite firstn_length. lia. }
        set (pos := filter _ (firstn m (rev D))) in *. set (n := searchsorted _ q + 1). exists (Nat.min n (length pos)), (Nat.min n m), (Some n).
        assert (Lp : length pos <= m) by (unfold pos; etransitivity; [apply filter_length_le|]; rewrite firstn_length; lia).
        split; [rewrite Fp at 1; now rewrite !firstn_firstn|]. split; [lia|]. split; [lia|]. split; [lia|]. split; [discriminate|].
        intros q' Hq Ho. injection Hq as <-. assert (Em : m = dim) by (unfold m; now rewrite Ho).
        assert (Ep : pos = filter (fun a => fltb f0 a) (rev D)) by (unfold pos; rewrite Em, firstn_all2; [reflexivity|rewrite rev_length; lia]).
        cbv zeta. rewrite <- Ep. fold n. rewrite Em. auto.
      - exists m, m, out. repeat split; auto; discriminate. }
    destruct C1 as [md [mv [out1 [C1 [L1 [L2 [L3 [Cn Cf]]]]]]]]. rewrite C1. clear C1.
    assert (Oout : p_desired s = None -> out = match p_out s with None => Some dim | Some k => Some k end) by (intros H; unfold adjust in Ad; rewrite H in Ad; destruct (p_out s); now injection Ad as <- _).
    assert (Pv : forall a, In a (rev D) -> (0 < a)%of -> (0 < vt)%of).
    { intros x Hx Hp. unfold vt. rewrite (trace_eig dim c D V ES). apply (flt_le_trans _ x); [exact Hp|]. apply in_rev in Hx. apply fsum_ge_in; [|exact Hx]. now apply (eig_in_nonneg c D V). }
    destruct (shrink reduce var_abs var_rel var_part vt out1 (firstn md (rev D)) (firstn mv (rev V))) as [[[out2 d2] v2]|e] eqn:C2; [|discriminate].
    assert (G : exists md' mv', d2 = firstn md' (rev D) /\ v2 = firstn mv' (rev V) /\ md' <= dim /\ mv' <= dim /\ (reduce = false -> md' = md /\ mv' = mv /\ out2 = out1) /\
      (reduce = true -> md' = mv' /\ out2 = Some md' /\ exists m, md' <= md /\ In m (firstn md (rev D)) /\ (var_abs < m)%of /\ (forall a, In a (firstn md (rev D)) -> (a <= m)%of) /\ d2 = filter (big m vt) (firstn md (rev D)))).
    { destruct (bool_dec reduce true) as [Er|Er].
      - destruct (shrink_ok vt out1 (rev D) md _ out2 d2 v2 Er (var_abs_ok Er) Srt Pv C2) as [n' [m0 [N1 [N2 [N3 [N4 [N5 [N6 [N7 [N8 N9]]]]]]]]]].
        exists n', n'. rewrite firstn_firstn, Nat.min_l in N4 by lia. split; [exact N2|]. split; [exact N4|]. split; [lia|]. split; [lia|]. split; [intros X; congruence|].
        intros _. split; [reflexivity|]. split; [exact N5|]. exists m0. auto.
      - apply not_true_is_false in Er. unfold shrink in C2. rewrite Er in C2. injection C2 as <- <- <-. exists md, mv. rewrite Er. repeat split; auto; discriminate. }
    destruct G as [md' [mv' [Gd [Gv [L4 [L5 [Gf Gt]]]]]]].
    set (expl := if fltb f0 vt || fltb vt f0 then Some (fsum d2 / vt)%of else None).
    assert (Fin : forall v3, (if whiten then whiten_v sqrt_ d2 v2 = POk v3 else v3 = v2) -> s' = mkP out2 (p_desired s) None (a_n a) avg d2 v3 vt expl false false ->
      exists (D : list K) (V : list vec) (md mv : nat) (raw : list vec), eigensystem dim c D V /\ md <= dim /\ mv <= dim /\ p_d s' = firstn md (rev D) /\ raw = firstn mv (rev V) /\
      p_avg s' = avg /\ p_vartot s' = fsumn dim (fun i => c i i) /\ p_tlen s' = a_n a /\ p_training s' = false /\
      (if whiten then whiten_v sqrt_ (p_d s') raw = POk (p_v s') else p_v s' = raw) /\
      (p_desired s = None -> md = mv) /\ (p_desired s = None -> reduce = false -> md = m) /\
      p_expl s' = (if fltb f0 (p_vartot s') || fltb (p_vartot s') f0 then Some (fsum (p_d s') / p_vartot s')%of else None) /\
      (reduce = true -> md = mv /\ p_out s' = Some md /\ exists k m0, md <= k /\ (p_desired s = None -> k = m) /\
         In m0 (firstn k (rev D)) /\ (var_abs < m0)%of /\ (forall a, In a (firstn k (rev D)) -> (a <= m0)%of) /\ p_d s' = filter (big m0 (p_vartot s')) (firstn k (rev D))) /\
      (reduce = false -> p_desired s = None -> p_out s' = match p_out s with None => Some dim | Some k => Some k end) /\
      (reduce = false -> forall q, p_desired s = Some q -> p_out s = None -> let pos := filter (fun a => fltb f0 a) (rev D) in
         let n := searchsorted (cumsum f0 (map (fun a => a / p_vartot s')%of pos)) q + 1 in p_out s' = Some n /\ md = Nat.min n (length pos) /\ mv = Nat.min n dim)).
    { intros v3 W ->. exists D, V, md', mv', v2. cbn [p_d p_v p_avg p_vartot p_tlen p_training p_out p_expl].
      split; [exact ES|]. split; [exact L4|]. split; [exact L5|]. split; [exact Gd|]. split; [exact Gv|]. split; [reflexivity|]. split; [reflexivity|]. split; [reflexivity|]. split; [reflexivity|].
      split; [exact W|]. split; [|split; [|split; [|split; [|split]]]].
      - intros Hn. destruct (Cn Hn) as [E1 [E2 E3]]. destruct (bool_dec reduce true) as [Er|Er]; [now apply Gt|]. apply not_true_is_false in Er. destruct (Gf Er) as [-> [-> _]]. exact E1.
      - intros Hn Er. destruct (Cn Hn) as [E1 [E2 E3]]. destruct (Gf Er) as [-> [-> _]]. exact E2.
      - reflexivity.
      - intros Er. destruct (Gt Er) as [E1 [E2 [m0 [E3 [E4 [E5 [E6 E7]]]]]]]. split; [exact E1|]. split; [exact E2|]. exists md, m0. split; [exact E3|]. split; [|auto].
        intros Hn. apply (Cn Hn).
      - intros Er Hn. destruct (Gf Er) as [_ [_ ->]]. destruct (Cn Hn) as [_ [_ ->]]. now apply Oout.
      - intros Er q Hq Ho. destruct (Gf Er) as [-> [-> ->]]. now apply Cf. }
    destruct whiten.
    - destruct (whiten_v sqrt_ d2 v2) as [v3|e] eqn:W; [|discriminate]. intros H. injection H as <-. now apply (Fin v3).
    - intros H. injection H as <-. now apply (Fin v2).
  Qed.
End Stop.
