(** Properties of the generalised eigenvalue solvers: C215-C219. *)
From Coq Require Import List Arith ZArith QArith Qcanon Bool Lia Sorting.Sorted Field.
From Verif Require Import OField LinAlg PCAModel PCAProofs GenEig SymeigModel SymeigProofs.
Import ListNotations.
Open Scope nat_scope.

Section Props.
  Context {K : ofield}.
  Add Field Kt : (fth K).
  Notation vec := (vec (K := K)). Notation mtx := (mtx (K := K)).
  Context (eigh : option (Z * Z) -> nat -> mtx -> option (list K * list vec)) (svd_ : nat -> mtx -> list K * list vec) (sqrt_ : K -> K) (thr : K).
  (** contracts of eigh, svd (on a positive semidefinite matrix the left singular vectors are eigenvectors) and sqrt *)
  Hypothesis eigh_ok : forall rng n C D V, symmetric n C -> psd n C -> eigh rng n C = Some (D, V) -> eigensystem n C D V.
  Hypothesis svd_ok : forall n C s U, symmetric n C -> psd n C -> svd_ n C = (s, U) -> eigensystem n C (rev s) (rev U).
  Hypothesis sqrt_ok : forall a : K, (0 < a)%of -> (sqrt_ a * sqrt_ a)%of = a.
  Hypothesis thr_pos : (0 < thr)%of.

  Lemma eig_range_map {S T} (f : S -> T) n rng l : eig_range n rng (map f l) = map f (eig_range n rng l).
  Proof. unfold eig_range, pyslice. destruct rng as [[lo hi]|]; [|reflexivity]. destruct (clamp n lo hi). now rewrite map_length, skipn_map, firstn_map. Qed.
  Lemma svd_range_map {S T} (f : S -> T) rng l : svd_range rng (map f l) = map f (svd_range rng l).
  Proof. unfold svd_range, pyslice. destruct rng as [[lo hi]|]; [|reflexivity]. now rewrite map_length, skipn_map, firstn_map. Qed.
  Lemma sorted_lead (D : list K) : StronglySorted fle D -> forall k, searchsorted D thr <= k -> k < length D -> (thr <= nth k D f0)%of.
  Proof.
    intros S k Hk Hl. destruct (searchsorted_spec D thr) as (_ & _ & H). assert (L : searchsorted D thr < length D) by lia.
    apply fle_trans with (nth (searchsorted D thr) D f0); [now apply H|]. now apply sorted_nth.
  Qed.

  (** ** C215: _symeig_fake solves the generalised problem when B is positive definite *)
  Theorem C215_fake : forall rng n A B dfc d U, symmetric n A -> symmetric n B -> psd n A -> psd n B ->
    (forall w, quad n B w w = f0 -> forall i, i < n -> w i = f0) -> symeig_fake eigh sqrt_ rng n A B = SolOk dfc d U ->
    exists D0 U0, length U0 = n /\ gsolves n A B D0 U0 /\ gcomplete n A B U0 /\ d = eig_range n rng D0 /\ U = eig_range n rng U0.
  Proof.
    intros rng n A B dfc d U SA SB PA PB PD H. unfold symeig_fake in H. destruct (eigh None n B) as [[wB ZB]|] eqn:EB; [|discriminate].
    pose proof (eigh_ok _ _ _ _ _ SB PB EB) as ES. destruct (existsb _ wB) eqn:NEG; [discriminate|].
    set (S := rescale sqrt_ wB ZB) in *. destruct (eigh None n (congr n A S)) as [[w ZA]|] eqn:EA; [|discriminate]. injection H as <- <- <-.
    pose proof ES as (LD & LV & ON & CP & EV & SO).
    assert (POS : forall k, 0 <= k -> k < n -> (0 < nth k wB f0)%of).
    { intros k _ Hk. destruct (fle_lt_eq _ _ (eig_nonneg n B wB ZB ES PB k Hk)) as [L|Z]; [exact L|]. exfalso.
      assert (Q : quad n B (nth k ZB vzero) (nth k ZB vzero) = f0) by (rewrite (eig_quad n B wB ZB ES k k Hk Hk), <- Z; ring).
      pose proof (ON k k ltac:(lia) ltac:(lia)) as E. unfold dot in E. rewrite fsumn_zero in E by (intros i Hi; rewrite (PD _ Q i Hi); ring).
      unfold delta in E. rewrite Nat.eqb_refl in E. apply (f10 (K := K)). now symmetry. }
    pose proof (S_borth sqrt_ sqrt_ok n B wB ZB 0 ES POS) as HB. pose proof (S_complete sqrt_ sqrt_ok n A B wB ZB 0 SA SB ES POS PA PB) as GC.
    pose proof (S_len sqrt_ n B wB ZB 0 ES) as LS. rewrite !skipn_O in *. fold S in HB, GC, LS. rewrite Nat.sub_0_r in LS.
    assert (EE : eigensystem (length S) (congr n A S) w ZA).
    { pose proof (congr_sym n A S SA) as X1. pose proof (congr_psd n A S SA PA) as X2. rewrite LS in *. now apply (eigh_ok None). }
    exists w, (mulcols S ZA). split; [unfold mulcols; rewrite map_length; exact (eq_trans (proj1 (proj2 EE)) LS)|].
    split; [now apply (congr_solves n A B S w ZA SA SB HB EE)|]. split; [|split; reflexivity]. apply (congr_complete n A B S w ZA SB EE). apply GC; [lia|].
    intros v Q. unfold quad, dot. apply fsumn_zero. intros i Hi. rewrite (PD v Q i Hi). ring.
  Qed.

  (** ** The core of the semidefinite solvers *)
  Lemma pca_core_ok rng n A B dfc d U : symmetric n A -> symmetric n B -> psd n A -> psd n B -> pca_core eigh sqrt_ thr rng n A B = SolOk dfc d U ->
    exists D V D0 U0, let off := searchsorted D thr in eigensystem n B D V /\ dfc = Some off /\ off < n /\ length U0 = n - off /\ gsolves n A B D0 U0 /\
      d = eig_range (n - off) rng D0 /\ U = eig_range (n - off) rng U0 /\
      ((forall a, In a D -> (a < thr)%of -> a = f0) -> (forall w, quad n B w w = f0 -> quad n A w w = f0) -> gcomplete n A B U0).
  Proof.
    intros SA SB PA PB H. unfold pca_core in H. destruct (eigh None n B) as [[D V]|] eqn:EB; [|discriminate]. pose proof (eigh_ok _ _ _ _ _ SB PB EB) as ES.
    unfold leading in H. set (off := searchsorted D thr) in *. destruct (Nat.leb_spec (length D) off) as [L|L]; [discriminate|].
    set (S := rescale sqrt_ (skipn off D) (skipn off V)) in *. destruct (eigh rng (length S) (congr n A S)) as [[w E]|] eqn:EA; [|discriminate]. injection H as <- <- <-.
    pose proof ES as (LD & LV & ON & CP & EV & SO).
    assert (POS : forall k, off <= k -> k < n -> (0 < nth k D f0)%of).
    { intros k Hk Hn. apply (flt_le_trans _ thr); [exact thr_pos|]. apply sorted_lead; [exact SO|exact Hk|lia]. }
    pose proof (S_borth sqrt_ sqrt_ok n B D V off ES POS) as HB. pose proof (S_complete sqrt_ sqrt_ok n A B D V off SA SB ES POS PA PB) as GC.
    pose proof (S_len sqrt_ n B D V off ES) as LS. fold S in HB, GC, LS.
    pose proof (eigh_ok _ _ _ _ _ (congr_sym n A S SA) (congr_psd n A S SA PA) EA) as EE.
    exists D, V, w, (mulcols S E). cbv zeta. fold off. split; [exact ES|]. split; [reflexivity|]. split; [lia|].
    split; [unfold mulcols; rewrite map_length; exact (eq_trans (proj1 (proj2 EE)) LS)|]. split; [now apply congr_solves|].
    rewrite LS. split; [reflexivity|]. split; [unfold mulcols; now rewrite eig_range_map|]. intros Z KER. apply (congr_complete n A B S w E SB EE). apply GC; [|exact KER].
    intros k Hk Hn. apply Z; [apply nth_In; lia|]. now apply (proj1 (proj2 (searchsorted_spec D thr))).
  Qed.
  Lemma firstn_rev_skipn {T} (l : list T) m : firstn (length l - m) l = rev (skipn m (rev l)).
  Proof. rewrite skipn_rev_firstn, rev_involutive, rev_length. reflexivity. Qed.
  Lemma combine_rev {S T} (l : list S) (r : list T) : length l = length r -> combine (rev l) (rev r) = rev (combine l r).
  Proof.
    revert r. induction l as [|a l IH]; intros [|b r] H; cbn in H; try lia; [reflexivity|]. cbn. rewrite <- IH by lia.
    assert (G : forall (x : list S) (y : list T), length x = length y -> combine (x ++ [a]) (y ++ [b]) = combine x y ++ [(a, b)]).
    { induction x as [|u x IHx]; intros [|v y] E; cbn in E; try lia; [reflexivity|]. cbn. now rewrite IHx by lia. }
    apply G. rewrite !rev_length. lia.
  Qed.
  Lemma svd_core_ok rng n A B dfc d U : symmetric n A -> symmetric n B -> psd n A -> psd n B -> svd_core svd_ sqrt_ thr rng n A B = SolOk dfc d U ->
    exists D V D0 U0, let off := searchsorted D thr in eigensystem n B D V /\ dfc = (if 0 <? off then Some off else None) /\ off < n /\ length U0 = n - off /\ gsolves n A B D0 U0 /\
      d = svd_range rng D0 /\ U = svd_range rng U0 /\
      ((forall a, In a D -> (a < thr)%of -> a = f0) -> (forall w, quad n B w w = f0 -> quad n A w w = f0) -> gcomplete n A B U0).
  Proof.
    intros SA SB PA PB H. unfold svd_core in H. destruct (svd_ n B) as [s V'] eqn:EB. pose proof (svd_ok _ _ _ _ SB PB EB) as ES.
    set (D := rev s) in *. set (V := rev V') in *. set (off := searchsorted D thr) in *. destruct (Nat.leb_spec (length s) off) as [L|L]; [discriminate|].
    pose proof ES as (LD & LV & ON & CP & EV & SO). assert (Ls : length s = n) by (unfold D in LD; now rewrite rev_length in LD). assert (LV' : length V' = n) by (unfold V in LV; now rewrite rev_length in LV).
    set (S := rescale sqrt_ (skipn off D) (skipn off V)).
    assert (EX : rescale sqrt_ (firstn (length s - off) s) (firstn (length s - off) V') = rev S).
    { rewrite firstn_rev_skipn. fold D. rewrite Ls, <- LV', firstn_rev_skipn. fold V. unfold rescale, S, rescale. rewrite combine_rev by (rewrite !skipn_length; lia). apply map_rev. }
    rewrite EX in H.
    assert (POS : forall k, off <= k -> k < n -> (0 < nth k D f0)%of).
    { intros k Hk Hn. apply (flt_le_trans _ thr); [exact thr_pos|]. apply sorted_lead; [exact SO|exact Hk|lia]. }
    pose proof (rev_borth n B S (S_borth sqrt_ sqrt_ok n B D V off ES POS)) as HB. pose proof (S_complete sqrt_ sqrt_ok n A B D V off SA SB ES POS PA PB) as GC.
    pose proof (S_len sqrt_ n B D V off ES) as LS. fold S in GC, LS.
    destruct (svd_ (length (rev S)) (congr n A (rev S))) as [s2 X2] eqn:EA. injection H as <- <- <-.
    pose proof (svd_ok _ _ _ _ (congr_sym n A (rev S) SA) (congr_psd n A (rev S) SA PA) EA) as EE.
    pose proof (congr_solves n A B (rev S) _ _ SA SB HB EE) as GS. assert (EM : rev (mulcols (rev S) X2) = mulcols (rev S) (rev X2)) by (unfold mulcols; symmetry; apply map_rev).
    rewrite EM. exists D, V, (rev s2), (mulcols (rev S) (rev X2)). cbv zeta. fold off. split; [exact ES|]. split; [reflexivity|]. split; [lia|].
    split; [unfold mulcols; rewrite map_length; refine (eq_trans (proj1 (proj2 EE)) _); now rewrite rev_length|]. split; [exact GS|]. split; [|split; [reflexivity|]].
    - f_equal. destruct GS as (LG & _ & DG & _). apply (nth_ext _ _ f0 f0); [now rewrite map_length|]. intros k Hk. rewrite map_length in Hk.
      rewrite (nth_indep _ f0 (quad n A vzero vzero)) by (rewrite map_length; exact Hk).
      change (quad n A vzero vzero) with ((fun u => quad n A u u) vzero). rewrite map_nth. rewrite DG by assumption. unfold delta. rewrite Nat.eqb_refl. ring.
    - intros Z KER. apply (congr_complete n A B (rev S) _ _ SB EE). apply rev_complete. apply GC; [|exact KER].
      intros k Hk Hn. apply Z; [apply nth_In; lia|]. now apply (proj1 (proj2 (searchsorted_spec D thr))).
  Qed.

  (** ** Removing and restoring inputs *)
  Lemma restore_cons a r (u : vec) i : ~ In a r -> restore (a :: r) u i = (u O * delta a i + restore r (fun p => u (S p)) i)%of.
  Proof.
    intros N. unfold restore, delta. cbn [pos]. rewrite (Nat.eqb_sym a i). destruct (Nat.eqb_spec i a) as [->|E].
    - replace (pos a r) with (@None nat); [ring|]. clear -N. induction r as [|b r IH]; [reflexivity|]. cbn. destruct (Nat.eqb_spec a b) as [->|]; [exfalso; apply N; now left|].
      rewrite <- IH; [reflexivity|]. intros H. apply N. now right.
    - destruct (pos i r); cbn; ring.
  Qed.
  Lemma sum_restore n idx : NoDup idx -> Forall (fun i => i < n) idx -> forall (u f : vec),
    fsumn n (fun i => restore idx u i * f i)%of = fsumn (length idx) (fun p => u p * f (nth p idx O))%of.
  Proof.
    intros ND F. induction F as [|a r Ha F IH]; intros u f; [cbn [length]; apply fsumn_zero; intros; unfold restore; cbn [pos]; ring|]. inversion ND; subst.
    rewrite (fsumn_ext n _ (fun i => (u O * f i) * delta a i + restore r (fun p => u (S p)) i * f i)%of) by (intros; rewrite restore_cons by assumption; ring).
    rewrite fsumn_add, fsumn_delta by exact Ha. rewrite IH by assumption. cbn [length]. change (S (length r)) with (1 + length r). rewrite fsumn_split.
    unfold fsumn at 2. cbn [seq map fsum nth Nat.add]. ring.
  Qed.
  Lemma quad_restore n idx (C : mtx) (u v : vec) : NoDup idx -> Forall (fun i => i < n) idx ->
    quad n C (restore idx u) (restore idx v) = quad (length idx) (pick idx C) u v.
  Proof.
    intros ND F. unfold quad, dot. rewrite sum_restore by assumption. apply fsumn_ext. intros p _. f_equal. unfold mulv.
    rewrite (fsumn_ext n _ (fun j => restore idx v j * C (nth p idx O) j)%of) by (intros; ring). rewrite sum_restore by assumption. apply fsumn_ext. intros. unfold pick. ring.
  Qed.
  Lemma pick_sym n idx (C : mtx) : Forall (fun i => i < n) idx -> symmetric n C -> symmetric (length idx) (pick idx C).
  Proof. intros F S i j Hi Hj. rewrite Forall_forall in F. apply S; apply F; now apply nth_In. Qed.
  Lemma pick_psd n idx (C : mtx) : NoDup idx -> Forall (fun i => i < n) idx -> psd n C -> psd (length idx) (pick idx C).
  Proof. intros ND F P w. rewrite <- (quad_restore n) by assumption. apply P. Qed.
  Lemma restore_solves n idx (A B : mtx) D U : NoDup idx -> Forall (fun i => i < n) idx -> gsolves (length idx) (pick idx A) (pick idx B) D U -> gsolves n A B D (map (restore idx) U).
  Proof.
    intros ND F (LD & HB & HA & SO). assert (N : forall k, k < length U -> nth k (map (restore idx) U) vzero = restore idx (nth k U vzero)).
    { intros k Hk. rewrite (nth_indep _ vzero (restore idx vzero)) by (rewrite map_length; exact Hk). apply map_nth. }
    split; [now rewrite map_length|]. split; [|split; [|exact SO]].
    - intros i j Hi Hj. rewrite map_length in Hi, Hj. rewrite !N by assumption. rewrite quad_restore by assumption. now apply HB.
    - intros i j Hi Hj. rewrite map_length in Hi, Hj. rewrite !N by assumption. rewrite quad_restore by assumption. now apply HA.
  Qed.
  (** inputs on which A and B vanish can be left out *)
  Lemma restore_complete n idx (A B : mtx) U : NoDup idx -> Forall (fun i => i < n) idx -> symmetric n A -> symmetric n B ->
    (forall i j, i < n -> j < n -> ~ In j idx -> A i j = f0 /\ B i j = f0) ->
    gcomplete (length idx) (pick idx A) (pick idx B) U -> gcomplete n A B (map (restore idx) U).
  Proof.
    intros ND F SA SB Z GC w i Hi z. set (w' := fun p => w (nth p idx 0)).
    assert (IN : forall j, j < n -> In j idx \/ ~ In j idx) by (intros; destruct (in_dec Nat.eq_dec j idx); auto).
    assert (MV : forall (C : mtx) (v : vec) j, (forall i j, i < n -> j < n -> ~ In j idx -> C i j = f0) -> j < n -> mulv n C v j = fsumn (length idx) (fun p => C j (nth p idx O) * v (nth p idx O))%of).
    { intros C v j ZC Hj. unfold mulv. transitivity (fsumn n (fun m => restore idx (fun p => v (nth p idx O)) m * C j m)%of).
      - apply fsumn_ext. intros m Hm. destruct (IN m Hm) as [I|I]; [|rewrite (ZC j m Hj Hm I); ring].
        replace (restore idx (fun p => v (nth p idx 0)) m) with (v m); [ring|]. unfold restore.
        assert (G : exists p, pos m idx = Some p /\ nth p idx 0 = m).
        { clear -I. induction idx as [|a r IH]; [destruct I|]. cbn. destruct (Nat.eqb_spec m a) as [->|]; [now exists 0|]. destruct I as [->|I]; [congruence|].
          destruct (IH I) as (p & -> & E). now exists (S p). }
        destruct G as (p & -> & ->). reflexivity.
      - rewrite sum_restore by assumption. apply fsumn_ext. intros. ring. }
    assert (ZA : forall i j, i < n -> j < n -> ~ In j idx -> A i j = f0) by (intros; now apply Z).
    assert (ZB : forall i j, i < n -> j < n -> ~ In j idx -> B i j = f0) by (intros; now apply Z).
    assert (CO : forall k, k < length U -> coef n B (map (restore idx) U) w k = coef (length idx) (pick idx B) U w' k).
    { intros k Hk. unfold coef. rewrite (nth_indep _ vzero (restore idx vzero)) by (rewrite map_length; exact Hk). rewrite map_nth. unfold quad, dot. rewrite sum_restore by assumption.
      apply fsumn_ext. intros p Hp. f_equal. rewrite (MV B w (nth p idx 0) ZB); [reflexivity|]. rewrite Forall_forall in F. apply F. now apply nth_In. }
    assert (PR : forall p, p < length idx -> z (nth p idx 0) = (w' p - comb U (coef (length idx) (pick idx B) U w') p)%of).
    { intros p Hp. unfold z. f_equal. unfold comb. rewrite map_length. apply fsumn_ext. intros k Hk. rewrite CO by exact Hk. f_equal.
      rewrite (nth_indep _ vzero (restore idx vzero)) by (rewrite map_length; exact Hk). rewrite map_nth. unfold restore.
      replace (pos (nth p idx 0) idx) with (Some p); [reflexivity|]. clear -Hp ND. revert p Hp. induction ND as [|a r N ND IH]; intros [|p] Hp; cbn in *; try lia; [now rewrite Nat.eqb_refl|].
      destruct (Nat.eqb_spec (nth p r 0) a) as [E|_]; [exfalso; apply N; rewrite <- E; apply nth_In; lia|]. rewrite <- (IH p) by lia. reflexivity. }
    assert (FIN : forall (C : mtx), symmetric n C -> (forall i j, i < n -> j < n -> ~ In j idx -> C i j = f0) ->
      (forall p, p < length idx -> mulv (length idx) (pick idx C) (fun j => w' j - comb U (coef (length idx) (pick idx B) U w') j)%of p = f0) -> mulv n C z i = f0).
    { intros C SC ZC H. destruct (IN i Hi) as [I|I].
      - apply (In_nth _ _ 0) in I. destruct I as (p & Hp & <-). rewrite (MV C z _ ZC Hi). rewrite <- (H p Hp). unfold mulv. apply fsumn_ext. intros q Hq. unfold pick. now rewrite PR.
      - unfold mulv. apply fsumn_zero. intros m Hm. rewrite (SC i m Hi Hm), (ZC m i Hm Hi I). ring. }
    split; [apply (FIN B SB ZB)|apply (FIN A SA ZA)]; intros p Hp; now apply (GC w').
  Qed.
  Lemma blank_idx n (B : mtx) idx : find_blank thr n B = Some idx -> NoDup idx /\ Forall (fun i => i < n) idx.
  Proof.
    unfold find_blank. destruct (filter _ (seq 0 n)) as [|a r]; [discriminate|]. destruct (filter _ (seq 0 n)) as [|b q]; [discriminate|]. intros E. injection E as <-.
    split; [apply NoDup_filter, seq_NoDup|]. apply Forall_forall. intros x Hx. apply filter_In in Hx. destruct Hx as [Hx _]. apply in_seq in Hx. lia.
  Qed.
  Lemma idx_le n idx : NoDup idx -> Forall (fun i => i < n) idx -> length idx <= n.
  Proof. intros ND F. rewrite <- (seq_length n 0). apply NoDup_incl_length; [exact ND|]. intros x Hx. apply in_seq. rewrite Forall_forall in F. specialize (F x Hx). lia. Qed.

  (** ** C216: the solvers for a semidefinite B give B-orthonormal vectors on which A is diagonal, one for each unit of rank *)
  Theorem C216_pca : forall old n A B dfc d U, symmetric n A -> symmetric n B -> psd n A -> psd n B ->
    symeig_pca eigh sqrt_ thr None old n A B = SolOk dfc d U -> gsolves n A B d U /\ exists k, dfc = Some k /\ length U + k = n /\ 0 < length U.
  Proof.
    intros old n A B dfc d U SA SB PA PB H. unfold symeig_pca, semidefinite in H. destruct (find_blank thr n B) as [idx|] eqn:FB.
    - destruct (blank_idx n B idx FB) as [ND F]. pose proof (idx_le n idx ND F) as LI. destruct (pca_core _ _ _ _ _ _ _) as [dfc0 d0 u0| |] eqn:E; try discriminate. injection H as <- <- <-.
      apply pca_core_ok in E; try (now apply (pick_sym n)); try (now apply (pick_psd n)). destruct E as (D & V & D0 & U0 & ES & -> & LO & LU & GS & -> & -> & _). cbn [eig_range].
      split; [now apply restore_solves|]. exists (searchsorted D thr + (n - length idx)). split; [reflexivity|]. rewrite map_length, LU. lia.
    - apply pca_core_ok in H; try assumption. destruct H as (D & V & D0 & U0 & ES & -> & LO & LU & GS & -> & -> & _). cbn [eig_range]. split; [exact GS|].
      exists (searchsorted D thr). split; [reflexivity|]. lia.
  Qed.
  Theorem C216_svd : forall old n A B dfc d U, symmetric n A -> symmetric n B -> psd n A -> psd n B ->
    symeig_svd svd_ sqrt_ thr None old n A B = SolOk dfc d U -> gsolves n A B d U /\ 0 < length U /\
    (old = 0 -> length U + match dfc with Some k => k | None => 0 end = n).
  Proof.
    intros old n A B dfc d U SA SB PA PB H. unfold symeig_svd, semidefinite in H. destruct (find_blank thr n B) as [idx|] eqn:FB.
    - destruct (blank_idx n B idx FB) as [ND F]. pose proof (idx_le n idx ND F) as LI. destruct (svd_core _ _ _ _ _ _ _) as [dfc0 d0 u0| |] eqn:E; try discriminate. injection H as <- <- <-.
      apply svd_core_ok in E; try (now apply (pick_sym n)); try (now apply (pick_psd n)). destruct E as (D & V & D0 & U0 & ES & -> & LO & LU & GS & -> & -> & _). cbn [svd_range].
      split; [now apply restore_solves|]. rewrite map_length, LU. split; [lia|]. intros ->. destruct (Nat.ltb_spec 0 (searchsorted D thr)); lia.
    - apply svd_core_ok in H; try assumption. destruct H as (D & V & D0 & U0 & ES & -> & LO & LU & GS & -> & -> & _). cbn [svd_range]. split; [exact GS|].
      split; [lia|]. intros _. destruct (Nat.ltb_spec 0 (searchsorted D thr)); lia.
  Qed.
  (** no SymeigException unless eigh raises; IndexError only if all eigenvalues of (the rest of) B are below the threshold *)
  Theorem C215_total : forall rng n A B, (forall rng n C, eigh rng n C <> None) -> symmetric n B -> psd n B -> exists d U, symeig_fake eigh sqrt_ rng n A B = SolOk None d U.
  Proof.
    intros rng n A B T SB PB. unfold symeig_fake. destruct (eigh None n B) as [[wB ZB]|] eqn:EB; [|now destruct (T None n B)]. pose proof (eigh_ok _ _ _ _ _ SB PB EB) as ES.
    destruct (existsb _ wB) eqn:X.
    - exfalso. apply existsb_exists in X. destruct X as (a & Ia & Ha). destruct (In_nth _ _ f0 Ia) as (k & Hk & <-). pose proof ES as (LD & _). rewrite LD in Hk.
      exact (flt_not_le _ _ Ha (eig_nonneg n B wB ZB ES PB k Hk)).
    - destruct (eigh None n (congr n A _)) as [[w Z]|] eqn:EA; [eexists _, _; reflexivity|]. now destruct (T None n (congr n A (rescale sqrt_ wB ZB))).
  Qed.
  Theorem C216_total : forall rng old n A B, (forall rng n C, eigh rng n C <> None) -> symmetric n B -> psd n B ->
    (exists k d U, symeig_pca eigh sqrt_ thr rng old n A B = SolOk (Some k) d U) \/
    (symeig_pca eigh sqrt_ thr rng old n A B = SolIndex /\ exists D V, match find_blank thr n B with None => eigensystem n B D V | Some idx => eigensystem (length idx) (pick idx B) D V end /\ forall a, In a D -> (a < thr)%of).
  Proof.
    intros rng old n A B T SB PB.
    assert (G : forall n A B, symmetric n B -> psd n B -> (exists k d U, pca_core eigh sqrt_ thr rng n A B = SolOk (Some k) d U) \/ (pca_core eigh sqrt_ thr rng n A B = SolIndex /\ exists D V, eigensystem n B D V /\ forall a, In a D -> (a < thr)%of)).
    { clear n A B SB PB. intros n A B SB PB. unfold pca_core. destruct (eigh None n B) as [[D V]|] eqn:EB; [|now destruct (T None n B)]. pose proof (eigh_ok _ _ _ _ _ SB PB EB) as ES.
      destruct (Nat.leb_spec (length D) (leading thr D)) as [L|L].
      - right. split; [reflexivity|]. exists D, V. split; [exact ES|]. intros a Ia. destruct (In_nth _ _ f0 Ia) as (k & Hk & <-). destruct (searchsorted_spec D thr) as (_ & H & _). apply H. unfold leading in L. lia.
      - left. destruct (eigh rng _ _) as [[w Z]|] eqn:EA; [eexists _, _, _; reflexivity|]. exfalso. revert EA. apply T. }
    unfold symeig_pca, semidefinite. destruct (find_blank thr n B) as [idx|] eqn:FB; [|now apply G].
    destruct (blank_idx n B idx FB) as [ND F]. destruct (G (length idx) (pick idx A) (pick idx B)) as [(k & d & U & ->)|(-> & D & V & H)]; [now apply (pick_sym n)|now apply (pick_psd n)| |].
    - left. eexists _, _, _. reflexivity.
    - right. split; [reflexivity|]. now exists D, V.
  Qed.
  (** ** C217: they are the slowest ones: if the eigenvalues of B below the threshold are zero, A vanishes where B does and the inputs left out are blank, no other
      B-orthonormal system has a smaller sum of the values of A *)
  Definition exact_rank (n : nat) (A B : mtx) : Prop :=
    (forall w, quad n B w w = f0 -> quad n A w w = f0) /\
    (forall D V a, (match find_blank thr n B with None => eigensystem n B D V | Some idx => eigensystem (length idx) (pick idx B) D V end) -> In a D -> (a < thr)%of -> a = f0) /\
    (forall idx, find_blank thr n B = Some idx -> forall i j, i < n -> j < n -> ~ In j idx -> A i j = f0 /\ B i j = f0).
  Lemma pick_ker n idx (A B : mtx) : NoDup idx -> Forall (fun i => i < n) idx -> (forall w, quad n B w w = f0 -> quad n A w w = f0) ->
    forall w, quad (length idx) (pick idx B) w w = f0 -> quad (length idx) (pick idx A) w w = f0.
  Proof. intros ND F H w. rewrite <- !(quad_restore n) by assumption. apply H. Qed.
  Theorem C217_pca : forall old n A B dfc d U W, symmetric n A -> symmetric n B -> psd n A -> psd n B -> exact_rank n A B ->
    symeig_pca eigh sqrt_ thr None old n A B = SolOk dfc d U -> borth n B W ->
    length W <= length U /\ (fsumn (length W) (fun k => nth k d f0) <= fsumn (length W) (fun k => quad n A (nth k W vzero) (nth k W vzero)))%of.
  Proof.
    intros old n A B dfc d U W SA SB PA PB (KER & RK & BL) H HW. assert (G : gsolves n A B d U /\ gcomplete n A B U).
    { unfold symeig_pca, semidefinite in H. destruct (find_blank thr n B) as [idx|] eqn:FB.
      - destruct (blank_idx n B idx FB) as [ND F]. destruct (pca_core _ _ _ _ _ _ _) as [dfc0 d0 u0| |] eqn:E; try discriminate. injection H as <- <- <-.
        apply pca_core_ok in E; try (now apply (pick_sym n)); try (now apply (pick_psd n)). destruct E as (D & V & D0 & U0 & ES & -> & LO & LU & GS & -> & -> & GC). cbn [eig_range].
        split; [now apply restore_solves|]. apply restore_complete; try assumption; [exact (BL idx eq_refl)|]. apply GC; [|now apply (pick_ker n)].
        intros a Ia La. apply (RK _ _ a ES); [exact Ia|exact La].
      - apply pca_core_ok in H; try assumption. destruct H as (D & V & D0 & U0 & ES & -> & LO & LU & GS & -> & -> & GC). cbn [eig_range]. split; [exact GS|]. apply GC; [|exact KER].
        intros a Ia La. apply (RK _ _ a ES); [exact Ia|exact La]. }
    destruct G as [GS GC]. split; [now apply (borth_le n A B U SB GC)|now apply (gen_ky_fan n A B d U SA SB GS GC)].
  Qed.
  Theorem C217_svd : forall old n A B dfc d U W, symmetric n A -> symmetric n B -> psd n A -> psd n B -> exact_rank n A B ->
    symeig_svd svd_ sqrt_ thr None old n A B = SolOk dfc d U -> borth n B W ->
    length W <= length U /\ (fsumn (length W) (fun k => nth k d f0) <= fsumn (length W) (fun k => quad n A (nth k W vzero) (nth k W vzero)))%of.
  Proof.
    intros old n A B dfc d U W SA SB PA PB (KER & RK & BL) H HW. assert (G : gsolves n A B d U /\ gcomplete n A B U).
    { unfold symeig_svd, semidefinite in H. destruct (find_blank thr n B) as [idx|] eqn:FB.
      - destruct (blank_idx n B idx FB) as [ND F]. destruct (svd_core _ _ _ _ _ _ _) as [dfc0 d0 u0| |] eqn:E; try discriminate. injection H as <- <- <-.
        apply svd_core_ok in E; try (now apply (pick_sym n)); try (now apply (pick_psd n)). destruct E as (D & V & D0 & U0 & ES & -> & LO & LU & GS & -> & -> & GC). cbn [svd_range].
        split; [now apply restore_solves|]. apply restore_complete; try assumption; [exact (BL idx eq_refl)|]. apply GC; [|now apply (pick_ker n)].
        intros a Ia La. apply (RK _ _ a ES); [exact Ia|exact La].
      - apply svd_core_ok in H; try assumption. destruct H as (D & V & D0 & U0 & ES & -> & LO & LU & GS & -> & -> & GC). cbn [svd_range]. split; [exact GS|]. apply GC; [|exact KER].
        intros a Ia La. apply (RK _ _ a ES); [exact Ia|exact La]. }
    destruct G as [GS GC]. split; [now apply (borth_le n A B U SB GC)|now apply (gen_ky_fan n A B d U SA SB GS GC)].
  Qed.

  (** ** C218: the detection of blank inputs *)
  Lemma fabs0 : fabs (0%of : K) = 0%of. Proof. unfold fabs. now rewrite flt_irrefl. Qed.
  Lemma mean_lt {T} (l : list T) (f : T -> K) : l <> [] -> (forall x, In x l -> (f x < thr)%of) -> (fsum (map f l) / fn (length l) < thr)%of.
  Proof.
    intros N H. assert (P : (0 < (fn (length l) : K))%of) by (destruct l; [congruence|apply fn_pos]).
    assert (E : (fsum (map f l) < thr * fn (length l))%of).
    { clear P. induction l as [|a l IH]; [congruence|]. cbn [map fsum length fn]. destruct l as [|b l].
      - cbn [map fsum length fn]. apply flt_sub. replace (thr * (1 + 0) - (f a + 0))%of with (thr - f a)%of by ring. apply (proj1 (flt_sub _ _)). apply H. now left.
      - assert (G : (fsum (map f (b :: l)) < thr * fn (length (b :: l)))%of) by (apply IH; [discriminate|intros; apply H; now right]).
        apply flt_le_trans with (thr + fsum (map f (b :: l)))%of.
        + apply flt_sub. replace (thr + fsum (map f (b :: l)) - (f a + fsum (map f (b :: l))))%of with (thr - f a)%of by ring. apply (proj1 (flt_sub _ _)). apply H. now left.
        + apply fle_sub. replace (thr * (1 + fn (length (b :: l))) - (thr + fsum (map f (b :: l))))%of with (thr * fn (length (b :: l)) - fsum (map f (b :: l)))%of by ring.
          apply (proj1 (fle_sub _ _)). now apply flt_le. }
    destruct (fle_or_lt thr (fsum (map f l) / fn (length l))%of) as [C|C]; [|exact C]. exfalso. apply (flt_not_le _ _ E).
    apply fle_trans with (fsum (map f l) / fn (length l) * fn (length l))%of; [now apply fle_mul; [apply flt_le|]|].
    replace (fsum (map f l) / fn (length l) * fn (length l))%of with (fsum (map f l)); [apply fle_refl|]. field. intros Z. rewrite Z in P. unfold flt in P. now rewrite flt_irrefl in P.
  Qed.
  Definition small (B : mtx) (i j : nat) : Prop := (fabs (B i j) < thr)%of.
  (** no entry of the first row is small: no input is left out *)
  Theorem C218_none : forall n (B : mtx), (forall j, j < n -> ~ small B 0 j) -> find_blank thr n B = None.
  Proof.
    intros n B H. unfold find_blank. destruct (filter (fun j => fltb (fabs (B 0 j)) thr) (seq 0 n)) as [|a r] eqn:E; [reflexivity|]. exfalso.
    assert (I : In a (filter (fun j => fltb (fabs (B 0 j)) thr) (seq 0 n))) by (rewrite E; now left). apply filter_In in I. destruct I as [I1 I2]. apply in_seq in I1. apply (H a); [lia|exact I2].
  Qed.
  (** the first input is blank: the inputs kept are those whose entries have an average of at least the threshold *)
  Theorem C218_first : forall n (B : mtx), 0 < n -> symmetric n B -> (forall j, j < n -> small B 0 j) ->
    exists idx, find_blank thr n B = Some idx /\ forall j, In j idx <-> j < n /\ (thr <= fsumn n (fun i => fabs (B i j)) / fn n)%of.
  Proof.
    intros n B Hn SB H. unfold find_blank.
    assert (E : filter (fun j => fltb (fabs (B 0 j)) thr) (seq 0 n) = seq 0 n).
    { assert (G : forall l, (forall x, In x l -> x < n) -> filter (fun j => fltb (fabs (B 0 j)) thr) l = l).
      { induction l as [|a l IH]; intros Hl; [reflexivity|]. cbn. rewrite (H a) by (apply Hl; now left). f_equal. apply IH. intros. apply Hl. now right. }
      apply G. intros x Hx. apply in_seq in Hx. lia. }
    rewrite E. destruct (seq 0 n) as [|a r] eqn:SQ; [destruct n; [lia|discriminate]|]. rewrite <- SQ. clear E.
    set (p := fun j => fltb (fsum (map (fun i => fabs (B i j)) (seq 0 n)) / fn (length (seq 0 n)))%of thr).
    assert (P0 : p 0 = true).
    { apply mean_lt; [rewrite SQ; discriminate|]. intros x Hx. apply in_seq in Hx. rewrite SB by lia. apply H. lia. }
    destruct (filter p (seq 0 n)) as [|b q] eqn:E2.
    - exfalso. assert (I : In 0 (filter p (seq 0 n))) by (apply filter_In; split; [apply in_seq; lia|exact P0]). rewrite E2 in I. destruct I.
    - rewrite <- E2. eexists. split; [reflexivity|]. intros j. rewrite filter_In, in_seq.
      assert (EX : existsb (Nat.eqb j) (filter p (seq 0 n)) = true <-> j < n /\ p j = true).
      { rewrite existsb_exists. split; [intros (x & I & Q); apply Nat.eqb_eq in Q; subst x; apply filter_In in I; rewrite in_seq in I; split; [lia|apply I]|].
        intros [I1 I2]. exists j. split; [apply filter_In; rewrite in_seq; split; [lia|exact I2]|apply Nat.eqb_refl]. }
      assert (EP : forall j, p j = fltb (fsumn n (fun i => fabs (B i j)) / fn n)%of thr) by (intros; unfold p; now rewrite seq_length).
      unfold fle. rewrite <- EP. destruct (p j) eqn:PJ; destruct (existsb (Nat.eqb j) (filter p (seq 0 n))) eqn:XX; cbn [negb]; split; intros [I1 I2]; try discriminate; try (split; [lia|reflexivity]).
      + assert (C : false = true) by (apply EX; split; [lia|reflexivity]). discriminate.
      + destruct (proj1 EX eq_refl). discriminate.
  Qed.
  (** the inputs uncorrelated with the first one are exactly the blank ones, and there is one: all inputs are taken to be blank *)
  Theorem C218_constant_refuted : forall n (B : mtx) j, symmetric n B -> j < n -> small B 0 j -> (forall j i, j < n -> i < n -> small B 0 j -> B i j = f0) ->
    find_blank thr n B = Some [].
  Proof.
    intros n B j SB Hj Sj H. unfold find_blank. set (z := filter (fun j => fltb (fabs (B 0 j)) thr) (seq 0 n)).
    assert (ZI : forall x, In x z <-> x < n /\ small B 0 x) by (intros x; unfold z; rewrite filter_In, in_seq; unfold small, flt; intuition lia).
    destruct z as [|a r] eqn:EZ; [exfalso; now apply (proj2 (ZI j))|]. rewrite <- EZ in *. clear EZ a r.
    assert (NZ : z <> []) by (intros E; rewrite E in ZI; now apply (proj2 (ZI j))).
    assert (AL : forall k, k < n -> fltb (fsum (map (fun i => fabs (B i k)) z) / fn (length z))%of thr = true).
    { intros k Hk. apply mean_lt; [exact NZ|]. intros x Hx. apply ZI in Hx. destruct Hx as [Hx1 Hx2]. rewrite SB, H by assumption. rewrite fabs0. exact thr_pos. }
    set (p := fun j => fltb (fsum (map (fun i => fabs (B i j)) z) / fn (length z))%of thr) in *.
    assert (E2 : filter p (seq 0 n) = seq 0 n).
    { assert (G : forall l, (forall x, In x l -> x < n) -> filter p l = l).
      { induction l as [|a l IH]; intros Hl; [reflexivity|]. cbn. assert (PA : p a = true) by (apply (AL a); apply Hl; now left). rewrite PA. f_equal. apply IH. intros. apply Hl. now right. }
      apply G. intros x Hx. apply in_seq in Hx. lia. }
    rewrite E2. destruct (seq 0 n) as [|a r] eqn:SQ; [destruct n; [lia|discriminate]|]. rewrite <- SQ. f_equal.
    assert (G : forall l, (forall x, In x l -> In x (seq 0 n)) -> filter (fun j => negb (existsb (Nat.eqb j) (seq 0 n))) l = []).
    { induction l as [|b l IH]; intros Hl; [reflexivity|]. cbn [filter]. replace (existsb (Nat.eqb b) (seq 0 n)) with true; [cbn; apply IH; intros; apply Hl; now right|].
      symmetry. apply existsb_exists. exists b. split; [apply Hl; now left|apply Nat.eqb_refl]. }
    apply G. auto.
  Qed.
  (** the first input varies and is uncorrelated with all others: it is left out *)
  Theorem C218_uncorrelated_refuted : forall n (B : mtx), 2 <= n -> symmetric n B -> ~ small B 0 0 -> (forall j, 1 <= j -> j < n -> small B 0 j) ->
    exists idx, find_blank thr n B = Some idx /\ ~ In 0 idx.
  Proof.
    intros n B Hn SB H0 H. unfold find_blank. set (z := filter (fun j => fltb (fabs (B 0 j)) thr) (seq 0 n)).
    assert (ZI : forall x, In x z <-> x < n /\ small B 0 x) by (intros x; unfold z; rewrite filter_In, in_seq; unfold small, flt; intuition lia).
    assert (Z1 : In 1 z) by (apply ZI; split; [lia|apply H; lia]).
    destruct z as [|a r] eqn:EZ; [destruct Z1|]. rewrite <- EZ in *. clear EZ a r. assert (NZ : z <> []) by (intros E; rewrite E in Z1; destruct Z1).
    set (p := fun j => fltb (fsum (map (fun i => fabs (B i j)) z) / fn (length z))%of thr).
    assert (P0 : p 0 = true).
    { apply mean_lt; [exact NZ|]. intros x Hx. apply ZI in Hx. rewrite SB by lia. apply Hx. }
    assert (I0 : In 0 (filter p (seq 0 n))) by (apply filter_In; split; [apply in_seq; lia|exact P0]).
    destruct (filter p (seq 0 n)) as [|b q] eqn:E2; [destruct I0|]. rewrite <- E2 in *. eexists. split; [reflexivity|]. rewrite filter_In. intros [_ C].
    replace (existsb (Nat.eqb 0) (filter p (seq 0 n))) with true in C; [discriminate|]. symmetry. apply existsb_exists. exists 0. split; [exact I0|reflexivity].
  Qed.
  (** ** C219: what the solvers do when no direction is left: no SymeigException of their own *)
  Theorem C219_index : forall rng old n A B, find_blank thr n B = Some [] ->
    symeig_pca eigh sqrt_ thr rng old n A B = match eigh None 0 (pick [] B) with None => SolSymeig | Some _ => SolIndex end.
  Proof.
    intros rng old n A B H. unfold symeig_pca, semidefinite. rewrite H. cbn [length]. unfold pca_core. destruct (eigh None 0 (pick [] B)) as [[D V]|] eqn:E; [|reflexivity].
    assert (ES : eigensystem 0 (pick [] B) D V) by (apply (eigh_ok None); [intros i j Hi; lia|intros w; apply fle_refl|exact E]). destruct ES as (-> & _). reflexivity.
  Qed.
End Props.

(** ** A solver for diagonal matrices of dimension at most 2 which satisfies the contracts *)
Section Diag.
  Context {K : ofield}.
  Add Field Ku : (fth K).
  Notation vec := (vec (K := K)). Notation mtx := (mtx (K := K)).
  Definition deig (n : nat) (c : mtx) : option (list K * list vec) :=
    match n with
    | 0 => Some ([], [])
    | 1 => Some ([c 0 0], [delta 0])
    | 2 => if fltb (c 0 1) f0 || fltb f0 (c 0 1) then None
           else if fltb (c 1 1) (c 0 0) then Some ([c 1 1; c 0 0], [delta 1; delta 0]) else Some ([c 0 0; c 1 1], [delta 0; delta 1])
    | _ => None
    end.
  Lemma deig_ok : forall n c D V, symmetric n c -> deig n c = Some (D, V) -> eigensystem n c D V.
  Proof.
    intros n c D V Sy H. destruct n as [|[|[|n]]]; cbn [deig] in H; [| | |discriminate].
    - injection H as <- <-. split; [reflexivity|]. split; [reflexivity|]. split; [intros i j Hi; cbn in Hi; lia|]. split; [intros i j Hi; lia|]. split; [intros k i Hk; lia|]. constructor.
    - injection H as <- <-. split; [reflexivity|]. split; [reflexivity|]. assert (E : forall i, i < 1 -> i = 0) by lia. split; [|split; [|split]].
      all: try (intros i j Hi Hj; cbn [length] in Hi, Hj; rewrite (E i Hi), (E j Hj); unfold dot, fsumn, mulv, delta, fsumn; cbn [seq map fsum nth Nat.eqb]; ring).
      repeat constructor.
    - destruct (fltb (c 0 1) f0) eqn:A; [discriminate|]. destruct (fltb f0 (c 0 1)) eqn:B; [discriminate|].
      assert (Z : c 0 1 = f0) by (now apply (flt_total K)). assert (Z' : c 1 0 = f0) by (rewrite <- Sy by lia; exact Z). cbn [orb] in H.
      assert (E : forall i, i < 2 -> i = 0 \/ i = 1) by lia.
      destruct (fltb (c 1 1) (c 0 0)) eqn:L; injection H as <- <-; (split; [reflexivity|]; split; [reflexivity|]; split; [|split; [|split]]).
      all: try (intros i j Hi Hj; cbn [length] in Hi, Hj; destruct (E i Hi) as [-> | ->]; destruct (E j Hj) as [-> | ->]; unfold dot, fsumn, mulv, delta, fsumn; cbn [seq map fsum nth Nat.eqb]; try rewrite Z; try rewrite Z'; ring).
      + repeat constructor. now apply flt_le.
      + repeat constructor. exact L.
  Qed.
End Diag.

Section Examples.
  Definition dQ (a b : Q) : @mtx Qc_of := fun i j => match i, j with 0, 0 => Q2Qc a | 1, 1 => Q2Qc b | _, _ => Q2Qc 0 end%nat.
  Definition eQ (_ : option (Z * Z)) := @deig Qc_of.
  Definition sQ (n : nat) (c : @mtx Qc_of) := match @deig Qc_of n c with Some (d, v) => (rev d, rev v) | None => ([], []) end.
  (** square roots of 4, 9 and 1 *)
  Definition rQ (a : Qc) : Qc := if Qc_eq_dec a (Q2Qc 4) then Q2Qc 2 else if Qc_eq_dec a (Q2Qc 9) then Q2Qc 3 else a.
  Definition tQ : Qc := Q2Qc (1 # 1000).
  Definition vw (n : nat) (r : solres Qc (@vec Qc_of)) : option (option nat * list Q * list (list Q)) :=
    match r with SolOk k d u => Some (k, map this d, map (fun v => map (fun i => this (v i)) (seq 0 n)) u) | _ => None end.
  Example ex_C215 : vw 2 (@symeig_fake Qc_of eQ rQ None 2 (dQ 18 4) (dQ 9 4)) = Some (None, [1; 2]%Q, [[0; 1 # 2]; [1 # 3; 0]]%Q).
  Proof. vm_compute. reflexivity. Qed.
  (** the first input is constant *)
  Example ex_C216 : vw 2 (@symeig_pca Qc_of eQ rQ tQ None 0 2 (dQ 0 8) (dQ 0 4)) = Some (Some 1%nat, [2]%Q, [[0; 1 # 2]]%Q) /\
                    vw 2 (@symeig_svd Qc_of sQ rQ tQ None 0 2 (dQ 0 8) (dQ 0 4)) = Some (Some 1%nat, [2]%Q, [[0; 1 # 2]]%Q).
  Proof. split; vm_compute; reflexivity. Qed.
  (** C218: the second input is constant: nothing is left *)
  Example ex_C218_constant : @find_blank Qc_of tQ 2 (dQ 4 0) = Some [] /\ @symeig_pca Qc_of eQ rQ tQ None 0 2 (dQ 8 0) (dQ 4 0) = SolIndex.
  Proof. split; vm_compute; reflexivity. Qed.
  Theorem C219_refuted : exists A B : @mtx Qc_of, @find_blank Qc_of tQ 2 B = Some [] /\ @symeig_pca Qc_of eQ rQ tQ None 0 2 A B = SolIndex.
  Proof. exists (dQ 8 0), (dQ 4 0). exact ex_C218_constant. Qed.
  (** C216, C218: two uncorrelated inputs, both of positive variance: the solution has one component less than the problem *)
  Theorem C216_refuted : (forall w, @quad Qc_of 2 (dQ 4 9) w w = f0 -> forall i, i < 2 -> w i = f0) /\
    vw 2 (@symeig_fake Qc_of eQ rQ None 2 (dQ 8 9) (dQ 4 9)) = Some (None, [1; 2]%Q, [[0; 1 # 3]; [1 # 2; 0]]%Q) /\
    vw 2 (@symeig_pca Qc_of eQ rQ tQ None 0 2 (dQ 8 9) (dQ 4 9)) = Some (Some 1%nat, [1]%Q, [[0; 1 # 3]]%Q).
  Proof.
    split; [|split; vm_compute; reflexivity]. intros w H. assert (F4 : Q2Qc 4 = (Q2Qc 2 * Q2Qc 2)%Qc) by (apply Qc_is_canon; reflexivity). assert (F9 : Q2Qc 9 = (Q2Qc 3 * Q2Qc 3)%Qc) by (apply Qc_is_canon; reflexivity).
    set (a := w 0%nat) in *. set (b := w 1%nat) in *.
    assert (E : (@quad Qc_of 2 (dQ 4 9) w w) = ((Q2Qc 2 * a) * (Q2Qc 2 * a) + (Q2Qc 3 * b) * (Q2Qc 3 * b))%Qc).
    { unfold quad, dot, mulv, fsumn. cbn [seq map fsum dQ]. rewrite F4, F9. fold a b. cbn [Qc_of car f0 fadd fmul]. ring. }
    rewrite E in H. clear E.
    assert (G : forall x y : @car Qc_of, (x * x + y * y)%of = f0 -> x = f0).
    { intros x y G. apply (fsq0 (K := Qc_of)). apply fle_antisym; [|apply fsq]. rewrite <- G. apply fle_sub. replace (x * x + y * y - x * x)%of with (y * y)%of; [apply fsq|]. cbn [Qc_of car f0 fadd fmul fsub]. ring. }
    pose proof (G _ _ H) as G1. assert (H2 : @fadd Qc_of (Q2Qc 3 * b * (Q2Qc 3 * b))%Qc (Q2Qc 2 * a * (Q2Qc 2 * a))%Qc = f0) by (rewrite <- H; cbn [Qc_of car f0 fadd fmul]; ring).
    pose proof (G _ _ H2) as G2. intros i Hi. destruct i as [|[|i]]; [|  |lia].
    - destruct (fmul_eq0 (K := Qc_of) _ _ G1) as [Z|Z]; [discriminate Z|exact Z].
    - destruct (fmul_eq0 (K := Qc_of) _ _ G2) as [Z|Z]; [discriminate Z|exact Z].
  Qed.
  Theorem C216_contract : (forall rng n c D V, symmetric n c -> psd n c -> eQ rng n c = Some (D, V) -> eigensystem n c D V) /\
    (forall a : Qc, In a [Q2Qc 1; Q2Qc 4; Q2Qc 9] -> (rQ a * rQ a)%Qc = a).
  Proof.
    split; [intros rng n c D V S _ H; now apply deig_ok|]. intros a H. repeat (destruct H as [<-|H]; [apply Qc_is_canon; vm_compute; reflexivity|]). destruct H.
  Qed.
End Examples.
