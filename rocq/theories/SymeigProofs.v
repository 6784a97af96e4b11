(** Lemmas for SymeigProps.v: the solvers of SymeigModel.v built on an ordinary eigenvalue solver solve the generalised problem. *)
From Coq Require Import List Arith ZArith Bool Lia Sorting.Sorted Field.
From Verif Require Import OField LinAlg PCAModel PCAProofs GenEig SymeigModel.
Import ListNotations.
Open Scope nat_scope.

Section Proofs.
  Context {K : ofield}.
  Add Field Ks : (fth K).
  Notation vec := (vec (K := K)). Notation mtx := (mtx (K := K)).
  Open Scope of_scope.
  Notation nthv k V := (nth k V vzero).
  Notation nthd k D := (nth k D (0 : K)).
  Implicit Types (C A B : mtx) (a b w : vec) (U W S E : list vec) (c : nat -> K) (t : K).

  Lemma quad_congr n A S (e f : vec) : symmetric n A -> quad n A (comb S e) (comb S f) = quad (length S) (congr n A S) e f.
  Proof.
    intros SA. rewrite quad_comb. unfold quad at 2, dot, mulv.
    rewrite (fsumn_ext _ (fun i => e i * _) (fun i => fsumn (length S) (fun k => f k * (e i * quad n A (nthv i S) (nthv k S))))).
    - rewrite fsumn_swap. apply fsumn_ext. intros k _. rewrite quad_comb_l by exact SA. rewrite <- fsumn_mul. reflexivity.
    - intros i _. rewrite <- fsumn_mul. apply fsumn_ext. intros k _. unfold congr, SymeigModel.nthv. ring.
  Qed.
  Lemma congr_sym n A S : symmetric n A -> symmetric (length S) (congr n A S).
  Proof. intros H i j _ _. now apply quad_sym. Qed.
  Lemma congr_psd n A S : symmetric n A -> psd n A -> psd (length S) (congr n A S).
  Proof. intros H P w. rewrite <- quad_congr by exact H. apply P. Qed.
  Lemma nth_mulcols S E k : (k < length E)%nat -> nthv k (mulcols S E) = comb S (nthv k E).
  Proof.
    intros H. unfold mulcols. rewrite (nth_indep _ vzero (comb S vzero)) by (rewrite map_length; exact H). exact (map_nth (fun e => comb S e) E vzero k).
  Qed.
  Lemma congr_solves n A B S D E : symmetric n A -> symmetric n B -> borth n B S -> eigensystem (length S) (congr n A S) D E -> gsolves n A B D (mulcols S E).
  Proof.
    intros SA SB HB ES. pose proof ES as (LD & LE & ON & CP & EV & SO).
    assert (L : length (mulcols S E) = length S) by (unfold mulcols; now rewrite map_length).
    split; [|split; [|split]].
    - rewrite LD, L. reflexivity.
    - intros i j Hi Hj. rewrite L in Hi, Hj. rewrite !nth_mulcols by lia. rewrite quad_congr by exact SB.
      rewrite (quad_mtx _ _ (fun i j => delta i j)) by (intros; now apply HB). rewrite <- (ON i j) by lia. unfold quad. apply dot_ext; [reflexivity|]. intros k Hk. unfold mulv.
      rewrite (fsumn_ext _ _ (fun m => nthv j E m * delta k m)) by (intros; ring). now apply fsumn_delta.
    - intros i j Hi Hj. rewrite L in Hi, Hj. rewrite !nth_mulcols by lia. rewrite quad_congr by exact SA. rewrite (eig_quad _ _ _ _ ES) by assumption.
      unfold delta. destruct (Nat.eqb_spec i j) as [<-|_]; ring.
    - exact SO.
  Qed.
  Lemma comb_coef n B S w i : comb S (coef n B S w) i = fsum (map (fun s : vec => quad n B s w * s i) S).
  Proof. rewrite (fsum_map_nth S _ vzero). reflexivity. Qed.
  Lemma span n A B S D E w i : symmetric n B -> eigensystem (length S) (congr n A S) D E ->
    comb (mulcols S E) (coef n B (mulcols S E) w) i = comb S (coef n B S w) i.
  Proof.
    intros SB ES. pose proof ES as (LD & LE & ON & CP & EV & SO).
    unfold comb at 1. replace (length (mulcols S E)) with (length S) by (unfold mulcols; now rewrite map_length).
    rewrite (fsumn_ext _ _ (fun m => fsumn (length S) (fun k => dot (length S) (coef n B S w) (nthv m E) * nthv m E k * nthv k S i))).
    - rewrite fsumn_swap. unfold comb. apply fsumn_ext. intros k Hk. rewrite fsumn_mulr. f_equal.
      rewrite <- (expand _ _ _ _ ES (coef n B S w) k Hk). unfold comb. rewrite LE. reflexivity.
    - intros m Hm. unfold coef at 1. rewrite nth_mulcols by lia. rewrite quad_comb_l by exact SB. unfold comb. rewrite <- fsumn_mul. apply fsumn_ext. intros k _.
      replace (fsumn (length S) (fun k0 => nthv m E k0 * quad n B (nthv k0 S) w)) with (dot (length S) (coef n B S w) (nthv m E)); [ring|].
      apply fsumn_ext. intros. unfold coef. ring.
  Qed.
  Lemma mulv_ext n C a b i : (forall j, (j < n)%nat -> a j = b j) -> mulv n C a i = mulv n C b i.
  Proof. intros H. unfold mulv. apply fsumn_ext. intros. now rewrite H. Qed.
  Lemma congr_complete n A B S D E : symmetric n B -> eigensystem (length S) (congr n A S) D E -> gcomplete n A B S -> gcomplete n A B (mulcols S E).
  Proof.
    intros SB ES GC w i Hi z. destruct (GC w i Hi) as [G1 G2].
    rewrite (mulv_ext n B z (fun j => w j - comb S (coef n B S w) j)), (mulv_ext n A z (fun j => w j - comb S (coef n B S w) j)); [split; assumption|..];
      intros j _; unfold z; now rewrite (span n A B S D E).
  Qed.
  Lemma rev_complete n A B S : gcomplete n A B S -> gcomplete n A B (rev S).
  Proof.
    intros GC w i Hi z. destruct (GC w i Hi) as [G1 G2].
    assert (E : forall j, comb (rev S) (coef n B (rev S) w) j = comb S (coef n B S w) j).
    { intros j. rewrite !comb_coef. rewrite map_rev. apply fsum_rev. }
    rewrite (mulv_ext n B z (fun j => w j - comb S (coef n B S w) j)), (mulv_ext n A z (fun j => w j - comb S (coef n B S w) j)); [split; assumption|..];
      intros j _; unfold z; now rewrite E.
  Qed.
  Lemma rev_borth n B S : borth n B S -> borth n B (rev S).
  Proof.
    intros H i j Hi Hj. rewrite rev_length in Hi, Hj. rewrite !rev_nth by assumption. rewrite H by lia. unfold delta.
    destruct (Nat.eqb_spec i j) as [<-|N]; [now rewrite Nat.eqb_refl|]. destruct (Nat.eqb_spec (length S - Datatypes.S i) (length S - Datatypes.S j)); [lia|reflexivity].
  Qed.

  (** ** Rescaled eigenvectors *)
  Context (sqrt_ : K -> K).
  Hypothesis sqrt_ok : forall a : K, 0 < a -> sqrt_ a * sqrt_ a = a.
  Lemma sqrt_ne (a : K) : 0 < a -> sqrt_ a <> 0.
  Proof. intros H E. pose proof (sqrt_ok a H) as G. rewrite E in G. apply (flt_ne _ _ H). rewrite <- G. ring. Qed.
  Lemma nth_rescale (D : list K) (V : list vec) k : length D = length V -> (k < length V)%nat -> nthv k (rescale sqrt_ D V) = scale (nthv k V) (sqrt_ (nthd k D)).
  Proof.
    intros L H. unfold rescale. rewrite (nth_indep _ vzero (scale (fst (vzero : vec, 0 : K)) (sqrt_ (snd (vzero : vec, 0 : K))))) by (rewrite map_length, combine_length; lia).
    rewrite (map_nth (fun p : vec * K => scale (fst p) (sqrt_ (snd p)))), combine_nth by (symmetry; exact L). reflexivity.
  Qed.
  Lemma rescale_length (D : list K) (V : list vec) : length D = length V -> length (rescale sqrt_ D V) = length V.
  Proof. intros L. unfold rescale. rewrite map_length, combine_length. lia. Qed.
  Lemma nth_skipn_ {T} (l : list T) m i d : nth i (skipn m l) d = nth (m + i)%nat l d.
  Proof. revert m. induction l as [|a l IH]; intros [|m]; cbn; try reflexivity; try (destruct i; reflexivity). apply IH. Qed.
  Lemma quad_scale n C a b (s t : K) : s <> 0 -> t <> 0 -> quad n C (scale a s) (scale b t) = quad n C a b / (s * t).
  Proof.
    intros Hs Ht. unfold quad, dot. rewrite (fsumn_ext n _ (fun i => (1 / (s * t)) * (a i * mulv n C b i))).
    - rewrite fsumn_mul. field. split; assumption.
    - intros i _. replace (mulv n C (scale b t) i) with (1 / t * mulv n C b i); [unfold scale; field; split; assumption|].
      unfold mulv. rewrite <- fsumn_mul. apply fsumn_ext. intros j _. unfold scale. field. assumption.
  Qed.
  Section Rescaled.
    Context (n : nat) (A B : mtx) (D : list K) (V : list vec) (off : nat).
    Hypothesis SA : symmetric n A. Hypothesis SB : symmetric n B. Hypothesis ES : eigensystem n B D V.
    Hypothesis POS : forall k, (off <= k)%nat -> (k < n)%nat -> 0 < nthd k D.
    Notation S := (rescale sqrt_ (skipn off D) (skipn off V)).
    Lemma S_len : length S = (n - off)%nat.
    Proof. destruct ES as (LD & LV & _). rewrite rescale_length by (rewrite !skipn_length; lia). rewrite skipn_length. lia. Qed.
    Lemma S_nth k : (off + k < n)%nat -> nthv k S = scale (nthv (off + k) V) (sqrt_ (nthd (off + k) D)).
    Proof. intros H. destruct ES as (LD & LV & _). rewrite nth_rescale by (rewrite !skipn_length; lia). now rewrite !nth_skipn_. Qed.
    Lemma S_borth : borth n B S.
    Proof.
      intros i j Hi Hj. rewrite S_len in Hi, Hj. rewrite !S_nth by lia. rewrite quad_scale by (apply sqrt_ne, POS; lia). rewrite (eig_quad _ _ _ _ ES) by lia.
      assert (E : delta (off + i) (off + j) = (delta i j : K)) by (unfold delta; destruct (Nat.eqb_spec i j) as [<-|N]; [now rewrite Nat.eqb_refl|]; destruct (Nat.eqb_spec (off + i) (off + j)); [lia|reflexivity]).
      rewrite E. unfold delta. destruct (Nat.eqb_spec i j) as [<-|N].
      - rewrite sqrt_ok by (apply POS; lia). field. intros E0. apply (flt_ne _ _ (POS (off + i) ltac:(lia) ltac:(lia))). now symmetry.
      - field. split; apply sqrt_ne, POS; lia.
    Qed.
    (** the part of w in the span of the kept eigenvectors *)
    Lemma S_proj w i : comb S (coef n B S w) i = fsumn (n - off) (fun k => dot n w (nthv (off + k) V) * nthv (off + k) V i).
    Proof.
      unfold comb. rewrite S_len. apply fsumn_ext. intros k Hk. unfold coef. rewrite S_nth by lia. set (s := sqrt_ _).
      assert (N : s <> 0) by (apply sqrt_ne, POS; lia).
      replace (quad n B (scale (nthv (off + k) V) s) w) with (quad n B (nthv (off + k) V) w / s).
      - rewrite (quad_sym n B _ w SB). rewrite (quad_eig n B D V ES (off + k)%nat ltac:(lia) w). unfold scale.
        assert (E : nthd (off + k) D = s * s) by (symmetry; apply sqrt_ok, POS; lia). rewrite E. field. exact N.
      - unfold quad, dot. rewrite !(Fdiv_def (fth K)), <- fsumn_mulr. apply fsumn_ext. intros j _. unfold scale. rewrite (Fdiv_def (fth K)). ring.
    Qed.
    Lemma S_complete : psd n A -> psd n B -> (forall k, (k < off)%nat -> (k < n)%nat -> nthd k D = 0) -> (forall w, quad n B w w = 0 -> quad n A w w = 0) ->
      gcomplete n A B S.
    Proof.
      intros PA PB Z KER w. set (z := fun j => w j - comb S (coef n B S w) j).
      assert (Q : quad n B z z = 0).
      { rewrite (quad_spectral n B D V ES). apply fsumn_zero. intros k Hk. destruct (le_lt_dec off k) as [L|L]; [|rewrite Z by assumption; ring].
        assert (E : dot n z (nthv k V) = 0); [|rewrite E; ring]. unfold z. rewrite dot_sub_l.
        rewrite (dot_ext n (comb S _) (fun i => fsumn (n - off) (fun m => dot n w (nthv (off + m) V) * nthv (off + m) V i)) (nthv k V) (nthv k V)); [|intros; apply S_proj|reflexivity].
        rewrite (dot_sym n (fun i => fsumn _ _) (nthv k V)), (dot_fsumn n (n - off) (nthv k V) (fun m i => dot n w (nthv (off + m) V) * nthv (off + m) V i)).
        rewrite (fsumn_ext _ _ (fun m => dot n w (nthv (off + m) V) * delta (k - off) m)).
        - rewrite fsumn_delta by lia. replace (off + (k - off))%nat with k by lia. ring.
        - intros m Hm. rewrite dot_scale. destruct ES as (_ & LV & ON & _). rewrite ON by lia. f_equal. unfold delta.
          destruct (Nat.eqb_spec k (off + m)) as [E|N]; destruct (Nat.eqb_spec (k - off) m); try lia; reflexivity. }
      intros i Hi. split; [apply (psd_null n B z SB PB Q i Hi)|apply (psd_null n A z SA PA (KER z Q) i Hi)].
    Qed.
  End Rescaled.
End Proofs.
