(** The generalised eigenvalue problem A u = d B u over an ordered field: systems of B-orthonormal vectors on which A is diagonal, and the minimum
    principle of Ky Fan for them. *)
From Coq Require Import List Arith Bool Lia Sorting.Sorted Field.
From Verif Require Import OField LinAlg.
Import ListNotations.
Open Scope nat_scope.

Section GenEig.
  Context {K : ofield}.
  Add Field Kg : (fth K).
  Notation vec := (vec (K := K)). Notation mtx := (mtx (K := K)).
  Open Scope of_scope.
  Notation nthv k V := (nth k V vzero).
  Notation nthd k D := (nth k D (0 : K)).
  Definition borth (n : nat) (B : mtx) (U : list vec) : Prop :=
    forall i j, (i < length U)%nat -> (j < length U)%nat -> quad n B (nthv i U) (nthv j U) = delta i j.
  (** U^T B U = 1 and U^T A U = diag D with D ascending *)
  Definition gsolves (n : nat) (A B : mtx) (D : list K) (U : list vec) : Prop :=
    length D = length U /\ borth n B U /\
    (forall i j, (i < length U)%nat -> (j < length U)%nat -> quad n A (nthv i U) (nthv j U) = nthd i D * delta i j) /\ StronglySorted fle D.
  Definition coef (n : nat) (B : mtx) (U : list vec) (w : vec) (k : nat) : K := quad n B (nthv k U) w.
  (** every vector is a combination of U up to a vector on which both A and B vanish *)
  Definition gcomplete (n : nat) (A B : mtx) (U : list vec) : Prop :=
    forall w i, (i < n)%nat -> let z := fun j => w j - comb U (coef n B U w) j in mulv n B z i = 0 /\ mulv n A z i = 0.

  Implicit Types (C : mtx) (a b w : vec) (U W : list vec) (c : nat -> K) (t : K).
  Lemma quad_comb n C a U c : quad n C a (comb U c) = fsumn (length U) (fun k => c k * quad n C a (nthv k U)).
  Proof.
    unfold quad. rewrite (dot_ext n a a (mulv n C (comb U c)) (fun i => fsumn (length U) (fun k => c k * mulv n C (nthv k U) i))); [|reflexivity|].
    - rewrite dot_fsumn. apply fsumn_ext. intros. now rewrite dot_scale.
    - intros i _. unfold mulv, comb. rewrite (fsumn_ext n _ (fun j => fsumn (length U) (fun k => c k * (C i j * nthv k U j)))).
      + rewrite fsumn_swap. apply fsumn_ext. intros. now rewrite fsumn_mul.
      + intros j _. rewrite <- fsumn_mul. apply fsumn_ext. intros. ring.
  Qed.
  Lemma quad_sym n C a b : symmetric n C -> quad n C a b = quad n C b a.
  Proof.
    intros H. unfold quad, dot, mulv. rewrite (fsumn_ext n _ (fun i => fsumn n (fun j => a i * (C i j * b j)))) by (intros; now rewrite fsumn_mul).
    rewrite fsumn_swap. apply fsumn_ext. intros i Hi. rewrite <- fsumn_mul. apply fsumn_ext. intros j Hj. rewrite (H j i Hj Hi). ring.
  Qed.
  Lemma quad_comb_l n C b U c : symmetric n C -> quad n C (comb U c) b = fsumn (length U) (fun k => c k * quad n C (nthv k U) b).
  Proof. intros H. rewrite quad_sym by exact H. rewrite quad_comb. apply fsumn_ext. intros. f_equal. now apply quad_sym. Qed.
  Lemma quad_ext2 n C (a a' b b' : vec) : (forall i, (i < n)%nat -> a i = a' i) -> (forall i, (i < n)%nat -> b i = b' i) -> quad n C a b = quad n C a' b'.
  Proof. intros H H'. unfold quad. apply dot_ext; [exact H|]. intros i _. unfold mulv. apply fsumn_ext. intros j Hj. now rewrite H'. Qed.
  Lemma quad_mtx n (C C' : mtx) a b : (forall i j, (i < n)%nat -> (j < n)%nat -> C i j = C' i j) -> quad n C a b = quad n C' a b.
  Proof. intros H. unfold quad. apply dot_ext; [reflexivity|]. intros i Hi. unfold mulv. apply fsumn_ext. intros j Hj. now rewrite H. Qed.
  Lemma mulv_sub n C a b i : mulv n C (fun j => a j - b j) i = mulv n C a i - mulv n C b i.
  Proof. unfold mulv. rewrite <- fsumn_sub. apply fsumn_ext. intros. ring. Qed.
  (** the remainder does not matter *)
  Lemma quad_rest n C a (b b' : vec) : (forall i, (i < n)%nat -> mulv n C (fun j => b j - b' j) i = 0) -> quad n C a b = quad n C a b'.
  Proof. intros H. unfold quad. apply dot_ext; [reflexivity|]. intros i Hi. pose proof (H i Hi) as E. rewrite mulv_sub in E. replace (mulv n C b i) with (mulv n C b i - mulv n C b' i + mulv n C b' i) by ring. rewrite E. ring. Qed.

  Section Solved.
    Context (n : nat) (A B : mtx) (D : list K) (U : list vec).
    Hypothesis SA : symmetric n A. Hypothesis SB : symmetric n B.
    Hypothesis GS : gsolves n A B D U.
    Hypothesis GC : gcomplete n A B U.
    Notation c := (coef n B U).
    Lemma quadB_spectral a b : quad n B a b = fsumn (length U) (fun k => c a k * c b k).
    Proof.
      rewrite (quad_rest n B a b (comb U (c b))) by (intros; now apply (GC b)). rewrite quad_comb. apply fsumn_ext. intros k _. unfold coef.
      rewrite (quad_sym n B a) by exact SB. ring.
    Qed.
    Lemma quadA_spectral a b : quad n A a b = fsumn (length U) (fun k => nthd k D * (c a k * c b k)).
    Proof.
      destruct GS as (LD & _ & HA & _).
      rewrite (quad_rest n A a b (comb U (c b))) by (intros; now apply (GC b)). rewrite quad_comb. apply fsumn_ext. intros k Hk.
      rewrite (quad_sym n A a) by exact SA. rewrite (quad_rest n A _ a (comb U (c a))) by (intros; now apply (GC a)). rewrite quad_comb.
      rewrite (fsumn_ext _ _ (fun j => (c a j * nthd k D) * delta k j)) by (intros j Hj; rewrite HA by assumption; ring).
      rewrite fsumn_delta by exact Hk. ring.
    Qed.
    (** coefficients of a B-orthonormal system form an orthonormal system *)
    Definition coefs (W : list vec) : list vec := map (fun w => c w) W.
    Lemma nth_coefs W k : (k < length W)%nat -> nth k (coefs W) vzero = c (nthv k W).
    Proof.
      intros H. unfold coefs. rewrite (nth_indep _ vzero (c vzero)) by (rewrite map_length; exact H). exact (map_nth (fun w => c w) W vzero k).
    Qed.
    Lemma coefs_orth W : borth n B W -> orthonormal (length U) (coefs W).
    Proof.
      intros H i j Hi Hj. unfold coefs in Hi, Hj. rewrite map_length in Hi, Hj. rewrite !nth_coefs by assumption. rewrite <- (H i j Hi Hj).
      rewrite quadB_spectral. reflexivity.
    Qed.
    Definition weight (W : list vec) (i : nat) : K := fsumn (length W) (fun k => c (nthv k W) i * c (nthv k W) i).
    Lemma weight_sum W : borth n B W -> fsumn (length U) (weight W) = fn (length W).
    Proof.
      intros H. unfold weight. rewrite fsumn_swap. rewrite (fsumn_ext _ _ (fun _ => 1)).
      - unfold fsumn. rewrite fsum_map_const, seq_length. ring.
      - intros k Hk. rewrite <- quadB_spectral, H by assumption. unfold delta. now rewrite Nat.eqb_refl.
    Qed.
    Lemma weight_bound W i : borth n B W -> (i < length U)%nat -> 0 <= weight W i /\ weight W i <= 1.
    Proof.
      intros H Hi. split; [apply fsumn_nonneg; intros; apply fsq|]. pose proof (bessel (length U) (coefs W) (unit_vec i) (coefs_orth W H)) as E.
      unfold coefs in E at 1. rewrite map_length in E.
      replace (dot (length U) (unit_vec i) (unit_vec i)) with (1 : K) in E.
      - eapply fle_trans; [|exact E]. unfold weight. rewrite (fsumn_ext _ _ (fun k => dot (length U) (unit_vec i) (nthv k (coefs W)) * dot (length U) (unit_vec i) (nthv k (coefs W)))); [apply fle_refl|].
        intros k Hk. rewrite nth_coefs by assumption. rewrite (dot_sym _ (unit_vec i)). rewrite dot_unit by exact Hi. reflexivity.
      - rewrite dot_unit by exact Hi. unfold unit_vec, delta. now rewrite Nat.eqb_refl.
    Qed.
    Lemma borth_le W : borth n B W -> (length W <= length U)%nat.
    Proof.
      intros H. apply (fn_le (K := K)). rewrite <- (weight_sum W H). apply fle_trans with (fsumn (length U) (fun _ => 1)).
      - apply fsumn_le. intros i Hi. now apply weight_bound.
      - unfold fsumn. rewrite fsum_map_const, seq_length. replace (fn (length U) * 1) with (fn (length U) : K) by ring. apply fle_refl.
    Qed.
    (** the first vectors of U minimise the sum of the quadratic forms of A among B-orthonormal systems *)
    Lemma gen_ky_fan W : borth n B W ->
      fsumn (length W) (fun k => nthd k D) <= fsumn (length W) (fun k => quad n A (nthv k W) (nthv k W)).
    Proof.
      intros H. pose proof (borth_le W H) as L. destruct GS as (LD & _ & HA & S).
      pose proof (weighted (length U) (length W) (fun i => - nthd i D) (weight W) L) as E.
      assert (E1 : fsumn (length U) (fun i => - nthd i D * weight W i) <= fsumn (length W) (fun i => - nthd i D)).
      { apply E; [|intros; now apply weight_bound|now apply weight_sum]. intros i j Hij Hj. apply fle_sub. replace (- nthd i D - - nthd j D) with (nthd j D - nthd i D) by ring.
        apply (proj1 (fle_sub _ _)). apply sorted_nth; [exact S|exact Hij|lia]. }
      clear E. rewrite (fsumn_ext (length W) (fun k => quad n A _ _) (fun k => fsumn (length U) (fun i => nthd i D * (c (nthv k W) i * c (nthv k W) i)))) by (intros; apply quadA_spectral).
      rewrite fsumn_swap. rewrite (fsumn_ext (length U) _ (fun i => (- (1)) * (- nthd i D * weight W i))) by (intros i _; unfold weight; rewrite fsumn_mul; ring).
      rewrite fsumn_mul. apply fle_sub. apply (proj1 (fle_sub _ _)) in E1.
      replace (fsumn (length W) (fun i => - nthd i D)) with (- fsumn (length W) (fun k => nthd k D)) in E1.
      - replace (_ - fsumn (length W) (fun k => nthd k D)) with (- fsumn (length W) (fun k => nthd k D) - fsumn (length U) (fun i => - nthd i D * weight W i)) by ring. exact E1.
      - rewrite (fsumn_ext (length W) (fun i => - nthd i D) (fun i => (- (1)) * nthd i D)) by (intros; ring). rewrite fsumn_mul. ring.
    Qed.
    Lemma gen_nonneg : psd n A -> forall k, (k < length U)%nat -> 0 <= nthd k D.
    Proof. destruct GS as (LD & _ & HA & _). intros P k Hk. pose proof (P (nthv k U)) as E. rewrite HA in E by assumption. unfold delta in E. rewrite Nat.eqb_refl in E. now replace (nthd k D) with (nthd k D * 1) by ring. Qed.
  End Solved.

  (** a form that is not negative: the form vanishes on a vector iff the matrix does *)
  Lemma quad_add n C a b t : symmetric n C -> quad n C (fun i => a i + t * b i) (fun i => a i + t * b i) = quad n C a a + (1 + 1) * t * quad n C a b + t * t * quad n C b b.
  Proof.
    intros S. assert (E : forall u, quad n C u (fun i => a i + t * b i) = quad n C u a + t * quad n C u b).
    { intros u. unfold quad, dot. rewrite <- fsumn_mul, <- fsumn_add. apply fsumn_ext. intros i _.
      replace (mulv n C (fun i => a i + t * b i) i) with (mulv n C a i + t * mulv n C b i); [ring|]. unfold mulv. rewrite <- fsumn_mul, <- fsumn_add. apply fsumn_ext. intros. ring. }
    rewrite E. rewrite (quad_sym n C _ a S), (quad_sym n C _ b S), !E. rewrite (quad_sym n C b a S). ring.
  Qed.
  Lemma psd_null n C w : symmetric n C -> psd n C -> quad n C w w = 0 -> forall i, (i < n)%nat -> mulv n C w i = 0.
  Proof.
    intros S P Z. assert (G : forall b, quad n C w b = 0).
    { intros b. set (q := quad n C w b). set (r := quad n C b b). assert (R : 0 <= r) by apply P.
      assert (R1 : 0 < r + 1) by (apply fle_lt_trans with r; [exact R|]; apply flt_sub; replace (r + 1 - r) with (1 : K) by ring; apply f01).
      assert (N1 : r + 1 <> 0) by (intros E; rewrite E in R1; unfold flt in R1; now rewrite flt_irrefl in R1).
      pose proof (P (fun i => w i + (- (q / (r + 1))) * b i)) as E. rewrite quad_add in E by exact S. fold q r in E. rewrite Z in E.
      replace (0 + (1 + 1) * - (q / (r + 1)) * q + - (q / (r + 1)) * - (q / (r + 1)) * r) with (- ((q / (r + 1)) * (q / (r + 1)) * (r + 1 + 1))) in E by (field; exact N1).
      assert (R2 : 0 < r + 1 + 1) by (apply fle_lt_trans with (r + 1); [now apply flt_le|]; apply flt_sub; replace (r + 1 + 1 - (r + 1)) with (1 : K) by ring; apply f01).
      set (u := q / (r + 1)) in *. assert (E2 : u * u * (r + 1 + 1) = 0).
      { apply fle_antisym; [|apply fle_mul0; [apply fsq|now apply flt_le]]. apply fle_sub. replace (0 - u * u * (r + 1 + 1)) with (- (u * u * (r + 1 + 1))) by ring. exact E. }
      destruct (fmul_eq0 _ _ E2) as [E3|E3]; [|rewrite E3 in R2; unfold flt in R2; now rewrite flt_irrefl in R2].
      apply fsq0 in E3. replace q with (u * (r + 1)); [rewrite E3; ring|]. unfold u. field. exact N1. }
    intros i Hi. rewrite <- (dot_unit n (mulv n C w) i Hi). rewrite dot_sym. change (dot n (unit_vec i) (mulv n C w)) with (quad n C (unit_vec i) w). rewrite quad_sym by exact S. apply G.
  Qed.
  Lemma sorted_firstn_ m (l : list K) : StronglySorted fle l -> StronglySorted fle (firstn m l).
  Proof.
    intros H. revert m. induction H as [|a l S IH F]; intros [|m]; cbn; [constructor|constructor|constructor|]. constructor; [apply IH|].
    apply Forall_forall. intros x Hx. rewrite Forall_forall in F. apply F. rewrite <- (firstn_skipn m l). apply in_or_app. now left.
  Qed.
  Lemma nth_firstn_ {T} (l : list T) m i d : (i < m)%nat -> nth i (firstn m l) d = nth i l d.
  Proof. revert m i. induction l as [|a l IH]; intros [|m] [|i] H; cbn; try lia; try reflexivity. apply IH. lia. Qed.
  Lemma gsolves_firstn n A B D U m : gsolves n A B D U -> gsolves n A B (firstn m D) (firstn m U).
  Proof.
    intros (LD & HB & HA & S). repeat split.
    - rewrite !firstn_length. lia.
    - intros i j Hi Hj. rewrite firstn_length in Hi, Hj. rewrite !nth_firstn_ by lia. apply HB; lia.
    - intros i j Hi Hj. rewrite firstn_length in Hi, Hj. rewrite !nth_firstn_ by lia. apply HA; lia.
    - now apply sorted_firstn_.
  Qed.
End GenEig.
