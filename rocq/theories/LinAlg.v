(** Facts about orthonormal systems over an ordered field: Bessel, Parseval, the spectral sum, and the inequality of Ky Fan. *)
From Coq Require Import List Arith Bool Lia Sorting.Sorted Field.
From Verif Require Import OField.
Import ListNotations.
Open Scope nat_scope.

Section LinAlg.
  Context {K : ofield}.
  Add Field Kf : (fth K).
  Notation vec := (vec (K := K)). Notation mtx := (mtx (K := K)).
  Open Scope of_scope.
  Definition vzero : vec := fun _ => 0.
  Notation nthv k V := (nth k V vzero).
  Notation nthd k D := (nth k D (0 : K)).
  (** rows of W are orthonormal vectors of K^n *)
  Definition orthonormal (n : nat) (W : list vec) : Prop := forall i j, (i < length W)%nat -> (j < length W)%nat -> dot n (nthv i W) (nthv j W) = delta i j.
  Definition mulv (n : nat) (C : mtx) (v : vec) : vec := fun i => fsumn n (fun j => C i j * v j).
  Definition symmetric (n : nat) (C : mtx) : Prop := forall i j, (i < n)%nat -> (j < n)%nat -> C i j = C j i.
  Definition quad (n : nat) (C : mtx) (a b : vec) : K := dot n a (mulv n C b).
  Definition psd (n : nat) (C : mtx) : Prop := forall w, 0 <= quad n C w w.
  (** an orthogonal matrix of eigenvectors of C (the columns are the elements of V) with the eigenvalues in ascending order *)
  Definition eigensystem (n : nat) (C : mtx) (D : list K) (V : list vec) : Prop :=
    length D = n /\ length V = n /\ orthonormal n V /\
    (forall i j, (i < n)%nat -> (j < n)%nat -> fsumn n (fun k => nthv k V i * nthv k V j) = delta i j) /\
    (forall k i, (k < n)%nat -> (i < n)%nat -> mulv n C (nthv k V) i = nthd k D * nthv k V i) /\
    StronglySorted fle D.

  Lemma dot_fsum {A} n (a : vec) (l : list A) (f : A -> vec) : dot n a (fun i => fsum (map (fun x => f x i) l)) = fsum (map (fun x => dot n a (f x)) l).
  Proof.
    unfold dot. rewrite <- fsumn_fsum. apply fsumn_ext. intros. now rewrite fsum_map_mul.
  Qed.
  Lemma dot_fsumn n m (a : vec) (f : nat -> vec) : dot n a (fun i => fsumn m (fun k => f k i)) = fsumn m (fun k => dot n a (f k)).
  Proof. apply (dot_fsum n a (seq 0 m) f). Qed.
  Lemma dot_scale n (a b : vec) c : dot n a (fun i => c * b i) = c * dot n a b.
  Proof. unfold dot. rewrite <- fsumn_mul. apply fsumn_ext. intros. ring. Qed.
  Lemma dot_scale_l n (a b : vec) c : dot n (fun i => c * b i) a = c * dot n b a.
  Proof. now rewrite dot_sym, dot_scale, (dot_sym n a b). Qed.
  Lemma dot_sub_l n (a b c : vec) : dot n (fun i => a i - b i) c = dot n a c - dot n b c.
  Proof. unfold dot. rewrite <- fsumn_sub. apply fsumn_ext. intros. ring. Qed.
  Lemma dot_sub_r n (a b c : vec) : dot n c (fun i => a i - b i) = dot n c a - dot n c b.
  Proof. now rewrite dot_sym, dot_sub_l, !(dot_sym n _ c). Qed.
  Lemma dot_add_l n (a b c : vec) : dot n (fun i => a i + b i) c = dot n a c + dot n b c.
  Proof. unfold dot. rewrite <- fsumn_add. apply fsumn_ext. intros. ring. Qed.

  (** combination of the vectors of W with coefficients c *)
  Definition comb (W : list vec) (c : nat -> K) : vec := fun i => fsumn (length W) (fun k => c k * nthv k W i).
  Lemma dot_comb n W c a : dot n a (comb W c) = fsumn (length W) (fun k => c k * dot n a (nthv k W)).
  Proof. unfold comb. rewrite (dot_fsumn n (length W) a (fun k i => c k * nthv k W i)). apply fsumn_ext. intros. apply dot_scale. Qed.
  Lemma dot_comb_on n W c k : orthonormal n W -> (k < length W)%nat -> dot n (nthv k W) (comb W c) = c k.
  Proof.
    intros H Hk. rewrite dot_comb, (fsumn_ext _ _ (fun j => c j * delta k j)); [now apply fsumn_delta|]. intros j Hj. now rewrite H.
  Qed.
  Lemma norm_comb n W c : orthonormal n W -> dot n (comb W c) (comb W c) = fsumn (length W) (fun k => c k * c k).
  Proof. intros H. rewrite dot_comb. apply fsumn_ext. intros k Hk. now rewrite dot_sym, dot_comb_on. Qed.
  (** Pythagoras: the distance of a to any combination of W *)
  Lemma dist_comb n W c a : orthonormal n W ->
    let p := fun k => dot n a (nthv k W) in
    dot n (fun i => a i - comb W c i) (fun i => a i - comb W c i) = dot n a a - fsumn (length W) (fun k => p k * p k) + fsumn (length W) (fun k => (c k - p k) * (c k - p k)).
  Proof.
    intros H p. rewrite dot_sub_l, !dot_sub_r, norm_comb by exact H. rewrite (dot_sym n (comb W c) a), dot_comb.
    rewrite (fsumn_ext _ (fun k => (c k - p k) * (c k - p k)) (fun k => (c k * c k + p k * p k) - (c k * p k + c k * p k))) by (intros; ring).
    rewrite fsumn_sub, !fsumn_add. unfold p. ring.
  Qed.
  Lemma bessel n W a : orthonormal n W -> fsumn (length W) (fun k => dot n a (nthv k W) * dot n a (nthv k W)) <= dot n a a.
  Proof.
    intros H. pose proof (dist_comb n W (fun k => dot n a (nthv k W)) a H) as E. cbv zeta in E. apply fle_sub.
    rewrite (fsumn_zero _ (fun k => (dot n a (nthv k W) - _) * _)) in E by (intros; ring).
    replace (dot n a a - _) with (dot n a a - fsumn (length W) (fun k => dot n a (nthv k W) * dot n a (nthv k W)) + 0) by ring.
    rewrite <- E. apply dot_sq.
  Qed.
  Section Complete.
    Variables (n : nat) (C : mtx) (D : list K) (V : list vec).
    Hypothesis ES : eigensystem n C D V.
    Let LD : length D = n. Proof. apply ES. Qed.
    Let LV : length V = n. Proof. apply ES. Qed.
    Let ON : orthonormal n V. Proof. apply ES. Qed.
    Let CO : forall i j, (i < n)%nat -> (j < n)%nat -> fsumn n (fun k => nthv k V i * nthv k V j) = delta i j. Proof. apply ES. Qed.
    Let EV : forall k i, (k < n)%nat -> (i < n)%nat -> mulv n C (nthv k V) i = nthd k D * nthv k V i. Proof. apply ES. Qed.
    (** every vector is the combination of the basis *)
    Lemma expand (a : vec) i : (i < n)%nat -> comb V (fun k => dot n a (nthv k V)) i = a i.
    Proof.
      intros Hi. unfold comb. rewrite LV.
      rewrite (fsumn_ext n _ (fun k => fsumn n (fun j => a j * (nthv k V j * nthv k V i)))).
      - rewrite fsumn_swap. rewrite (fsumn_ext n _ (fun j => a j * delta i j)); [now apply fsumn_delta|].
        intros j Hj. now rewrite fsumn_mul, CO, delta_sym.
      - intros k Hk. unfold dot. rewrite <- fsumn_mulr. apply fsumn_ext. intros. ring.
    Qed.
    Lemma parseval (a b : vec) : fsumn n (fun k => dot n a (nthv k V) * dot n b (nthv k V)) = dot n a b.
    Proof.
      transitivity (dot n a (comb V (fun k => dot n b (nthv k V)))).
      - rewrite dot_comb, LV. apply fsumn_ext. intros. ring.
      - apply dot_ext; [reflexivity|]. intros. now apply expand.
    Qed.
    Lemma quad_eig k : (k < n)%nat -> forall a, quad n C a (nthv k V) = nthd k D * dot n a (nthv k V).
    Proof. intros Hk a. unfold quad. rewrite <- dot_scale. apply dot_ext; [reflexivity|]. intros. now apply EV. Qed.
    Lemma eig_quad k l : (k < n)%nat -> (l < n)%nat -> quad n C (nthv k V) (nthv l V) = nthd l D * delta k l.
    Proof. intros Hk Hl. rewrite quad_eig by exact Hl. now rewrite ON by (rewrite LV; assumption). Qed.
    Lemma quad_ext a b b' : (forall i, (i < n)%nat -> b i = b' i) -> quad n C a b = quad n C a b'.
    Proof. intros H. apply dot_ext; [reflexivity|]. intros i Hi. apply fsumn_ext. intros j Hj. now rewrite H. Qed.
    Lemma quad_spectral a b : quad n C a b = fsumn n (fun k => nthd k D * (dot n a (nthv k V) * dot n b (nthv k V))).
    Proof.
      rewrite (quad_ext a b (comb V (fun k => dot n b (nthv k V)))) by (intros; symmetry; now apply expand).
      unfold quad. transitivity (dot n a (fun i => fsumn n (fun k => dot n b (nthv k V) * mulv n C (nthv k V) i))).
      - apply dot_ext; [reflexivity|]. intros i Hi. unfold mulv, comb. rewrite LV.
        rewrite (fsumn_ext n _ (fun j => fsumn n (fun k => dot n b (nthv k V) * (C i j * nthv k V j)))).
        + rewrite fsumn_swap. apply fsumn_ext. intros. now rewrite fsumn_mul.
        + intros j Hj. rewrite <- fsumn_mul. apply fsumn_ext. intros. ring.
      - rewrite (dot_fsumn n n a (fun k i => dot n b (nthv k V) * mulv n C (nthv k V) i)). apply fsumn_ext. intros k Hk.
        rewrite dot_scale. change (dot n a (mulv n C (nthv k V))) with (quad n C a (nthv k V)). rewrite quad_eig by exact Hk. ring.
    Qed.
    Definition unit_vec (i : nat) : vec := fun j => delta i j.
    Lemma dot_unit a i : (i < n)%nat -> dot n a (unit_vec i) = a i.
    Proof. intros H. unfold dot, unit_vec. now apply fsumn_delta. Qed.
    Lemma trace_eig : fsumn n (fun i => C i i) = fsum D.
    Proof.
      rewrite (fsum_nth D 0), LD.
      rewrite (fsumn_ext n _ (fun i => fsumn n (fun k => nthd k D * (nthv k V i * nthv k V i)))).
      - rewrite fsumn_swap. apply fsumn_ext. intros k Hk. rewrite fsumn_mul.
        transitivity (nthd k D * dot n (nthv k V) (nthv k V)); [reflexivity|]. rewrite ON by (rewrite LV; assumption). unfold delta. rewrite Nat.eqb_refl. ring.
      - intros i Hi. transitivity (quad n C (unit_vec i) (unit_vec i)).
        + unfold quad. rewrite dot_sym, dot_unit by exact Hi. unfold mulv. symmetry. transitivity (dot n (C i) (unit_vec i)); [reflexivity|]. now apply dot_unit.
        + rewrite quad_spectral. apply fsumn_ext. intros k Hk. rewrite !(dot_sym n (unit_vec i)), !dot_unit by exact Hi. reflexivity.
    Qed.
    Lemma eig_nonneg : psd n C -> forall k, (k < n)%nat -> 0 <= nthd k D.
    Proof. intros P k Hk. pose proof (P (nthv k V)) as H. rewrite eig_quad in H by exact Hk. unfold delta in H. rewrite Nat.eqb_refl in H. now replace (nthd k D * 1) with (nthd k D) in H by ring. Qed.
  End Complete.

  (** the weights p are between 0 and 1 and sum to k: the weighted sum of a descending sequence is at most the sum of its first k elements *)
  Lemma weighted n k (c p : nat -> K) : (k <= n)%nat -> (forall i j, (i <= j)%nat -> (j < n)%nat -> c j <= c i) ->
    (forall i, (i < n)%nat -> 0 <= p i /\ p i <= 1) -> fsumn n p = fn k -> fsumn n (fun i => c i * p i) <= fsumn k c.
  Proof.
    intros Hk Hc Hp Sp. destruct k as [|k].
    - cbn [fn] in Sp. assert (Z : forall i, (i < n)%nat -> p i = 0).
      { intros i Hi. apply (fsum_map_eq0 (seq 0 n) p); [|exact Sp|apply in_seq; lia]. intros x Hx. apply in_seq in Hx. apply Hp. lia. }
      rewrite fsumn_zero; [apply fle_refl|]. intros i Hi. rewrite Z by exact Hi. ring.
    - set (t := c k). replace n with (S k + (n - S k))%nat in * by lia. set (m := (n - S k)%nat) in *. clearbody m. rewrite fsumn_split in *.
      apply fle_trans with (fsumn (S k) (fun i => c i * p i) + fsumn m (fun i => t * p (S k + i)%nat)).
      + apply fle_add2; [apply fle_refl|]. apply fsumn_le. intros i Hi.
        apply fle_mul; [apply Hp; lia|]. apply Hc; lia.
      + rewrite fsumn_mul. replace (fsumn m (fun i => p (S k + i)%nat)) with (fn (S k) - fsumn (S k) p) by (rewrite <- Sp; ring).
        apply fle_sub. replace (fsumn (S k) c - _) with (fsumn (S k) (fun i => (c i - t) * (1 - p i))).
        * apply fsumn_nonneg. intros i Hi. apply fle_mul0.
          -- apply (proj1 (fle_sub _ _)). apply Hc; lia.
          -- apply (proj1 (fle_sub _ _)). apply Hp; lia.
        * rewrite (fsumn_ext _ _ (fun i => (c i - c i * p i) - (t * 1 - t * p i))) by (intros; ring).
          rewrite !fsumn_sub, !fsumn_mul. replace (fsumn (S k) (fun _ => 1)) with (fn (S k) : K); [ring|].
          unfold fsumn. rewrite fsum_map_const, seq_length. ring.
  Qed.
  Lemma fn_le a b : (fn a : K) <= fn b -> (a <= b)%nat.
  Proof.
    intros H. destruct (le_lt_dec a b) as [L|L]; [exact L|]. exfalso. replace a with (b + S (a - b - 1))%nat in H by lia. rewrite fn_add in H.
    apply (flt_not_le (fn b : K) (fn b + fn (S (a - b - 1)))); [|exact H]. apply flt_sub.
    replace (fn b + fn (S (a - b - 1)) - fn b) with (fn (S (a - b - 1)) : K) by ring. apply fn_pos.
  Qed.
  Lemma on_count n C D V W : eigensystem n C D V -> orthonormal n W -> fsumn n (fun i => fsumn (length W) (fun k => dot n (nthv i V) (nthv k W) * dot n (nthv i V) (nthv k W))) = fn (length W).
  Proof.
    intros ES H. rewrite fsumn_swap. rewrite (fsumn_ext _ _ (fun _ => 1)).
    - unfold fsumn. rewrite fsum_map_const, seq_length. ring.
    - intros k Hk. rewrite (fsumn_ext n _ (fun i => dot n (nthv k W) (nthv i V) * dot n (nthv k W) (nthv i V))) by (intros; now rewrite dot_sym).
      rewrite (parseval n C D V ES). rewrite H by exact Hk. unfold delta. now rewrite Nat.eqb_refl.
  Qed.
  Lemma on_bound n C D V W i : eigensystem n C D V -> orthonormal n W -> (i < n)%nat ->
    fsumn (length W) (fun k => dot n (nthv i V) (nthv k W) * dot n (nthv i V) (nthv k W)) <= 1.
  Proof.
    intros ES H Hi. eapply fle_trans; [now apply bessel|]. assert (LV : length V = n) by apply ES. destruct ES as [_ [_ [ON _]]].
    rewrite ON by lia. unfold delta. rewrite Nat.eqb_refl. apply fle_refl.
  Qed.
  Lemma on_le n C D V W : eigensystem n C D V -> orthonormal n W -> (length W <= n)%nat.
  Proof.
    intros ES H. apply fn_le. rewrite <- (on_count n C D V W ES H). apply fle_trans with (fsumn n (fun _ => 1)).
    - apply fsumn_le. intros i Hi. now apply (on_bound n C D V W).
    - unfold fsumn. rewrite fsum_map_const, seq_length. replace (fn n * 1) with (fn n : K) by ring. apply fle_refl.
  Qed.
  Lemma sorted_nth (D : list K) : StronglySorted fle D -> forall i j, (i <= j)%nat -> (j < length D)%nat -> nthd i D <= nthd j D.
  Proof.
    induction 1 as [|a l S IH F]; intros i j Hij Hj; [cbn in Hj; lia|]. destruct j as [|j]; [replace i with O by lia; apply fle_refl|].
    destruct i as [|i]; [|apply IH; cbn in Hj; lia]. cbn. rewrite Forall_forall in F. apply F. apply nth_In. cbn in Hj. lia.
  Qed.
  (** Ky Fan: among k orthonormal directions the k last (largest) eigenvectors have the largest sum of quadratic forms *)
  Lemma ky_fan n C D V W : eigensystem n C D V -> orthonormal n W ->
    fsumn (length W) (fun k => quad n C (nthv k W) (nthv k W)) <= fsumn (length W) (fun k => nthd (n - 1 - k) D).
  Proof.
    intros ES H. pose proof (on_le n C D V W ES H) as L. assert (LD : length D = n) by apply ES.
    set (p := fun i => fsumn (length W) (fun k => dot n (nthv i V) (nthv k W) * dot n (nthv i V) (nthv k W))).
    assert (R : forall f : nat -> K, fsumn n (fun i => f (n - 1 - i)%nat) = fsumn n f).
    { intros f. unfold fsumn. rewrite <- (fsum_rev (map f (seq 0 n))), <- map_rev. f_equal. clear. transitivity (map f (map (fun i => (n - 1 - i)%nat) (seq 0 n))); [now rewrite map_map|].
      f_equal. apply nth_ext with O O; [now rewrite map_length, rev_length|]. rewrite map_length, seq_length. intros i Hi.
      rewrite rev_nth by now rewrite seq_length. rewrite seq_length, seq_nth by lia.
      rewrite (nth_indep _ O ((fun i => n - 1 - i)%nat O)) by now rewrite map_length, seq_length. rewrite map_nth, seq_nth by lia. lia. }
    rewrite (fsumn_ext _ _ (fun k => fsumn n (fun i => nthd i D * (dot n (nthv k W) (nthv i V) * dot n (nthv k W) (nthv i V))))) by (intros; now apply quad_spectral).
    rewrite fsumn_swap. rewrite (fsumn_ext n _ (fun i => nthd i D * p i)).
    2:{ intros i Hi. unfold p. rewrite fsumn_mul. f_equal. apply fsumn_ext. intros. now rewrite dot_sym. }
    rewrite <- (R (fun i => nthd i D * p i)). apply weighted; [exact L| | |].
    - intros i j Hij Hj. apply sorted_nth; [apply ES|lia|lia].
    - intros i Hi. split; [apply fsumn_nonneg; intros; apply fsq|]. apply (on_bound n C D V W); auto. lia.
    - rewrite (R p). now apply (on_count n C D V W).
  Qed.
End LinAlg.
