(** Properties C389-C396 of RBMNode and RBMWithLabelsNode. *)
From Coq Require Import List Arith Bool ZArith Lia QArith Qcanon Reals Lra.
From Verif Require Import OField RBMModel.
Import ListNotations.
Local Open Scope nat_scope.
Local Open Scope of_scope.

Section Props.
  Context {K : ofield}.
  Add Field Krb : (fth K).
  Notation vec := (vec (K := K)). Notation mtx := (mtx (K := K)). Notation rbm := (rbm K). Notation rstate := (rstate K). Notation hyper := (hyper K).

  (** ** products and the sum over all states of n binary variables *)
  Definition fprodn (n : nat) (f : nat -> K) : K := fold_right fmul 1 (map f (seq 0 n)).
  Fixpoint bits (n : nat) : list (list bool) := match n with O => [[]] | S n => map (cons false) (bits n) ++ map (cons true) (bits n) end.
  Definition state (l : list bool) : vec := fun i => if nth i l false then 1 else 0.
  Lemma bits_In n l : In l (bits n) <-> length l = n.
  Proof.
    revert l. induction n as [|n IH]; intros l; cbn.
    - split; [intros [<- |[]]; reflexivity|]. destruct l; [auto|discriminate].
    - rewrite in_app_iff, !in_map_iff. split.
      + intros [(x & <- & Hx)|(x & <- & Hx)]; cbn; f_equal; now apply IH.
      + destruct l as [|[] l]; cbn; [discriminate|right|left]; exists l; (split; [reflexivity|apply IH; lia]).
  Qed.
  Lemma bits_NoDup n : NoDup (bits n).
  Proof.
    induction n as [|n IH]; cbn; [repeat constructor; easy|].
    assert (HM : forall b, NoDup (map (cons b) (bits n))) by (intros b; apply FinFun.Injective_map_NoDup; [intros x y E; now injection E|exact IH]).
    enough (forall A (l r : list A), NoDup l -> NoDup r -> (forall x, In x l -> In x r -> False) -> NoDup (l ++ r)) as Happ.
    { apply Happ; auto. intros x. rewrite !in_map_iff. intros (y & <- & _) (z & E & _). discriminate. }
    clear. intros A l r Hl Hr Hd. induction Hl as [|x l Hx Hl IH]; cbn; [exact Hr|]. constructor.
    - rewrite in_app_iff. intros [H|H]; [easy|]. apply (Hd x); [now left|exact H].
    - apply IH. intros y Hy Hy'. apply (Hd y); [now right|exact Hy'].
  Qed.
  Lemma fprodn_S n f : fprodn (S n) f = f 0%nat * fprodn n (fun j => f (S j)).
  Proof. unfold fprodn. cbn [seq map fold_right]. f_equal. rewrite <- seq_shift, map_map. reflexivity. Qed.
  Lemma fprodn_ext n f g : (forall i, (i < n)%nat -> f i = g i) -> fprodn n f = fprodn n g.
  Proof. intros H. unfold fprodn. f_equal. apply map_ext_in. intros i Hi. apply in_seq in Hi. apply H. lia. Qed.
  Lemma fprodn_div n f g : (forall i, (i < n)%nat -> g i <> 0) -> fprodn n (fun i => f i / g i) = fprodn n f / fprodn n g /\ fprodn n g <> 0.
  Proof.
    revert f g. induction n as [|n IH]; intros f g H.
    - unfold fprodn. cbn. split; [field; apply f10|apply f10].
    - rewrite !fprodn_S. destruct (IH (fun j => f (S j)) (fun j => g (S j))) as (-> & Hn); [intros; apply H; lia|]. assert (g 0%nat <> 0) by (apply H; lia). split; [field; auto|].
      intros E. apply fmul_eq0 in E as [E|E]; auto.
  Qed.
  Lemma fprodn_zero n f j : (j < n)%nat -> f j = 0 -> fprodn n f = 0.
  Proof.
    revert f j. induction n as [|n IH]; intros f j Hj E; [lia|]. rewrite fprodn_S. destruct j as [|j]; [rewrite E; ring|]. rewrite (IH (fun j => f (S j)) j); [ring|lia|exact E].
  Qed.
  Lemma fprodn_replace n f j c : (j < n)%nat -> fprodn n (fun k => if (k =? j)%nat then c else f k) * f j = c * fprodn n f.
  Proof.
    revert f j. induction n as [|n IH]; intros f j Hj; [lia|]. rewrite !fprodn_S. destruct j as [|j]; cbn [Nat.eqb].
    - ring.
    - transitivity (f 0%nat * (fprodn n (fun k => if (k =? j)%nat then c else f (S k)) * f (S j))); [ring|]. rewrite (IH (fun j => f (S j)) j) by lia. ring.
  Qed.
  Lemma fsum_scale {A} (c : K) (f : A -> K) l : fsum (map (fun x => c * f x) l) = c * fsum (map f l). Proof. apply fsum_map_mul. Qed.
  (** the sum over all states of a product of factors *)
  Lemma bits_sum n (f : nat -> bool -> K) : fsum (map (fun l => fprodn n (fun j => f j (nth j l false))) (bits n)) = fprodn n (fun j => f j false + f j true).
  Proof.
    revert f. induction n as [|n IH]; intros f; [cbn; unfold fprodn; cbn; ring|].
    cbn [bits]. rewrite map_app, fsum_app, !map_map. rewrite fprodn_S.
    rewrite (fsum_map_ext (bits n) (fun l => fprodn (S n) (fun j => f j (nth j (false :: l) false))) (fun l => f 0%nat false * fprodn n (fun j => f (S j) (nth j l false)))) by (intros l _; now rewrite fprodn_S).
    rewrite (fsum_map_ext (bits n) (fun l => fprodn (S n) (fun j => f j (nth j (true :: l) false))) (fun l => f 0%nat true * fprodn n (fun j => f (S j) (nth j l false)))) by (intros l _; now rewrite fprodn_S).
    rewrite !fsum_scale, (IH (fun j => f (S j))). ring.
  Qed.
  Lemma fsum_filter {A} (g : A -> bool) (f : A -> K) l : fsum (map f (filter g l)) = fsum (map (fun x => if g x then f x else 0) l).
  Proof. induction l as [|x l IH]; cbn; [reflexivity|]. destruct (g x); cbn; rewrite IH; [reflexivity|ring]. Qed.

  (** ** the laws of the exponential function *)
  Variable ex : K -> K.
  Hypothesis ex_add : forall a b, ex (a + b) = ex a * ex b.
  Hypothesis ex_pos : forall a, 0 < ex a.
  Lemma ex_ne a : ex a <> 0. Proof. intros E. pose proof (ex_pos a) as H. rewrite E in H. now apply flt_ne in H. Qed.
  Lemma ex_0 : ex 0 = 1.
  Proof.
    assert (E : ex 0 * ex 0 = ex 0) by (rewrite <- ex_add; f_equal; ring). pose proof (ex_ne 0).
    assert (E1 : ex 0 * (ex 0 - 1) = 0) by (transitivity (ex 0 * ex 0 - ex 0); [ring|rewrite E; ring]). apply fmul_eq0 in E1 as [E1|E1]; [contradiction|].
    transitivity (ex 0 - 1 + 1); [ring|rewrite E1; ring].
  Qed.
  Lemma ex_opp a : ex (- a) = 1 / ex a.
  Proof. pose proof (ex_ne a). assert (E : ex (- a) * ex a = 1) by (rewrite <- ex_add, <- ex_0; f_equal; ring). rewrite <- E. field. auto. Qed.
  Lemma ex_sum n f : ex (fsumn n f) = fprodn n (fun i => ex (f i)).
  Proof.
    revert f. induction n as [|n IH]; intros f; [apply ex_0|]. rewrite fprodn_S, <- (IH (fun i => f (S i))), <- ex_add. f_equal.
    change (S n) with (1 + n)%nat. rewrite fsumn_split. unfold fsumn at 1. cbn. ring.
  Qed.
  Lemma one_ex_ne a : 1 + ex a <> 0.
  Proof.
    intros E. pose proof (fle_add2 0 1 0 (ex a) (flt_le _ _ f01) (flt_le _ _ (ex_pos a))) as H. pose proof f01 (K := K) as H1.
    assert (H2 : 1 <= 1 + ex a) by (apply (fun H => fle_trans _ _ _ H (fle_refl _)); apply (proj2 (fle_sub _ _)); replace (1 + ex a - 1) with (ex a) by ring; apply flt_le, ex_pos).
    rewrite E in H2. exact (flt_not_le _ _ H1 H2).
  Qed.
  Lemma logistic a : 1 / (1 + ex (- a)) = ex a / (1 + ex a).
  Proof. pose proof (ex_ne a) as H. pose proof (one_ex_ne a) as H0. rewrite ex_opp. replace (1 + 1 / ex a) with ((1 + ex a) / ex a) by (field; auto). field. auto. Qed.

  Section Dims.
  Variables d m : nat.
  (** the weight of a state of all variables: the exponential of minus the energy *)
  Definition weight (p : rbm) (v h : vec) : K := ex (- energy d m p v h).
  Definition A (p : rbm) (v : vec) (j : nat) : K := r_bh p j + fsumn d (fun i => v i * r_w p i j).
  Lemma prob_A p v j : prob_h ex d p v j = ex (A p v j) / (1 + ex (A p v j)).
  Proof. unfold prob_h. rewrite <- logistic. do 2 f_equal. f_equal. unfold A. ring. Qed.
  Lemma weight_prod p v l : weight p v (state l) = ex (fsumn d (fun i => v i * r_bv p i)) * fprodn m (fun j => if nth j l false then ex (A p v j) else 1).
  Proof.
    unfold weight, energy. transitivity (ex (fsumn d (fun i => v i * r_bv p i) + fsumn m (fun j => state l j * A p v j))).
    - f_equal. rewrite (fsumn_ext m (fun j => state l j * A p v j) (fun j => state l j * r_bh p j + fsumn d (fun i => v i * r_w p i j) * state l j)) by (intros; unfold A; ring).
      rewrite fsumn_add. ring.
    - rewrite ex_add, (ex_sum m). f_equal. apply fprodn_ext. intros j _. unfold state. destruct (nth j l false).
      + f_equal. ring.
      + rewrite <- ex_0. f_equal. ring.
  Qed.
  Lemma partition p v : fsum (map (fun l => weight p v (state l)) (bits m)) = ex (fsumn d (fun i => v i * r_bv p i)) * fprodn m (fun j => 1 + ex (A p v j)).
  Proof.
    rewrite (fsum_map_ext (bits m) _ (fun l => ex (fsumn d (fun i => v i * r_bv p i)) * fprodn m (fun j => (fun j (b : bool) => if b then ex (A p v j) else 1) j (nth j l false)))) by (intros; apply weight_prod).
    rewrite fsum_scale, (bits_sum m (fun j (b : bool) => if b then ex (A p v j) else 1)). reflexivity.
  Qed.
  Lemma fprodn_ne n f : (forall i, (i < n)%nat -> f i <> 0) -> fprodn n f <> 0. Proof. intros H. exact (proj2 (fprodn_div n f f H)). Qed.

  (** C389: given the visible variables the hidden ones are independent, with the probabilities that execute returns, in the Boltzmann distribution of the energy *)
  Theorem C389_joint (p : rbm) (v : vec) (l : list bool) :
    weight p v (state l) / fsum (map (fun l' => weight p v (state l')) (bits m)) =
    fprodn m (fun j => if nth j l false then prob_h ex d p v j else 1 - prob_h ex d p v j).
  Proof.
    rewrite partition, weight_prod.
    rewrite (fprodn_ext m (fun j => if nth j l false then prob_h ex d p v j else 1 - prob_h ex d p v j) (fun j => (if nth j l false then ex (A p v j) else 1) / (1 + ex (A p v j)))).
    - destruct (fprodn_div m (fun j => if nth j l false then ex (A p v j) else 1) (fun j => 1 + ex (A p v j))) as (-> & Hn); [intros; apply one_ex_ne|].
      pose proof (ex_ne (fsumn d (fun i => v i * r_bv p i))). field. auto.
    - intros j _. rewrite prob_A. pose proof (one_ex_ne (A p v j)). destruct (nth j l false); field; auto.
  Qed.
  (** C389: what execute returns is the probability of h_j = 1: the share of the states with h_j = 1 *)
  Theorem C389_marginal (p : rbm) (v : vec) (j : nat) : (j < m)%nat ->
    prob_h ex d p v j = fsum (map (fun l => weight p v (state l)) (filter (fun l => nth j l false) (bits m))) / fsum (map (fun l => weight p v (state l)) (bits m)).
  Proof.
    intros Hj. rewrite partition, fsum_filter.
    rewrite (fsum_map_ext (bits m) _ (fun l => ex (fsumn d (fun i => v i * r_bv p i)) * fprodn m (fun k => (fun k (b : bool) => if b then ex (A p v k) else if (k =? j)%nat then 0 else 1) k (nth k l false)))).
    - rewrite fsum_scale, (bits_sum m (fun k (b : bool) => if b then ex (A p v k) else if (k =? j)%nat then 0 else 1)).
      rewrite (fprodn_ext m _ (fun k => if (k =? j)%nat then ex (A p v j) else 1 + ex (A p v k))).
      2:{ intros k _. destruct (Nat.eqb_spec k j) as [-> |]; ring. }
      pose proof (fprodn_replace m (fun k => 1 + ex (A p v k)) j (ex (A p v j)) Hj) as E. cbn beta in E.
      set (X := fprodn m (fun k => if (k =? j)%nat then ex (A p v j) else 1 + ex (A p v k))) in *. set (Y := fprodn m (fun k => 1 + ex (A p v k))) in *.
      assert (HY : Y <> 0) by (apply fprodn_ne; intros; apply one_ex_ne). pose proof (one_ex_ne (A p v j)) as H1. pose proof (ex_ne (fsumn d (fun i => v i * r_bv p i))) as H2.
      rewrite prob_A. transitivity (ex (A p v j) * Y / ((1 + ex (A p v j)) * Y)); [field; auto|]. rewrite <- E. field. auto.
    - intros l _. destruct (nth j l false) eqn:El.
      + rewrite weight_prod. f_equal. apply fprodn_ext. intros k _. destruct (nth k l false) eqn:Ek; [reflexivity|]. destruct (Nat.eqb_spec k j) as [-> |]; [congruence|reflexivity].
      + rewrite (fprodn_zero m _ j Hj); [ring|]. rewrite El, Nat.eqb_refl. reflexivity.
  Qed.
  End Dims.

  (** C390: the same for the visible variables of RBMNode given the hidden ones *)
  Definition flip (p : rbm) : rbm := mkRBM (fun j i => r_w p i j) (r_bh p) (r_bv p).
  Lemma energy_flip d m p v h : energy d m p v h = energy m d (flip p) h v.
  Proof.
    unfold energy. cbn [flip r_w r_bv r_bh].
    rewrite (fsumn_ext m (fun j => fsumn d (fun i => v i * r_w p i j) * h j) (fun j => fsumn d (fun i => v i * r_w p i j * h j))) by (intros; now rewrite <- fsumn_mulr).
    rewrite fsumn_swap. rewrite (fsumn_ext d (fun i => fsumn m (fun j => h j * r_w p i j) * v i) (fun i => fsumn m (fun j => v i * r_w p i j * h j))); [ring|].
    intros i _. rewrite <- fsumn_mulr. apply fsumn_ext. intros j _. ring.
  Qed.
  Theorem C390_joint d m (p : rbm) (h : vec) (l : list bool) :
    ex (- energy d m p (state l) h) / fsum (map (fun l' => ex (- energy d m p (state l') h)) (bits d)) =
    fprodn d (fun i => if nth i l false then prob_v ex m p h i else 1 - prob_v ex m p h i).
  Proof.
    rewrite energy_flip. rewrite (fsum_map_ext (bits d) _ (fun l' => ex (- energy m d (flip p) h (state l')))) by (intros; now rewrite energy_flip).
    exact (C389_joint m d (flip p) h l).
  Qed.
  Theorem C390_marginal d m (p : rbm) (h : vec) (i : nat) : (i < d)%nat ->
    prob_v ex m p h i = fsum (map (fun l => ex (- energy d m p (state l) h)) (filter (fun l => nth i l false) (bits d))) / fsum (map (fun l => ex (- energy d m p (state l) h)) (bits d)).
  Proof.
    intros Hi. rewrite (fsum_map_ext (bits d) _ (fun l' => ex (- energy m d (flip p) h (state l')))) by (intros; now rewrite energy_flip).
    rewrite (fsum_map_ext (filter _ _) (fun l => ex (- energy d m p (state l) h)) (fun l' => ex (- energy m d (flip p) h (state l')))) by (intros; now rewrite energy_flip).
    exact (C389_marginal m d (flip p) h i Hi).
  Qed.

  (** ** RBMWithLabelsNode *)
  Lemma fsumn_pos n (f : nat -> K) : (0 < n)%nat -> (forall i, (i < n)%nat -> 0 < f i) -> 0 < fsumn n f.
  Proof.
    intros Hn H. destruct n as [|n]; [lia|]. rewrite fsumn_S. assert (H0 : 0 <= fsumn n f) by (apply fsumn_nonneg; intros; apply flt_le, H; lia).
    apply (flt_le_trans _ (f n)); [apply H; lia|]. apply (proj2 (fle_sub _ _)). replace (fsumn n f + f n - f n) with (fsumn n f) by ring. exact H0.
  Qed.
  Lemma pos_ne (a : K) : 0 < a -> a <> 0. Proof. intros H E. rewrite E in H. now apply flt_ne in H. Qed.
  Section Lab.
  Variables vd ld m : nat.
  Lemma lab_l_act (p : rbm) (h : vec) k : (0 < ld)%nat -> lab_l ex vd ld m p h k = ex (act m p h (vd + k)%nat) / fsumn ld (fun k => ex (act m p h (vd + k)%nat)).
  Proof.
    intros Hl. unfold lab_l, soft_exp. set (M := maxn _ _).
    assert (E : forall k, ex (act m p h (vd + k)%nat - M) = ex (act m p h (vd + k)%nat) * ex (- M)) by (intros; rewrite <- ex_add; f_equal; ring).
    rewrite (fsumn_ext ld _ (fun k => ex (act m p h (vd + k)%nat) * ex (- M))) by (intros; apply E). rewrite fsumn_mulr, E.
    pose proof (ex_ne (- M)). assert (fsumn ld (fun k => ex (act m p h (vd + k)%nat)) <> 0) by (apply pos_ne, fsumn_pos; auto). field. auto.
  Qed.
  (** the state with visible variables [l] and label [k] *)
  Definition labelled (l : list bool) (k : nat) : vec := fun i => if (i <? vd)%nat then state l i else if (i =? vd + k)%nat then 1 else 0.
  Lemma weight_lab (p : rbm) (h : vec) l k : (k < ld)%nat ->
    ex (- energy (vd + ld) m p (labelled l k) h) = ex (fsumn m (fun j => h j * r_bh p j)) * fprodn vd (fun i => if nth i l false then ex (act m p h i) else 1) * ex (act m p h (vd + k)%nat).
  Proof.
    intros Hk. transitivity (ex (fsumn m (fun j => h j * r_bh p j) + fsumn vd (fun i => state l i * act m p h i) + act m p h (vd + k)%nat)).
    - f_equal. rewrite energy_flip. unfold energy. cbn [flip r_w r_bv r_bh]. set (x := labelled l k).
      assert (E : fsumn (vd + ld) (fun i => x i * r_bv p i) + fsumn (vd + ld) (fun i => fsumn m (fun j => h j * r_w p i j) * x i) = fsumn vd (fun i => state l i * act m p h i) + act m p h (vd + k)%nat).
      { rewrite <- fsumn_add. rewrite (fsumn_ext (vd + ld) _ (fun i => x i * act m p h i)) by (intros; unfold act; ring). rewrite fsumn_split. f_equal.
        - apply fsumn_ext. intros i Hi. unfold x, labelled. now rewrite (proj2 (Nat.ltb_lt i vd) Hi).
        - rewrite (fsumn_ext ld _ (fun i => act m p h (vd + i)%nat * OField.delta k i)).
          + apply (fsumn_delta ld (fun i => act m p h (vd + i)%nat) k Hk).
          + intros i Hi. unfold x, labelled, OField.delta. rewrite (proj2 (Nat.ltb_ge (vd + i) vd)) by lia.
            destruct (Nat.eqb_spec (vd + i) (vd + k)), (Nat.eqb_spec k i); try lia; ring. }
      transitivity (fsumn m (fun j => h j * r_bh p j) + (fsumn (vd + ld) (fun i => x i * r_bv p i) + fsumn (vd + ld) (fun i => fsumn m (fun j => h j * r_w p i j) * x i))); [ring|]. rewrite E. ring.
    - rewrite !ex_add. f_equal. f_equal. rewrite (ex_sum vd). apply fprodn_ext. intros i _. unfold state. destruct (nth i l false); [f_equal; ring|]. rewrite <- ex_0. f_equal. ring.
  Qed.
  (** C391: the label probabilities are positive and sum to one *)
  Theorem C391_softmax (p : rbm) (h : vec) : (0 < ld)%nat -> (forall k, (k < ld)%nat -> 0 < lab_l ex vd ld m p h k) /\ fsumn ld (lab_l ex vd ld m p h) = 1.
  Proof.
    intros Hl. assert (Hp : 0 < fsumn ld (fun k => ex (act m p h (vd + k)%nat))) by (apply fsumn_pos; auto). pose proof (pos_ne _ Hp) as Hn. split.
    - intros k _. rewrite lab_l_act by exact Hl. unfold flt. replace (ex (act m p h (vd + k)%nat) / _) with (ex (act m p h (vd + k)%nat) * finv (fsumn ld (fun k => ex (act m p h (vd + k)%nat)))) by (field; exact Hn).
      apply flt_mul; [apply ex_pos|apply finv_pos, Hp].
    - rewrite (fsumn_ext ld _ (fun k => ex (act m p h (vd + k)%nat) * (1 / fsumn ld (fun k => ex (act m p h (vd + k)%nat))))) by (intros; rewrite lab_l_act by exact Hl; field; exact Hn).
      rewrite fsumn_mulr. field. exact Hn.
  Qed.
  (** C391: the exponents of the label probabilities are at most zero, and one of them is zero: exp does not overflow and the sum is not zero *)
  Lemma maxn_spec n (f : nat -> K) : (forall k, (k <= n)%nat -> f k <= maxn n f) /\ exists k, (k <= n)%nat /\ f k = maxn n f.
  Proof.
    induction n as [|n [IH1 (k0 & Hk & E)]]; cbn.
    - split; [intros [|k] H; [apply fle_refl|lia]|]. exists 0%nat. auto.
    - unfold fmax. destruct (fltb (maxn n f) (f (S n))) eqn:H.
      + split; [|exists (S n); auto]. intros k L. destruct (Nat.eq_dec k (S n)) as [->|]; [apply fle_refl|]. apply fle_trans with (maxn n f); [apply IH1; lia|]. now apply flt_le.
      + split; [|exists k0; split; [lia|exact E]]. intros k L. destruct (Nat.eq_dec k (S n)) as [->|]; [exact H|]. apply IH1. lia.
  Qed.
  Theorem C391_exponents (p : rbm) (h : vec) : (0 < ld)%nat -> exists e : nat -> K, (forall k, soft_exp ex vd ld m p h k = ex (e k)) /\
    (forall k, (k < ld)%nat -> e k <= 0) /\ exists k, (k < ld)%nat /\ e k = 0.
  Proof.
    intros Hl. exists (fun k => act m p h (vd + k)%nat - maxn (ld - 1) (fun l => act m p h (vd + l)%nat)). destruct (maxn_spec (ld - 1) (fun l => act m p h (vd + l)%nat)) as [A (k & B & C)].
    split; [reflexivity|]. split.
    - intros k' Hk. specialize (A k' ltac:(lia)). cbv beta in A. apply fle_sub. match goal with |- 0 <= ?x => replace x with (maxn (ld - 1) (fun l => act m p h (vd + l)%nat) - act m p h (vd + k')%nat) by ring end. now apply (proj1 (fle_sub _ _)).
    - exists k. split; [lia|]. cbv beta in C. rewrite C. ring.
  Qed.
  (** C391: visible variables and label are independent given the hidden variables, with the probabilities returned by sample_v *)
  Theorem C391_joint (p : rbm) (h : vec) (l : list bool) (k : nat) : (k < ld)%nat ->
    ex (- energy (vd + ld) m p (labelled l k) h) / fsum (map (fun l' => fsumn ld (fun k' => ex (- energy (vd + ld) m p (labelled l' k') h))) (bits vd)) =
    fprodn vd (fun i => if nth i l false then lab_v ex m p h i else 1 - lab_v ex m p h i) * lab_l ex vd ld m p h k.
  Proof.
    intros Hk. rewrite weight_lab by exact Hk. set (B := ex (fsumn m (fun j => h j * r_bh p j))). set (Z := fsumn ld (fun k => ex (act m p h (vd + k)%nat))).
    rewrite (fsum_map_ext (bits vd) _ (fun l' => (B * Z) * fprodn vd (fun i => (fun i (b : bool) => if b then ex (act m p h i) else 1) i (nth i l' false)))).
    2:{ intros l' _. rewrite (fsumn_ext ld _ (fun k' => B * fprodn vd (fun i => if nth i l' false then ex (act m p h i) else 1) * ex (act m p h (vd + k')%nat))) by (intros; now apply weight_lab).
        rewrite fsumn_mul. fold Z. ring. }
    rewrite fsum_scale, (bits_sum vd (fun i (b : bool) => if b then ex (act m p h i) else 1)). rewrite lab_l_act by lia. fold Z.
    rewrite (fprodn_ext vd (fun i => if nth i l false then lab_v ex m p h i else 1 - lab_v ex m p h i) (fun i => (if nth i l false then ex (act m p h i) else 1) / (1 + ex (act m p h i)))).
    - destruct (fprodn_div vd (fun i => if nth i l false then ex (act m p h i) else 1) (fun i => 1 + ex (act m p h i))) as (-> & Hn); [intros; apply one_ex_ne|].
      assert (HB : B <> 0) by apply ex_ne. assert (HZ : Z <> 0) by (apply pos_ne, fsumn_pos; [lia|auto]). field. auto.
    - intros i _. unfold lab_v. rewrite logistic. pose proof (one_ex_ne (act m p h i)). destruct (nth i l false); field; auto.
  Qed.
  (** C391: the reconstruction used in training has binary visible variables and label values that sum to one *)
  Theorem C391_reconstruction (u : nat -> K) n k (p : rbm) (h : mtx) : (0 < ld)%nat -> let '(pr, x, k') := lab_sample ex u vd ld m n k p h in
    k' = (k + n * vd)%nat /\ forall t, (forall i, (i < vd)%nat -> pr t i = lab_v ex m p (h t) i /\ (x t i = 0 \/ x t i = 1)) /\ fsumn ld (fun i => x t (vd + i)%nat) = 1.
  Proof.
    intros Hl. unfold lab_sample. split; [reflexivity|]. intros t. split.
    - intros i Hi. rewrite (proj2 (Nat.ltb_lt i vd) Hi). split; [reflexivity|]. unfold sample. destruct (fltb _ _); auto.
    - rewrite <- (proj2 (C391_softmax p (h t) Hl)). apply fsumn_ext. intros i _. rewrite (proj2 (Nat.ltb_ge (vd + i) vd)) by lia. f_equal. lia.
  Qed.
  End Lab.

  (** ** training *)
  Section Train.
  Variable u : nat -> K.
  Variables d m : nat.
  (** sum of the products of the parameters *)
  Definition ip (p q : rbm) : K := fsumn d (fun i => fsumn m (fun j => r_w p i j * r_w q i j)) + fsumn d (fun i => r_bv p i * r_bv q i) + fsumn m (fun j => r_bh p j * r_bh q j).
  Definition ip_w (p q : rbm) : K := fsumn d (fun i => fsumn m (fun j => r_w p i j * r_w q i j)).
  Lemma energies n (q : rbm) (v ph : mtx) : fsumn n (fun t => energy d m q (v t) (ph t)) =
    - (fsumn d (fun i => fsumn m (fun j => fsumn n (fun t => v t i * ph t j) * r_w q i j)) + fsumn d (fun i => fsumn n (fun t => v t i) * r_bv q i) + fsumn m (fun j => fsumn n (fun t => ph t j) * r_bh q j)).
  Proof.
    rewrite (fsumn_ext d (fun i => fsumn n (fun t => v t i) * r_bv q i) (fun i => fsumn n (fun t => v t i * r_bv q i))) by (intros; now rewrite <- fsumn_mulr).
    rewrite (fsumn_ext m (fun j => fsumn n (fun t => ph t j) * r_bh q j) (fun j => fsumn n (fun t => ph t j * r_bh q j))) by (intros; now rewrite <- fsumn_mulr).
    rewrite (fsumn_ext d (fun i => fsumn m (fun j => fsumn n (fun t => v t i * ph t j) * r_w q i j)) (fun i => fsumn n (fun t => fsumn m (fun j => v t i * ph t j * r_w q i j)))).
    2:{ intros i _. rewrite fsumn_swap. apply fsumn_ext. intros j _. now rewrite <- fsumn_mulr. }
    rewrite (fsumn_swap d n), (fsumn_swap d n), (fsumn_swap m n), <- !fsumn_add.
    transitivity (fsumn n (fun t => (- (1)) * (fsumn d (fun i => fsumn m (fun j => v t i * ph t j * r_w q i j)) + fsumn d (fun i => v t i * r_bv q i) + fsumn m (fun j => ph t j * r_bh q j)))).
    2:{ rewrite fsumn_mul. ring. }
    apply fsumn_ext. intros t _. unfold energy.
    rewrite (fsumn_ext m (fun j => fsumn d (fun i => v t i * r_w q i j) * ph t j) (fun j => fsumn d (fun i => v t i * ph t j * r_w q i j))) by (intros; rewrite <- fsumn_mulr; apply fsumn_ext; intros; ring).
    rewrite (fsumn_swap m d). ring.
  Qed.
  Lemma ip_delta (y : hyper) n (p dl q : rbm) (v ph h v' ph' h' : mtx) : (0 < n)%nat -> y_ph y = true ->
    fn n * ip (delta' y n p dl v ph h v' ph' h') q = fn n * (y_mom y * ip dl q - y_eps y * y_decay y * ip_w p q) +
      y_eps y * (fsumn n (fun t => energy d m q (v' t) (ph' t)) - fsumn n (fun t => energy d m q (v t) (ph t))).
  Proof.
    intros Hn Hy. assert (Hf : fn (K := K) n <> 0) by (apply fn_ne; lia). rewrite !energies. unfold ip, ip_w, delta'. rewrite Hy. cbn [r_w r_bv r_bh].
    set (D := fun i j => fsumn n (fun t => v t i * ph t j)). set (D' := fun i j => fsumn n (fun t => v' t i * ph' t j)).
    rewrite (fsumn_ext d (fun i => fsumn m (fun j => (y_mom y * r_w dl i j + y_eps y * ((fsumn n (fun t => v t i * ph t j) - fsumn n (fun t => v' t i * ph' t j)) / fn n - y_decay y * r_w p i j)) * r_w q i j))
      (fun i => y_mom y * fsumn m (fun j => r_w dl i j * r_w q i j) + y_eps y / fn n * (fsumn m (fun j => D i j * r_w q i j) - fsumn m (fun j => D' i j * r_w q i j)) - y_eps y * y_decay y * fsumn m (fun j => r_w p i j * r_w q i j))).
    2:{ intros i _. rewrite <- fsumn_sub, <- !fsumn_mul, <- fsumn_add, <- fsumn_sub. apply fsumn_ext. intros j _. unfold D, D'. field. exact Hf. }
    rewrite (fsumn_ext d (fun i => (y_mom y * r_bv dl i + y_eps y * ((fsumn n (fun t => v t i) - fsumn n (fun t => v' t i)) / fn n)) * r_bv q i)
      (fun i => y_mom y * (r_bv dl i * r_bv q i) + y_eps y / fn n * (fsumn n (fun t => v t i) * r_bv q i - fsumn n (fun t => v' t i) * r_bv q i))) by (intros; field; exact Hf).
    rewrite (fsumn_ext m (fun j => (y_mom y * r_bh dl j + y_eps y * ((fsumn n (fun t => ph t j) - fsumn n (fun t => ph' t j)) / fn n)) * r_bh q j)
      (fun j => y_mom y * (r_bh dl j * r_bh q j) + y_eps y / fn n * (fsumn n (fun t => ph t j) * r_bh q j - fsumn n (fun t => ph' t j) * r_bh q j))) by (intros; field; exact Hf).
    rewrite !fsumn_sub, !fsumn_add, !fsumn_mul, !fsumn_sub. unfold D, D'. field. exact Hf.
  Qed.

  (** the last reconstruction comes from the sampling of visible variables, and its hidden probabilities from it *)
  Lemma cd_last sv r n k (p : rbm) h last v' ph' h' k' : cd ex u d m sv r n k p h last = (Some (v', ph'), h', k') ->
    (r = O /\ last = Some (v', ph')) \/ ((forall t, ph' t = prob_h ex d p (v' t)) /\ exists k0 h0, v' = snd (fst (sv n k0 p h0))).
  Proof.
    revert k h last. induction r as [|r IH]; intros k h last E; cbn in E.
    - injection E as -> _ _. auto.
    - right. destruct (sv n k p h) as ((pv, v1), k1) eqn:Es. apply IH in E as [(-> & E)|E]; [|exact E]. injection E as <- <-. split; [reflexivity|]. exists k, h. now rewrite Es.
  Qed.
  Lemma cd_some sv r n k (p : rbm) h last : (0 < r)%nat \/ last <> None -> fst (fst (cd ex u d m sv r n k p h last)) <> None.
  Proof.
    revert k h last. induction r as [|r IH]; intros k h last H; cbn.
    - destruct H as [H|H]; [lia|exact H].
    - destruct (sv n k p h) as ((pv, v1), k1). apply IH. right. discriminate.
  Qed.

  Definition rsv := sample_v ex u d m.
  (** the chain of samples hidden -> visible -> hidden ... , which starts with the hidden variables [h] and takes its random numbers from position [k] on *)
  Definition gibbs (n k : nat) (p : rbm) (h : mtx) (rounds : nat) (hs vs : nat -> mtx) : Prop := hs 0%nat = h /\ forall i, (i < rounds)%nat ->
    vs i = sample u (k + i * (n * d + n * m)) d (fun t => prob_v ex m p (hs i t)) /\ hs (S i) = sample u (k + i * (n * d + n * m) + n * d) m (fun t => prob_h ex d p (vs i t)).
  Lemma cd_gibbs r n k (p : rbm) h last v' ph' h' k' : (0 < r)%nat -> cd ex u d m rsv r n k p h last = (Some (v', ph'), h', k') ->
    exists hs vs, gibbs n k p h r hs vs /\ v' = vs (r - 1)%nat /\ h' = hs r /\ k' = (k + r * (n * d + n * m))%nat.
  Proof.
    revert k h last. induction r as [|r IH]; intros k h last Hr E; [lia|]. cbn in E. unfold sample_h in E. set (v1 := sample u k d (fun t => prob_v ex m p (h t))) in *. set (h1 := sample u (k + n * d) m (fun t => prob_h ex d p (v1 t))) in *.
    destruct r as [|r].
    - cbn in E. injection E as <- _ <- <-. exists (fun i => match i with O => h | S _ => h1 end), (fun _ => v1). split; [|repeat split; lia].
      split; [reflexivity|]. intros [|i] Hi; [|lia]. cbn. rewrite !Nat.add_0_r. split; reflexivity.
    - apply IH in E as (hs & vs & (G0 & G) & -> & -> & ->); [|lia]. exists (fun i => match i with O => h | S i => hs i end), (fun i => match i with O => v1 | S i => vs i end). split.
      + split; [reflexivity|]. intros [|i] Hi.
        * cbn [Nat.mul]. rewrite !Nat.add_0_r. split; [reflexivity|]. rewrite G0. reflexivity.
        * destruct (G i ltac:(lia)) as [A B]. split; [rewrite A|rewrite B]; f_equal; lia.
      + replace (S (S r) - 1)%nat with (S (S r - 1)) by lia. repeat split. lia.
  Qed.
  (** C392: one call of train moves the parameters by the contrastive divergence: in every direction q of the parameters by epsilon/n times the energies (under q) of the
      reconstructions less those of the data, plus momentum and less weight decay; the reconstructions are binary, with their hidden probabilities *)
  Theorem C392_update (y : hyper) (p0 : rbm) n (v : mtx) (s : rstate) : (0 < n)%nat -> y_ph y = true -> (1 <= y_rounds y)%Z ->
    exists s' v', train ex u d m rsv y p0 n v s = (s', true) /\ (forall t i, v' t i = 0 \/ v' t i = 1) /\
      (exists hs vs, gibbs n (s_pos (init p0 s) + n * m) (s_par (init p0 s)) (sample u (s_pos (init p0 s)) m (fun t => prob_h ex d (s_par (init p0 s)) (v t))) (Z.to_nat (y_rounds y)) hs vs /\
        v' = vs (Z.to_nat (y_rounds y) - 1)%nat) /\
      let p := s_par (init p0 s) in
      (forall i j, r_w (s_par s') i j = r_w p i j + r_w (s_delta s') i j) /\ (forall i, r_bv (s_par s') i = r_bv p i + r_bv (s_delta s') i) /\ (forall j, r_bh (s_par s') j = r_bh p j + r_bh (s_delta s') j) /\
      s_err s' = fsumn n (fun t => fsumn d (fun i => (v t i - v' t i) * (v t i - v' t i))) /\
      forall q, fn n * ip (s_delta s') q = fn n * (y_mom y * ip (s_delta (init p0 s)) q - y_eps y * y_decay y * ip_w p q) +
        y_eps y * (fsumn n (fun t => energy d m q (v' t) (prob_h ex d p (v' t))) - fsumn n (fun t => energy d m q (v t) (prob_h ex d p (v t)))).
  Proof.
    intros Hn Hy Hr. unfold train. cbn [sample_h]. set (s1 := init p0 s). set (ph := fun t => prob_h ex d (s_par s1) (v t)). set (h := sample u (s_pos s1) m ph).
    pose proof (cd_some rsv (Z.to_nat (y_rounds y)) n (s_pos s1 + n * m) (s_par s1) h None) as Hs.
    destruct (cd ex u d m rsv (Z.to_nat (y_rounds y)) n (s_pos s1 + n * m) (s_par s1) h None) as ((last, h'), k2) eqn:Ec. cbn in Hs.
    destruct last as [(v', ph')|]; [|exfalso; apply Hs; [left; lia|reflexivity]].
    destruct (cd_last _ _ _ _ _ _ _ _ _ _ _ Ec) as [(_ & E)|(Hph & k0 & h0 & Ev)]; [discriminate|].
    eexists _, v'. split; [reflexivity|]. split.
    { intros t i. rewrite Ev. cbn. unfold sample. destruct (fltb _ _); auto. }
    split; [apply cd_gibbs in Ec as (hs & vs & G & -> & _); [eauto|lia]|].
    cbn [s_par s_delta s_err plus r_w r_bv r_bh]. split; [reflexivity|]. split; [reflexivity|]. split; [reflexivity|]. split; [reflexivity|].
    intros q. rewrite ip_delta by assumption. do 3 f_equal. apply fsumn_ext. intros t _. now rewrite Hph.
  Qed.

  Lemma ip_plus (p q r : rbm) : ip (plus p q) r = ip p r + ip q r.
  Proof.
    unfold ip, plus. cbn. rewrite (fsumn_ext d _ (fun i => fsumn m (fun j => r_w p i j * r_w r i j) + fsumn m (fun j => r_w q i j * r_w r i j))) by (intros; rewrite <- fsumn_add; apply fsumn_ext; intros; ring).
    rewrite (fsumn_ext d (fun i => (r_bv p i + r_bv q i) * r_bv r i) (fun i => r_bv p i * r_bv r i + r_bv q i * r_bv r i)) by (intros; ring).
    rewrite (fsumn_ext m (fun i => (r_bh p i + r_bh q i) * r_bh r i) (fun i => r_bh p i * r_bh r i + r_bh q i * r_bh r i)) by (intros; ring). rewrite !fsumn_add. ring.
  Qed.
  (** the energy is linear in the parameters *)
  Lemma energy_plus (p q : rbm) (v h : vec) : energy d m (plus p q) v h = energy d m p v h + energy d m q v h.
  Proof.
    unfold energy, plus. cbn.
    rewrite (fsumn_ext d (fun i => v i * (r_bv p i + r_bv q i)) (fun i => v i * r_bv p i + v i * r_bv q i)) by (intros; ring).
    rewrite (fsumn_ext m (fun i => h i * (r_bh p i + r_bh q i)) (fun i => h i * r_bh p i + h i * r_bh q i)) by (intros; ring).
    rewrite (fsumn_ext m (fun j => fsumn d (fun i => v i * (r_w p i j + r_w q i j)) * h j) (fun j => fsumn d (fun i => v i * r_w p i j) * h j + fsumn d (fun i => v i * r_w q i j) * h j)).
    - rewrite !fsumn_add. ring.
    - intros j _. rewrite (fsumn_ext d _ (fun i => v i * r_w p i j + v i * r_w q i j)) by (intros; ring). rewrite fsumn_add. ring.
  Qed.
  (** C393: without momentum and decay an update lowers the energy of the data relative to that of the reconstructions, by the squared length of the update times n/epsilon *)
  Theorem C393_gap (y : hyper) (p0 : rbm) n (v : mtx) (s : rstate) : (0 < n)%nat -> y_ph y = true -> (1 <= y_rounds y)%Z -> y_mom y = 0 -> y_decay y = 0 -> 0 < y_eps y ->
    exists s' v', train ex u d m rsv y p0 n v s = (s', true) /\
      let p := s_par (init p0 s) in
      let gap := fun r => fsumn n (fun t => energy d m r (v t) (prob_h ex d p (v t))) - fsumn n (fun t => energy d m r (v' t) (prob_h ex d p (v' t))) in
      gap (s_par s') = gap p - fn n / y_eps y * ip (s_delta s') (s_delta s') /\ gap (s_par s') <= gap p.
  Proof.
    intros Hn Hy Hr Hm Hd He. destruct (C392_update y p0 n v s Hn Hy Hr) as (s' & v' & E & _ & _ & H). exists s', v'. split; [exact E|].
    destruct H as (_ & _ & _ & _ & H). cbv zeta.
    assert (Es : s_par s' = plus (s_par (init p0 s)) (s_delta s')).
    { unfold train in E. cbn [sample_h] in E. destruct (cd _ _ _ _ _ _ _ _ _ _ _) as (([(?, ?)|], ?), ?); [|discriminate]. injection E as <-. reflexivity. }
    set (p := s_par (init p0 s)) in *. pose proof (pos_ne _ He) as Hne. specialize (H (s_delta s')). rewrite Hm, Hd in H.
    set (E1 := fsumn n (fun t => energy d m (s_delta s') (v' t) (prob_h ex d p (v' t)))) in *. set (E2 := fsumn n (fun t => energy d m (s_delta s') (v t) (prob_h ex d p (v t)))) in *.
    assert (EQ : fsumn n (fun t => energy d m (s_par s') (v t) (prob_h ex d p (v t))) - fsumn n (fun t => energy d m (s_par s') (v' t) (prob_h ex d p (v' t))) =
      fsumn n (fun t => energy d m p (v t) (prob_h ex d p (v t))) - fsumn n (fun t => energy d m p (v' t) (prob_h ex d p (v' t))) - fn n / y_eps y * ip (s_delta s') (s_delta s')).
    { rewrite Es. rewrite (fsumn_ext n _ (fun t => energy d m p (v t) (prob_h ex d p (v t)) + energy d m (s_delta s') (v t) (prob_h ex d p (v t)))) by (intros; apply energy_plus).
      rewrite (fsumn_ext n (fun t => energy d m (plus p (s_delta s')) (v' t) (prob_h ex d p (v' t))) (fun t => energy d m p (v' t) (prob_h ex d p (v' t)) + energy d m (s_delta s') (v' t) (prob_h ex d p (v' t)))) by (intros; apply energy_plus).
      rewrite !fsumn_add. fold E1 E2.
      replace (fn n / y_eps y * ip (s_delta s') (s_delta s')) with (fn n * ip (s_delta s') (s_delta s') / y_eps y) by (field; exact Hne). rewrite H. field. exact Hne. }
    split; [exact EQ|]. rewrite EQ. apply (proj2 (fle_sub _ _)). match goal with |- 0 <= ?a => replace a with (fn n / y_eps y * ip (s_delta s') (s_delta s')) by ring end.
    apply fle_mul0.
    - apply fdiv_pos; [apply fn_nonneg|exact He].
    - unfold ip. assert (Ha : forall a b : K, 0 <= a -> 0 <= b -> 0 <= a + b) by (intros a b H1 H2; pose proof (fle_add2 0 a 0 b H1 H2) as H3; replace (0 + 0) with (0 : K) in H3 by ring; exact H3).
      apply Ha; [apply Ha|]; apply fsumn_nonneg; intros; try apply fsq. apply fsumn_nonneg. intros. apply fsq.
  Qed.

  (** C394: with at least one round train succeeds (C392); without, it fails after the weights were initialised, and no parameter changes *)
  Theorem C394_no_rounds (y : hyper) (p0 : rbm) n (v : mtx) (s : rstate) sv : (y_rounds y <= 0)%Z ->
    exists s', train ex u d m sv y p0 n v s = (s', false) /\ s_init s' = true /\ s_par s' = s_par (init p0 s) /\ s_delta s' = s_delta (init p0 s).
  Proof. intros Hr. unfold train. cbn [sample_h]. replace (Z.to_nat (y_rounds y)) with 0%nat by lia. cbn. eexists. split; [reflexivity|]. auto. Qed.

  (** C395: samples are zero or one, one exactly if the random number drawn for the entry is below the probability; each entry has its own number *)
  Theorem C395_sample n k (p : rbm) (v : mtx) : let '(pr, h, k') := sample_h ex u d m n k p v in
    exists pos : nat -> nat -> nat, (forall t j, (t < n)%nat -> (j < m)%nat -> (k <= pos t j < k')%nat /\ pr t j = prob_h ex d p (v t) j /\
      (h t j = 0 \/ h t j = 1) /\ (h t j = 1 <-> u (pos t j) < pr t j)) /\
    forall t j t' j', (j < m)%nat -> (j' < m)%nat -> pos t j = pos t' j' -> t = t' /\ j = j'.
  Proof.
    cbn. exists (fun t j => k + (t * m + j))%nat. split.
    - intros t j Ht Hj. split; [nia|]. split; [reflexivity|]. unfold sample, flt. destruct (fltb _ _).
      + split; [auto|]. split; auto.
      + split; [auto|]. split; [|discriminate]. intros E. exfalso. symmetry in E. exact (f10 E).
    - intros t j t' j' Hj Hj' E. assert (Et : t = t') by nia. split; [exact Et|]. subst. lia.
  Qed.
  (** C395: what execute returns by default does not depend on the random numbers and is between zero and one *)
  Theorem C395_execute n (v : mtx) (s : rstate) : forall t j, fst (exec ex u d m true n v s) t j = prob_h ex d (s_par s) (v t) j /\ 0 < prob_h ex d (s_par s) (v t) j /\ prob_h ex d (s_par s) (v t) j < 1.
  Proof.
    intros t j. split; [reflexivity|]. set (a := r_bh (s_par s) j + fsumn d (fun i => v t i * r_w (s_par s) i j)).
    assert (E : prob_h ex d (s_par s) (v t) j = ex a / (1 + ex a)) by apply prob_A. rewrite E. pose proof (one_ex_ne a) as Hn.
    assert (Hp : 0 < 1 + ex a). { apply (flt_le_trans _ (ex a)); [apply ex_pos|]. apply (proj2 (fle_sub _ _)). replace (1 + ex a - ex a) with (1 : K) by ring. apply flt_le, f01. }
    split.
    - unfold flt. replace (ex a / (1 + ex a)) with (ex a * finv (1 + ex a)) by (field; exact Hn). apply flt_mul; [apply ex_pos|apply finv_pos, Hp].
    - apply (proj2 (flt_sub _ _)). replace (1 - ex a / (1 + ex a)) with (finv (1 + ex a)) by (field; exact Hn). apply finv_pos, Hp.
  Qed.
  End Train.
End Props.

(** C394: a number of rounds for which train fails *)
Theorem C394_zero_refuted : exists (y : hyper Qc_of), y_rounds y = 0%Z /\ forall ex u d m sv p0 n v s, snd (train ex u d m sv y p0 n v s) = false.
Proof. exists (mkHy 0 (1 : Qc_of) 0 0 true). split; reflexivity. Qed.

(** C396: the labels may have any number of columns, as long as all columns together are right; columns of v are then taken for labels *)
Theorem C396_columns_refuted : exists (input_dim : nat) (v l v' l' x : arr nat), a_cols v = 2%nat /\ a_cols l = 2%nat /\ a_cols v' = 3%nat /\ a_cols l' = 1%nat /\
  concat_cols v l = Some x /\ concat_cols v' l' = Some x /\ lab_check (Some input_dim) x = true.
Proof. exists 4%nat, (mkArr 2 [[1; 2]]%nat), (mkArr 2 [[3; 4]]%nat), (mkArr 3 [[1; 2; 3]]%nat), (mkArr 1 [[4]]%nat). eexists. repeat split. Qed.
(** C396, guarded: another total number of columns, or another number of rows, is rejected *)
Theorem C396_total {A} (n : nat) (v l : arr A) : (a_cols v + a_cols l)%nat <> n \/ length (a_rows v) <> length (a_rows l) ->
  match concat_cols v l with None => True | Some x => lab_check (Some n) x = false end.
Proof.
  unfold concat_cols. destruct (Nat.eqb_spec (length (a_rows v)) (length (a_rows l))) as [E|E]; [|easy]. intros [H|H]; [|contradiction].
  cbn. apply Nat.eqb_neq in H. now rewrite H.
Qed.

(** with the real exponential function *)
Lemma exp_pos_of (a : R_of) : flt (K := R_of) 0 (exp a). Proof. unfold flt. cbn. destruct (Rlt_dec 0 (exp a)) as [|H]; [reflexivity|]. exfalso. apply H, exp_pos. Qed.
Definition C389_real := C389_marginal (K := R_of) exp exp_plus exp_pos_of.
Definition C390_real := C390_marginal (K := R_of) exp exp_plus exp_pos_of.
Definition C391_real := C391_joint (K := R_of) exp exp_plus exp_pos_of.
Definition C393_real := C393_gap (K := R_of) exp.

(** Examples: one visible and one hidden variable, all probabilities 1/2 *)
Definition q (a b : Z) : Qc_of := Q2Qc (a # Z.to_pos b).
Definition exu (n : nat) : Qc_of := if Nat.even n then q 3 4 else q 1 4.
Definition exs : rstate Qc_of := mkRS false zero zero 0 0%nat.
Definition exp0 : rbm Qc_of := mkRBM (fun _ _ => q 1 10) (fun _ => q 1 5) (fun _ => q (-1) 5).
Definition exh : hyper Qc_of := mkHy 1 (q 1 10) 0 0 true.
Definition ext := train (fun _ => 1) exu 1 1 (sample_v (fun _ => 1) exu 1 1) exh exp0 2 (fun _ _ => 1) exs.
Example C392_ex : (this (r_w (s_par (fst ext)) 0%nat 0%nat), this (r_bv (s_par (fst ext)) 0%nat), this (s_err (fst ext)), s_pos (fst ext), snd ext) = (1 # 8, 1 # 4, 1, 6%nat, true)%Q.
Proof. vm_compute. reflexivity. Qed.
Example C394_ex : snd (train (fun _ => 1) exu 1 1 (sample_v (fun _ => 1) exu 1 1) (mkHy 0 (q 1 10) 0 0 true) exp0 2 (fun _ _ => 1) exs) = false. Proof. reflexivity. Qed.
(** the probability of h = 1 given v = 1, w = 1, bh = x *)
Example C389_ex : forall x : R_of, prob_h (K := R_of) exp 1 (mkRBM (fun _ _ => 1) (fun _ => 0) (fun _ => x)) (fun _ => 1) 0%nat = (1 / (1 + exp (- x - (1 * 1 + 0))))%R.
Proof. reflexivity. Qed.
