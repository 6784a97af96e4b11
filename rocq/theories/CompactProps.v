(** The labels of the training mode 'compact_classes' (CompactModel.v). *)
From Coq Require Import List Arith ZArith Bool Lia Permutation Field QArith Qcanon FinFun.
From Verif Require Import OField LinAlg GenEig PCAModel SymeigModel SFAModel GSFAModel GSFAProofs CompactModel.
Import ListNotations.
Open Scope nat_scope.

Lemma NoDup_app_ {A} (l r : list A) : NoDup l -> NoDup r -> (forall a, In a l -> ~ In a r) -> NoDup (l ++ r).
Proof. intros Nl Nr D. induction Nl as [|a l Ha Nl IH]; [exact Nr|]. cbn. constructor; [rewrite in_app_iff; intros [I|I]; [contradiction|exact (D a (or_introl eq_refl) I)]|apply IH; intros x X; apply D; now right]. Qed.
Definition zsum (l : list Z) : Z := fold_right Z.add 0%Z l.
Definition zprod (l : list Z) : Z := fold_right Z.mul 1%Z l.
Lemma zsum_app l r : zsum (l ++ r) = (zsum l + zsum r)%Z. Proof. unfold zsum. induction l as [|a l IH]; [reflexivity|]. cbn [app fold_right]. lia. Qed.
Lemma zprod_app l r : zprod (l ++ r) = (zprod l * zprod r)%Z. Proof. unfold zprod. induction l as [|a l IH]; cbn [app fold_right]; [ring|]. rewrite IH. ring. Qed.
Lemma zsum_scale {A} (f : A -> Z) c l : zsum (map (fun x => (c * f x)%Z) l) = (c * zsum (map f l))%Z. Proof. unfold zsum. induction l as [|a l IH]; cbn [map fold_right]; [ring|]. rewrite IH. ring. Qed.
Lemma zprod_zero l : In 0%Z l -> zprod l = 0%Z. Proof. induction l as [|a l IH]; intros I; [destruct I|]. cbn. destruct I as [->|I]; [lia|]. fold (zprod l). rewrite (IH I). lia. Qed.
Lemma zprod_rev l : zprod (rev l) = zprod l. Proof. induction l as [|a l IH]; [reflexivity|]. cbn [rev]. rewrite zprod_app, IH. unfold zprod. cbn [fold_right]. ring. Qed.
Lemma zprod_pm l : (forall z, In z l -> z = 1 \/ z = -1)%Z -> (zprod l = 1 \/ zprod l = -1)%Z.
Proof. induction l as [|a l IH]; intros H; [now left|]. cbn. fold (zprod l). destruct (H a (or_introl eq_refl)), IH as [E|E]; subst; rewrite ?E; auto; intros; apply H; now right. Qed.

Definition bit (i c : nat) : nat := c / 2 ^ i mod 2.
Lemma bit_lt i c : bit i c < 2. Proof. apply Nat.mod_upper_bound. discriminate. Qed.
Lemma bit_testbit i c : Nat.b2n (Nat.testbit c i) = bit i c. Proof. apply Nat.testbit_spec'. Qed.
Lemma bit_low i J c : i < J -> bit i (c + 2 ^ J) = bit i c.
Proof.
  intros H. unfold bit. replace (2 ^ J) with ((2 ^ (J - i - 1) * 2) * 2 ^ i) by (rewrite <- Nat.mul_assoc, (Nat.mul_comm 2), Nat.mul_assoc, <- Nat.pow_add_r, Nat.mul_comm, <- Nat.pow_succ_r'; f_equal; lia).
  rewrite Nat.div_add by (apply Nat.pow_nonzero; discriminate). apply Nat.mod_add. discriminate.
Qed.
Lemma bit_high J c : c < 2 ^ J -> bit J c = 0 /\ bit J (c + 2 ^ J) = 1.
Proof. intros H. unfold bit. rewrite Nat.div_small by exact H. split; [reflexivity|]. replace (c + 2 ^ J) with (c + 1 * 2 ^ J) by lia. rewrite Nat.div_add by (apply Nat.pow_nonzero; discriminate). now rewrite Nat.div_small. Qed.
(** a sum over all numbers of a product over their digits *)
Lemma seq_plus n s : forall z, seq (z + s) n = map (fun c => c + s) (seq z n).
Proof. induction n as [|n IH]; intros z; [reflexivity|]. cbn [seq map]. f_equal. apply (IH (S z)). Qed.
Lemma sum_of_products (h : nat -> nat -> Z) J : zsum (map (fun c => zprod (map (fun i => h i (bit i c)) (seq 0 J))) (seq 0 (2 ^ J))) = zprod (map (fun i => (h i 0%nat + h i 1%nat)%Z) (seq 0 J)).
Proof.
  induction J as [|J IH]; [reflexivity|]. replace (2 ^ S J) with (2 ^ J + 2 ^ J) by (cbn; lia). rewrite seq_app, map_app, zsum_app. rewrite seq_plus, map_map.
  rewrite seq_S, map_app, zprod_app, <- IH. cbn [map zprod fold_right plus].
  rewrite (map_ext_in _ (fun c => (h J 0%nat * zprod (map (fun i => h i (bit i c)) (seq 0 J)))%Z)).
  2:{ intros c I. apply in_seq in I. rewrite map_app, zprod_app. cbn [map zprod fold_right]. rewrite (proj1 (bit_high J c ltac:(lia))). ring. }
  rewrite (map_ext_in (fun c => zprod (map (fun i => h i (bit i (c + 2 ^ J))) (seq 0 J ++ [J]))) (fun c => (h J 1%nat * zprod (map (fun i => h i (bit i c)) (seq 0 J)))%Z)).
  2:{ intros c I. apply in_seq in I. rewrite map_app, zprod_app. cbn [map zprod fold_right]. rewrite (proj2 (bit_high J c ltac:(lia))). rewrite (map_ext_in _ (fun i => h i (bit i c))); [ring|]. intros i Hi. apply in_seq in Hi. rewrite bit_low by lia. reflexivity. }
  rewrite !zsum_scale. ring.
Qed.
(** samples: every class has b of them *)
Lemma sum_samples (f : nat -> Z) b n : b <> 0 -> zsum (map (fun k => f (k / b)) (seq 0 (n * b))) = (Z.of_nat b * zsum (map f (seq 0 n)))%Z.
Proof.
  intros Hb. induction n as [|n IH]; [cbn; lia|]. replace (S n * b) with (n * b + b) by lia. rewrite seq_app, map_app, zsum_app, IH, seq_S, map_app, zsum_app. cbn [plus map zsum fold_right].
  replace (zsum (map (fun k => f (k / b)) (seq (n * b) b))) with (Z.of_nat b * f n)%Z; [fold (zsum (map f (seq 0 n))); lia|].
  rewrite (map_ext_in _ (fun _ => f n)). { clear. generalize (n * b) as s. induction b as [|b IH]; intros s; [reflexivity|]. cbn [seq map zsum fold_right]. fold (zsum (map (fun _ : nat => f n) (seq (S s) b))). rewrite <- IH. lia. }
  intros k I. apply in_seq in I. f_equal. symmetry. apply (Nat.div_unique k b n (k - n * b)); lia.
Qed.

(** the labels: a column for each number *)
Definition sg (b : nat) : Z := (Z.of_nat b * 2 - 1)%Z.
Definition walsh (J d c : nat) : Z := zprod (map (fun i => if Nat.testbit d i then sg (bit (J - i - 1) c) else 1%Z) (seq 0 J)).
Definition sign (d : nat) : Z := if hamming d mod 2 =? 0 then (-1)%Z else 1%Z.
Lemma fold_zprod (f : nat -> Z) (p : nat -> bool) l : forall a, fold_left (fun s c => if p c then (s * f c)%Z else s) l a = (a * zprod (map (fun c => if p c then f c else 1%Z) l))%Z.
Proof. induction l as [|c l IH]; intros a; cbn; [lia|]. rewrite IH. unfold zprod. destruct (p c); ring. Qed.
Lemma extra_is J b d k : extra_column J b d k = (sign d * walsh J d (k / b))%Z.
Proof.
  unfold extra_column, sign. cbv zeta. rewrite (fold_zprod (fun c => column J b c k) (Nat.testbit d)). change (map (fun c => if Nat.testbit d c then column J b c k else 1%Z) (seq 0 J)) with (map (fun i => if Nat.testbit d i then sg (bit (J - i - 1) (k / b)) else 1%Z) (seq 0 J)).
  fold (walsh J d (k / b)). destruct (_ =? 0); ring.
Qed.
Lemma hamming_loop_ge f : forall g n, n <= f -> f <= g -> hamming_loop g n = hamming_loop f n.
Proof.
  induction f as [|f IH]; intros g n H1 H2; [replace n with 0 by lia; destruct g; reflexivity|]. destruct g as [|g]; [lia|]. cbn [hamming_loop]. destruct (Nat.eqb_spec n 0) as [|N]; [reflexivity|]. f_equal. apply IH; [|lia]. pose proof (Nat.div_lt n 2 ltac:(lia) ltac:(lia)). lia.
Qed.
Lemma hamming_step n : n <> 0 -> hamming n = n mod 2 + hamming (n / 2).
Proof.
  intros H. unfold hamming. pose proof (Nat.div_lt n 2 ltac:(lia) ltac:(lia)). rewrite <- (hamming_loop_ge n (S n) n) by lia. cbn [hamming_loop]. destruct (Nat.eqb_spec n 0); [contradiction|]. f_equal.
  - pose proof (Nat.mod_upper_bound n 2 ltac:(lia)). destruct (Nat.eqb_spec (n mod 2) 0); lia.
  - apply hamming_loop_ge; lia.
Qed.
(** Hamming_weight counts the digits 1 *)
Theorem hamming_bits J : forall n, n < 2 ^ J -> hamming n = list_sum (map (fun i => bit i n) (seq 0 J)).
Proof.
  induction J as [|J IH]; intros n H; [cbn in H; replace n with 0 by lia; reflexivity|]. cbn [seq map list_sum fold_right]. rewrite <- seq_shift, map_map. destruct (Nat.eq_dec n 0) as [->|N].
  - clear. unfold bit at 1. cbn [Nat.pow]. replace (0 / 1 mod 2) with 0 by reflexivity. symmetry. cbn [plus]. induction (seq 0 J) as [|i l IHl]; [reflexivity|]. cbn [map fold_right]. fold (list_sum (map (fun x => bit (S x) 0) l)). unfold bit at 1. rewrite Nat.div_0_l by (apply Nat.pow_nonzero; discriminate). exact IHl.
  - rewrite hamming_step by exact N. f_equal; [unfold bit; cbn [Nat.pow]; now rewrite Nat.div_1_r|]. rewrite IH by (apply Nat.div_lt_upper_bound; [lia|exact H]). unfold list_sum. f_equal. apply map_ext. intros i. unfold bit. rewrite Nat.div_div by (try discriminate; apply Nat.pow_nonzero; discriminate). reflexivity.
Qed.
Lemma bit_pow i j : bit i (2 ^ j) = if i =? j then 1 else 0.
Proof. rewrite <- bit_testbit, Nat.pow2_bits_eqb, Nat.eqb_sym. now destruct (i =? j). Qed.
Lemma list_sum_0 {A} (f : A -> nat) l : (forall a, In a l -> f a = 0) -> list_sum (map f l) = 0.
Proof. unfold list_sum. induction l as [|a l IH]; intros H; [reflexivity|]. cbn [map fold_right]. rewrite (H a (or_introl eq_refl)), IH; [reflexivity|]. intros b B. apply H. now right. Qed.
Lemma hamming_pow j : hamming (2 ^ j) = 1.
Proof.
  rewrite (hamming_bits (S j)) by (apply Nat.pow_lt_mono_r; lia). rewrite seq_S, map_app. cbn [map plus]. rewrite list_sum_app. rewrite bit_pow, Nat.eqb_refl. rewrite list_sum_0; [reflexivity|]. intros i I. apply in_seq in I. rewrite bit_pow. destruct (Nat.eqb_spec i j); [lia|reflexivity].
Qed.
Lemma walsh_pow J j c : j < J -> walsh J (2 ^ j) c = sg (bit (J - j - 1) c).
Proof.
  intros H. unfold walsh. assert (SJ : seq 0 J = seq 0 (j + S (J - j - 1))) by (f_equal; lia). rewrite SJ, seq_app, map_app, zprod_app. cbn [plus seq map].
  set (F := fun i => if Nat.testbit (2 ^ j) i then sg (bit (J - i - 1) c) else 1%Z). assert (O : forall l, ~ In j l -> zprod (map F l) = 1%Z).
  { induction l as [|i l IH]; intros N; [reflexivity|]. unfold zprod in *. cbn [map fold_right]. rewrite IH by (intros I; apply N; now right). unfold F. rewrite Nat.pow2_bits_eqb. destruct (Nat.eqb_spec j i) as [->|]; [elim N; now left|]. reflexivity. }
  change (zprod (map F (seq 0 j)) * (F j * zprod (map F (seq (S j) (J - j - 1)))) = sg (bit (J - j - 1) c))%Z. rewrite !O by (intros I; apply in_seq in I; lia). unfold F. rewrite Nat.pow2_bits_eqb, Nat.eqb_refl. ring.
Qed.
Lemma column_is J b j k : j < J -> column J b j k = (sign (2 ^ j) * walsh J (2 ^ j) (k / b))%Z.
Proof. intros H. rewrite walsh_pow by exact H. unfold sign. rewrite hamming_pow. change (1 mod 2 =? 0) with false. cbv iota. unfold column, sg, bit. rewrite Z.mul_1_l. reflexivity. Qed.

Lemma sg_pm b : b < 2 -> (sg b = 1 \/ sg b = -1)%Z. Proof. intros H. destruct b as [|[|b]]; [right|left|lia]; reflexivity. Qed.
Lemma walsh_pm J d c : (walsh J d c = 1 \/ walsh J d c = -1)%Z.
Proof. apply zprod_pm. intros z I. apply in_map_iff in I. destruct I as (i & <- & _). destruct (Nat.testbit d i); [apply sg_pm, bit_lt|now left]. Qed.
Lemma sign_pm d : (sign d = 1 \/ sign d = -1)%Z. Proof. unfold sign. destruct (_ =? 0); auto. Qed.
Lemma rev_seq J : map (fun i => J - i - 1) (seq 0 J) = rev (seq 0 J).
Proof. induction J as [|J IH]; [reflexivity|]. rewrite seq_S at 2. rewrite rev_app_distr. cbn [rev app plus seq map]. f_equal; [lia|]. rewrite <- seq_shift, map_map, <- IH. apply map_ext. intros. lia. Qed.
Lemma walsh_rev J d c : walsh J d c = zprod (map (fun i => if Nat.testbit d (J - i - 1) then sg (bit i c) else 1%Z) (seq 0 J)).
Proof.
  unfold walsh. rewrite <- (zprod_rev (map (fun i => if Nat.testbit d (J - i - 1) then sg (bit i c) else 1%Z) (seq 0 J))), <- map_rev, <- rev_seq, map_map. f_equal. apply map_ext_in. intros i I. apply in_seq in I. replace (J - (J - i - 1) - 1) with i by lia. reflexivity.
Qed.
Lemma differ J : forall d e, d < 2 ^ J -> e < 2 ^ J -> d <> e -> exists i, i < J /\ Nat.testbit d i <> Nat.testbit e i.
Proof.
  intros d e Hd He N. destruct (forallb (fun i => Bool.eqb (Nat.testbit d i) (Nat.testbit e i)) (seq 0 J)) eqn:F.
  - exfalso. apply N. apply Nat.bits_inj. intros i. rewrite forallb_forall in F. destruct (lt_dec i J) as [L|L]; [apply eqb_prop, F, in_seq; lia|].
    assert (Z0 : forall n, n < 2 ^ J -> Nat.testbit n i = false) by (intros n Hn; rewrite Nat.testbit_eqb, Nat.div_small; [reflexivity|]; eapply Nat.lt_le_trans; [exact Hn|apply Nat.pow_le_mono_r; lia]). now rewrite !Z0.
  - assert (E : existsb (fun i => negb (Bool.eqb (Nat.testbit d i) (Nat.testbit e i))) (seq 0 J) = true) by (clear -F; induction (seq 0 J) as [|a l IH]; [discriminate|]; cbn in *; destruct (Bool.eqb _ _); [now apply IH|reflexivity]).
    apply existsb_exists in E. destruct E as (i & I & E). apply in_seq in I. exists i. split; [lia|]. intros X. rewrite X in E. now rewrite eqb_reflx in E.
Qed.
Lemma zprod_mul {A} (f g : A -> Z) l : (zprod (map f l) * zprod (map g l))%Z = zprod (map (fun a => (f a * g a)%Z) l).
Proof. induction l as [|a l IH]; [reflexivity|]. cbn [map zprod fold_right]. unfold zprod in *. rewrite <- IH. ring. Qed.
(** different numbers: orthogonal columns *)
Lemma walsh_orth J d e : d < 2 ^ J -> e < 2 ^ J -> d <> e -> zsum (map (fun c => (walsh J d c * walsh J e c)%Z) (seq 0 (2 ^ J))) = 0%Z.
Proof.
  intros Hd He N. set (h := fun i v => ((if Nat.testbit d (J - i - 1) then sg v else 1) * (if Nat.testbit e (J - i - 1) then sg v else 1))%Z).
  rewrite (map_ext _ (fun c => zprod (map (fun i => h i (bit i c)) (seq 0 J)))) by (intros c; rewrite !walsh_rev, zprod_mul; reflexivity).
  rewrite sum_of_products. apply zprod_zero. destruct (differ J d e Hd He N) as (i & Hi & X). apply in_map_iff. exists (J - i - 1). split; [|apply in_seq; lia]. unfold h. replace (J - (J - i - 1) - 1) with i by lia. destruct (Nat.testbit d i), (Nat.testbit e i); try (now elim X); reflexivity.
Qed.
Lemma walsh0 J c : walsh J 0 c = 1%Z.
Proof. unfold walsh. induction (seq 0 J) as [|i l IH]; [reflexivity|]. cbn [map zprod fold_right]. rewrite Nat.bits_0. unfold zprod in IH. now rewrite IH. Qed.
Lemma walsh_bal J d : d < 2 ^ J -> d <> 0 -> zsum (map (walsh J d) (seq 0 (2 ^ J))) = 0%Z.
Proof. intros H N. rewrite <- (walsh_orth J d 0 H ltac:(lia) N). f_equal. apply map_ext. intros c. rewrite walsh0. ring. Qed.

(** ** what is used: the labels of the node *)
Definition is_argsort (argsort : list nat -> list nat) : Prop := forall l, Permutation (argsort l) (seq 0 (length l)) /\ forall i j, i <= j < length l -> nth (nth i (argsort l) 0) l 0 <= nth (nth j (argsort l) 0) l 0.
(** [label] is one of the columns of the node for J and Jdes *)
Section Labels.
  Variable argsort : list nat -> list nat.
  Hypothesis Hsort : is_argsort argsort.
  Lemma free_in J d : In d (n_free J) <-> d < 2 ^ J /\ forall j, j < J -> d <> 2 ^ j.
  Proof.
    unfold n_free. rewrite filter_In, in_seq. split; intros (A & B); (split; [lia|]).
    - intros j Hj ->. apply negb_true_iff in B. assert (X : existsb (Nat.eqb (2 ^ j)) (map (fun k => 2 ^ k) (seq 0 J)) = true) by (apply existsb_exists; exists (2 ^ j); split; [apply in_map_iff; exists j; split; [reflexivity|apply in_seq; lia]|apply Nat.eqb_refl]). congruence.
    - apply negb_true_iff. destruct (existsb _ _) eqn:E; [|reflexivity]. apply existsb_exists in E. destruct E as (y & I & E). apply Nat.eqb_eq in E. subst y. apply in_map_iff in I. destruct I as (j & <- & I). apply in_seq in I. exfalso. exact (B j ltac:(lia) eq_refl).
  Qed.
  Lemma free_nodup J : NoDup (n_free J). Proof. apply NoDup_filter, seq_NoDup. Qed.
  Lemma free_len J : length (n_free J) + J = 2 ^ J.
  Proof.
    assert (P : Permutation (n_free J ++ map (fun k => 2 ^ k) (seq 0 J)) (seq 0 (2 ^ J))).
    { apply NoDup_Permutation; [|apply seq_NoDup|].
      - apply NoDup_app_; [apply free_nodup| |]. 
        + apply Injective_map_NoDup; [intros a b E; apply Nat.pow_inj_r in E; [exact E|lia]|apply seq_NoDup].
        + intros d I X. apply free_in in I. apply in_map_iff in X. destruct X as (j & <- & X). apply in_seq in X. exact (proj2 I j ltac:(lia) eq_refl).
      - intros d. rewrite in_app_iff, free_in, in_map_iff, in_seq. split.
        + intros [(A & _)|(j & <- & I)]; [lia|]. apply in_seq in I. split; [lia|]. apply Nat.pow_lt_mono_r; lia.
        + intros (_ & A). destruct (in_dec Nat.eq_dec d (map (fun k => 2 ^ k) (seq 0 J))) as [I|I]; [right; apply in_map_iff in I; exact I|left]. split; [exact A|]. intros j Hj ->. apply I. apply in_map_iff. exists j. split; [reflexivity|apply in_seq; lia]. }
    apply Permutation_length in P. rewrite app_length, map_length, !seq_length in P. exact P.
  Qed.
  Lemma hamming_pos n : hamming n = 0 -> n = 0.
  Proof. induction n as [n IH] using (well_founded_induction lt_wf). intros H. destruct (Nat.eq_dec n 0) as [|N]; [assumption|]. rewrite hamming_step in H by exact N. assert (D : n / 2 = 0) by (apply IH; [apply Nat.div_lt; lia|lia]). pose proof (Nat.div_mod n 2 ltac:(lia)). lia. Qed.
  Lemma free_head J : exists l, n_free J = 0 :: l.
  Proof.
    unfold n_free. assert (P : exists m, 2 ^ J = S m) by (exists (2 ^ J - 1); pose proof (Nat.pow_nonzero 2 J ltac:(lia)); lia). destruct P as (m & ->). cbn [seq filter]. assert (E : existsb (Nat.eqb 0) (map (fun k => 2 ^ k) (seq 0 J)) = false); [|rewrite E; eexists; reflexivity].
    destruct (existsb _ _) eqn:E; [|reflexivity]. apply existsb_exists in E. destruct E as (y & I & E). apply Nat.eqb_eq in E. subst y. apply in_map_iff in I. destruct I as (j & X & _). exfalso. exact (Nat.pow_nonzero 2 j ltac:(lia) X).
  Qed.
  Notation order := (order argsort). Notation digits := (digits argsort).
  Lemma order_perm J : Permutation (order J) (seq 0 (length (n_free J))).
  Proof. unfold CompactModel.order. rewrite <- (map_length hamming (n_free J)). eapply Permutation_trans; [apply Permutation_sym, Permutation_rev|apply Hsort]. Qed.
  Lemma order_len J : length (order J) = length (n_free J). Proof. rewrite (Permutation_length (order_perm J)). apply seq_length. Qed.
  Lemma order_last J : exists l, order J = l ++ [0] /\ ~ In 0 l.
  Proof.
    destruct (free_head J) as (fl & F). destruct (Hsort (map hamming (n_free J))) as (P & SO). set (w := map hamming (n_free J)) in *. unfold CompactModel.order. fold w. set (a := argsort w) in *. assert (L : length w = S (length fl)) by (unfold w; rewrite map_length, F; reflexivity).
    destruct a as [|a0 a'] eqn:Ea; [apply Permutation_length in P; rewrite seq_length, L in P; discriminate|].
    assert (N : NoDup (a0 :: a')) by (eapply Permutation_NoDup; [apply Permutation_sym, P|apply seq_NoDup]).
    assert (I0 : In 0 (a0 :: a')) by (eapply Permutation_in; [apply Permutation_sym, P|apply in_seq; lia]). assert (A0 : a0 < length w) by (assert (I : In a0 (seq 0 (length w))) by (eapply Permutation_in; [apply P|now left]); apply in_seq in I; lia).
    assert (Z0 : a0 = 0).
    { destruct (In_nth _ _ 0 I0) as (p & Hp & E). specialize (SO 0 p). pose proof (Permutation_length P) as PL. rewrite seq_length in PL. specialize (SO ltac:(lia)). rewrite E in SO. cbn [nth] in SO. unfold w in SO at 2. rewrite F in SO. cbn [map nth] in SO. change (hamming 0) with 0 in SO.
      assert (MN : nth a0 w 0 = hamming (nth a0 (n_free J) 0)) by (exact (map_nth hamming (n_free J) 0 a0)). assert (H0 : nth a0 (n_free J) 0 = 0) by (apply hamming_pos; lia). assert (NN := free_nodup J). rewrite (NoDup_nth _ 0) in NN. apply (NN a0 0); [unfold w in A0; rewrite map_length in A0; exact A0|rewrite F; cbn; lia|]. rewrite H0, F. reflexivity. }
    subst a0. exists (rev a'). split; [reflexivity|]. inversion N as [|y z N1 N2]. intros I. apply N1. now apply in_rev.
  Qed.
  (** the numbers of the extra labels: as many different ones as wanted; 0 is used only if all are *)
  Lemma digits_ok J extra : extra + J <= 2 ^ J -> exists ds, digits J extra = Some ds /\ length ds = extra /\ NoDup ds /\ (forall d, In d ds -> d < 2 ^ J /\ forall j, j < J -> d <> 2 ^ j) /\ (In 0 ds <-> extra + J = 2 ^ J).
  Proof.
    intros H. pose proof (free_len J) as FL. unfold CompactModel.digits. rewrite order_len. destruct (Nat.ltb_spec (length (n_free J)) extra); [lia|]. eexists. split; [reflexivity|]. split; [rewrite map_length, firstn_length, order_len; lia|].
    assert (ND : NoDup (order J)) by (eapply Permutation_NoDup; [apply Permutation_sym, order_perm|apply seq_NoDup]). assert (IN : forall i, In i (firstn extra (order J)) -> i < length (n_free J)) by (intros i I; assert (X : In i (seq 0 (length (n_free J)))) by (eapply Permutation_in; [apply order_perm|]; rewrite <- (firstn_skipn extra); apply in_or_app; now left); apply in_seq in X; lia).
    assert (NF : NoDup (firstn extra (order J))) by (rewrite <- (firstn_skipn extra) in ND; clear -ND; induction (firstn extra (order J)) as [|a l IH]; [constructor|]; inversion_clear ND as [|y z A B]; constructor; [intros I; apply A; apply in_or_app; now left|now apply IH]).
    assert (NN := free_nodup J). rewrite (NoDup_nth _ 0) in NN. split; [|split].
    - clear -NF IN NN. induction (firstn extra (order J)) as [|a l IH]; [constructor|]. inversion_clear NF as [|y z A B]. cbn [map]. constructor; [|apply IH; [intros i I; apply IN; now right|exact B]]. intros I. apply in_map_iff in I. destruct I as (i & E & I). apply NN in E; [subst; contradiction|apply IN; now right|apply IN; now left].
    - intros d I. apply in_map_iff in I. destruct I as (i & <- & I). apply free_in, nth_In, IN, I.
    - destruct (order_last J) as (l & E & N0). destruct (free_head J) as (fl & F). pose proof (order_len J) as OL. rewrite E in OL. rewrite app_length in OL. cbn in OL. split.
      + intros I. apply in_map_iff in I. destruct I as (i & X & I). assert (i = 0) as -> by (apply NN; [apply IN; exact I|rewrite F; cbn; lia|rewrite X, F; reflexivity]). destruct (Nat.eq_dec (extra + J) (2 ^ J)); [assumption|]. exfalso. apply N0. rewrite E, firstn_app in I. replace (extra - length l) with 0 in I by lia. rewrite app_nil_r in I. rewrite <- (firstn_skipn extra l). apply in_or_app. now left.
      + intros X. apply in_map_iff. exists 0. split; [rewrite F; reflexivity|]. rewrite firstn_all2 by (rewrite E, app_length; cbn; lia). rewrite E. apply in_or_app. right. now left.
  Qed.
End Labels.
Definition label (J b d k : nat) : Z := (sign d * walsh J d (k / b))%Z.
(** every column of the array of labels belongs to a number *)
Lemma columns_label J b ds i : i < J + length ds -> forall k, nth i (columns J b ds) (fun _ => 0%Z) k = label J b (nth i (map (fun k => 2 ^ k) (seq 0 J) ++ ds) 0) k.
Proof.
  intros H k. unfold columns. destruct (lt_dec i J) as [L|L].
  - rewrite !app_nth1 by (rewrite map_length, seq_length; exact L). rewrite (nth_indep _ _ (column J b 0)) by (rewrite map_length, seq_length; exact L). rewrite (nth_indep (map (fun k => 2 ^ k) (seq 0 J)) 0 (2 ^ 0)) by (rewrite map_length, seq_length; exact L). rewrite map_nth, (map_nth (fun k => 2 ^ k)), seq_nth by exact L. now apply column_is.
  - rewrite !app_nth2 by (rewrite map_length, seq_length; lia). rewrite !map_length, seq_length. rewrite (nth_indep _ _ (extra_column J b 0)) by (rewrite map_length; lia). rewrite map_nth. apply extra_is.
Qed.
Lemma label_pm J b d k : (label J b d k = 1 \/ label J b d k = -1)%Z.
Proof. unfold label. destruct (sign_pm d) as [->| ->], (walsh_pm J d (k / b)) as [->| ->]; auto. Qed.
Lemma label_bal J b d : b <> 0 -> d < 2 ^ J -> d <> 0 -> zsum (map (label J b d) (seq 0 (2 ^ J * b))) = 0%Z.
Proof. intros Hb H N. unfold label. rewrite (zsum_scale (fun k => walsh J d (k / b))). rewrite (sum_samples (walsh J d)) by exact Hb. rewrite walsh_bal by assumption. lia. Qed.
Lemma label_orth J b d e : b <> 0 -> d < 2 ^ J -> e < 2 ^ J -> d <> e -> zsum (map (fun k => (label J b d k * label J b e k)%Z) (seq 0 (2 ^ J * b))) = 0%Z.
Proof.
  intros Hb Hd He N. unfold label. rewrite (map_ext _ (fun k => (sign d * sign e * (walsh J d (k / b) * walsh J e (k / b)))%Z)) by (intros; ring). rewrite (zsum_scale (fun k => (walsh J d (k / b) * walsh J e (k / b))%Z)). rewrite (sum_samples (fun c => (walsh J d c * walsh J e c)%Z)) by exact Hb. rewrite walsh_orth by assumption. lia.
Qed.
(** a column of 1 and -1 with sum zero *)
Lemma count_pm (l : nat -> Z) s : (forall k, l k = 1 \/ l k = -1)%Z -> zsum (map l s) = (Z.of_nat (length (filter (fun k => Z.eqb (l k) 1) s)) - Z.of_nat (length (filter (fun k => Z.eqb (l k) (-1)) s)))%Z /\ length (filter (fun k => Z.eqb (l k) 1) s) + length (filter (fun k => Z.eqb (l k) (-1)) s) = length s.
Proof. intros H. unfold zsum. induction s as [|k s (I1 & I2)]; [split; reflexivity|]. cbn [map fold_right filter length]. rewrite I1. destruct (H k) as [E|E]; rewrite E; cbn [Z.eqb Pos.eqb length]; lia. Qed.

Section Select.
  Context {K : ofield}.
  Notation vec := (vec (K := K)).
  Lemma select_len l v (x : list vec) : length (select l v x) = length (filter (fun k => Z.eqb (l k) v) (seq 0 (length x))).
  Proof.
    unfold select. rewrite map_length. generalize 0 as s. induction x as [|a x IH]; intros s; [reflexivity|]. cbn [length seq combine filter fst]. destruct (Z.eqb _ _); cbn [length]; rewrite IH; reflexivity.
  Qed.
  Lemma select_perm l (x : list vec) : (forall k, l k = 1 \/ l k = -1)%Z -> Permutation (select l (-1) x ++ select l 1 x) x.
  Proof.
    intros H. unfold select. generalize 0 as s. induction x as [|a x IH]; intros s; [constructor|]. cbn [length seq combine filter fst]. destruct (H s) as [E|E]; rewrite E; cbn [Z.eqb Pos.eqb map snd app]; [eapply Permutation_trans; [apply Permutation_sym, Permutation_middle|]|]; constructor; apply IH.
  Qed.
  (** ** C466: every label divides the samples into two halves *)
  Theorem C466_halves argsort J jdes b ds l (x : list vec) : is_argsort argsort -> J <= jdes < 2 ^ J -> b <> 0 -> length x = 2 ^ J * b -> digits argsort J (jdes - J) = Some ds -> In l (columns J b ds) ->
    length (columns J b ds) = jdes /\ length (select l (-1) x) = length x / 2 /\ length (select l 1 x) = length x / 2 /\ Permutation (select l (-1) x ++ select l 1 x) x.
  Proof.
    intros Hs Hj Hb Lx E I. destruct (digits_ok argsort Hs J (jdes - J) ltac:(lia)) as (ds' & E' & Ld & _ & R & Z0). rewrite E in E'. injection E' as <-. assert (LC : length (columns J b ds) = jdes) by (unfold columns; rewrite app_length, !map_length, seq_length, Ld; lia). split; [exact LC|].
    destruct (In_nth _ _ (fun _ => 0%Z) I) as (i & Hi & Ei). set (d := nth i (map (fun k => 2 ^ k) (seq 0 J) ++ ds) 0). assert (Hl : forall k, l k = label J b d k) by (intros k; rewrite <- Ei; apply columns_label; lia).
    assert (Hd : d < 2 ^ J /\ d <> 0). { assert (Id : In d (map (fun k => 2 ^ k) (seq 0 J) ++ ds)) by (apply nth_In; rewrite app_length, map_length, seq_length; lia). apply in_app_or in Id. destruct Id as [Id|Id]; [apply in_map_iff in Id; destruct Id as (j & <- & Ij); apply in_seq in Ij; split; [apply Nat.pow_lt_mono_r; lia|apply Nat.pow_nonzero; lia]|]. split; [now apply R|]. intros D0. rewrite D0 in Id. apply Z0 in Id. lia. }
    assert (PM : forall k, (l k = 1 \/ l k = -1)%Z) by (intros k; rewrite Hl; apply label_pm). destruct (count_pm l (seq 0 (length x)) PM) as (C1 & C2). rewrite (map_ext _ _ Hl), Lx, label_bal in C1 by tauto. rewrite <- Lx in C1. rewrite seq_length in C2. rewrite !select_len.
    assert (Q : length (filter (fun k => Z.eqb (l k) 1) (seq 0 (length x))) = length x / 2) by (apply (Nat.div_unique _ 2 _ 0); lia).
    split; [lia|]. split; [exact Q|]. now apply select_perm.
  Qed.
End Select.
(** ** C467: different labels are uncorrelated *)
Theorem C467_uncorrelated argsort J jdes b ds i j : is_argsort argsort -> J <= jdes <= 2 ^ J -> b <> 0 -> digits argsort J (jdes - J) = Some ds -> i < jdes -> j < jdes -> i <> j ->
  let l i := nth i (columns J b ds) (fun _ => 0%Z) in zsum (map (fun k => (l i k * l j k)%Z) (seq 0 (2 ^ J * b))) = 0%Z.
Proof.
  intros Hs Hj Hb E Hi Hj' N l. destruct (digits_ok argsort Hs J (jdes - J) ltac:(lia)) as (ds' & E' & Ld & ND & R & _). rewrite E in E'. injection E' as <-. set (D := map (fun k => 2 ^ k) (seq 0 J) ++ ds).
  assert (LD : length D = jdes) by (unfold D; rewrite app_length, map_length, seq_length; lia).
  assert (NDD : NoDup D). { apply NoDup_app_; [apply Injective_map_NoDup; [intros a c X; apply Nat.pow_inj_r in X; [exact X|lia]|apply seq_NoDup]|exact ND|]. intros d I X. apply in_map_iff in I. destruct I as (q & <- & I). apply in_seq in I. apply R in X. exact (proj2 X q ltac:(lia) eq_refl). }
  assert (RD : forall d, In d D -> d < 2 ^ J). { intros d I. apply in_app_or in I. destruct I as [I|I]; [apply in_map_iff in I; destruct I as (q & <- & I); apply in_seq in I; apply Nat.pow_lt_mono_r; lia|now apply R]. }
  rewrite (map_ext _ (fun k => (label J b (nth i D 0%nat) k * label J b (nth j D 0%nat) k)%Z)) by (intros k; unfold l; rewrite !columns_label by lia; reflexivity).
  apply label_orth; [exact Hb|apply RD, nth_In; lia|apply RD, nth_In; lia|]. intros X. apply N. rewrite (NoDup_nth _ 0) in NDD. apply NDD; [lia|lia|exact X].
Qed.
(** ** C468: the labels and the classes *)
Lemma walsh_first J d : d < 2 ^ J -> (sign d * walsh J d 0 = -1)%Z.
Proof.
  intros H. unfold sign, walsh. rewrite (hamming_bits J d H). assert (E : forall l, zprod (map (fun i => if Nat.testbit d i then sg (bit (J - i - 1) 0) else 1%Z) l) = if list_sum (map (fun i => bit i d) l) mod 2 =? 0 then 1%Z else (-1)%Z); [|rewrite E; destruct (_ =? 0); reflexivity].
  unfold zprod, list_sum. induction l as [|i l IH]; [reflexivity|]. cbn [map fold_right]. rewrite IH. rewrite <- (bit_testbit i d). assert (B0 : bit (J - i - 1) 0 = 0) by (unfold bit; rewrite Nat.div_0_l by (apply Nat.pow_nonzero; lia); reflexivity). rewrite B0.
  set (s := fold_right _ _ _). pose proof (Nat.div_mod s 2 ltac:(lia)) as DM. pose proof (Nat.mod_upper_bound s 2 ltac:(lia)) as MU. destruct (Nat.testbit d i); cbn [Nat.b2n plus]; [|destruct (s mod 2 =? 0); reflexivity].
  destruct (Nat.eqb_spec (s mod 2) 0) as [X|X].
  - replace (S s mod 2) with 1 by (apply (Nat.mod_unique (S s) 2 (s / 2) 1); lia). reflexivity.
  - replace (S s mod 2) with 0 by (apply (Nat.mod_unique (S s) 2 (s / 2 + 1) 0); lia). reflexivity.
Qed.
Theorem C468_classes argsort J jdes b ds : is_argsort argsort -> J <= jdes <= 2 ^ J -> b <> 0 -> digits argsort J (jdes - J) = Some ds -> let l i := nth i (columns J b ds) (fun _ => 0%Z) in
  (forall i k k', i < jdes -> k / b = k' / b -> l i k = l i k') /\ (forall i k, i < jdes -> k < b -> l i k = (-1)%Z) /\ (forall k k', k < 2 ^ J * b -> k' < 2 ^ J * b -> k / b <> k' / b -> exists i, i < J /\ l i k <> l i k').
Proof.
  intros Hs Hj Hb E l. destruct (digits_ok argsort Hs J (jdes - J) ltac:(lia)) as (ds' & E' & Ld & ND & R & _). rewrite E in E'. injection E' as <-. split; [|split].
  - intros i k k' Hi H. unfold l. rewrite !columns_label by lia. unfold label. now rewrite H.
  - intros i k Hi H. unfold l. rewrite columns_label by lia. unfold label. rewrite Nat.div_small by exact H. apply walsh_first. set (D := map (fun k => 2 ^ k) (seq 0 J) ++ ds). assert (I : In (nth i D 0) D) by (apply nth_In; unfold D; rewrite app_length, map_length, seq_length; lia). apply in_app_or in I. destruct I as [I|I]; [apply in_map_iff in I; destruct I as (q & <- & I); apply in_seq in I; apply Nat.pow_lt_mono_r; lia|now apply R].
  - intros k k' Hk Hk' H. destruct (differ J (k / b) (k' / b)) as (i & Hi & X); [apply Nat.div_lt_upper_bound; lia|apply Nat.div_lt_upper_bound; lia|exact H|]. exists (J - i - 1). split; [lia|]. unfold l, columns. rewrite !app_nth1 by (rewrite map_length, seq_length; lia). rewrite !(nth_indep _ _ (column J b 0)) by (rewrite map_length, seq_length; lia). rewrite map_nth, seq_nth by lia. unfold column. cbn [plus]. replace (J - (J - i - 1) - 1) with i by lia. change (k / b / 2 ^ i mod 2) with (bit i (k / b)). change (k' / b / 2 ^ i mod 2) with (bit i (k' / b)). rewrite <- !bit_testbit. destruct (Nat.testbit (k / b) i), (Nat.testbit (k' / b) i); cbn; congruence.
Qed.

(** ** C469: the graph *)
Section Graph.
  Context {K : ofield}.
  Add Field Kcp : (fth K).
  Notation vec := (vec (K := K)). Notation cdc := (cdc (K := K)).
  Notation node := (K * vec)%type. Notation edge := (K * (vec * vec))%type.
  Definition column_nodes (x : list vec) (p : (nat -> Z) * K) : list node := wn (snd p) (select (fst p) (-1) x) ++ wn (snd p) (select (fst p) 1 x).
  Definition column_edges (x : list vec) (p : (nat -> Z) * K) : list edge := clique (snd p) (select (fst p) (-1) x) ++ clique (snd p) (select (fst p) 1 x).
  Lemma columns_ok (x : list vec) : length x / 2 <> 0 -> forall cols es c N E, length cols = length es -> (forall l, In l cols -> length (select l (-1) x) = length x / 2 /\ length (select l 1 x) = length x / 2) -> measures c N E ->
    exists c', up_columns cols es x c = (c', GOk tt) /\ measures c' (N ++ flat_map (column_nodes x) (combine cols es)) (E ++ flat_map (column_edges x) (combine cols es)).
  Proof.
    intros Hx. induction cols as [|l cols IH]; intros [|e es] c N E L H M; try discriminate; [exists c; split; [reflexivity|]; cbn; now rewrite !app_nil_r|]. cbn [up_columns].
    destruct (H l (or_introl eq_refl)) as (H1 & H2). destruct (homog_ok e (length x / 2) [select l (-1) x] c N E Hx ltac:(repeat constructor; exact H1) M) as (c1 & E1 & M1). cbn [concat] in E1, M1. rewrite app_nil_r in E1, M1. rewrite E1. cbn [bind].
    destruct (homog_ok e (length x / 2) [select l 1 x] c1 _ _ Hx ltac:(repeat constructor; exact H2) M1) as (c2 & E2 & M2). cbn [concat] in E2, M2. rewrite app_nil_r in E2, M2. rewrite E2. cbn [bind].
    destruct (IH es c2 _ _ ltac:(now injection L) ltac:(intros q Q; apply H; now right) M2) as (c3 & E3 & M3). exists c3. split; [exact E3|]. cbn [combine flat_map]. unfold column_nodes at 1, column_edges at 1. cbn [fst snd]. unfold cliques in M3. cbn [flat_map] in M3. rewrite !app_nil_r in M3. rewrite !app_assoc in *. exact M3.
  Qed.
  (** the weights: positive, and their sum is 1 *)
  Lemma raw_pos J extra : forall e : K, In e (raw_eigenvalues J extra) -> (f0 < e)%of.
  Proof.
    intros e I. apply in_app_or in I. destruct I as [I|I]; [apply repeat_spec in I; subst; apply f01|]. apply in_map_iff in I. destruct I as (i & <- & I). apply in_seq in I.
    assert (P : (f0 < (fn (extra + 1) : K))%of) by (replace (extra + 1) with (S extra) by lia; apply fn_pos). assert (NE : (fn (extra + 1) : K) <> f0) by (apply fn_ne; lia).
    replace (f1 - fn i * (f1 / fn (extra + 1)))%of with ((fn (S (extra - i)) : K) * finv (fn (extra + 1)))%of; [apply flt_mul; [apply fn_pos|now apply finv_pos]|].
    assert (X : (fn (extra + 1) : K) = (fn (S (extra - i)) + fn i)%of) by (rewrite <- fn_add; f_equal; lia). replace (fn (S (extra - i)) : K) with (fn (extra + 1) - fn i : K)%of by (rewrite X; ring). field. exact NE.
  Qed.
  Lemma fsum_pos (l : list K) : l <> [] -> (forall e, In e l -> (f0 < e)%of) -> (f0 < fsum l)%of.
  Proof.
    intros N H. destruct l as [|a l]; [contradiction|]. cbn [fsum]. apply (flt_le_trans _ a); [apply H; now left|]. replace a with (a + f0)%of at 1 by ring. apply fle_add2; [apply fle_refl|]. apply fsum_nonneg. apply Forall_forall. intros e I. apply flt_le, H. now right.
  Qed.
  Lemma raw_ne J extra : raw_eigenvalues (K := K) J extra <> [].
  Proof. unfold raw_eigenvalues. replace (extra + 1) with (S extra) by lia. cbn [seq map]. destruct (repeat f1 (J - 1)); discriminate. Qed.
  Theorem C469_weights J extra : (forall e : K, In e (eigenvalues J extra) -> (f0 < e)%of) /\ fsum (eigenvalues (K := K) J extra) = f1 /\ (1 <= J -> length (eigenvalues (K := K) J extra) = J + extra).
  Proof.
    pose proof (fsum_pos _ (raw_ne J extra) (raw_pos J extra)) as P. unfold eigenvalues. split; [|split].
    - intros e I. apply in_map_iff in I. destruct I as (r & <- & I). replace (r / fsum (raw_eigenvalues J extra))%of with (r * finv (fsum (raw_eigenvalues J extra)))%of by (field; intros Z; rewrite Z in P; now apply flt_ne in P). apply flt_mul; [now apply (raw_pos J extra)|now apply finv_pos].
    - assert (NE : fsum (raw_eigenvalues (K := K) J extra) <> f0) by (intros Z; rewrite Z in P; now apply flt_ne in P). set (s := fsum _) in *. replace (fsum (map (fun e => e / s)%of (raw_eigenvalues J extra))) with (fsum (map (fun e : K => e) (raw_eigenvalues J extra)) * (f1 / s))%of; [rewrite map_id; fold s; field; exact NE|]. rewrite <- fsum_map_mulr. apply fsum_map_ext. intros e _. field. exact NE.
    - intros H. unfold raw_eigenvalues. rewrite map_length, app_length, repeat_length, map_length, seq_length. lia.
  Qed.
  Theorem C469_graph argsort J jdes b (x : list vec) c N E : is_argsort argsort -> 1 <= J -> J <= jdes < 2 ^ J -> b <> 0 -> length x = 2 ^ J * b -> measures c N E ->
    exists c' ds, digits argsort J (jdes - J) = Some ds /\ up_compact argsort (BInt b) (Some (Z.of_nat jdes)) x c = (c', COk) /\
      let cs := combine (columns J b ds) (eigenvalues J (jdes - J)) in measures c' (N ++ flat_map (column_nodes x) cs) (E ++ flat_map (column_edges x) cs) /\ c_n c' = (c_n c + fn (length x))%of.
  Proof.
    intros Hs H1 Hj Hb Lx M. destruct (digits_ok argsort Hs J (jdes - J) ltac:(lia)) as (ds & Ed & Ld & _). pose proof (Nat.pow_nonzero 2 J ltac:(lia)) as P0. assert (Lc : length (columns J b ds) = jdes) by (unfold columns; rewrite app_length, !map_length, seq_length, Ld; lia).
    assert (HH : forall l, In l (columns J b ds) -> length (select l (-1) x) = length x / 2 /\ length (select l 1 x) = length x / 2) by (intros l I; destruct (C466_halves argsort J jdes b ds l x Hs Hj Hb Lx Ed I) as (_ & A & B & _); auto).
    assert (P2 : 2 ^ J = 2 * 2 ^ (J - 1)) by (rewrite <- Nat.pow_succ_r'; f_equal; lia). assert (P1 : 1 <= 2 ^ (J - 1)) by (pose proof (Nat.pow_nonzero 2 (J - 1) ltac:(lia)); lia).
    assert (Hx : length x / 2 <> 0). { rewrite Lx, P2. replace (2 * 2 ^ (J - 1) * b) with (2 ^ (J - 1) * b * 2) by lia. rewrite Nat.div_mul by lia. intros Z. apply Nat.eq_mul_0 in Z. lia. }
    destruct (C469_weights J (jdes - J)) as (_ & W1 & WL). specialize (WL H1).
    destruct (columns_ok x Hx (columns J b ds) (eigenvalues J (jdes - J)) c N E ltac:(lia) HH M) as (c' & E' & M'). exists c', ds. split; [exact Ed|]. split; [|split; [exact M'|]].
    - unfold up_compact. cbn [compact_size]. destruct (Nat.eqb_spec b 0); [contradiction|]. rewrite Lx, Nat.mod_mul by exact Hb. cbn [Nat.eqb negb]. rewrite Nat.div_mul by exact Hb. destruct (Nat.eqb_spec (2 ^ J) 0); [contradiction|]. rewrite Nat.log2_pow2 by lia. rewrite Nat.eqb_refl. cbn [negb]. destruct (Z.ltb_spec (Z.of_nat jdes) 0); [lia|]. destruct (Z.ltb_spec (Z.of_nat jdes) (Z.of_nat J)); [lia|]. rewrite Nat2Z.id, Ed, E'. reflexivity.
    - destruct M as (_ & Mn & _). destruct M' as (_ & Mn' & _). rewrite Mn', Mn, nmass_app. f_equal.
      assert (Q : length x / 2 + length x / 2 = length x). { rewrite Lx, P2. replace (2 * 2 ^ (J - 1) * b) with (2 ^ (J - 1) * b * 2) by lia. rewrite Nat.div_mul by lia. lia. }
      assert (FQ : (fn (length x) : K) = (fn (length x / 2) + fn (length x / 2))%of) by (rewrite <- fn_add, Q; reflexivity).
      assert (G : forall cols es, length cols = length es -> (forall l, In l cols -> length (select l (-1) x) = length x / 2 /\ length (select l 1 x) = length x / 2) -> nmass (flat_map (column_nodes x) (combine cols es)) = (fn (length x) * fsum es)%of).
      { induction cols as [|l cols IH]; intros [|e es] L HC; try discriminate; [change ((f0 : K) = fn (length x) * f0)%of; ring|]. cbn [combine flat_map fsum]. rewrite nmass_app, IH; [|now injection L|intros q I; apply HC; now right]. unfold column_nodes. cbn [fst snd]. rewrite nmass_app, !nmass_wn. destruct (HC l (or_introl eq_refl)) as (-> & ->). rewrite FQ. ring. }
      rewrite G by (try exact HH; lia). rewrite W1. ring.
  Qed.
End Graph.

(** an implementation of argsort *)
Definition bucket (l : list nat) : list nat := flat_map (fun v => filter (fun k => nth k l 0 =? v) (seq 0 (length l))) (seq 0 (S (list_max l))).
Lemma flat_filter (f : nat -> nat) (l : list nat) : forall M, (forall k, In k l -> f k < M) -> Permutation (flat_map (fun v => filter (fun k => f k =? v) l) (seq 0 M)) l.
Proof.
  intros M. revert l. induction M as [|M IH]; intros l H; [destruct l as [|k l]; [constructor|specialize (H k (or_introl eq_refl)); lia]|]. rewrite seq_S, flat_map_app. cbn [flat_map plus]. rewrite app_nil_r.
  assert (E : flat_map (fun v => filter (fun k => f k =? v) l) (seq 0 M) = flat_map (fun v => filter (fun k => f k =? v) (filter (fun k => f k <? M) l)) (seq 0 M)).
  { rewrite !flat_map_concat_map. f_equal. apply map_ext_in. intros v Hv. apply in_seq in Hv. clear H IH. induction l as [|k l IHl]; [reflexivity|]. cbn [filter]. destruct (Nat.ltb_spec (f k) M) as [L|L]; cbn [filter]; destruct (Nat.eqb_spec (f k) v); try lia; rewrite IHl; reflexivity. }
  rewrite E. eapply Permutation_trans; [apply Permutation_app_tail, IH|].
  - intros k I. apply filter_In in I. destruct I as (_ & I). now apply Nat.ltb_lt.
  - clear IH E. induction l as [|k l IHl]; [constructor|]. specialize (IHl ltac:(intros q I; apply H; now right)). specialize (H k (or_introl eq_refl)). cbn [filter]. destruct (Nat.ltb_spec (f k) M), (Nat.eqb_spec (f k) M); try lia; cbn [app]; [now constructor|]. eapply Permutation_trans; [apply Permutation_sym, Permutation_middle|]. now constructor.
Qed.
Lemma nth_sorted (f : nat -> nat) (g : nat -> list nat) : (forall v k, In k (g v) -> f k = v) -> forall M s i j, i <= j < length (flat_map g (seq s M)) -> f (nth i (flat_map g (seq s M)) 0) <= f (nth j (flat_map g (seq s M)) 0) /\ s <= f (nth i (flat_map g (seq s M)) 0).
Proof.
  intros H. induction M as [|M IH]; intros s i j Hij; [cbn in Hij; lia|]. cbn [seq flat_map] in *. rewrite app_length in Hij. assert (G : forall p, p < length (g s) -> f (nth p (g s) 0) = s) by (intros p Hp; apply H, nth_In, Hp).
  destruct (lt_dec i (length (g s))) as [Li|Li], (lt_dec j (length (g s))) as [Lj|Lj]; try lia.
  - rewrite !app_nth1 by assumption. rewrite !G by assumption. lia.
  - rewrite (app_nth1 _ _ _ Li). rewrite app_nth2 by lia. rewrite G by assumption. destruct (IH (S s) (j - length (g s)) (j - length (g s)) ltac:(lia)). lia.
  - rewrite !app_nth2 by lia. destruct (IH (S s) (i - length (g s)) (j - length (g s)) ltac:(lia)). lia.
Qed.
Theorem bucket_ok : is_argsort bucket.
Proof.
  intros l. assert (P : Permutation (bucket l) (seq 0 (length l))). { unfold bucket. apply (flat_filter (fun k => nth k l 0)). intros k I. apply in_seq in I. assert (X : nth k l 0 <= list_max l); [|lia]. pose proof (proj1 (list_max_le l (list_max l)) (le_n _)) as F. rewrite Forall_forall in F. apply F, nth_In. lia. }
  split; [exact P|]. intros i j H. rewrite <- (seq_length (length l) 0), <- (Permutation_length P) in H. unfold bucket in *. apply (nth_sorted (fun k => nth k l 0) (fun v => filter (fun k => nth k l 0 =? v) (seq 0 (length l)))); [|exact H]. intros v k I. apply filter_In in I. apply Nat.eqb_eq, I.
Qed.
(** four classes of two samples: three labels *)
Example C466_example : digits bucket 2 1 = Some [3] /\ map (fun l : nat -> Z => map l (seq 0 8)) (columns 2 2 [3]) = [[-1; -1; -1; -1; 1; 1; 1; 1]; [-1; -1; 1; 1; -1; -1; 1; 1]; [-1; -1; 1; 1; 1; 1; -1; -1]]%Z.
Proof. split; reflexivity. Qed.
(** ** C470 (refuted): with Jdes = 2 ** J (which is accepted) one of the labels is the same for all samples *)
Theorem C470_refuted argsort J b : is_argsort argsort -> exists ds l, digits argsort J (2 ^ J - J) = Some ds /\ In l (columns J b ds) /\ forall k, l k = (-1)%Z.
Proof.
  intros Hs. assert (HJ : J < 2 ^ J) by (apply Nat.pow_gt_lin_r; lia). destruct (digits_ok argsort Hs J (2 ^ J - J) ltac:(lia)) as (ds & E & _ & _ & _ & Z0). exists ds, (extra_column J b 0). split; [exact E|]. split; [apply in_or_app; right; apply in_map, Z0; lia|]. intros k. rewrite extra_is, walsh0. reflexivity.
Qed.
(** more labels: IndexError; no label is refused below J, too few: IndexError, a negative number: ValueError *)
Section Errors.
  Context {K : ofield}.
  Notation vec := (vec (K := K)).
  Theorem C470_range argsort J jdes b (x : list vec) c : is_argsort argsort -> b <> 0 -> length x = 2 ^ J * b ->
    ((jdes < 0)%Z -> up_compact argsort (BInt b) (Some jdes) x c = (c, CErr GValue)) /\ ((0 <= jdes < Z.of_nat J \/ Z.of_nat (2 ^ J) < jdes)%Z -> up_compact argsort (BInt b) (Some jdes) x c = (c, CErr GIndex)).
  Proof.
    intros Hs Hb Lx. pose proof (Nat.pow_nonzero 2 J ltac:(lia)) as P0. assert (HJ : J < 2 ^ J) by (apply Nat.pow_gt_lin_r; lia). unfold up_compact. cbn [compact_size]. destruct (Nat.eqb_spec b 0); [contradiction|]. rewrite Lx, Nat.mod_mul by exact Hb. cbn [Nat.eqb negb]. rewrite Nat.div_mul by exact Hb. destruct (Nat.eqb_spec (2 ^ J) 0); [contradiction|]. rewrite Nat.log2_pow2 by lia. rewrite Nat.eqb_refl. cbn [negb]. split; intros H.
    - destruct (Z.ltb_spec jdes 0); [reflexivity|lia].
    - destruct (Z.ltb_spec jdes 0); [lia|]. destruct (Z.ltb_spec jdes (Z.of_nat J)); [reflexivity|]. unfold digits. rewrite (order_len argsort Hs). pose proof (free_len J). destruct (Nat.ltb_spec (length (n_free J)) (Z.to_nat jdes - J)); [reflexivity|]. lia.
  Qed.
  (** ** C471: block sizes.  All as lists: the same as the number if it fits *)
  Theorem C471_list argsort b n jdes (x : list vec) c : b <> 0 -> length x mod b = 0 -> up_compact argsort (BList (repeat b (S n))) jdes x c = up_compact argsort (BInt b) jdes x c.
  Proof.
    intros Hb H. unfold up_compact. cbn [compact_size repeat]. assert (F : forallb (Nat.eqb b) (repeat b n) = true) by (apply forallb_forall; intros k I; apply repeat_spec in I; subst; apply Nat.eqb_refl). rewrite F. destruct (Nat.eqb_spec b 0); [contradiction|]. rewrite H. reflexivity.
  Qed.
  Theorem C471_errors argsort bs jdes (x : list vec) c : up_compact argsort BNone jdes x c = (c, CErr GTraining) /\
    (forall b, b <> 0 -> length x mod b <> 0 -> up_compact argsort (BInt b) jdes x c = (c, CErr GValue)) /\
    (forall b l, (exists k, In k l /\ k <> b) -> bs = BList (b :: l) -> up_compact argsort bs jdes x c = (c, CErr GValue)) /\
    (forall b, b <> 0 -> length x mod b = 0 -> length x / b <> 0 -> (forall J, length x / b <> 2 ^ J) -> up_compact argsort (BInt b) jdes x c = (c, CErr GValue)).
  Proof.
    split; [reflexivity|]. split; [|split].
    - intros b Hb H. unfold up_compact. cbn [compact_size]. destruct (Nat.eqb_spec b 0); [contradiction|]. destruct (Nat.eqb_spec (length x mod b) 0); [contradiction|reflexivity].
    - intros b l (k & I & N) ->. unfold up_compact. cbn [compact_size]. destruct (forallb (Nat.eqb b) l) eqn:F; [|reflexivity]. rewrite forallb_forall in F. specialize (F k I). apply Nat.eqb_eq in F. congruence.
    - intros b Hb H Hc HJ. unfold up_compact. cbn [compact_size]. destruct (Nat.eqb_spec b 0); [contradiction|]. rewrite H. cbn [Nat.eqb negb]. destruct (Nat.eqb_spec (length x / b) 0); [contradiction|]. destruct (Nat.eqb_spec (length x / b) (2 ^ Nat.log2 (length x / b))) as [Q|Q]; [now apply HJ in Q|reflexivity].
  Qed.
  (** C471 (refuted): the ValueError for a number of samples which is no multiple cannot be raised for a list of sizes: TypeError *)
  Theorem C471_refuted argsort b n jdes (x : list vec) c : b <> 0 -> length x mod b <> 0 -> up_compact argsort (BList (repeat b (S (S n)))) jdes x c = (c, CErr GType).
  Proof.
    intros Hb H. unfold up_compact. cbn [compact_size repeat forallb]. assert (F : forallb (Nat.eqb b) (repeat b n) = true) by (apply forallb_forall; intros k I; apply repeat_spec in I; subst; apply Nat.eqb_refl). rewrite F, Nat.eqb_refl. cbn [andb]. destruct (Nat.eqb_spec b 0); [contradiction|]. destruct (Nat.eqb_spec (length x mod b) 0); [contradiction|reflexivity].
  Qed.
End Errors.
