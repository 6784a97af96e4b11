(** Properties of routines (C42, C43, C122-C126). *)
From Coq Require Import List Arith ZArith QArith Qcanon Bool Lia Permutation Sorted.
From Verif Require Import RoutModel.
Import ListNotations.

(** ** C42 *)
(** the number of subsets with k elements of a set with n elements *)
Fixpoint subsets {A} (l : list A) : list (list A) := match l with [] => [[]] | a :: r => map (cons a) (subsets r) ++ subsets r end.
Definition choose_count (n k : nat) : nat := length (filter (fun s => length s =? k)%nat (subsets (seq 0 n))).
Fixpoint binom (n k : nat) : nat := match k, n with O, _ => 1 | S _, O => 0 | S k', S n' => binom n' k' + binom n' k end.
Lemma binom_SS n k : binom (S n) (S k) = (binom n k + binom n (S k))%nat.
Proof. reflexivity. Qed.
Lemma filter_map_cons {A} (a : A) ls k : filter (fun s => length s =? S k)%nat (map (cons a) ls) = map (cons a) (filter (fun s => length s =? k)%nat ls).
Proof. induction ls as [|s ls IH]; [reflexivity|]. cbn. destruct (length s =? k)%nat; cbn; now rewrite IH. Qed.
Lemma filter_map_cons0 {A} (a : A) ls : filter (fun s => length s =? 0)%nat (map (cons a) ls) = [].
Proof. induction ls as [|s ls IH]; [reflexivity|]. cbn. exact IH. Qed.
Lemma subsets_count {A} (l : list A) : forall k, length (filter (fun s => length s =? k)%nat (subsets l)) = binom (length l) k.
Proof.
  induction l as [|a l IH]; intro k; [destruct k; reflexivity|]. cbn [subsets]. rewrite filter_app, app_length. cbn [length].
  destruct k as [|k]; [rewrite filter_map_cons0, IH; destruct (length l); reflexivity|].
  rewrite filter_map_cons, map_length, !IH. destruct (length l); reflexivity.
Qed.
Lemma choose_binom n k : choose_count n k = binom n k.
Proof. unfold choose_count. now rewrite subsets_count, seq_length. Qed.
Definition falling (N : Z) (k : nat) : Z := fold_left (fun ret i => ret * (N - Z.of_nat i))%Z (seq 0 k) 1%Z.
Lemma falling_S N k : falling N (S k) = (falling N k * (N - Z.of_nat k))%Z.
Proof. unfold falling. rewrite seq_S, fold_left_app. reflexivity. Qed.
Fixpoint zfact (k : nat) : Z := match k with O => 1 | S k => Z.of_nat (S k) * zfact k end.
Lemma zfact_pos k : (0 < zfact k)%Z.
Proof. induction k; cbn [zfact]; lia. Qed.
Lemma falling_shift N k : falling (N + 1) (S k) = ((N + 1) * falling N k)%Z.
Proof.
  induction k as [|k IH]; [unfold falling; cbn [seq fold_left]; lia|].
  rewrite falling_S, IH, falling_S. replace (N + 1 - Z.of_nat (S k))%Z with (N - Z.of_nat k)%Z by lia. ring.
Qed.
Lemma falling_binom : forall n k, falling (Z.of_nat n) k = (Z.of_nat (binom n k) * zfact k)%Z.
Proof.
  induction n as [|n IH]; intros [|k]; try reflexivity.
  - clear. induction k as [|k IH]; [reflexivity|]. rewrite falling_S, IH. cbn [binom]. reflexivity.
  - replace (Z.of_nat (S n)) with (Z.of_nat n + 1)%Z by lia. rewrite falling_shift, binom_SS, Nat2Z.inj_add.
    transitivity (Z.of_nat (binom n k) * zfact (S k) + falling (Z.of_nat n) (S k))%Z; [|rewrite IH; ring].
    rewrite falling_S, IH. cbn [zfact]. rewrite Nat2Z.inj_succ. ring.
Qed.
Lemma div_fact P : forall k, fold_left (fun ret i => ret / (Z.of_nat i + 1))%Z (seq 0 k) P = (P / zfact k)%Z.
Proof.
  induction k as [|k IH]; [cbn; now rewrite Z.div_1_r|]. rewrite seq_S, fold_left_app, IH. cbn [fold_left zfact].
  pose proof (zfact_pos k). rewrite Z.div_div by lia. f_equal. rewrite Nat2Z.inj_succ. lia.
Qed.
Theorem C42_comb : forall N k, comb (Z.of_nat N) (Z.of_nat k) = Z.of_nat (choose_count N k).
Proof.
  intros N k. rewrite choose_binom. unfold comb. rewrite Nat2Z.id. fold (falling (Z.of_nat N) k). rewrite div_fact, falling_binom.
  apply Z.div_mul. pose proof (zfact_pos k). lia.
Qed.
(** the factorial formula *)
Theorem C42_factorial : forall N k, (k <= N)%nat -> (comb (Z.of_nat N) (Z.of_nat k) * (zfact k * zfact (N - k)) = zfact N)%Z.
Proof.
  intros N k H. rewrite C42_comb, choose_binom. rewrite Z.mul_assoc, <- falling_binom. revert N H.
  induction k as [|k IH]; intros N H; [rewrite Nat.sub_0_r; unfold falling; cbn; destruct (zfact N); reflexivity|].
  destruct N as [|N]; [lia|]. replace (Z.of_nat (S N)) with (Z.of_nat N + 1)%Z by lia. rewrite falling_shift. cbn [zfact Nat.sub].
  rewrite <- (IH N) by lia. rewrite Nat2Z.inj_succ. ring.
Qed.
Example C42_example : comb 10 3 = 120%Z /\ comb 5 7 = 0%Z /\ comb 60 30 = 118264581564861424%Z.
Proof. repeat split; vm_compute; reflexivity. Qed.
(** C122 (refuted): comb(N,k) is 0 for k outside 0..N *)
Theorem C122_comb_negative_refuted : exists N k, (k < 0)%Z /\ comb N k <> 0%Z.
Proof. exists 3%Z, (-1)%Z. vm_compute. split; [reflexivity|discriminate]. Qed.
Theorem C122_comb_above : forall N k, (N < k)%nat -> comb (Z.of_nat N) (Z.of_nat k) = 0%Z.
Proof.
  intros N k H. rewrite C42_comb, choose_binom. replace (binom N k) with 0%nat; [reflexivity|]. symmetry. revert k H.
  induction N as [|N IH]; intros [|k] H; try lia; [reflexivity|]. rewrite binom_SS, !IH by lia. reflexivity.
Qed.

(** ** C43 *)
Lemma product_in {A} (pools : list (list A)) : forall t, In t (product pools) <-> Forall2 (fun a p => In a p) t pools.
Proof.
  induction pools as [|p pools IH]; intro t; cbn.
  - split; [intros [<-|[]]; constructor|]. intro H. inversion H. now left.
  - rewrite in_flat_map. split.
    + intros (a & Ha & H). apply in_map_iff in H as (t' & <- & H). constructor; [exact Ha|]. now apply IH.
    + intro H. inversion H as [|a p' t' pools' Ha Ht]; subst. exists a. split; [exact Ha|]. apply in_map. now apply IH.
Qed.
Lemma NoDup_app' {A} (l1 l2 : list A) : NoDup l1 -> NoDup l2 -> (forall x, In x l1 -> ~ In x l2) -> NoDup (l1 ++ l2).
Proof.
  induction l1 as [|a l1 IH]; intros H1 H2 H; [exact H2|]. inversion H1; subst. cbn. constructor.
  - rewrite in_app_iff. intros [Hi|Hi]; [auto|]. apply (H a); [now left|exact Hi].
  - apply IH; auto. intros x Hx. apply H. now right.
Qed.
Lemma product_nodup {A} (pools : list (list A)) : Forall (@NoDup A) pools -> NoDup (product pools).
Proof.
  induction 1 as [|p pools Hp Hf IH]; cbn; [constructor; [auto|constructor]|].
  induction p as [|a p IHp]; cbn; [constructor|]. inversion Hp; subst. apply NoDup_app'; auto.
  - apply FinFun.Injective_map_NoDup; [|exact IH]. intros x y E. now inversion E.
  - intros t Ht. apply in_map_iff in Ht as (t' & <- & _). rewrite in_flat_map. intros (b & Hb & Hi). apply in_map_iff in Hi as (u & E & _).
    inversion E; subst. contradiction.
Qed.
Lemma product_length {A} (pools : list (list A)) : length (product pools) = fold_right (fun p n => length p * n)%nat 1%nat pools.
Proof.
  induction pools as [|p pools IH]; [reflexivity|]. cbn [product fold_right]. rewrite <- IH. induction p as [|a p IHp]; cbn; [reflexivity|].
  rewrite app_length, map_length. now rewrite IHp.
Qed.
(** every dict with the same keys and one of the values of each comes exactly once *)
Theorem C43_orthogonal : forall (K V : Type) (d : list (K * list V)),
  (forall e, In e (orthogonal_permutations d) <-> Forall2 (fun kv item => fst kv = fst item /\ In (snd kv) (snd item)) e d) /\
  (Forall (fun item => NoDup (snd item)) d -> NoDup (orthogonal_permutations d)) /\
  length (orthogonal_permutations d) = fold_right (fun item n => length (snd item) * n)%nat 1%nat d.
Proof.
  intros K V d. unfold orthogonal_permutations. split; [|split].
  - intro e. rewrite product_in. revert e. induction d as [|[k vs] d IH]; intro e; cbn [map]; split; intro H; inversion H; subst; constructor.
    + match goal with HH : In _ (map _ _) |- _ => apply in_map_iff in HH as (v & <- & Hv) end. cbn. auto.
    + now apply IH.
    + match goal with HH : fst ?x = _ /\ _ |- _ => destruct x as [k' v]; destruct HH as [E Hv] end. cbn in E, Hv. subst. cbn. apply (in_map (fun arg => (k, arg))). exact Hv.
    + now apply IH.
  - intro H. apply product_nodup. rewrite Forall_map. eapply Forall_impl; [|exact H]. cbn. intros [k vs] Hn. cbn in *.
    apply FinFun.Injective_map_NoDup; [|exact Hn]. intros x y E. now inversion E.
  - rewrite product_length. induction d as [|[k vs] d IH]; [reflexivity|]. cbn. now rewrite map_length, IH.
Qed.
Example C43_example : orthogonal_permutations [(1%nat, [1; 2; 3]%nat); (2%nat, [4; 5]%nat)]
  = [[(1, 1); (2, 4)]; [(1, 1); (2, 5)]; [(1, 2); (2, 4)]; [(1, 2); (2, 5)]; [(1, 3); (2, 4)]; [(1, 3); (2, 5)]]%nat.
Proof. reflexivity. Qed.
(** izip_stretched: the tuples of the i-th elements, non-iterables repeated, up to the shortest iterable *)
Definition item {A} (i : nat) (x : arg A) : option A := match x with Iter l => nth_error l i | Val a => Some a end.
Fixpoint seqopt {A} (l : list (option A)) : option (list A) :=
  match l with [] => Some [] | Some a :: r => match seqopt r with Some t => Some (a :: t) | None => None end | None :: _ => None end.
Definition tuple_at {A} (its : list (arg A)) (i : nat) : option (list A) := seqopt (map (item i) its).
Lemma next_all_spec {A} (its : list (arg A)) :
  match next_all its with
  | Some (t, its') => tuple_at its 0 = Some t /\ (forall i, tuple_at its' i = tuple_at its (S i)) /\ length its' = length its
  | None => tuple_at its 0 = None
  end.
Proof.
  induction its as [|[[|a l]|a] its IH]; cbn.
  - repeat split.
  - reflexivity.
  - destruct (next_all its) as [[t its']|]; unfold tuple_at in *; cbn; [|now rewrite IH].
    destruct IH as (E & F & G). rewrite E. repeat split; [|cbn; now rewrite G]. intro i. cbn. now rewrite F.
  - destruct (next_all its) as [[t its']|]; unfold tuple_at in *; cbn; [|now rewrite IH].
    destruct IH as (E & F & G). rewrite E. repeat split; [|cbn; now rewrite G]. intro i. cbn. now rewrite F.
Qed.
Theorem C43_izip : forall (A : Type) (its : list (arg A)) n, its <> [] -> (forall i, (i < n)%nat -> tuple_at its i <> None) -> tuple_at its n = None ->
  forall fuel, (n < fuel)%nat -> exists l, izip fuel its = (l, true) /\ map Some l = map (tuple_at its) (seq 0 n).
Proof.
  intros A its n. revert its. induction n as [|n IH]; intros its Hne Hs Hn fuel Hf; (destruct fuel as [|fuel]; [lia|]);
    pose proof (next_all_spec its) as H; destruct its as [|x its]; try congruence; cbn [izip]; destruct (next_all (x :: its)) as [[t its']|].
  - destruct H as [H _]. congruence.
  - exists []. auto.
  - destruct H as (E & F & G). destruct (IH its') with (fuel := fuel) as (l & El & Ml).
    + destruct its'; [discriminate|congruence].
    + intros i Hi. rewrite F. apply Hs. lia.
    + now rewrite F.
    + lia.
    + rewrite El. exists (t :: l). split; [reflexivity|]. cbn [map seq]. rewrite E, Ml. f_equal. rewrite <- seq_shift, map_map. apply map_ext. exact F.
  - exfalso. now apply (Hs 0%nat); [lia|].
Qed.
(** only non-iterables: without end *)
Theorem C43_izip_endless : forall (A : Type) (vs : list A) fuel, vs <> [] -> izip fuel (map Val vs) = (repeat vs fuel, false).
Proof.
  intros A vs fuel Hne. assert (Hn : next_all (map Val vs) = Some (vs, map Val vs)).
  { clear. induction vs as [|v vs IH]; [reflexivity|]. cbn. now rewrite IH. }
  induction fuel as [|fuel IH]; destruct vs as [|v vs]; try congruence; [reflexivity|]. cbn [map izip] in *. rewrite Hn, IH. reflexivity.
Qed.
Example C43_izip_example : izip 10 [Iter [1; 2; 3]; Val 7; Iter [4; 5; 6; 8]]%nat = ([[1; 7; 4]; [2; 7; 5]; [3; 7; 6]]%nat, true).
Proof. reflexivity. Qed.

(** ** C123: cov_maxima picks, one after the other, the largest remaining absolute value, from distinct rows and columns *)
Local Open Scope Qc_scope.
Lemma argmax_from_spec l : forall best besti i, (besti < i)%nat ->
  let k := argmax_from best besti i l in (k = besti /\ Forall (fun a => a <= best) l) \/
    (i <= k < i + length l)%nat /\ (forall d, best < nth (k - i) l d /\ Forall (fun a => a <= nth (k - i) l d) l).
Proof.
  induction l as [|a l IH]; intros best besti i Hi; cbn [argmax_from]; [now left|].
  destruct (Qclt_le_dec best a) as [Hlt|Hle].
  - destruct (IH a i (S i)) as [[E F]|[H F]]; [lia| |].
    + right. rewrite E. split; [cbn [length]; lia|]. intro d. rewrite Nat.sub_diag. cbn [nth]. split; [exact Hlt|]. constructor; [apply Qcle_refl|exact F].
    + right. set (k := argmax_from a i (S i) l) in *. split; [cbn [length]; lia|]. intro d. destruct (F d) as [F1 F2].
      replace (k - i)%nat with (S (k - S i)) by lia. cbn [nth]. split; [eapply Qclt_trans; eauto|]. constructor; [now apply Qclt_le_weak|exact F2].
  - destruct (IH best besti (S i)) as [[E F]|[H F]]; [lia| |].
    + left. split; [exact E|]. constructor; auto.
    + right. set (k := argmax_from best besti (S i) l) in *. split; [cbn [length]; lia|]. intro d. destruct (F d) as [F1 F2].
      replace (k - i)%nat with (S (k - S i)) by lia. cbn [nth]. split; [exact F1|]. constructor; [|exact F2].
      apply Qclt_le_weak. eapply Qcle_lt_trans; eauto.
Qed.
Lemma argmax_spec l d : l <> [] -> (argmax l < length l)%nat /\ Forall (fun a => a <= nth (argmax l) l d) l.
Proof.
  destruct l as [|a l]; [congruence|]. intros _. unfold argmax. destruct (argmax_from_spec l a 0 1) as [[E F]|[H F]]; [lia| |].
  - rewrite E. cbn [length nth]. split; [lia|]. constructor; [apply Qcle_refl|exact F].
  - destruct (F d) as [F1 F2]. set (k := argmax_from a 0 1 l) in *. cbn [length]. split; [lia|].
    replace (nth k (a :: l) d) with (nth (k - 1) l d) by (destruct k; [lia|]; cbn [nth]; f_equal; lia).
    constructor; [now apply Qclt_le_weak|exact F2].
Qed.
Lemma drop_map {A B} (f : A -> B) : forall l k, drop k (map f l) = map f (drop k l).
Proof. induction l as [|a l IH]; intros [|k]; cbn; auto. now rewrite IH. Qed.
Lemma drop_perm {A} (d : A) : forall l k, (k < length l)%nat -> Permutation l (nth k l d :: drop k l).
Proof.
  induction l as [|a l IH]; intros k H; cbn [length] in H; [lia|]. destruct k as [|k]; cbn; [reflexivity|].
  rewrite perm_swap. constructor. apply IH. lia.
Qed.
Lemma drop_length {A} : forall (l : list A) k, (k < length l)%nat -> length (drop k l) = (length l - 1)%nat.
Proof. induction l as [|a l IH]; intros [|k] H; cbn in *; try lia. rewrite IH by lia. destruct l; cbn in *; lia. Qed.
Definition sub (m : nat -> nat -> Qc) (R C : list nat) : list (list Qc) := map (fun a => map (fun b => m a b) C) R.
Lemma sub_nth m R C a b : (a < length R)%nat -> (b < length C)%nat -> nth b (nth a (sub m R C) []) 0 = m (nth a R 0%nat) (nth b C 0%nat).
Proof.
  intros Ha Hb. unfold sub. rewrite (nth_indep _ [] (map (fun b => m 0%nat b) C)) by now rewrite map_length.
  rewrite (map_nth (fun a => map (fun b => m a b) C)). rewrite (nth_indep _ 0 (m (nth a R 0%nat) 0%nat)) by now rewrite map_length.
  now rewrite (map_nth (fun b => m (nth a R 0%nat) b)).
Qed.
Lemma flat_nth {A} (d : A) w : forall (ls : list (list A)) k, (0 < w)%nat -> Forall (fun l => length l = w) ls -> nth k (concat ls) d = nth (k mod w) (nth (k / w) ls []) d.
Proof.
  induction ls as [|l ls IH]; intros k Hw Hf; cbn [concat].
  - destruct (k / w)%nat; cbn; destruct (k mod w)%nat, k; reflexivity.
  - inversion Hf; subst. destruct (Nat.lt_ge_cases k (length l)) as [Hlt|Hge].
    + rewrite app_nth1 by exact Hlt. rewrite Nat.div_small, Nat.mod_small by exact Hlt. reflexivity.
    + rewrite app_nth2 by exact Hge. rewrite IH by auto.
      set (q := (k - length l)%nat) in *. replace k with (q + 1 * length l)%nat by (unfold q; lia). rewrite Nat.div_add, Nat.mod_add by lia.
      rewrite Nat.add_1_r. reflexivity.
Qed.
Lemma concat_length_w {A} w : forall (ls : list (list A)), Forall (fun l => length l = w) ls -> length (concat ls) = (length ls * w)%nat.
Proof. induction 1 as [|l ls Hl Hf IH]; cbn; [reflexivity|]. rewrite app_length. lia. Qed.
Lemma qabs_qabs x : qabs (qabs x) = qabs x.
Proof.
  unfold qabs. destruct (Qclt_le_dec x 0) as [H|H].
  - destruct (Qclt_le_dec (- x) 0) as [H2|H2]; [|reflexivity]. exfalso.
    assert (0 < - x) by (apply Qclt_minus_iff in H; now rewrite Qcplus_0_l in H). exact (Qclt_not_le _ _ H2 (Qclt_le_weak _ _ H0)).
  - destruct (Qclt_le_dec x 0) as [H2|H2]; [|reflexivity]. exfalso. exact (Qclt_not_le _ _ H2 H).
Qed.
(** the choice: which rows and columns *)
Inductive greedy (m : nat -> nat -> Qc) : list nat -> list nat -> list (nat * nat) -> Prop :=
| g_nil : greedy m [] [] []
| g_cons R C a b R' C' l : Permutation R (a :: R') -> Permutation C (b :: C') -> (forall x y, In x R -> In y C -> qabs (m x y) <= qabs (m a b)) ->
    greedy m R' C' l -> greedy m R C ((a, b) :: l).
Lemma cov_maxima_greedy m : forall n R C, length R = n -> length C = n ->
  exists l, greedy m R C l /\ (forall f, (forall a b, qabs (f a b) = qabs (m a b)) -> cov_maxima_n n (sub f R C) = map (fun p => qabs (m (fst p) (snd p))) l).
Proof.
  induction n as [|n IH]; intros R C HR HC.
  - destruct R, C; try discriminate. exists []. split; [constructor|reflexivity].
  - set (cov := sub (fun a b => qabs (m a b)) R C).
    assert (Hcov : forall f, (forall a b, qabs (f a b) = qabs (m a b)) -> map (map qabs) (sub f R C) = cov).
    { intros f Hf. unfold cov, sub. rewrite map_map. apply map_ext. intro a. rewrite map_map. apply map_ext. intro b. apply Hf. }
    assert (Hlen : length cov = S n) by (unfold cov, sub; now rewrite map_length).
    assert (Hw : Forall (fun l => length l = S n) cov) by (unfold cov, sub; rewrite Forall_map; apply Forall_forall; intros; now rewrite map_length).
    assert (Hfl : length (concat cov) = (S n * S n)%nat) by (rewrite (concat_length_w (S n)), Hlen; auto).
    destruct (argmax_spec (concat cov) 0) as [Hk Hmax]; [intro E; rewrite E in Hfl; cbn in Hfl; lia|].
    set (k := argmax (concat cov)) in *. rewrite Hfl in Hk.
    assert (Hr : (k / S n < S n)%nat) by (apply Nat.div_lt_upper_bound; lia).
    assert (Hc : (k mod S n < S n)%nat) by (apply Nat.mod_upper_bound; lia).
    rewrite (flat_nth 0 (S n)) in Hmax by (auto; lia).
    set (r := (k / S n)%nat) in *. set (c := (k mod S n)%nat) in *.
    unfold cov in Hmax at 1. rewrite sub_nth in Hmax by lia.
    destruct (IH (drop r R) (drop c C)) as (l & Hg & He); [rewrite drop_length; lia|rewrite drop_length; lia|].
    exists ((nth r R 0%nat, nth c C 0%nat) :: l). split.
    + econstructor; [apply drop_perm; lia|apply drop_perm; lia| |exact Hg].
      intros x y Hx Hy. rewrite Forall_forall in Hmax. apply Hmax. apply in_concat. exists (map (fun b => qabs (m x b)) C). split.
      * unfold cov, sub. apply (in_map (fun a => map (fun b => qabs (m a b)) C)). exact Hx.
      * apply (in_map (fun b => qabs (m x b))). exact Hy.
    + intros f Hf. cbn [cov_maxima_n]. replace (length (sub f R C)) with (S n) by (unfold sub; now rewrite map_length).
      cbn [Nat.leb]. rewrite (Hcov f Hf). fold k. fold r c. cbn [map fst snd]. f_equal.
      * unfold cov. now rewrite sub_nth by lia.
      * replace (map (drop c) (drop r cov)) with (sub (fun a b => qabs (m a b)) (drop r R) (drop c C)).
        -- apply He. intros a b. apply qabs_qabs.
        -- unfold cov, sub. rewrite drop_map, map_map. apply map_ext. intro a. now rewrite drop_map.
Qed.
Theorem C123_cov_maxima : forall m n, exists l, greedy m (seq 0 n) (seq 0 n) l /\ cov_maxima (sub m (seq 0 n) (seq 0 n)) = map (fun p => qabs (m (fst p) (snd p))) l.
Proof.
  intros m n. destruct (cov_maxima_greedy m n (seq 0 n) (seq 0 n)) as (l & G & E); try apply seq_length.
  exists l. split; [exact G|]. unfold cov_maxima. replace (length (sub m (seq 0 n) (seq 0 n))) with n by (unfold sub; now rewrite map_length, seq_length). now apply E.
Qed.
(** as many as rows, non-increasing, each row and each column once *)
Theorem C123_greedy : forall m R C l, greedy m R C l -> Permutation (map fst l) R /\ Permutation (map snd l) C /\
  StronglySorted (fun x y => y <= x) (map (fun p => qabs (m (fst p) (snd p))) l).
Proof.
  intros m R C l H. induction H as [|R C a b R' C' l HR HC Hm Hg IH]; [repeat constructor|]. destruct IH as (I1 & I2 & I3). cbn. repeat split.
  - now rewrite HR, I1.
  - now rewrite HC, I2.
  - constructor; [exact I3|]. rewrite Forall_map. apply Forall_forall. intros [x y] Hi. cbn. apply Hm.
    + eapply Permutation_in; [symmetry; exact HR|]. right. eapply Permutation_in; [exact I1|]. apply (in_map fst) in Hi. exact Hi.
    + eapply Permutation_in; [symmetry; exact HC|]. right. eapply Permutation_in; [exact I2|]. apply (in_map snd) in Hi. exact Hi.
Qed.
Definition z2q (z : Z) : Qc := Q2Qc (inject_Z z).
Example C123_example : map this (cov_maxima (map (map z2q) [[1; -9; 2]; [3; 8; 4]; [5; 7; -6]]%Z)) = [9; 6; 3]%Q.
Proof. reflexivity. Qed.

(** ** C124: weighted_choice returns key i for the random numbers of an interval of length w_i / sum *)
Definition cum {K} (d : list (K * Qc)) (i : nat) : Qc := fold_right (fun p s => snd p + s) 0 (firstn i d).
Lemma choose_spec {K} (d : list (K * Qc)) : Forall (fun p => 0 <= snd p) d -> forall t r i k, t <= r -> NoDup (map fst d) -> nth_error (map fst d) i = Some k ->
  (choose d t r = Some k <-> t + cum d i <= r /\ r < t + cum d (S i)).
Proof.
  induction 1 as [|[k0 v] d Hv Hf IH]; intros t r i k Ht Hn Hk; [destruct i; discriminate|]. cbn [map fst snd choose] in *.
  inversion Hn as [|? ? Hni Hn']; subst. unfold cum. destruct i as [|i]; cbn [firstn fold_right snd] in *.
  - injection Hk as <-. destruct (Qclt_le_dec r (t + v)) as [Hlt|Hge].
    + split; [|reflexivity]. intros _. split; [now rewrite Qcplus_0_r|]. now rewrite Qcplus_0_r.
    + split.
      * intro E. exfalso. apply Hni. clear - E. revert E. generalize (t + v). induction d as [|[k1 w] d IH]; intros s E; [discriminate|]. cbn in *.
        destruct (Qclt_le_dec r (s + w)); [injection E as ->; now left|]. right. eauto.
      * intros [_ H]. rewrite Qcplus_0_r in H. exfalso. exact (Qclt_not_le _ _ H Hge).
  - destruct (Qclt_le_dec r (t + v)) as [Hlt|Hge].
    + split.
      * intro E. injection E as ->. exfalso. apply Hni. eapply nth_error_In; eauto.
      * intros [H _]. exfalso. apply (Qclt_not_le _ _ Hlt). eapply Qcle_trans; [|exact H].
        rewrite Qcplus_assoc. rewrite <- (Qcplus_0_r (t + v)) at 1. apply Qcplus_le_compat; [apply Qcle_refl|].
        clear - Hf. revert i. induction Hf as [|[k w] d Hw Hf IH]; intros [|i]; cbn; try apply Qcle_refl.
        rewrite <- (Qcplus_0_r 0). apply Qcplus_le_compat; auto.
    + rewrite (IH (t + v) r i k Hge Hn' Hk). unfold cum. cbn [firstn fold_right]. rewrite !Qcplus_assoc. reflexivity.
Qed.
Lemma cum_scale {K} (d : list (K * Qc)) s i : cum (map (fun p => (fst p, snd p / s)) d) i = cum d i / s.
Proof.
  unfold cum. rewrite firstn_map. induction (firstn i d) as [|p l IH]; cbn [map fold_right snd]; [unfold Qcdiv; ring|]. rewrite IH. unfold Qcdiv. ring.
Qed.
Theorem C124_weighted_choice : forall (K : Type) (d : list (K * Qc)) r i k, Forall (fun p => 0 <= snd p) d -> 0 < sumvals d -> NoDup (map fst d) -> 0 <= r ->
  nth_error (map fst d) i = Some k -> (weighted_choice true d r = Some k <-> cum d i / sumvals d <= r /\ r < cum d (S i) / sumvals d).
Proof.
  intros K d r i k Hf Hs Hn Hr Hk. unfold weighted_choice.
  rewrite (choose_spec (map (fun p => (fst p, snd p / sumvals d)) d)) with (i := i); auto.
  - rewrite !cum_scale, !Qcplus_0_l. reflexivity.
  - rewrite Forall_map. eapply Forall_impl; [|exact Hf]. cbn. intros p Hp. unfold Qcdiv. rewrite <- (Qcmult_0_l (/ sumvals d)). apply Qcmult_le_compat_r; [exact Hp|].
    apply Qclt_le_weak. unfold Qclt, Qcinv. cbn. rewrite Qred_correct. apply Qinv_lt_0_compat. exact Hs.
  - now rewrite map_map.
  - rewrite map_map. exact Hk.
Qed.
Lemma sumvals_cum {K} (d : list (K * Qc)) : sumvals d = cum d (length d).
Proof.
  unfold sumvals, cum. rewrite firstn_all.
  assert (G : forall (l : list (K * Qc)) t, fold_left (fun s p => s + snd p) l t = t + fold_right (fun p s => snd p + s) 0 l).
  { clear. intro l. induction l as [|p l IH]; intro t; cbn [fold_left fold_right]; [ring|]. rewrite IH. ring. }
  rewrite G. ring.
Qed.
Theorem C124_total : forall (K : Type) (d : list (K * Qc)) r, Forall (fun p => 0 <= snd p) d -> 0 < sumvals d -> 0 <= r -> r < 1 -> weighted_choice true d r <> None.
Proof.
  intros K d r Hf Hs Hr H1. unfold weighted_choice.
  assert (G : forall (l : list (K * Qc)) t, r < t + cum l (length l) -> t <= r -> choose l t r <> None).
  { clear. intros l. induction l as [|[k v] l IH]; intros t H Ht; cbn.
    - exfalso. unfold cum in H. cbn in H. rewrite Qcplus_0_r in H. exact (Qclt_not_le _ _ H Ht).
    - destruct (Qclt_le_dec r (t + v)) as [Hlt|Hge]; [discriminate|]. apply IH; [|exact Hge].
      unfold cum in *. cbn [length firstn fold_right snd] in H. now rewrite Qcplus_assoc in H. }
  apply G; [|exact Hr]. rewrite map_length, cum_scale, <- sumvals_cum, Qcplus_0_l.
  replace (sumvals d / sumvals d) with 1; [exact H1|]. field. intro E. rewrite E in Hs. exact (Qclt_not_le _ _ Hs (Qcle_refl 0)).
Qed.
Example C124_example : let d := [(1%nat, z2q 1); (2%nat, z2q 5); (3%nat, z2q 4)] in
  (weighted_choice true d 0, weighted_choice true d (Q2Qc (1 # 10)), weighted_choice true d (Q2Qc (59 # 100)), weighted_choice true d (Q2Qc (6 # 10))) = (Some 1, Some 2, Some 2, Some 3)%nat.
Proof. reflexivity. Qed.

(** ** C125: bool_to_sign and sign_to_bool *)
Theorem C125_signs : forall l zero, sign_to_bool (bool_to_sign l) zero = l /\ Forall (fun x => x = 1 \/ x = - (1)) (bool_to_sign l).
Proof.
  intros l zero. split.
  - unfold sign_to_bool, bool_to_sign. rewrite map_map. transitivity (map (fun b : bool => b) l); [|apply map_id]. apply map_ext. intros []; destruct zero; reflexivity.
  - unfold bool_to_sign. rewrite Forall_map. apply Forall_forall. intros [] _; [left|right]; reflexivity.
Qed.
Theorem C125_sign_to_bool : forall l zero, bool_to_sign (sign_to_bool l zero) = map (fun x => if Qclt_le_dec x 0 then - (1) else if Qclt_le_dec 0 x then 1 else if zero then 1 else - (1)) l.
Proof.
  intros l zero. unfold sign_to_bool, bool_to_sign. rewrite map_map. apply map_ext. intro x.
  destruct zero, (Qclt_le_dec x 0) as [H|H], (Qclt_le_dec 0 x) as [H2|H2]; try reflexivity. exfalso. exact (Qclt_not_le _ _ (Qclt_trans _ _ _ H H2) (Qcle_refl _)).
Qed.
