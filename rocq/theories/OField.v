(** Ordered fields with decidable order, and finite sums, vectors and matrices over them.  The linear nodes (PCA, whitening, SFA, FDA) are modelled over an
    arbitrary ordered field, because eigenvectors of rational matrices are in general irrational: the theorems hold over the reals ([R_of]) and the
    Examples are computed over the rationals ([Qc_of]).  An ordered field is a record, its laws are components of the record, not axioms. *)
From Coq Require Import List Arith QArith Qcanon Bool Lia Reals Lra Field Permutation.
Import ListNotations.
Open Scope nat_scope.

Record ofield := mkOF {
  car :> Type; f0 : car; f1 : car; fadd : car -> car -> car; fmul : car -> car -> car; fsub : car -> car -> car; fopp : car -> car;
  fdiv : car -> car -> car; finv : car -> car; fltb : car -> car -> bool;
  fth : field_theory f0 f1 fadd fmul fsub fopp fdiv finv (@eq car);
  flt_irrefl : forall a, fltb a a = false;
  flt_trans : forall a b c, fltb a b = true -> fltb b c = true -> fltb a c = true;
  flt_total : forall a b, fltb a b = false -> fltb b a = false -> a = b;
  flt_add : forall a b c, fltb a b = true -> fltb (fadd a c) (fadd b c) = true;
  flt_mul : forall a b, fltb f0 a = true -> fltb f0 b = true -> fltb f0 (fmul a b) = true }.

Declare Scope of_scope.
Delimit Scope of_scope with of.
Arguments f0 {o}. Arguments f1 {o}. Arguments fadd {o}. Arguments fmul {o}. Arguments fsub {o}. Arguments fopp {o}. Arguments fdiv {o}. Arguments finv {o}.
Arguments fltb {o}.
Notation "0" := f0 : of_scope. Notation "1" := f1 : of_scope.
Infix "+" := fadd : of_scope. Infix "*" := fmul : of_scope. Infix "-" := fsub : of_scope. Infix "/" := fdiv : of_scope. Notation "- x" := (fopp x) : of_scope.
Definition fle {K : ofield} (a b : K) : Prop := fltb b a = false.
Definition flt {K : ofield} (a b : K) : Prop := fltb a b = true.
Infix "<=" := fle : of_scope. Infix "<" := flt : of_scope.

(** ** The rationals and the reals *)
Lemma qcl_total : forall a b : Qc, (if Qclt_le_dec a b then true else false) = false -> (if Qclt_le_dec b a then true else false) = false -> a = b.
Proof. intros a b. destruct (Qclt_le_dec a b), (Qclt_le_dec b a); try discriminate. intros _ _. now apply Qcle_antisym. Qed.
Definition Qc_of : ofield.
Proof.
  refine (mkOF Qc (Q2Qc 0) (Q2Qc 1) Qcplus Qcmult Qcminus Qcopp Qcdiv Qcinv (fun a b => if Qclt_le_dec a b then true else false) Qcft _ _ qcl_total _ _).
  - intros a. destruct (Qclt_le_dec a a) as [H|]; [|reflexivity]. now apply Qclt_not_eq in H.
  - intros a b c. destruct (Qclt_le_dec a b), (Qclt_le_dec b c), (Qclt_le_dec a c) as [|H]; try discriminate; try reflexivity.
    intros _ _. exfalso. apply (Qcle_not_lt _ _ H). eapply Qclt_trans; eauto.
  - intros a b c. destruct (Qclt_le_dec a b) as [H|]; [|discriminate]. intros _. destruct (Qclt_le_dec (a + c)%Qc (b + c)%Qc) as [|H']; [reflexivity|].
    exfalso. apply (Qcle_not_lt _ _ H'). apply Qclt_minus_iff in H. apply Qclt_minus_iff. replace (b + c + - (a + c))%Qc with (b + - a)%Qc by ring. exact H.
  - intros a b. destruct (Qclt_le_dec 0%Qc a) as [H|]; [|discriminate]. destruct (Qclt_le_dec 0%Qc b) as [H1|]; [|discriminate]. intros _ _.
    destruct (Qclt_le_dec 0%Qc (a * b)%Qc) as [|H']; [reflexivity|]. exfalso. apply (Qcle_not_lt _ _ H').
    rewrite <- (Qcmult_0_l b). now apply Qcmult_lt_compat_r.
Defined.
Definition R_of : ofield.
Proof.
  refine (mkOF R 0%R 1%R Rplus Rmult Rminus Ropp Rdiv Rinv (fun a b => if Rlt_dec a b then true else false) Rfield _ _ _ _ _).
  - intros a. destruct (Rlt_dec a a); [lra|reflexivity].
  - intros a b c. destruct (Rlt_dec a b), (Rlt_dec b c), (Rlt_dec a c); try discriminate; try reflexivity; lra.
  - intros a b. destruct (Rlt_dec a b), (Rlt_dec b a); try discriminate. intros _ _. lra.
  - intros a b c. destruct (Rlt_dec a b), (Rlt_dec (a + c) (b + c)); try discriminate; try reflexivity; lra.
  - intros a b. destruct (Rlt_dec 0 a), (Rlt_dec 0 b), (Rlt_dec 0 (a * b)) as [|H]; try discriminate; try reflexivity.
    intros _ _. exfalso. apply H. now apply Rmult_lt_0_compat.
Defined.

Section Field.
  Context {K : ofield}.
  Add Field Kfield : (fth K).
  Open Scope of_scope.
  Implicit Types a b c d : K.

  Lemma fle_refl a : a <= a. Proof. apply flt_irrefl. Qed.
  Lemma flt_le a b : a < b -> a <= b.
  Proof. unfold fle, flt. intros H. destruct (fltb b a) eqn:E; [|reflexivity]. pose proof (flt_trans K _ _ _ H E) as X. now rewrite flt_irrefl in X. Qed.
  Lemma fle_lt_eq a b : a <= b -> a < b \/ a = b.
  Proof. unfold fle, flt. intros H. destruct (fltb a b) eqn:E; [now left|right]. now apply (flt_total K). Qed.
  Lemma fle_antisym a b : a <= b -> b <= a -> a = b.
  Proof. unfold fle. intros. now apply (flt_total K). Qed.
  Lemma fle_trans a b c : a <= b -> b <= c -> a <= c.
  Proof. intros H H1. destruct (fle_lt_eq _ _ H) as [L| ->]; [|exact H1]. destruct (fle_lt_eq _ _ H1) as [L1| <-]; [|exact H]. apply flt_le. exact (flt_trans K _ _ _ L L1). Qed.
  Lemma flt_le_trans a b c : a < b -> b <= c -> a < c.
  Proof. intros H H1. destruct (fle_lt_eq _ _ H1) as [L1| <-]; [|exact H]. exact (flt_trans K _ _ _ H L1). Qed.
  Lemma fle_lt_trans a b c : a <= b -> b < c -> a < c.
  Proof. intros H H1. destruct (fle_lt_eq _ _ H) as [L1| ->]; [|exact H1]. exact (flt_trans K _ _ _ L1 H1). Qed.
  Lemma flt_not_le a b : a < b -> b <= a -> False. Proof. unfold flt, fle. congruence. Qed.
  Lemma flt_ne a b : a < b -> a <> b. Proof. intros H ->. unfold flt in H. now rewrite flt_irrefl in H. Qed.
  Lemma fle_or_lt a b : a <= b \/ b < a. Proof. unfold fle, flt. destruct (fltb b a); auto. Qed.
  Lemma fle_add a b c : a <= b -> a + c <= b + c.
  Proof. intros H. destruct (fle_lt_eq _ _ H) as [L| ->]; [|apply fle_refl]. apply flt_le. exact (flt_add K _ _ c L). Qed.
  Lemma fle_add2 a b c d : a <= b -> c <= d -> a + c <= b + d.
  Proof. intros H H1. apply (fle_trans _ (b + c)); [now apply fle_add|]. replace (b + c) with (c + b) by ring. replace (b + d) with (d + b) by ring. now apply fle_add. Qed.
  Lemma fle_sub a b : a <= b <-> 0 <= b - a.
  Proof.
    split; intros H.
    - apply (fle_add _ _ (- a)) in H. replace (a + - a) with (0 : K) in H by ring. now replace (b - a) with (b + - a) by ring.
    - apply (fle_add _ _ a) in H. replace (0 + a) with a in H by ring. now replace (b - a + a) with b in H by ring.
  Qed.
  Lemma flt_sub a b : a < b <-> 0 < b - a.
  Proof.
    split; intros H.
    - apply (flt_add K _ _ (- a)) in H. replace (a + - a) with (0 : K) in H by ring. unfold flt. now replace (b - a) with (b + - a) by ring.
    - apply (flt_add K _ _ a) in H. replace (0 + a) with a in H by ring. now replace (b - a + a) with b in H by ring.
  Qed.
  Lemma fle_mul0 a b : 0 <= a -> 0 <= b -> 0 <= a * b.
  Proof.
    intros H H1. destruct (fle_lt_eq _ _ H) as [L| <-]; [|replace (0 * b) with (0 : K) by ring; apply fle_refl].
    destruct (fle_lt_eq _ _ H1) as [L1| <-]; [|replace (a * 0) with (0 : K) by ring; apply fle_refl]. apply flt_le. now apply flt_mul.
  Qed.
  Lemma fle_mul a b c : 0 <= c -> a <= b -> a * c <= b * c.
  Proof. intros H H1. apply fle_sub. replace (b * c - a * c) with ((b - a) * c) by ring. apply fle_mul0; [now apply (proj1 (fle_sub _ _))|exact H]. Qed.
  Lemma fopp_pos a : a < 0 -> 0 < - a.
  Proof. intros H. apply flt_sub in H. now replace (0 - a) with (- a) in H by ring. Qed.
  Lemma fsq a : 0 <= a * a.
  Proof.
    destruct (fle_or_lt 0 a) as [H|H]; [now apply fle_mul0|]. apply fopp_pos, flt_le in H. replace (a * a) with ((- a) * (- a)) by ring. now apply fle_mul0.
  Qed.
  Lemma f10 : (1 : K) <> 0. Proof. apply (F_1_neq_0 (fth K)). Qed.
  Lemma f01 : 0 < (1 : K).
  Proof. pose proof (fsq 1) as H. replace (1 * 1) with (1 : K) in H by ring. destruct (fle_lt_eq _ _ H) as [L|E]; [exact L|]. exfalso. apply f10. now symmetry. Qed.
  Lemma finv_pos a : 0 < a -> 0 < finv a.
  Proof.
    intros H. pose proof (fun E => flt_ne _ _ H (eq_sym E)) as Ne. destruct (fle_or_lt (finv a) 0) as [L|L]; [|exact L].
    exfalso. apply fle_sub in L. pose proof (fle_mul0 _ _ (flt_le _ _ H) L) as X. replace (a * (0 - finv a)) with (- (1) : K) in X by (field; exact Ne).
    pose proof f01 as Y. apply flt_sub in Y. replace (1 - 0) with (1 : K) in Y by ring. apply (flt_not_le 0 (1 : K) f01). apply fle_sub. now replace (0 - 1) with (- (1) : K) by ring.
  Qed.
  Lemma fmul_eq0 a b : a * b = 0 -> a = 0 \/ b = 0.
  Proof.
    intros H. destruct (fltb a 0) eqn:A; [right|destruct (fltb 0 a) eqn:B; [right|left; now apply (flt_total K)]].
    - assert (N : a <> 0) by (now apply flt_ne). replace b with (finv a * (a * b)) by (field; exact N). rewrite H. ring.
    - assert (N : a <> 0) by (intros E; now apply (flt_ne _ _ B)). replace b with (finv a * (a * b)) by (field; exact N). rewrite H. ring.
  Qed.
  Lemma feq_dec a b : a = b \/ a <> b.
  Proof. destruct (fltb a b) eqn:A; [right; now apply flt_ne|]. destruct (fltb b a) eqn:B; [right; intros E; symmetry in E; revert E; now apply flt_ne|]. left. now apply (flt_total K). Qed.
  Lemma fsq0 a : a * a = 0 -> a = 0. Proof. intros H. now destruct (fmul_eq0 _ _ H). Qed.
  Lemma fdiv_pos a b : 0 <= a -> 0 < b -> 0 <= a / b.
  Proof. intros H H1. replace (a / b) with (a * finv b) by (rewrite (Fdiv_def (fth K)); reflexivity). apply fle_mul0; [exact H|]. now apply flt_le, finv_pos. Qed.
  Lemma fdiv_le a b c : 0 < c -> (a <= b * c <-> a / c <= b).
  Proof.
    intros H. assert (Ne : c <> 0) by (intros E; now apply (flt_ne _ _ H)). split; intros L.
    - apply (fle_mul _ _ (finv c)) in L; [|now apply flt_le, finv_pos]. replace (b * c * finv c) with b in L by (now field). now replace (a / c) with (a * finv c) by (now field).
    - apply (fle_mul _ _ c) in L; [|now apply flt_le]. now replace (a / c * c) with a in L by (now field).
  Qed.

  (** ** naturals in the field *)
  Fixpoint fn (n : nat) : K := match n with O => 0 | Datatypes.S n => 1 + fn n end.
  Lemma fn_pos n : 0 < fn (Datatypes.S n).
  Proof.
    induction n as [|n IH]; [cbn [fn]; replace (1 + 0) with (1 : K) by ring; exact f01|]. change (fn (S (S n))) with (1 + fn (S n)).
    apply (flt_trans K _ _ _ IH). apply flt_sub. replace (1 + fn (S n) - fn (S n)) with (1 : K) by ring. exact f01.
  Qed.
  Lemma fn_nonneg n : 0 <= fn n. Proof. destruct n; [apply fle_refl|apply flt_le, fn_pos]. Qed.
  Lemma fn_add n m : fn (n + m) = fn n + fn m. Proof. induction n; cbn [fn plus]; [ring|]. rewrite IHn. ring. Qed.
  Lemma fn_ne n : n <> O -> fn n <> 0. Proof. destruct n; [lia|]. intros _ E. symmetry in E. revert E. apply flt_ne, fn_pos. Qed.
  Lemma fn_pred n : (2 <= n)%nat -> 0 < fn n - 1.
  Proof. intros H. destruct n as [|[|n]]; [lia|lia|]. change (fn (S (S n))) with (1 + fn (S n)). replace (1 + fn (S n) - 1) with (fn (S n)) by ring. apply fn_pos. Qed.

  (** ** sums over lists *)
  Fixpoint fsum (l : list K) : K := match l with [] => 0 | a :: r => a + fsum r end.
  Lemma fsum_app l r : fsum (l ++ r) = fsum l + fsum r. Proof. induction l; cbn; [ring|]. rewrite IHl. ring. Qed.
  Lemma fsum_nonneg l : Forall (fun a => 0 <= a) l -> 0 <= fsum l.
  Proof. induction 1; cbn; [apply fle_refl|]. replace (0 : K) with (0 + 0 : K) by ring. now apply fle_add2. Qed.
  Lemma fsum_perm l r : Permutation l r -> fsum l = fsum r.
  Proof. induction 1; cbn; try congruence; try ring. Qed.
  Lemma fsum_rev l : fsum (rev l) = fsum l. Proof. apply fsum_perm. apply Permutation_sym, Permutation_rev. Qed.
  Section Maps.
    Context {A : Type}.
    Implicit Types (l : list A) (f g : A -> K).
    Lemma fsum_map_ext l f g : (forall x, In x l -> f x = g x) -> fsum (map f l) = fsum (map g l).
    Proof. intros H. f_equal. now apply map_ext_in. Qed.
    Lemma fsum_map_add l f g : fsum (map (fun x => f x + g x) l) = fsum (map f l) + fsum (map g l).
    Proof. induction l; cbn; [ring|]. rewrite IHl. ring. Qed.
    Lemma fsum_map_sub l f g : fsum (map (fun x => f x - g x) l) = fsum (map f l) - fsum (map g l).
    Proof. induction l; cbn; [ring|]. rewrite IHl. ring. Qed.
    Lemma fsum_map_mul l f c : fsum (map (fun x => c * f x) l) = c * fsum (map f l).
    Proof. induction l; cbn; [ring|]. rewrite IHl. ring. Qed.
    Lemma fsum_map_mulr l f c : fsum (map (fun x => f x * c) l) = fsum (map f l) * c.
    Proof. induction l; cbn; [ring|]. rewrite IHl. ring. Qed.
    Lemma fsum_map_const l c : fsum (map (fun _ => c) l) = fn (length l) * c.
    Proof. induction l; cbn; [ring|]. rewrite IHl. ring. Qed.
    Lemma fsum_map_zero l f : (forall x, In x l -> f x = 0) -> fsum (map f l) = 0.
    Proof. induction l; cbn; intros H; [reflexivity|]. rewrite (H a), IHl; auto. ring. Qed.
    Lemma fsum_map_le l f g : (forall x, In x l -> f x <= g x) -> fsum (map f l) <= fsum (map g l).
    Proof. induction l; cbn; intros H; [apply fle_refl|]. apply fle_add2; auto. Qed.
    Lemma fsum_map_nonneg l f : (forall x, In x l -> 0 <= f x) -> 0 <= fsum (map f l).
    Proof. intros H. apply fsum_nonneg. apply Forall_forall. intros y Hy. apply in_map_iff in Hy. destruct Hy as [x [<- Hx]]. auto. Qed.
    Lemma fsum_map_eq0 l f : (forall x, In x l -> 0 <= f x) -> fsum (map f l) = 0 -> forall x, In x l -> f x = 0.
    Proof.
      induction l as [|a l IH]; cbn; intros H E; [easy|].
      assert (A0 : 0 <= f a) by auto. assert (S0 : 0 <= fsum (map f l)) by (apply fsum_map_nonneg; auto).
      assert (fa : f a = 0). { apply fle_antisym; [|exact A0]. apply fle_sub. replace (0 - f a) with (fsum (map f l)) by (rewrite <- E; ring). exact S0. }
      intros x [<-|Hx]; [exact fa|]. apply IH; auto. rewrite fa in E. rewrite <- E. ring.
    Qed.
  End Maps.
  Lemma fsum_swap {A B} (l : list A) (r : list B) (f : A -> B -> K) : fsum (map (fun x => fsum (map (fun y => f x y) r)) l) = fsum (map (fun y => fsum (map (fun x => f x y) l)) r).
  Proof.
    induction l; cbn; [symmetry; now apply fsum_map_zero|]. rewrite IHl, <- fsum_map_add. reflexivity.
  Qed.

  (** ** sums over 0..n-1, vectors and matrices *)
  Definition vec := nat -> K.
  Definition mtx := nat -> nat -> K.
  Definition fsumn (n : nat) (f : nat -> K) : K := fsum (map f (seq 0 n)).
  Definition delta (i j : nat) : K := if i =? j then 1 else 0.
  Definition dot (n : nat) (a b : vec) : K := fsumn n (fun i => a i * b i).
  Lemma fsumn_ext n f g : (forall i, (i < n)%nat -> f i = g i) -> fsumn n f = fsumn n g.
  Proof. intros H. apply fsum_map_ext. intros x Hx. apply in_seq in Hx. apply H. lia. Qed.
  Lemma fsumn_delta n f i : (i < n)%nat -> fsumn n (fun j => f j * delta i j) = f i.
  Proof.
    intros H. unfold fsumn. replace n with (i + (1 + (n - i - 1)))%nat by lia. rewrite !seq_app, !map_app, !fsum_app. cbn [seq map fsum plus].
    rewrite (fsum_map_zero (seq 0 i)), (fsum_map_zero (seq (i + 1) _)).
    - unfold delta. rewrite Nat.eqb_refl. ring.
    - intros x Hx. apply in_seq in Hx. unfold delta. destruct (Nat.eqb_spec i x); [lia|ring].
    - intros x Hx. apply in_seq in Hx. unfold delta. destruct (Nat.eqb_spec i x); [lia|ring].
  Qed.
  Lemma delta_sym i j : delta i j = delta j i. Proof. unfold delta. now rewrite Nat.eqb_sym. Qed.
  Lemma fsumn_add n f g : fsumn n (fun i => f i + g i) = fsumn n f + fsumn n g. Proof. apply fsum_map_add. Qed.
  Lemma fsumn_sub n f g : fsumn n (fun i => f i - g i) = fsumn n f - fsumn n g. Proof. apply fsum_map_sub. Qed.
  Lemma fsumn_mul n f c : fsumn n (fun i => c * f i) = c * fsumn n f. Proof. apply fsum_map_mul. Qed.
  Lemma fsumn_mulr n f c : fsumn n (fun i => f i * c) = fsumn n f * c. Proof. apply fsum_map_mulr. Qed.
  Lemma fsumn_swap n m f : fsumn n (fun i => fsumn m (fun j => f i j)) = fsumn m (fun j => fsumn n (fun i => f i j)).
  Proof. apply (fsum_swap (seq 0 n) (seq 0 m) f). Qed.
  Lemma fsumn_fsum {A} n (l : list A) (f : nat -> A -> K) : fsumn n (fun i => fsum (map (fun x => f i x) l)) = fsum (map (fun x => fsumn n (fun i => f i x)) l).
  Proof. apply (fsum_swap (seq 0 n) l f). Qed.
  Lemma fsumn_nonneg n f : (forall i, (i < n)%nat -> 0 <= f i) -> 0 <= fsumn n f.
  Proof. intros H. apply fsum_map_nonneg. intros x Hx. apply in_seq in Hx. apply H. lia. Qed.
  Lemma fsumn_le n f g : (forall i, (i < n)%nat -> f i <= g i) -> fsumn n f <= fsumn n g.
  Proof. intros H. apply fsum_map_le. intros x Hx. apply in_seq in Hx. apply H. lia. Qed.
  Lemma fsumn_split n m f : fsumn (n + m) f = fsumn n f + fsumn m (fun i => f (n + i)%nat).
  Proof.
    unfold fsumn. rewrite seq_app, map_app, fsum_app. f_equal. cbn [plus]. f_equal.
    transitivity (map f (map (fun i => (n + i)%nat) (seq 0 m))); [|apply map_map]. f_equal. clear. revert n. induction m; intros n; [reflexivity|].
    cbn [seq map]. f_equal; [lia|]. rewrite (IHm (S n)), <- seq_shift, map_map. apply map_ext. intros. lia.
  Qed.
  Lemma fsumn_S n f : fsumn (S n) f = fsumn n f + f n.
  Proof. replace (S n) with (n + 1)%nat by lia. rewrite fsumn_split. f_equal. unfold fsumn. cbn. replace (n + 0)%nat with n by lia. ring. Qed.
  Lemma fsumn_zero n f : (forall i, (i < n)%nat -> f i = 0) -> fsumn n f = 0.
  Proof. intros H. apply fsum_map_zero. intros x Hx. apply in_seq in Hx. apply H. lia. Qed.
  Lemma fsum_nth (l : list K) d : fsum l = fsumn (length l) (fun i => nth i l d).
  Proof.
    induction l as [|a l IH]; [reflexivity|]. cbn [fsum length]. rewrite (fsumn_split 1). unfold fsumn at 1. cbn [seq map fsum nth]. rewrite IH. cbn. ring.
  Qed.
  Lemma fsum_map_nth {A} (l : list A) (f : A -> K) (e : A) : fsum (map f l) = fsumn (length l) (fun i => f (nth i l e)).
  Proof.
    rewrite (fsum_nth _ (f e)), map_length. apply fsumn_ext. intros. apply map_nth.
  Qed.
  Lemma dot_sym n (a b : vec) : dot n a b = dot n b a. Proof. apply fsumn_ext. intros. ring. Qed.
  Lemma dot_sq n (a : vec) : 0 <= dot n a a. Proof. apply fsumn_nonneg. intros. apply fsq. Qed.
  Lemma dot_ext n (a a' b b' : vec) : (forall i, (i < n)%nat -> a i = a' i) -> (forall i, (i < n)%nat -> b i = b' i) -> dot n a b = dot n a' b'.
  Proof. intros H H1. apply fsumn_ext. intros. now rewrite H, H1. Qed.
End Field.
