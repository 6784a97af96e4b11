(** Properties C447-C458: LLENode and HLLENode *)
From Coq Require Import Reals List Arith ZArith Bool Lia Lra Permutation.
From Verif Require Import CovModel ICAModel ICAProofs LleModel.
Import ListNotations.
Open Scope R_scope.

(** ** Contracts *)
(** argsort: the indices in an order in which the entries do not decrease, found by comparing entries *)
Definition is_argsort (argsort : nat -> rvec -> list nat) : Prop :=
  (forall n f, Permutation (seq 0 n) (argsort n f) /\ forall i j, (i <= j)%nat -> (j < n)%nat -> f (nth i (argsort n f) 0%nat) <= f (nth j (argsort n f) 0%nat)) /\
  (forall n f g, (forall i j, (i < n)%nat -> (j < n)%nat -> f i <= f j <-> g i <= g j) -> argsort n f = argsort n g).
(** solve: the solution of q w = 1 if q is not singular, LinAlgError otherwise *)
Definition null (k : nat) (q : rmat) (v : rvec) : Prop := forall i, (i < k)%nat -> rsum k (fun j => q i j * v j) = 0.
Definition is_solve (k : nat) (solve : nat -> rmat -> option rvec) : Prop := forall q,
  match solve k q with
  | Some w => (forall i, (i < k)%nat -> rsum k (fun j => q i j * w j) = 1) /\ forall v, null k q v -> forall i, (i < k)%nat -> v i = 0
  | None => exists v, null k q v /\ exists i, (i < k)%nat /\ v i <> 0
  end.

(** an argsort: stable insertion sort *)
Fixpoint ins (f : rvec) (i : nat) (l : list nat) : list nat := match l with [] => [i] | j :: l' => if Rle_dec (f i) (f j) then i :: l else j :: ins f i l' end.
Definition isort (n : nat) (f : rvec) : list nat := fold_right (ins f) [] (seq 0 n).
Lemma ins_perm f i l : Permutation (i :: l) (ins f i l).
Proof. induction l as [|j l IH]; cbn; [reflexivity|]. destruct (Rle_dec _ _); [reflexivity|]. rewrite perm_swap. now apply perm_skip. Qed.
Lemma isort_perm f l : Permutation l (fold_right (ins f) [] l).
Proof. induction l; cbn; [reflexivity|]. rewrite <- ins_perm. now apply perm_skip. Qed.
Inductive srt (f : rvec) : list nat -> Prop := srt0 : srt f [] | srtS i l : (forall j, In j l -> f i <= f j) -> srt f l -> srt f (i :: l).
Lemma ins_srt f i l : srt f l -> srt f (ins f i l).
Proof.
  induction 1 as [|j l H S IH]; cbn; [constructor; [intros ? []|constructor]|]. destruct (Rle_dec (f i) (f j)) as [L|L].
  - constructor; [|now constructor]. intros x [<-|Hx]; [exact L|]. specialize (H x Hx). lra.
  - constructor; [|exact IH]. intros x Hx. eapply Permutation_in in Hx; [|symmetry; apply ins_perm]. destruct Hx as [<-|Hx]; [lra|auto].
Qed.
Lemma srt_nth f l i j : srt f l -> (i <= j)%nat -> (j < length l)%nat -> f (nth i l 0%nat) <= f (nth j l 0%nat).
Proof.
  intros S. revert i j. induction S as [|x l H S IH]; intros [|i] [|j] Hi Hj; cbn in *; try lia; try lra; [apply H, nth_In; lia|apply IH; lia].
Qed.
Lemma ins_ext f g i l : (forall j, In j l -> f i <= f j <-> g i <= g j) -> ins f i l = ins g i l.
Proof.
  induction l as [|j l IH]; intros H; cbn; [reflexivity|]. pose proof (H j (or_introl eq_refl)) as E. destruct (Rle_dec (f i) (f j)), (Rle_dec (g i) (g j)); try tauto. f_equal. apply IH. intros. apply H. now right.
Qed.
Theorem isort_ok : is_argsort isort.
Proof.
  split.
  - intros n f. split; [apply isort_perm|]. intros i j Hi Hj. apply srt_nth; [|exact Hi|].
    + unfold isort. induction (seq 0 n); cbn; [constructor|now apply ins_srt].
    + unfold isort. rewrite <- (Permutation_length (isort_perm f (seq 0 n))), seq_length. exact Hj.
  - intros n f g H. unfold isort. assert (K : forall l, (forall i, In i l -> (i < n)%nat) -> fold_right (ins f) [] l = fold_right (ins g) [] l).
    { induction l as [|i l IH]; intros Hl; cbn; [reflexivity|]. rewrite IH by (intros; apply Hl; now right). apply ins_ext. intros j Hj. apply H; [apply Hl; now left|]. apply Hl. right. eapply Permutation_in; [symmetry; apply isort_perm|exact Hj]. }
    apply K. intros i Hi. apply in_seq in Hi. lia.
Qed.
(** a solver for two unknowns: the rule of Cramer *)
Definition solve2 (k : nat) (q : rmat) : option rvec :=
  let det := q 0%nat 0%nat * q 1%nat 1%nat - q 0%nat 1%nat * q 1%nat 0%nat in
  if Req_EM_T det 0 then None else Some (fun i => if (i =? 0)%nat then (q 1%nat 1%nat - q 0%nat 1%nat) / det else (q 0%nat 0%nat - q 1%nat 0%nat) / det).
Lemma rsum2 f : rsum 2 f = f 0%nat + f 1%nat. Proof. unfold rsum, fsum. cbn. ring. Qed.
Lemma rsum1 f : rsum 1 f = f 0%nat. Proof. unfold rsum, fsum. cbn. ring. Qed.
Theorem solve2_ok : is_solve 2 solve2.
Proof.
  intros q. unfold solve2. set (a := q 0%nat 0%nat). set (b := q 0%nat 1%nat). set (c := q 1%nat 0%nat). set (e := q 1%nat 1%nat). destruct (Req_EM_T (a * e - b * c) 0) as [Z|Z].
  - unfold null. destruct (Req_EM_T a 0) as [A|A]; [destruct (Req_EM_T c 0) as [C|C]|].
    + exists (fun i => if (i =? 0)%nat then 1 else 0). split; [|exists 0%nat; split; [lia|cbn; lra]]. intros [|[|i]] Hi; try lia; rewrite rsum2; cbn; fold a b c e; rewrite ?A, ?C; ring.
    + assert (b = 0) by nra. exists (fun i => if (i =? 0)%nat then - e else c). split; [|exists 1%nat; split; [lia|exact C]]. intros [|[|i]] Hi; try lia; rewrite rsum2; cbn; fold a b c e; nra.
    + exists (fun i => if (i =? 0)%nat then - b else a). split; [|exists 1%nat; split; [lia|exact A]]. intros [|[|i]] Hi; try lia; rewrite rsum2; cbn; fold a b c e; nra.
  - split.
    + intros [|[|i]] Hi; try lia; rewrite rsum2; cbn; fold a b c e; field; exact Z.
    + intros v N. pose proof (N 0%nat ltac:(lia)) as N0. pose proof (N 1%nat ltac:(lia)) as N1. rewrite rsum2 in N0, N1. fold a b in N0. fold c e in N1.
      assert (E0 : (a * e - b * c) * v 0%nat = 0) by (replace ((a * e - b * c) * v 0%nat) with (e * (a * v 0%nat + b * v 1%nat) - b * (c * v 0%nat + e * v 1%nat)) by ring; rewrite N0, N1; ring).
      assert (E1 : (a * e - b * c) * v 1%nat = 0) by (replace ((a * e - b * c) * v 1%nat) with (a * (c * v 0%nat + e * v 1%nat) - c * (a * v 0%nat + b * v 1%nat)) by ring; rewrite N0, N1; ring).
      intros [|[|i]] Hi; try lia; [apply Rmult_integral in E0|apply Rmult_integral in E1]; tauto.
Qed.

Lemma nodup_app_l {A} (l r : list A) : NoDup (l ++ r) -> NoDup l.
Proof. induction l as [|x l IH]; intros H; [constructor|]. inversion H; subst. constructor; [intros I; apply H2, in_or_app; now left|auto]. Qed.

  Lemma rsum_sq0 n f : rsum n (fun a => f a * f a) = 0 -> forall a, (a < n)%nat -> f a = 0.
  Proof.
    intros E a Ha. assert (K : f a * f a <= rsum n (fun a => f a * f a)).
    { clear E. rewrite rsum_lsum. assert (In a (seq 0 n)) as I by (apply in_seq; lia). revert I. generalize (seq 0 n) as l. induction l as [|x l IH]; intros I; [destruct I|]. destruct I as [<-|I]; cbn; unfold fsum in *; cbn.
      - pose proof (lsum_nonneg (fun a => f a * f a) l ltac:(intros; apply Rle_0_sqr)) as K. unfold lsum, fsum in K. lra.
      - specialize (IH I). unfold lsum, fsum in IH. pose proof (Rle_0_sqr (f x)) as K. unfold Rsqr in K. lra. }
    rewrite E in K. pose proof (Rle_0_sqr (f a)) as K2. unfold Rsqr in K2. assert (f a * f a = 0) by lra. apply Rmult_integral in H. tauto.
  Qed.
Section Lle.
  Variables (d : nat) (argsort : nat -> rvec -> list nat) (sig2 : nat -> rmat -> list R) (solve : nat -> rmat -> option rvec).
  Hypothesis Hsort : is_argsort argsort.
  Local Notation nbt := (nbrs_train d argsort).
  Local Notation nbe := (nbrs_exec d argsort).
  Local Notation train := (train d argsort sig2 solve).
  Local Notation train_row := (train_row d argsort sig2 solve).
  Local Notation dist2 := (dist2 d).

  Lemma sort_len n f : length (argsort n f) = n.
  Proof. rewrite <- (Permutation_length (proj1 (proj1 Hsort n f))). apply seq_length. Qed.
  Lemma nbt_len n k m row : length (nbt n k m row) = Nat.min k (n - 1).
  Proof. unfold nbrs_train. now rewrite firstn_length, skipn_length, sort_len. Qed.
  Lemma nbe_len n k m x : length (nbe n k m x) = Nat.min k n.
  Proof. unfold nbrs_exec. now rewrite firstn_length, sort_len. Qed.

  Lemma seq_rows_ok {A} (f : nat -> A + lexn) l r : seq_rows f l = inl r -> length r = length l /\ forall i dflt, (i < length l)%nat -> f (nth i l 0%nat) = inl (nth i r dflt).
  Proof.
    revert r. induction l as [|x l IH]; intros r H; cbn in H; [injection H as <-; split; [reflexivity|cbn; lia]|]. destruct (f x) as [a|] eqn:E; [|discriminate]. destruct (seq_rows f l) as [q|] eqn:E2; [|discriminate]. injection H as <-. destruct (IH q eq_refl) as (L & P). cbn. split; [lia|]. intros [|i] dflt Hi; [exact E|]. apply P. lia.
  Qed.
  Lemma seq_rows_total {A} (f : nat -> A + lexn) l : (forall i, In i l -> exists a, f i = inl a) -> exists r, seq_rows f l = inl r.
  Proof. induction l as [|x l IH]; intros H; cbn; [eauto|]. destruct (H x (or_introl eq_refl)) as (a & ->). destruct IH as (r & ->); [intros; apply H; now right|]. eauto. Qed.

  (** C447: too many neighbours *)
  Theorem C447_index n k od r m : (n = k)%nat -> (1 <= n)%nat -> train n k od r m = inr LIndex.
  Proof.
    intros -> H. unfold LleModel.train. rewrite Nat.ltb_irrefl. destruct k as [|k]; [lia|]. cbn [seq seq_rows]. unfold LleModel.train_row. rewrite nbt_len. replace (Nat.min (S k) (S k - 1) <? S k)%nat with true; [reflexivity|]. symmetry. apply Nat.ltb_lt. lia.
  Qed.
  Theorem C447_exception n k od r m : (n < k)%nat <-> train n k od r m = inr LTraining.
  Proof.
    unfold LleModel.train. split; [intros H; apply Nat.ltb_lt in H; now rewrite H|]. destruct (Nat.ltb_spec n k); [auto|]. intros E. exfalso.
    assert (K : forall l, seq_rows (train_row n k od r m) l <> inr LTraining); [|now apply (K (seq 0 n))]. clear E. induction l as [|x l IH]; cbn; [discriminate|]. unfold LleModel.train_row at 1. destruct (_ <? k)%nat; [discriminate|]. unfold weights_of. destruct (solve _ _); [|discriminate]. destruct (Req_EM_T _ 0); [discriminate|]. destruct (seq_rows _ l); [discriminate|congruence].
  Qed.
  Theorem C447_enough n k od r m : (k < n)%nat -> train n k od r m <> inr LIndex /\ train n k od r m <> inr LTraining.
  Proof.
    intros H. split; [|intros E; apply C447_exception in E; lia]. unfold LleModel.train. destruct (Nat.ltb_spec n k); [lia|].
    generalize (seq 0 n) as l. induction l as [|x l IH]; cbn; [discriminate|]. unfold LleModel.train_row at 1. rewrite nbt_len. replace (Nat.min k (n - 1) <? k)%nat with false by (symmetry; apply Nat.ltb_ge; lia). unfold weights_of. destruct (solve _ _); [|discriminate]. destruct (Req_EM_T _ 0); [discriminate|]. destruct (seq_rows _ l); [discriminate|congruence].
  Qed.

  Lemma dist2_nonneg m x t : 0 <= dist2 m x t. Proof. apply lsum_nonneg. intros a _. apply Rle_0_sqr. Qed.
  Lemma dist2_self m row : dist2 m (m row) row = 0. Proof. apply rsum_zero. intros. ring. Qed.
  (** C448: the neighbours of a point which occurs once are the k nearest other points *)
  Theorem C448_neighbours n k m row : (k < n)%nat -> (row < n)%nat -> (forall t, (t < n)%nat -> t <> row -> exists a, (a < d)%nat /\ m t a <> m row a) ->
    let l := nbt n k m row in length l = k /\ NoDup l /\ (forall t, In t l -> (t < n)%nat /\ t <> row) /\
    forall t u, In t l -> (u < n)%nat -> u <> row -> ~ In u l -> dist2 m (m row) t <= dist2 m (m row) u.
  Proof using Hsort.
    clear sig2 solve.
    intros Hk Hr Hd l. set (f := dist2 m (m row)). destruct (proj1 Hsort n f) as (P & S). assert (L : length (argsort n f) = n) by apply sort_len.
    assert (Hl : length l = k) by (unfold l; rewrite nbt_len; lia). assert (ND : NoDup (argsort n f)) by (eapply Permutation_NoDup; [exact P|apply seq_NoDup]).
    assert (Hin : forall t, In t (argsort n f) <-> (t < n)%nat). { intros t. split; intros H; [eapply Permutation_in in H; [|symmetry; exact P]; apply in_seq in H; lia|]. eapply Permutation_in; [exact P|]. apply in_seq. lia. }
    assert (Eh : exists rest, argsort n f = row :: rest).
    { destruct (argsort n f) as [|h rest] eqn:Ea; [cbn in L; lia|]. exists rest. f_equal. destruct (Nat.eq_dec h row) as [|Ne]; [assumption|exfalso].
      assert (Hh : (h < n)%nat) by (apply Hin; now left). assert (In row (h :: rest)) as I by now apply Hin. apply (In_nth _ _ 0%nat) in I. destruct I as (j & Hj & Ej).
      assert (Hle : f h <= f row). { rewrite <- Ej. change h with (nth 0 (h :: rest) 0%nat) at 1. apply S; [lia|]. cbn [length] in *. lia. }
      unfold f in Hle. rewrite dist2_self in Hle. pose proof (dist2_nonneg m (m row) h) as Ge. destruct (Hd h Hh Ne) as (a & Ha & Na). apply Na. assert (E : dist2 m (m row) h = 0) by lra. apply (rsum_sq0 d (fun a => m h a - m row a)) with (a := a) in E; [lra|exact Ha]. }
    destruct Eh as (rest & Er). assert (El : l = firstn k rest) by (unfold l, nbrs_train; fold f; rewrite Er; reflexivity).
    rewrite Er in ND, Hin, S, L. inversion ND as [|? ? Nr ND']; subst x l0. rewrite El. cbn [length] in L. split; [rewrite firstn_length; lia|].
    pose proof (firstn_skipn k rest) as Fs. split; [rewrite <- Fs in ND'; now apply nodup_app_l in ND'|]. split.
    - intros t Ht. assert (It : In t rest) by (rewrite <- Fs; apply in_or_app; now left). split; [apply Hin; now right|]. intros ->. contradiction.
    - intros t u Ht Hu Nu Nin. assert (Iu : In u (skipn k rest)). { assert (I : In u (row :: rest)) by now apply Hin. destruct I as [|I]; [congruence|]. rewrite <- Fs in I. apply in_app_or in I. tauto. }
      apply (In_nth _ _ 0%nat) in Ht. destruct Ht as (i & Hi & Ei). rewrite firstn_length in Hi. apply (In_nth _ _ 0%nat) in Iu. destruct Iu as (j & Hj & Ej). rewrite skipn_length in Hj.
      assert (Nf : nth i (firstn k rest) 0%nat = nth i rest 0%nat). { rewrite <- Fs at 2. rewrite app_nth1; [reflexivity|rewrite firstn_length; lia]. }
      assert (Ns : nth j (skipn k rest) 0%nat = nth (k + j) rest 0%nat). { rewrite <- Fs at 2. rewrite app_nth2; rewrite firstn_length; [f_equal; lia|lia]. }
      rewrite <- Ei, <- Ej, Nf, Ns. apply (S (Datatypes.S i) (Datatypes.S (k + j))); lia.
  Qed.

  (** ** the weights *)
  Definition qf (k : nat) (q : rmat) (v : rvec) : R := rsum k (fun i => v i * rsum k (fun j => q i j * v j)).
  Definition psd (k : nat) (q : rmat) : Prop := (forall i j, q i j = q j i) /\ forall v, 0 <= qf k q v.
  Lemma gram_qf k m x l v : qf k (gram d m x l) v = rsum d (fun a => (rsum k (fun i => v i * diffs m x l i a)) * (rsum k (fun i => v i * diffs m x l i a))).
  Proof.
    unfold qf, gram. transitivity (rsum k (fun i => rsum k (fun j => rsum d (fun a => v i * diffs m x l i a * (v j * diffs m x l j a))))).
    { apply rsum_ext. intros i _. rewrite <- rsum_mul. apply rsum_ext. intros j _. rewrite <- rsum_mulr, <- rsum_mul. apply rsum_ext. intros. ring. }
    transitivity (rsum k (fun i => rsum d (fun a => rsum k (fun j => v i * diffs m x l i a * (v j * diffs m x l j a))))); [apply rsum_ext; intros; apply rsum_swap|]. rewrite rsum_swap. apply rsum_ext. intros a _.
    rewrite <- rsum_mulr. apply rsum_ext. intros i _. now rewrite <- rsum_mul.
  Qed.
  Lemma gram_psd k m x l : psd k (gram d m x l).
  Proof. split; [intros i j; apply rsum_ext; intros; ring|]. intros v. rewrite gram_qf. apply lsum_nonneg. intros a _. apply Rle_0_sqr. Qed.
  Lemma qf_diag k c q v : qf k (add_diag c q) v = qf k q v + c * rsum k (fun i => v i * v i).
  Proof.
    unfold qf. rewrite <- rsum_mul, <- rsum_add. apply rsum_ext. intros i Hi. transitivity (v i * (rsum k (fun j => q i j * v j) + rsum k (fun j => if (j =? i)%nat then c * v j else 0))).
    - f_equal. rewrite <- rsum_add. apply rsum_ext. intros j _. unfold add_diag. rewrite (Nat.eqb_sym j i). destruct (i =? j)%nat; ring.
    - rewrite (rsum_pick k i (fun j => c * v j) Hi). ring.
  Qed.
  Lemma diag_psd k c q : 0 <= c -> psd k q -> psd k (add_diag c q).
  Proof.
    intros Hc (S & P). split; [intros i j; unfold add_diag; rewrite (Nat.eqb_sym j i); destruct (i =? j)%nat; now rewrite S|]. intros v. rewrite qf_diag. pose proof (P v). assert (0 <= rsum k (fun i => v i * v i)) by (apply lsum_nonneg; intros; apply Rle_0_sqr). nra.
  Qed.
  Lemma trace_nonneg k m x l : 0 <= trace k (gram d m x l).
  Proof. apply lsum_nonneg. intros i _. apply lsum_nonneg. intros a _. apply Rle_0_sqr. Qed.
  Hypothesis Hsig : forall k a, Forall (fun x => 0 <= x) (sig2 k a).
  Lemma unused_nonneg k od a : 0 <= unused sig2 k od a.
  Proof using Hsig.
    clear solve.
    unfold unused. assert (K : Forall (fun x => 0 <= x) (skipn od (sig2 k a))). { specialize (Hsig k a). rewrite <- (firstn_skipn od) in Hsig. apply Forall_app in Hsig. tauto. }
    induction K; cbn; lra.
  Qed.
  Lemma reg_psd k od r m x l : (forall c, r = Some c -> 0 <= c) -> psd k (reg_train d sig2 k od r m x l) /\ psd k (reg_exec d sig2 k od r m x l).
  Proof using Hsig.
    clear solve.
    intros Hr. pose proof (gram_psd k m x l) as G. pose proof (unused_nonneg k od (diffs m x l)) as U. pose proof (trace_nonneg k m x l) as Tr. unfold reg_train, reg_exec. cbv zeta. destruct r as [r|].
    - specialize (Hr r eq_refl). split; apply diag_psd; auto. nra.
    - split; [now apply diag_psd|]. destruct (od <? k)%nat; [apply diag_psd; [exact U|now apply diag_psd]|exact G].
  Qed.

  (** C449: the weights sum to one and are the best ones *)
  Theorem C449_best k q w : is_solve k solve -> psd k q -> weights_of solve k q = inl w -> rsum k w = 1 /\ forall v, rsum k v = 1 -> qf k q w <= qf k q v.
  Proof.
    intros Hs (Sy & P) E. unfold weights_of in E. specialize (Hs q). destruct (solve k q) as [w0|]; [|discriminate]. destruct Hs as (Hs & _). set (s := rsum k w0) in *. cbv zeta in E. destruct (Req_EM_T s 0) as [|Ns]; [discriminate|]. injection E as <-.
    assert (S1 : rsum k (fun i => w0 i / s) = 1). { unfold Rdiv. rewrite rsum_mulr. fold s. field. exact Ns. }
    split; [exact S1|]. intros v Hv. set (w := fun i => w0 i / s) in *. set (e := fun i => v i - w i).
    assert (Qw : forall i, (i < k)%nat -> rsum k (fun j => q i j * w j) = / s). { intros i Hi. transitivity (rsum k (fun j => q i j * w0 j * / s)); [apply rsum_ext; intros; unfold w; field; exact Ns|]. rewrite rsum_mulr, Hs by exact Hi. ring. }
    assert (Se : rsum k e = 0). { unfold e. rewrite rsum_sub, Hv, S1. ring. }
    assert (Ex : qf k q v = qf k q w + 2 * (/ s * rsum k e) + qf k q e).
    { assert (C1 : rsum k (fun i => e i * rsum k (fun j => q i j * w j)) = / s * rsum k e). { rewrite <- rsum_mul. apply rsum_ext. intros i Hi. rewrite Qw by exact Hi. ring. }
      assert (C2 : rsum k (fun i => w i * rsum k (fun j => q i j * e j)) = / s * rsum k e).
      { rewrite <- C1. transitivity (rsum k (fun i => rsum k (fun j => w i * q i j * e j))); [apply rsum_ext; intros; rewrite <- rsum_mul; apply rsum_ext; intros; ring|]. rewrite rsum_swap. apply rsum_ext. intros i _. rewrite <- rsum_mul. apply rsum_ext. intros j _. rewrite (Sy j i). ring. }
      transitivity (qf k q w + rsum k (fun i => e i * rsum k (fun j => q i j * w j)) + rsum k (fun i => w i * rsum k (fun j => q i j * e j)) + qf k q e); [|rewrite C1, C2; ring].
      unfold qf. rewrite <- !rsum_add. apply rsum_ext. intros i _. assert (Ei : rsum k (fun j => q i j * v j) = rsum k (fun j => q i j * w j) + rsum k (fun j => q i j * e j)). { rewrite <- rsum_add. apply rsum_ext. intros. unfold e. ring. } rewrite Ei. unfold e. ring. }
    rewrite Ex, Se. pose proof (P e). lra.
  Qed.
  Lemma scatter_out l w j : ~ In j l -> scatter l w j = 0.
  Proof. revert w. induction l as [|x l IH]; intros w H; cbn; [reflexivity|]. destruct (Nat.eqb_spec x j); [exfalso; apply H; now left|]. apply IH. intros I. apply H. now right. Qed.
  Lemma scatter_nth l w i : NoDup l -> (i < length l)%nat -> scatter l w (nth i l 0%nat) = w i.
  Proof.
    intros ND. revert w i. induction ND as [|x l Hx ND IH]; intros w [|i] Hi; cbn in *; try lia; [now rewrite Nat.eqb_refl|]. destruct (Nat.eqb_spec x (nth i l 0%nat)) as [E|]; [exfalso; apply Hx; rewrite E; apply nth_In; lia|]. apply (IH (fun i => w (S i))). lia.
  Qed.
  Lemma scatter_sum n l w g : NoDup l -> (forall j, In j l -> (j < n)%nat) -> rsum n (fun j => scatter l w j * g j) = rsum (length l) (fun i => w i * g (nth i l 0%nat)).
  Proof.
    intros ND. revert w. induction ND as [|x l Hx ND IH]; intros w Hn; cbn [length].
    - apply rsum_zero. intros. cbn. ring.
    - transitivity (rsum n (fun j => (if (j =? x)%nat then w 0%nat * g j else 0) + scatter l (fun i => w (S i)) j * g j)).
      + apply rsum_ext. intros j _. cbn [scatter]. rewrite (Nat.eqb_sym j x). destruct (Nat.eqb_spec x j) as [<-|]; [rewrite scatter_out by exact Hx|]; ring.
      + rewrite rsum_add, (rsum_pick n x (fun j => w 0%nat * g j)) by (apply Hn; now left). rewrite IH by (intros; apply Hn; now right). symmetry. rewrite !rsum_lsum. unfold lsum. cbn [seq map]. unfold fsum. cbn [fold_right nth]. f_equal. rewrite <- seq_shift, map_map. reflexivity.
  Qed.
  Lemma sort_facts n f k : NoDup (firstn k (argsort n f)) /\ NoDup (firstn k (skipn 1 (argsort n f))) /\ forall j, In j (firstn k (argsort n f)) \/ In j (firstn k (skipn 1 (argsort n f))) -> (j < n)%nat.
  Proof.
    destruct (proj1 Hsort n f) as (P & _). assert (ND : NoDup (argsort n f)) by (eapply Permutation_NoDup; [exact P|apply seq_NoDup]).
    assert (Hin : forall t, In t (argsort n f) -> (t < n)%nat). { intros t H. eapply Permutation_in in H; [|symmetry; exact P]. apply in_seq in H. lia. }
    assert (F : forall l : list nat, NoDup l -> NoDup (firstn k l)) by (intros l H; rewrite <- (firstn_skipn k l) in H; now apply nodup_app_l in H).
    assert (I1 : forall (l : list nat) j, In j (firstn k l) -> In j l) by (intros l j H; rewrite <- (firstn_skipn k l); apply in_or_app; now left).
    assert (I2 : forall (l : list nat) j, In j (skipn 1 l) -> In j l) by (intros [|x l] j H; [destruct H|now right]).
    split; [now apply F|]. split; [apply F; destruct (argsort n f); [constructor|now inversion ND]|]. intros j [H|H]; apply Hin; [now apply I1|now apply I2, I1].
  Qed.
  (** the columns of the weight matrix: zero but for the neighbours, sum one, best reconstruction of the point with the regularization *)
  Theorem C449_matrix n k od r m cols : is_solve k solve -> (forall c, r = Some c -> 0 <= c) -> train n k od r m = inl cols ->
    forall row, (row < n)%nat -> rsum n (fun j => wmat cols j row) = 1 /\ (forall j, ~ In j (nbt n k m row) -> wmat cols j row = 0) /\
    exists w, (forall i, (i < k)%nat -> wmat cols (nth i (nbt n k m row) 0%nat) row = w i) /\ forall v, rsum k v = 1 -> qf k (reg_train d sig2 k od r m (m row) (nbt n k m row)) w <= qf k (reg_train d sig2 k od r m (m row) (nbt n k m row)) v.
  Proof using Hsort Hsig.
    intros Hs Hr E row Hrow. unfold LleModel.train in E. destruct (n <? k)%nat; [discriminate|]. apply seq_rows_ok in E. destruct E as (L & E). rewrite seq_length in *. specialize (E row (fun _ => 0) Hrow). rewrite seq_nth in E by exact Hrow. cbn [plus] in E.
    unfold LleModel.train_row in E. set (l := nbt n k m row) in *. destruct (Nat.ltb_spec (length l) k) as [|Hl]; [discriminate|]. assert (Hlk : length l = k) by (unfold l in *; rewrite nbt_len in *; lia).
    destruct (weights_of _ _ _) as [w|] eqn:Ew; [|discriminate]. injection E as E. destruct (C449_best k _ w Hs (proj1 (reg_psd k od r m (m row) l Hr)) Ew) as (S1 & Best).
    assert (ND : NoDup l) by apply sort_facts. assert (Hn : forall j, In j l -> (j < n)%nat) by (intros j Hj; eapply (proj2 (proj2 (sort_facts n (dist2 m (m row)) k))); right; exact Hj).
    unfold wmat. rewrite <- E. split; [|split].
    - transitivity (rsum n (fun j => scatter l w j * 1)); [apply rsum_ext; intros; ring|]. rewrite (scatter_sum n l w (fun _ => 1) ND Hn), Hlk. transitivity (rsum k w); [apply rsum_ext; intros; ring|exact S1].
    - intros j Hj. now apply scatter_out.
    - exists w. split; [|exact Best]. intros i Hi. apply scatter_nth; [exact ND|lia].
  Qed.
End Lle.

(** ** C450: similar data *)
Lemma weights_scale solve k q q' c w : is_solve k solve -> c <> 0 -> (forall i j, (i < k)%nat -> (j < k)%nat -> q' i j = c * q i j) -> weights_of solve k q = inl w ->
  exists w', weights_of solve k q' = inl w' /\ forall i, (i < k)%nat -> w' i = w i.
Proof.
  intros Hs Hc Hq E. unfold weights_of in E |- *. pose proof (Hs q) as S. pose proof (Hs q') as S'. destruct (solve k q) as [w0|]; [|discriminate]. destruct S as (S & U). cbv zeta in *. destruct (Req_EM_T (rsum k w0) 0) as [|Ns]; [discriminate|]. injection E as <-.
  assert (R : forall v i, (i < k)%nat -> rsum k (fun j => q' i j * v j) = c * rsum k (fun j => q i j * v j)). { intros v i Hi. rewrite <- rsum_mul. apply rsum_ext. intros j Hj. rewrite Hq by assumption. ring. }
  destruct (solve k q') as [w1|].
  - destruct S' as (S' & _). assert (Ew : forall i, (i < k)%nat -> w1 i = w0 i * / c).
    { intros i Hi. assert (N : null k q (fun i => c * w1 i - w0 i)). { intros x Hx. transitivity (c * rsum k (fun j => q x j * w1 j) - rsum k (fun j => q x j * w0 j)); [rewrite <- rsum_mul, <- rsum_sub; apply rsum_ext; intros; ring|]. rewrite <- R, S', S by exact Hx. ring. }
      specialize (U _ N i Hi). cbv beta in U. replace (w0 i) with (c * w1 i) by lra. field. exact Hc. }
    assert (Es : rsum k w1 = rsum k w0 * / c) by (rewrite <- rsum_mulr; now apply rsum_ext). destruct (Req_EM_T (rsum k w1) 0) as [Z|Z].
    + exfalso. rewrite Es in Z. apply Rmult_integral in Z. destruct Z as [Z|Z]; [contradiction|]. now apply Rinv_neq_0_compat in Z.
    + eexists. split; [reflexivity|]. intros i Hi. cbv beta. rewrite Es, (Ew i Hi). field. split; assumption.
  - exfalso. destruct S' as (v & Nv & i & Hi & Ni). apply Ni. apply (U v); [|exact Hi]. intros x Hx. specialize (Nv x Hx). rewrite R in Nv by exact Hx. apply Rmult_integral in Nv. destruct Nv; [contradiction|assumption].
Qed.
(** the inner products of the differences to a point are multiplied by c*c *)
Definition similar (n d d' : nat) (c : R) (m m' : rmat) : Prop := forall row i j, (row < n)%nat -> (i < n)%nat -> (j < n)%nat ->
  rsum d' (fun a => (m' i a - m' row a) * (m' j a - m' row a)) = c * c * rsum d (fun a => (m i a - m row a) * (m j a - m row a)).
Lemma similar_moved n d d' c rot b m : (forall x y, (x < d)%nat -> (y < d)%nat -> mult d' rot (transp rot) x y = eye x y) ->
  similar n d d' c m (fun i a => c * mult d m rot i a + b a).
Proof.
  intros O row i j _ _ _. transitivity (c * c * rsum d' (fun a => mult d (fun i x => m i x - m row x) rot i a * mult d (fun i x => m i x - m row x) rot j a)).
  - rewrite <- rsum_mul. apply rsum_ext. intros a _. assert (E : forall i, mult d (fun i x => m i x - m row x) rot i a = mult d m rot i a - mult d m rot row a). { intros i0. unfold mult, fmult. transitivity (rsum d (fun x => m i0 x * rot x a - m row x * rot x a)); [apply rsum_ext; intros; ring|apply rsum_sub]. } rewrite !E. ring.
  - f_equal. set (e := fun i x => m i x - m row x). change (rsum d' (fun a => mult d e rot i a * mult d e rot j a)) with (mult d' (mult d e rot) (transp (mult d e rot)) i j).
    transitivity (mult d e eye i i * 0 + mult d e (transp e) i j); [|unfold mult, fmult, transp, ftrans, e; ring_simplify; reflexivity]. rewrite Rmult_0_r, Rplus_0_l.
    transitivity (mult d' (mult d e rot) (mult d (transp rot) (transp e)) i j); [apply mult_ext; [reflexivity|intros; apply transp_mult]|]. rewrite <- mult_assoc. apply mult_ext; [|reflexivity]. intros x Hx. rewrite mult_assoc. transitivity (mult d e eye i x); [|now apply mult_eye_r]. apply mult_ext; [reflexivity|]. intros y Hy. now apply O.
Qed.
Section Similar.
  Variables (argsort : nat -> rvec -> list nat) (sig2 : nat -> rmat -> list R) (solve : nat -> rmat -> option rvec).
  Hypothesis Hsort : is_argsort argsort.
  Theorem C450_training n k od r d d' c m m' cols : is_solve k solve -> c <> 0 -> similar n d d' c m m' -> train d argsort sig2 solve n k od (Some r) m = inl cols ->
    exists cols', train d' argsort sig2 solve n k od (Some r) m' = inl cols' /\ forall row j, (row < n)%nat -> wmat cols' j row = wmat cols j row.
  Proof.
    intros Hs Hc Hm E. assert (Hcc : 0 < c * c) by (pose proof (Rsqr_pos_lt c Hc) as K; exact K).
    assert (En : forall row, (row < n)%nat -> nbrs_train d' argsort n k m' row = nbrs_train d argsort n k m row).
    { intros row Hr. unfold nbrs_train. f_equal. f_equal. apply (proj2 Hsort). intros i j Hi Hj. unfold dist2. rewrite (Hm row i i Hr Hi Hi), (Hm row j j Hr Hj Hj). set (x := rsum d (fun a => (m i a - m row a) * (m i a - m row a))). set (y := rsum d (fun a => (m j a - m row a) * (m j a - m row a))). split; intros; nra. }
    unfold train in *. destruct (n <? k)%nat; [discriminate|].
    assert (K : forall row, (row < n)%nat -> forall w, train_row d argsort sig2 solve n k od (Some r) m row = inl w -> exists w', train_row d' argsort sig2 solve n k od (Some r) m' row = inl w' /\ forall j, w' j = w j).
    { intros row Hr w Ew. unfold train_row in Ew |- *. rewrite (En row Hr). set (l := nbrs_train d argsort n k m row) in *. destruct (Nat.ltb_spec (length l) k) as [|Hl]; [discriminate|]. assert (Hlk : length l = k) by (pose proof (nbt_len d argsort Hsort n k m row) as NL; fold l in NL; lia).
      assert (Hn : forall i, (i < k)%nat -> (nth i l 0 < n)%nat) by (intros i Hi; apply (proj2 (proj2 (sort_facts argsort Hsort n (dist2 d m (m row)) k))); right; apply nth_In; change (i < length l)%nat; rewrite Hlk; exact Hi).
      destruct (weights_of solve k (reg_train d sig2 k od (Some r) m (m row) l)) as [w0|] eqn:E0; [|discriminate]. injection Ew as <-.
      assert (Eg : forall i j, (i < k)%nat -> (j < k)%nat -> gram d' m' (m' row) l i j = c * c * gram d m (m row) l i j) by (intros i j Hi Hj; apply Hm; auto).
      destruct (weights_scale solve k (reg_train d sig2 k od (Some r) m (m row) l) (reg_train d' sig2 k od (Some r) m' (m' row) l) (c * c) w0 Hs ltac:(lra)) with (2 := E0) as (w1 & E1 & Q1).
      { intros i j Hi Hj. unfold reg_train. cbv zeta. assert (Et : trace k (gram d' m' (m' row) l) = c * c * trace k (gram d m (m row) l)) by (unfold trace; rewrite <- rsum_mul; apply rsum_ext; intros; now apply Eg). rewrite Et. unfold add_diag. rewrite Eg by assumption. destruct (i =? j)%nat; ring. }
      rewrite E1. eexists. split; [reflexivity|]. intros j. clear -Q1 Hlk. assert (G : forall (l : list nat) (f g : rvec), (forall i, (i < length l)%nat -> f i = g i) -> scatter l f j = scatter l g j).
      { induction l0 as [|x l0 IH]; intros f g H; cbn; [reflexivity|]. destruct (x =? j)%nat; [apply H; cbn; lia|]. apply IH. intros i Hi. apply H. cbn. lia. }
      apply G. rewrite Hlk. exact Q1. }
    pose proof (seq_rows_ok _ _ _ E) as (L & P). rewrite seq_length in *. destruct (seq_rows_total (train_row d' argsort sig2 solve n k od (Some r) m') (seq 0 n)) as (cols' & E').
    { intros row Hr. apply in_seq in Hr. assert (Hr' : (row < n)%nat) by lia. specialize (P row (fun _ => 0) Hr'). rewrite seq_nth in P by exact Hr'. cbn [plus] in P. destruct (K row Hr' _ P) as (w' & -> & _). eauto. }
    exists cols'. split; [exact E'|]. intros row j Hr. specialize (P row (fun _ => 0) Hr). rewrite seq_nth in P by exact Hr. cbn [plus] in P. destruct (K row Hr _ P) as (w' & E1 & Q). pose proof (seq_rows_ok _ _ _ E') as (_ & P'). rewrite seq_length in P'. specialize (P' row (fun _ => 0) Hr). rewrite seq_nth in P' by exact Hr. cbn [plus] in P'. rewrite E1 in P'. injection P' as P'. unfold wmat. rewrite <- P'. apply Q.
  Qed.

  (** ** C453: the regularization *)
  Lemma regular k q c : (1 <= k)%nat -> 0 < c -> psd k q -> is_solve k solve -> exists w, weights_of solve k (add_diag c q) = inl w.
  Proof.
    intros Hk Hc P Hs. specialize (Hs (add_diag c q)). unfold weights_of.
    assert (Q0 : forall v, qf k (add_diag c q) v <= 0 -> forall i, (i < k)%nat -> v i = 0). { intros v Hv i Hi. rewrite qf_diag in Hv. pose proof (proj2 P v). assert (0 <= rsum k (fun i => v i * v i)) by (apply lsum_nonneg; intros; apply Rle_0_sqr). apply (rsum_sq0 k v); [nra|exact Hi]. }
    destruct (solve k (add_diag c q)) as [w|].
    - destruct Hs as (Hs & _). cbv zeta. destruct (Req_EM_T (rsum k w) 0) as [Z|]; [exfalso|eauto]. assert (Ew : qf k (add_diag c q) w = rsum k w) by (unfold qf; apply rsum_ext; intros i Hi; rewrite Hs by exact Hi; ring).
      assert (W0 : forall i, (i < k)%nat -> w i = 0) by (apply Q0; rewrite Ew, Z; lra). specialize (Hs 0%nat Hk). rewrite rsum_zero in Hs; [lra|]. intros i Hi. rewrite W0 by exact Hi. ring.
    - exfalso. destruct Hs as (v & Nv & i & Hi & Ni). apply Ni, Q0; [|exact Hi]. unfold qf. rewrite rsum_zero; [lra|]. intros x Hx. rewrite Nv by exact Hx. ring.
  Qed.
  Theorem C453_execute d n k od r m tp x : (1 <= k)%nat -> is_solve k solve -> 0 < r -> exists y, execute_row d argsort sig2 solve n k od (Some r) m tp x = inl y.
  Proof.
    intros Hk Hs Hr. unfold execute_row. set (l := nbrs_exec d argsort n k m x). destruct (regular k (gram d m x l) r Hk Hr (gram_psd d k m x l) Hs) as (w & E). unfold reg_exec. cbv zeta. rewrite E. eauto.
  Qed.
  Theorem C453_train d n k od r m : (1 <= k < n)%nat -> is_solve k solve -> 0 < r -> (forall i j, (i < n)%nat -> (j < n)%nat -> i <> j -> exists a, (a < d)%nat /\ m i a <> m j a) -> exists cols, train d argsort sig2 solve n k od (Some r) m = inl cols.
  Proof.
    intros Hk Hs Hr Hd. unfold train. destruct (Nat.ltb_spec n k); [lia|]. apply seq_rows_total. intros row Hrow. apply in_seq in Hrow. unfold train_row. set (l := nbrs_train d argsort n k m row).
    destruct (C448_neighbours d argsort Hsort n k m row) as (L & _ & Hin & _); [lia|lia|intros t Ht Nt; apply Hd; lia|]. fold l in L, Hin. rewrite L, Nat.ltb_irrefl. unfold reg_train. cbv zeta.
    assert (Tr : 0 < trace k (gram d m (m row) l)).
    { assert (Ge := trace_nonneg d k m (m row) l). destruct (Req_EM_T (trace k (gram d m (m row) l)) 0) as [Z|]; [exfalso|lra].
      assert (Z0 : gram d m (m row) l 0%nat 0%nat = 0). { destruct k as [|k]; [lia|]. unfold trace in Z. rewrite rsum_lsum in Z. unfold lsum, fsum in Z. cbn [seq map fold_right] in Z. pose proof (lsum_nonneg (fun i => gram d m (m row) l i i) (seq 1 k)) as G1. unfold lsum, fsum in G1. assert (0 <= gram d m (m row) l 0%nat 0%nat) by (apply lsum_nonneg; intros; apply Rle_0_sqr). assert (0 <= fold_right Rplus 0 (map (fun i => gram d m (m row) l i i) (seq 1 k))) by (apply G1; intros; apply lsum_nonneg; intros; apply Rle_0_sqr). lra. }
      destruct (Hin (nth 0 l 0%nat)) as (H0 & N0); [apply nth_In; lia|]. destruct (Hd (nth 0 l 0%nat) row H0 ltac:(lia) N0) as (a & Ha & Na). apply Na. apply (rsum_sq0 d (fun a => diffs m (m row) l 0%nat a)) with (a := a) in Z0; [unfold diffs in Z0; lra|exact Ha]. }
    destruct (regular k (gram d m (m row) l) (r * trace k (gram d m (m row) l)) ltac:(lia) ltac:(nra) (gram_psd d k m (m row) l) Hs) as (w & E). rewrite E. eauto.
  Qed.
  (** r = None, no variance left unused (also: output_dim not given): every training point fails *)
  Lemma exec_head d n k m row : (1 <= k)%nat -> (row < n)%nat -> let l := nbrs_exec d argsort n k m (m row) in forall j, gram d m (m row) l 0%nat j = 0.
  Proof.
    intros Hk Hr l j. destruct (proj1 Hsort n (dist2 d m (m row))) as (P & S). set (f := dist2 d m (m row)) in *.
    assert (I : In row (argsort n f)) by (eapply Permutation_in; [exact P|apply in_seq; lia]). apply (In_nth _ _ 0%nat) in I. destruct I as (i & Hi & Ei). rewrite (sort_len argsort Hsort) in Hi.
    pose proof (S 0%nat i ltac:(lia) Hi) as Le. rewrite Ei in Le. assert (Zr : f row = 0) by apply dist2_self. rewrite Zr in Le. set (h := nth 0 (argsort n f) 0%nat) in *. assert (Z : f h = 0) by (pose proof (dist2_nonneg d m (m row) h) as G; fold f in G; lra).
    unfold gram. apply rsum_zero. intros a Ha. assert (E : diffs m (m row) l 0%nat a = 0). { unfold diffs. replace (nth 0 l 0%nat) with h; [exact (rsum_sq0 d (fun a => m h a - m row a) Z a Ha)|]. unfold l, h, nbrs_exec. fold f. destruct k; [lia|]. destruct (argsort n f); reflexivity. } rewrite E. ring.
  Qed.
  Lemma singular_row k q : (1 <= k)%nat -> is_solve k solve -> (forall i, (i < k)%nat -> q i 0%nat = 0) -> weights_of solve k q = inr LLinAlg.
  Proof.
    intros Hk Hs H0. specialize (Hs q). unfold weights_of. destruct (solve k q) as [w|]; [exfalso|reflexivity]. destruct Hs as (_ & U). assert (1 = 0); [|lra]. apply (U (fun i => if (i =? 0)%nat then 1 else 0)) with (i := 0%nat); [|lia]. intros i Hi. transitivity (rsum k (fun j => if (j =? 0)%nat then q i j * 1 else 0)); [apply rsum_ext; intros j _; destruct (j =? 0)%nat; ring|]. rewrite (rsum_pick k 0 (fun j => q i j * 1)) by lia. rewrite H0 by exact Hi. ring.
  Qed.
  Theorem C453_refuted d n k od m tp row : (1 <= k)%nat -> (row < n)%nat -> is_solve k solve -> (forall k a, (length (sig2 k a) <= d)%nat) -> (k <= od \/ d <= od)%nat ->
    execute_row d argsort sig2 solve n k od None m tp (m row) = inr LLinAlg.
  Proof.
    intros Hk Hr Hs Hl Ho. unfold execute_row. set (l := nbrs_exec d argsort n k m (m row)). rewrite singular_row; [reflexivity|exact Hk|exact Hs|]. intros i Hi. pose proof (exec_head d n k m row Hk Hr) as G. cbv zeta in G. fold l in G.
    assert (Gs : gram d m (m row) l i 0%nat = 0) by (rewrite (proj1 (gram_psd d k m (m row) l)); apply G). unfold reg_exec. cbv zeta. destruct (Nat.ltb_spec od k); [|exact Gs].
    unfold add_diag. assert (U : unused sig2 k od (diffs m (m row) l) = 0) by (unfold unused; rewrite skipn_all2; [reflexivity|specialize (Hl k (diffs m (m row) l)); lia]). rewrite U. destruct (i =? 0)%nat; lra.
  Qed.

  (** ** C452: execute *)
  Theorem C452_combination d n k od r m tp x y : is_solve k solve -> (forall k a, Forall (fun x => 0 <= x) (sig2 k a)) -> (forall c, r = Some c -> 0 <= c) -> (k <= n)%nat -> execute_row d argsort sig2 solve n k od r m tp x = inl y ->
    let l := nbrs_exec d argsort n k m x in let q := reg_exec d sig2 k od r m x l in
    exists w, rsum k w = 1 /\ (forall b, y b = rsum k (fun i => w i * tp (nth i l 0%nat) b)) /\ forall v, rsum k v = 1 -> qf k q w <= qf k q v.
  Proof.
    intros Hs Hsig Hr Hk E l q. unfold execute_row in E. fold l in E. fold q in E. destruct (weights_of solve k q) as [w|] eqn:Ew; [|discriminate]. injection E as <-. destruct (C449_best solve k q w Hs (proj2 (reg_psd d sig2 Hsig k od r m x l Hr)) Ew) as (S1 & B). exists w. split; [exact S1|]. split; [|exact B]. intros b.
    rewrite (scatter_sum n l w (fun j => tp j b)); [|apply (sort_facts argsort Hsort)|intros j Hj; apply (proj2 (proj2 (sort_facts argsort Hsort n (dist2 d m x) k))); now left]. f_equal. unfold l. rewrite (nbe_len d argsort Hsort). lia.
  Qed.
End Similar.

(** ** Examples with the points 0, 1, 10 *)
Definition m3 : rmat := fun t _ => match t with 0%nat => 0 | 1%nat => 1 | _ => 10 end.
Definition no_sig (k : nat) (a : rmat) : list R := [].
Lemma m3_sort c x : 0 < c -> 0 <= x <= 1/4 -> isort 3 (dist2 1 (fun t a => c * m3 t a) (fun _ => c * x)) = [0; 1; 2]%nat.
Proof.
  intros Hc Hx. set (f := dist2 1 (fun t a => c * m3 t a) (fun _ => c * x)). assert (F0 : f 0%nat = c * c * (x * x)) by (unfold f, dist2; rewrite rsum1; unfold m3; ring). assert (F1 : f 1%nat = c * c * ((1 - x) * (1 - x))) by (unfold f, dist2; rewrite rsum1; unfold m3; ring). assert (F2 : f 2%nat = c * c * ((10 - x) * (10 - x))) by (unfold f, dist2; rewrite rsum1; unfold m3; ring).
  assert (0 < c * c) by nra. unfold isort. cbn [seq fold_right ins]. destruct (Rle_dec (f 1%nat) (f 2%nat)) as [|N]; [|exfalso; apply N; rewrite F1, F2; apply Rmult_le_compat_l; nra]. cbn [ins]. destruct (Rle_dec (f 0%nat) (f 1%nat)) as [|N]; [reflexivity|exfalso; apply N; rewrite F0, F1; apply Rmult_le_compat_l; nra].
Qed.
Lemma m3_execute c x r tp : 0 < c -> 0 <= x <= 1/4 -> 0 < r ->
  exists y, execute_row 1 isort no_sig solve2 3 2 1 (Some r) (fun t a => c * m3 t a) tp (fun _ => c * x) = inl y /\ y 0%nat = ((c * c * (1 - x) + r) * tp 0%nat 0%nat + (c * c * x + r) * tp 1%nat 0%nat) / (c * c + 2 * r).
Proof.
  intros Hc Hx Hr. unfold execute_row, nbrs_exec. rewrite m3_sort by assumption. cbn [firstn]. set (q := reg_exec 1 no_sig 2 1 (Some r) (fun t a => c * m3 t a) (fun _ => c * x) [0; 1]%nat).
  assert (Q00 : q 0%nat 0%nat = c * c * (x * x) + r) by (unfold q, reg_exec, add_diag, gram, diffs; cbn [Nat.eqb nth]; rewrite rsum1; unfold m3; ring). assert (Q01 : q 0%nat 1%nat = c * c * (- x * (1 - x))) by (unfold q, reg_exec, add_diag, gram, diffs; cbn [Nat.eqb nth]; rewrite rsum1; unfold m3; ring).
  assert (Q10 : q 1%nat 0%nat = c * c * (- x * (1 - x))) by (unfold q, reg_exec, add_diag, gram, diffs; cbn [Nat.eqb nth]; rewrite rsum1; unfold m3; ring). assert (Q11 : q 1%nat 1%nat = c * c * ((1 - x) * (1 - x)) + r) by (unfold q, reg_exec, add_diag, gram, diffs; cbn [Nat.eqb nth]; rewrite rsum1; unfold m3; ring).
  assert (Hcc : 0 < c * c) by nra. unfold weights_of, solve2. rewrite Q00, Q01, Q10, Q11. set (det := (c * c * (x * x) + r) * (c * c * ((1 - x) * (1 - x)) + r) - c * c * (- x * (1 - x)) * (c * c * (- x * (1 - x)))).
  assert (Ed : det = r * (c * c * (x * x) + c * c * ((1 - x) * (1 - x)) + r)) by (unfold det; ring). assert (Hx2 : 0 <= x * x) by nra. assert (Hx3 : 0 <= (1 - x) * (1 - x)) by nra. assert (Hd : 0 < det) by (rewrite Ed; apply Rmult_lt_0_compat; [exact Hr|nra]).
  destruct (Req_EM_T det 0); [lra|]. cbv zeta. rewrite rsum2. cbn [Nat.eqb].
  assert (Es : (c * c * ((1 - x) * (1 - x)) + r - c * c * (- x * (1 - x))) / det + (c * c * (x * x) + r - c * c * (- x * (1 - x))) / det = (c * c + 2 * r) / det) by (field; lra). rewrite Es.
  destruct (Req_EM_T ((c * c + 2 * r) / det) 0) as [Z|Z]; [exfalso; assert (0 < (c * c + 2 * r) / det) by (apply Rmult_lt_0_compat; [lra|now apply Rinv_0_lt_compat]); lra|].
  eexists. split; [reflexivity|]. cbv beta. unfold rsum, fsum. cbn [seq map fold_right scatter Nat.eqb]. field. repeat split; nra.
Qed.
(** C450 (refuted): execute depends on the scale of the data *)
Theorem C450_refuted : forall r tp, 0 < r -> tp 0%nat 0%nat <> tp 1%nat 0%nat ->
  exists y y', execute_row 1 isort no_sig solve2 3 2 1 (Some r) (fun t a => 1 * m3 t a) tp (fun _ => 1 * (1/4)) = inl y /\ execute_row 1 isort no_sig solve2 3 2 1 (Some r) (fun t a => 2 * m3 t a) tp (fun _ => 2 * (1/4)) = inl y' /\ y 0%nat <> y' 0%nat.
Proof.
  intros r tp Hr Ht. destruct (m3_execute 1 (1/4) r tp) as (y & E & Y); [lra|lra|exact Hr|]. destruct (m3_execute 2 (1/4) r tp) as (y' & E' & Y'); [lra|lra|exact Hr|]. exists y, y'. split; [exact E|]. split; [exact E'|]. rewrite Y, Y'. set (a := tp 0%nat 0%nat) in *. set (b := tp 1%nat 0%nat) in *. intros Eq.
  assert (K : ((1 * 1 * (1 - 1/4) + r) * a + (1 * 1 * (1/4) + r) * b) / (1 * 1 + 2 * r) - ((2 * 2 * (1 - 1/4) + r) * a + (2 * 2 * (1/4) + r) * b) / (2 * 2 + 2 * r) = (a - b) * (- (3/2) * r) / ((1 + 2 * r) * (4 + 2 * r))) by (field; lra).
  rewrite Eq in K. assert (Z : (a - b) * (- (3 / 2) * r) / ((1 + 2 * r) * (4 + 2 * r)) = 0) by lra. apply Ht. apply Rmult_integral in Z. destruct Z as [Z|Z]; [nra|]. assert (0 < / ((1 + 2 * r) * (4 + 2 * r))) by (apply Rinv_0_lt_compat; nra). lra.
Qed.
(** C452 (refuted): execute of a training point *)
Theorem C452_refuted : forall r tp, 0 < r -> tp 0%nat 0%nat <> tp 1%nat 0%nat -> exists y, execute_row 1 isort no_sig solve2 3 2 1 (Some r) (fun t a => 1 * m3 t a) tp (fun _ => 1 * 0) = inl y /\ y 0%nat <> tp 0%nat 0%nat.
Proof.
  intros r tp Hr Ht. destruct (m3_execute 1 0 r tp) as (y & E & Y); [lra|lra|exact Hr|]. exists y. split; [exact E|]. rewrite Y. set (a := tp 0%nat 0%nat) in *. set (b := tp 1%nat 0%nat) in *. intros Eq. assert (K : ((1 * 1 * (1 - 0) + r) * a + (1 * 1 * 0 + r) * b) / (1 * 1 + 2 * r) - a = r * (b - a) / (1 + 2 * r)) by (field; lra). rewrite Eq in K. assert (Z : r * (b - a) / (1 + 2 * r) = 0) by lra. apply Rmult_integral in Z. destruct Z as [Z|Z]; [nra|]. assert (0 < / (1 + 2 * r)) by (apply Rinv_0_lt_compat; lra). lra.
Qed.
(** C447 (refuted): k = n *)
Theorem C447_refuted : forall r, train 1 isort no_sig solve2 3 3 1 r m3 = inr LIndex. Proof. intros r. apply C447_index; [apply isort_ok|reflexivity|lia]. Qed.
(** C448 (refuted): a point which occurs twice is its own neighbour, the other copy is not *)
Definition m_dup : rmat := fun t _ => match t with 0%nat | 1%nat => 0 | _ => 1 end.
Theorem C448_refuted : nbrs_train 1 isort 3 1 m_dup 1 = [1]%nat.
Proof.
  unfold nbrs_train. set (f := dist2 1 m_dup (m_dup 1%nat)). assert (F0 : f 0%nat = 0) by (unfold f, dist2; rewrite rsum1; cbn; ring). assert (F1 : f 1%nat = 0) by (unfold f, dist2; rewrite rsum1; cbn; ring). assert (F2 : f 2%nat = 1) by (unfold f, dist2; rewrite rsum1; cbn; ring).
  unfold isort. cbn [seq fold_right ins]. rewrite F1, F2. destruct (Rle_dec 0 1); [|lra]. cbn [ins]. rewrite F0, F1. destruct (Rle_dec 0 0); [reflexivity|lra].
Qed.
