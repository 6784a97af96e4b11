(** Properties of QuadraticForm: C240-C247. *)
From Coq Require Import List Arith ZArith QArith Qcanon Bool Lia Sorting.Sorted Field Permutation Reals Lra.
From Verif Require Import OField LinAlg GenEig PCAModel SymeigModel SymeigProofs SymeigProps SFAModel ExpModel QuadModel QuadProofs.
Import ListNotations.
Open Scope nat_scope.

Section Props.
  Context {K : ofield}.
  Add Field Kq2 : (fth K).
  Notation vec := (vec (K := K)). Notation mtx := (mtx (K := K)). Notation qform := (qform (K := K)).
  Open Scope of_scope.
  Context (eig : nat -> mtx -> option (list K * list vec)) (argsort : list K -> list nat) (solve : nat -> mtx -> vec -> option vec) (qr : nat -> mtx -> list vec) (sqrt_ : K -> K) (atol rtol eps_f eps_l : K).
  Notation extrema := (get_extrema eig argsort solve sqrt_ eps_f eps_l).
  Notation maxim := (maximize eig argsort sqrt_ eps_l).
  Notation invariances := (get_invariances eig argsort qr sqrt_).
  Notation half := ((1 / (1 + 1)) : K).
  Notation nthv k V := (nth k V vzero).
  Notation nthd k D := (nth k D (0 : K)).

  (** ** C240: the value, the check of the constructor *)
  Theorem C240_apply : forall n H f c q x, qf_new atol rtol n H (Some f) (Some c) = QOk q ->
    qf_apply q x = half * fsumn n (fun i => fsumn n (fun j => x i * H i j * x j)) + fsumn n (fun i => f i * x i) + c.
  Proof.
    intros n H f c q x E. unfold qf_new in E. destruct (allclose _ _ _ _); [|discriminate]. injection E as <-. unfold qf_apply. cbn [q_n q_H q_f q_c]. f_equal. f_equal.
    - f_equal. apply fsumn_ext. intros i _. rewrite <- fsumn_mulr. apply fsumn_ext. intros. ring.
    - apply fsumn_ext. intros. ring.
  Qed.
  Theorem C240_default : forall n H q x, qf_new atol rtol n H None None = QOk q -> qf_apply q x = half * fsumn n (fun i => fsumn n (fun j => x i * H i j * x j)).
  Proof.
    intros n H q x E. unfold qf_new in E. destruct (allclose _ _ _ _); [|discriminate]. injection E as <-. unfold qf_apply. cbn [q_n q_H q_f q_c].
    replace (dot n x (fun _ => 0)) with (0 : K) by (symmetry; apply fsumn_zero; intros; ring).
    transitivity (half * fsumn n (fun j => fsumn n (fun k => x k * H j k) * x j)); [ring|]. f_equal. apply fsumn_ext. intros i _. rewrite <- fsumn_mulr. apply fsumn_ext. intros. ring.
  Qed.
  (** accepted exactly when every entry is within the tolerance of the transposed one; symmetric matrices are accepted *)
  Theorem C240_check : forall n H f c, (exists q, qf_new atol rtol n H f c = QOk q) <-> (forall i j, (i < n)%nat -> (j < n)%nat -> fabs (H i j - H j i) <= atol + rtol * fabs (H j i)).
  Proof.
    intros n H f c. unfold qf_new. assert (G : allclose atol rtol n H = true <-> (forall i j, (i < n)%nat -> (j < n)%nat -> fabs (H i j - H j i) <= atol + rtol * fabs (H j i))).
    { unfold allclose. rewrite forallb_forall. split.
      - intros A i j Hi Hj. specialize (A i ltac:(apply in_seq; lia)). rewrite forallb_forall in A. specialize (A j ltac:(apply in_seq; lia)). now apply negb_true_iff in A.
      - intros A i Hi. rewrite forallb_forall. intros j Hj. apply in_seq in Hi, Hj. apply negb_true_iff. apply A; lia. }
    rewrite <- G. destruct (allclose _ _ _ _); split; intros E; [reflexivity|eexists; reflexivity|destruct E; discriminate|discriminate].
  Qed.
  Theorem C240_symmetric : forall n H f c, 0 <= atol -> 0 <= rtol -> symmetric n H -> exists q, qf_new atol rtol n H f c = QOk q.
  Proof.
    intros n H f c A R S. apply C240_check. intros i j Hi Hj. rewrite (S i j) by assumption. replace (H j i - H j i) with (0 : K) by ring. rewrite fabs0. replace (0 : K) with (0 + 0 : K) by ring.
    apply fle_add2; [exact A|]. apply fle_mul0; [exact R|]. apply fabs_nonneg.
  Qed.

  (** contracts; the eigenvectors of a symmetric matrix are taken to be orthonormal *)
  Hypothesis eig_ok : forall n C D W, symmetric n C -> eig n C = Some (D, W) -> eigbasis n C D W.
  Hypothesis sort_ok : argsort_ok argsort.
  Hypothesis solve_ok : forall n A b x, solve n A b = Some x -> forall i, (i < n)%nat -> mulv n A x i = b i.
  Definition root (a : K) : Prop := 0 <= sqrt_ a /\ sqrt_ a * sqrt_ a = a.

  Lemma eigs n C mu V : symmetric n C -> eig_sort eig argsort n C = Some (mu, V) -> eigensystem n C mu V.
  Proof. intros S. apply eig_sort_ok; [intros D W; now apply eig_ok|exact sort_ok]. Qed.
  Definition opp_form (q : qform) : qform := mkQ (q_n q) (fun i j => - q_H q i j) (fun i => - q_f q i) (- q_c q).
  Lemma quad_opp n (C : mtx) a b : quad n (fun i j => - C i j) a b = - quad n C a b.
  Proof.
    unfold quad, dot, mulv. transitivity (fsumn n (fun i => (- (1)) * (a i * fsumn n (fun j => C i j * b j)))).
    - apply fsumn_ext. intros. rewrite (fsumn_ext n _ (fun j => (- (1)) * (C i j * b j))) by (intros; ring). rewrite fsumn_mul. ring.
    - rewrite fsumn_mul. ring.
  Qed.
  Lemma mulv_opp n (C : mtx) a i : mulv n (fun i j => - C i j) a i = - mulv n C a i.
  Proof. unfold mulv. rewrite (fsumn_ext n _ (fun j => (- (1)) * (C i j * a j))) by (intros; ring). rewrite fsumn_mul. ring. Qed.
  Lemma dot_opp n (a b : vec) : dot n a (fun i => - b i) = - dot n a b.
  Proof. unfold dot. rewrite (fsumn_ext n _ (fun j => (- (1)) * (a j * b j))) by (intros; ring). rewrite fsumn_mul. ring. Qed.
  Lemma apply_opp q x : qf_apply (opp_form q) x = - qf_apply q x.
  Proof. rewrite !apply_eq. unfold opp_form. cbn [q_n q_H q_f q_c]. rewrite quad_opp, dot_opp. ring. Qed.
  Lemma fle_opp (a b : K) : - a <= - b -> b <= a.
  Proof. intros H. apply fle_sub. apply fle_sub in H. now replace (- b - - a) with (a - b) in H by ring. Qed.
  Lemma sym_opp n (C : mtx) : symmetric n C -> symmetric n (fun i j => - C i j). Proof. intros S i j Hi Hj. now rewrite S. Qed.

  Lemma norm_pos n (f : vec) : root (dot n f f) -> (exists i, (i < n)%nat /\ f i <> 0) -> 0 < norm2 sqrt_ n f.
  Proof.
    intros [R1 R2] (i & Hi & Hf). destruct (fle_lt_eq _ _ R1) as [L|E]; [exact L|]. exfalso. apply Hf. apply fsq0.
    assert (Z : dot n f f = 0) by (rewrite <- R2, <- E; ring). unfold dot, fsumn in Z. apply (fsum_map_eq0 (seq 0 n) (fun i => f i * f i)); [intros; apply fsq|exact Z|apply in_seq; lia].
  Qed.

  (** the result of _maximize for the matrix H and the vector f *)
  Definition maximum (n : nat) (H : mtx) (f : vec) (norm tol : K) (x : vec) : Prop :=
    exists mu V l, eigensystem n H mu V /\ last mu 0 < l /\ l <= norm2 sqrt_ n f / norm + last mu 0 /\ (forall i, (i < n)%nat -> mulv n H x i = l * x i - f i) /\
      (fabs (dot n x x - norm * norm) <= tol \/
       exists ll lr, (lr - ll) / lr <= eps_l /\ last mu 0 <= ll /\ ll < lr /\ (l = ll \/ l = lr) /\ norm_x2 mu (map (fun v => dot n v f) V) lr <= norm * norm /\
         (ll = last mu 0 \/ norm * norm < norm_x2 mu (map (fun v => dot n v f) V) ll)).
  Lemma maximize_ok fuel q norm tol (neg : bool) x : let n := q_n q in let H : mtx := if neg then fun i j => - q_H q i j else q_H q in let f : vec := if neg then fun i => - q_f q i else q_f q in
    symmetric n (q_H q) -> 0 < norm -> (exists i, (i < n)%nat /\ f i <> 0) -> root (dot n f f) -> maxim fuel q norm tol neg = QOk x -> maximum n H f norm tol x.
  Proof.
    intros n H f SY HN HF HR E. unfold maximize in E. fold n H f in E. assert (SH : symmetric n H) by (unfold H; destruct neg; [now apply sym_opp|exact SY]).
    destruct (eig_sort eig argsort n H) as [[mu V]|] eqn:EE; [|discriminate]. apply eigs in EE; [|exact SH]. set (al := map (fun v => dot n v f) V) in *.
    destruct (bisect eps_l fuel mu al (norm * norm) tol (last mu 0) (norm2 sqrt_ n f / norm + last mu 0) 0 None) as [[[[ll lr] nx] [l|]]|] eqn:EB; try discriminate. injection E as <-.
    pose proof (norm_pos n f HR HF) as PF. assert (PW : 0 < norm2 sqrt_ n f / norm) by now apply fdiv_pos'.
    apply (bisect_ok eps_l mu al (last mu 0)) in EB; [|apply fle_refl|replace (norm2 sqrt_ n f / norm + last mu 0) with (last mu 0 + norm2 sqrt_ n f / norm) by ring; now apply flt_add_pos|now left| |intros l0 X; discriminate].
    2: { apply (norm_right n H mu V EE f (norm2 sqrt_ n f) norm HN PF). apply HR. }
    destruct EB as (B1 & B2 & B3 & B4 & B5 & B6 & B7 & _). destruct (B7 l eq_refl) as (N1 & N2 & N3). exists mu, V, l.
    change (fun i => fsum (map (fun p : K * K * vec => snd p i * snd (fst p) * (1 / (l - fst (fst p)))) (combine (combine mu al) V))) with (xl n mu V f l).
    split; [exact EE|]. split; [exact N3|]. split; [apply fle_trans with lr; [|exact B3]; destruct N2 as [-> | ->]; [now apply flt_le|apply fle_refl]|]. split.
    - apply (xl_solves n H mu V EE). intros k Hk X. apply (flt_not_le _ _ N3). rewrite <- X. now apply (mu_max n H mu V EE).
    - destruct B6 as [B6|B6]; [left; rewrite (xl_norm n H mu V EE); fold al; rewrite <- N1; exact B6|right]. exists ll, lr. repeat (split; [assumption|]). destruct B4; auto.
  Qed.
  Lemma maximum_le n H f norm tol x (q : qform) y : maximum n H f norm tol x -> q_n q = n -> q_H q = H -> q_f q = f ->
    exists l, (forall i, (i < n)%nat -> mulv n H x i + f i = l * x i) /\ qf_apply q y <= qf_apply q x + half * l * (dot n y y - dot n x x).
  Proof.
    intros (mu & V & l & ES & L1 & L2 & HX & _) E1 E2 E3. exists l. split; [intros i Hi; rewrite HX by exact Hi; ring|].
    apply (lagrange n H mu V ES q x y l E1 E2); [|rewrite E3; exact HX]. intros k Hk. apply fle_trans with (last mu 0); [now apply (mu_max n H mu V ES)|now apply flt_le].
  Qed.

  (** the three ways in which get_extrema finds xmax; the same for xmin with the opposite form *)
  Definition stationary (q : qform) (l : K) (x : vec) : Prop := forall i, (i < q_n q)%nat -> mulv (q_n q) (q_H q) x i + q_f q i = l * x i.
  Lemma all_small (q : qform) : 0 < eps_f -> (forallb (fun i => fltb (fabs (q_f q i)) eps_f) (seq 0 (q_n q)) = true <-> forall i, (i < q_n q)%nat -> fabs (q_f q i) < eps_f).
  Proof. intros H. rewrite forallb_forall. split; intros A i Hi; [apply A, in_seq; lia|apply in_seq in Hi; apply A; lia]. Qed.

  Lemma extrema_cases fuel q norm tol xmax xmin : let n := q_n q in (1 <= n)%nat -> 0 < eps_f -> symmetric n (q_H q) -> 0 < norm -> root (dot n (q_f q) (q_f q)) -> (forall x, solve n (fun i j => - q_H q i j) (q_f q) = Some x -> root (dot n x x)) ->
    extrema fuel q norm tol = QOk (xmax, xmin) ->
    ((forall i, (i < n)%nat -> fabs (q_f q i) < eps_f) /\ (exists mu V, eigensystem n (q_H q) mu V /\ (forall i, xmax i = nthv (n - 1) V i * norm) /\ (forall i, xmin i = nthv O V i * norm))) \/
    ((exists i, (i < n)%nat /\ eps_f <= fabs (q_f q i)) /\ (exists mu V, eigensystem n (q_H q) mu V /\
       (maximum n (q_H q) (q_f q) norm tol xmax \/ stationary q 0 xmax /\ dot n xmax xmax <= norm * norm /\ last mu 0 <= 0) /\
       (maximum n (fun i j => - q_H q i j) (fun i => - q_f q i) norm tol xmin \/ stationary q 0 xmin /\ dot n xmin xmin <= norm * norm /\ 0 <= hd 0 mu))).
  Proof.
    intros n Hn He SY HN HR HR0 E. unfold get_extrema in E. fold n in E. destruct (forallb _ (seq 0 n)) eqn:SM.
    - left. split; [now apply all_small|]. destruct (eig_sort eig argsort n (q_H q)) as [[mu V]|] eqn:EE; [|discriminate]. apply eigs in EE; [|exact SY]. injection E as <- <-.
      exists mu, V. split; [exact EE|]. destruct EE as (LD & LV & _). split; intros i; [now rewrite last_nth, LV|]. destruct V; reflexivity.
    - right. assert (NZ : exists i, (i < n)%nat /\ eps_f <= fabs (q_f q i)).
      { assert (G : forall l, forallb (fun i => fltb (fabs (q_f q i)) eps_f) l = false -> exists i, In i l /\ eps_f <= fabs (q_f q i)).
        { induction l as [|a l IH]; [discriminate|]. cbn [forallb]. destruct (fltb (fabs (q_f q a)) eps_f) eqn:B; [|intros _; exists a; split; [now left|exact B]]. intros H. destruct (IH H) as (i & I & J). exists i. split; [now right|exact J]. }
        destruct (G _ SM) as (i & I & J). apply in_seq in I. exists i. split; [lia|exact J]. }
      split; [exact NZ|]. assert (NZ' : exists i, (i < n)%nat /\ q_f q i <> 0).
      { destruct NZ as (i & Hi & B). exists i. split; [exact Hi|]. intros Z. rewrite Z, fabs0 in B. now apply (flt_not_le _ _ He). }
      destruct (eig_sort eig argsort n (q_H q)) as [[mu V]|] eqn:EE; [|discriminate]. apply eigs in EE; [|exact SY]. exists mu, V. split; [exact EE|].
      destruct (solve n (fun i j => - q_H q i j) (q_f q)) as [x0|] eqn:EX; [|discriminate].
      assert (ST : stationary q 0 x0). { intros i Hi. pose proof (solve_ok _ _ _ _ EX i Hi) as X. rewrite mulv_opp in X. fold n. rewrite <- X. ring. }
      assert (IN : negb (fltb norm (norm2 sqrt_ n x0)) = true -> dot n x0 x0 <= norm * norm).
      { intros B. apply negb_true_iff in B. destruct (HR0 x0 eq_refl) as [R1 R2]. unfold norm2 in B. rewrite <- R2. now apply fle_mul2. }
      assert (MX : forall x, (if negb (negb (fltb (hd 0 mu) 0)) && negb (fltb 0 (last mu 0)) && negb (fltb norm (norm2 sqrt_ n x0)) then QOk x0 else maxim fuel q norm tol false) = QOk x ->
                maximum n (q_H q) (q_f q) norm tol x \/ stationary q 0 x /\ dot n x x <= norm * norm /\ last mu 0 <= 0).
      { intros x B. destruct (negb (negb (fltb (hd 0 mu) 0)) && negb (fltb 0 (last mu 0))) eqn:B1; cbn [andb] in B; [destruct (negb (fltb norm (norm2 sqrt_ n x0))) eqn:B2|].
        - injection B as <-. right. split; [exact ST|]. split; [now apply IN|]. apply andb_true_iff in B1. destruct B1 as [_ B1]. now apply negb_true_iff in B1.
        - left. exact (maximize_ok fuel q norm tol false x SY HN NZ' HR B).
        - left. exact (maximize_ok fuel q norm tol false x SY HN NZ' HR B). }
      assert (MN : forall x, (if negb (fltb (hd 0 mu) 0) && negb (fltb norm (norm2 sqrt_ n x0)) then QOk x0 else maxim fuel q norm tol true) = QOk x ->
                maximum n (fun i j => - q_H q i j) (fun i => - q_f q i) norm tol x \/ stationary q 0 x /\ dot n x x <= norm * norm /\ 0 <= hd 0 mu).
      { intros x B. assert (HR' : root (dot n (fun i => - q_f q i) (fun i => - q_f q i))) by (replace (dot n (fun i => - q_f q i) (fun i => - q_f q i)) with (dot n (q_f q) (q_f q)) by (apply fsumn_ext; intros; ring); exact HR).
        assert (NZ2 : exists i, (i < n)%nat /\ - q_f q i <> 0). { destruct NZ' as (i & Hi & Z). exists i. split; [exact Hi|]. intros X. apply Z. transitivity (- - q_f q i); [ring|]. rewrite X. ring. }
        destruct (negb (fltb (hd 0 mu) 0)) eqn:B1; cbn [andb] in B; [destruct (negb (fltb norm (norm2 sqrt_ n x0))) eqn:B2|].
        - injection B as <-. right. split; [exact ST|]. split; [now apply IN|]. now apply negb_true_iff in B1.
        - left. exact (maximize_ok fuel q norm tol true x SY HN NZ2 HR' B).
        - left. exact (maximize_ok fuel q norm tol true x SY HN NZ2 HR' B). }
      cbv zeta in E. destruct (if negb (fltb (hd 0 mu) 0) && negb (fltb norm (norm2 sqrt_ n x0)) then QOk x0 else maxim fuel q norm tol true) as [xn|e] eqn:EN; [|discriminate].
      destruct (if negb (negb (fltb (hd 0 mu) 0)) && negb (fltb 0 (last mu 0)) && negb (fltb norm (norm2 sqrt_ n x0)) then QOk x0 else maxim fuel q norm tol false) as [xm|e] eqn:EM; [|discriminate].
      injection E as <- <-. split; [now apply MX|now apply MN].
  Qed.

  (** the conditions on the calls of get_extrema; [roots] : the square roots taken are exact *)
  Definition roots (q : qform) : Prop :=
    root (dot (q_n q) (q_f q) (q_f q)) /\ (forall x, solve (q_n q) (fun i j => - q_H q i j) (q_f q) = Some x -> root (dot (q_n q) x x)).

  (** ** C241: no linear term *)
  Lemma zero_branch fuel q norm tol xmax xmin : let n := q_n q in (1 <= n)%nat -> symmetric n (q_H q) -> (forall i, (i < n)%nat -> fabs (q_f q i) < eps_f) -> extrema fuel q norm tol = QOk (xmax, xmin) ->
    exists mu V, eigensystem n (q_H q) mu V /\ (forall i, xmax i = nthv (n - 1) V i * norm) /\ (forall i, xmin i = nthv O V i * norm).
  Proof.
    intros n Hn SY HF E. unfold get_extrema in E. fold n in E. rewrite (proj2 (forallb_forall (fun i => fltb (fabs (q_f q i)) eps_f) (seq 0 n))) in E by (intros i Hi; apply in_seq in Hi; apply HF; lia).
    destruct (eig_sort eig argsort n (q_H q)) as [[mu V]|] eqn:EE; [|discriminate]. apply eigs in EE; [|exact SY]. injection E as <- <-.
    exists mu, V. split; [exact EE|]. destruct EE as (LD & LV & _). split; intros i; [now rewrite last_nth, LV|]. destruct V; reflexivity.
  Qed.
  Lemma scaled n (H : mtx) mu V k norm (x : vec) : eigensystem n H mu V -> (k < n)%nat -> (forall i, x i = nthv k V i * norm) ->
    dot n x x = norm * norm /\ forall i, (i < n)%nat -> mulv n H x i = nthd k mu * x i.
  Proof.
    intros ES Hk HX. assert (E : forall i, x i = norm * nthv k V i) by (intros i; rewrite HX; ring). split.
    - rewrite (dot_ext n x (fun i => norm * nthv k V i) x (fun i => norm * nthv k V i)) by auto. rewrite dot_scale, dot_scale_l, (eig_unit n H mu V ES k Hk). ring.
    - intros i Hi. unfold mulv. rewrite (fsumn_ext n _ (fun j => norm * (H i j * nthv k V j))) by (intros; rewrite E; ring). rewrite fsumn_mul.
      change (fsumn n (fun j => H i j * nthv k V j)) with (mulv n H (nthv k V) i). destruct ES as (_ & _ & _ & _ & EV & _). rewrite EV by assumption. rewrite E. ring.
  Qed.
  Lemma zero_last n (H : mtx) mu V : eigensystem n H mu V -> nthd (n - 1) mu = last mu 0.
  Proof. intros (LD & _). now rewrite last_nth, LD. Qed.
  Lemma zero_first (mu : list K) : nthd O mu = hd 0 mu. Proof. now destruct mu. Qed.
  Theorem C241_sphere : forall fuel q norm tol xmax xmin, let n := q_n q in (1 <= n)%nat -> 0 < eps_f -> symmetric n (q_H q) -> (forall i, (i < n)%nat -> q_f q i = 0) -> extrema fuel q norm tol = QOk (xmax, xmin) ->
    dot n xmax xmax = norm * norm /\ dot n xmin xmin = norm * norm /\ forall y, dot n y y = norm * norm -> qf_apply q xmin <= qf_apply q y /\ qf_apply q y <= qf_apply q xmax.
  Proof.
    intros fuel q norm tol xmax xmin n Hn He SY HF E. destruct (zero_branch fuel q norm tol xmax xmin Hn SY) as (mu & V & ES & E1 & E2); [intros i Hi; rewrite HF by exact Hi; rewrite fabs0; exact He|exact E|]. fold n in ES, E1.
    destruct (scaled n (q_H q) mu V (n - 1)%nat norm xmax ES ltac:(lia) E1) as [N1 M1]. destruct (scaled n (q_H q) mu V O norm xmin ES ltac:(lia) E2) as [N2 M2].
    split; [exact N1|]. split; [exact N2|]. intros y Hy. rewrite (zero_last n (q_H q) mu V ES) in M1. rewrite zero_first in M2. split.
    - pose proof (lagrange_min n (q_H q) mu V ES q xmin y (hd 0 mu) eq_refl eq_refl (mu_min n (q_H q) mu V ES)) as G. rewrite Hy, N2 in G.
      replace (qf_apply q xmin) with (qf_apply q xmin + half * hd 0 mu * (norm * norm - norm * norm)) by ring. apply G. intros i Hi. rewrite M2, HF by assumption. ring.
    - pose proof (lagrange n (q_H q) mu V ES q xmax y (last mu 0) eq_refl eq_refl (mu_max n (q_H q) mu V ES)) as G. rewrite Hy, N1 in G.
      replace (qf_apply q xmax) with (qf_apply q xmax + half * last mu 0 * (norm * norm - norm * norm)) by ring. apply G. intros i Hi. rewrite M1, HF by assumption. ring.
  Qed.
  (** a linear term below the machine epsilon is ignored; the bound on the error *)
  Lemma fabs_mul_le (a b e : K) : fabs b <= e -> a * b <= e * fabs a.
  Proof.
    intros H. apply fabs_le in H. destruct H as [H1 H2]. unfold fabs. destruct (fltb a 0) eqn:A.
    - replace (a * b) with (- b * - a) by ring. apply fle_mul; [now apply flt_le, fopp_pos|exact H2].
    - replace (a * b) with (b * a) by ring. now apply fle_mul.
  Qed.
  Lemma dot_bound n (f y : vec) e : (forall i, (i < n)%nat -> fabs (f i) <= e) -> dot n y f <= e * fsumn n (fun i => fabs (y i)).
  Proof. intros H. unfold dot. rewrite <- fsumn_mul. apply fsumn_le. intros i Hi. now apply fabs_mul_le, H. Qed.
  Lemma fabs_opp (a : K) : fabs (- a) = fabs a.
  Proof.
    apply fle_antisym; apply fabs_le; (split; [|apply fle_sub]).
    - now apply (fabs_le a (fabs a)); apply fle_refl.
    - replace (fabs a - - - a) with (fabs a - a) by ring. apply (proj1 (fle_sub _ _)). now apply (fabs_le a (fabs a)); apply fle_refl.
    - replace a with (- - a) at 1 by ring. now apply (fabs_le (- a) (fabs (- a))); apply fle_refl.
    - apply (proj1 (fle_sub _ _)). now apply (fabs_le (- a) (fabs (- a))); apply fle_refl.
  Qed.
  Theorem C241_small : forall fuel q norm tol xmax xmin, let n := q_n q in (1 <= n)%nat -> symmetric n (q_H q) -> (forall i, (i < n)%nat -> fabs (q_f q i) < eps_f) -> extrema fuel q norm tol = QOk (xmax, xmin) ->
    dot n xmax xmax = norm * norm /\ dot n xmin xmin = norm * norm /\ forall y, dot n y y = norm * norm ->
      qf_apply q xmin <= qf_apply q y + eps_f * fsumn n (fun i => fabs (y i) + fabs (xmin i)) /\ qf_apply q y <= qf_apply q xmax + eps_f * fsumn n (fun i => fabs (y i) + fabs (xmax i)).
  Proof.
    intros fuel q norm tol xmax xmin n Hn SY HF E. destruct (zero_branch fuel q norm tol xmax xmin Hn SY HF E) as (mu & V & ES & E1 & E2). fold n in ES, E1.
    destruct (scaled n (q_H q) mu V (n - 1)%nat norm xmax ES ltac:(lia) E1) as [N1 M1]. destruct (scaled n (q_H q) mu V O norm xmin ES ltac:(lia) E2) as [N2 M2].
    split; [exact N1|]. split; [exact N2|]. intros y Hy. rewrite (zero_last n (q_H q) mu V ES) in M1. rewrite zero_first in M2.
    set (q0 := mkQ n (q_H q) (fun _ => 0) (q_c q)). assert (A0 : forall z, qf_apply q z = qf_apply q0 z + dot n z (q_f q)).
    { intros z. rewrite !apply_eq. unfold q0. cbn [q_n q_H q_f q_c]. fold n. replace (dot n z (fun _ => 0)) with (0 : K) by (symmetry; apply fsumn_zero; intros; ring). ring. }
    assert (HF' : forall i, (i < n)%nat -> fabs (q_f q i) <= eps_f) by (intros; now apply flt_le, HF).
    assert (HFo : forall i, (i < n)%nat -> fabs (- q_f q i) <= eps_f) by (intros; rewrite fabs_opp; now apply HF').
    assert (G : forall a b, dot n a (q_f q) - dot n b (q_f q) <= eps_f * fsumn n (fun i => fabs (a i) + fabs (b i))).
    { intros a b. rewrite fsumn_add. replace (dot n a (q_f q) - dot n b (q_f q)) with (dot n a (q_f q) + - dot n b (q_f q)) by ring. rewrite <- dot_opp.
      replace (eps_f * (fsumn n (fun i => fabs (a i)) + fsumn n (fun i => fabs (b i)))) with (eps_f * fsumn n (fun i => fabs (a i)) + eps_f * fsumn n (fun i => fabs (b i))) by ring.
      apply fle_add2; now apply dot_bound. }
    split; rewrite !A0.
    - pose proof (lagrange_min n (q_H q) mu V ES q0 xmin y (hd 0 mu) eq_refl eq_refl (mu_min n (q_H q) mu V ES)) as L. rewrite Hy, N2 in L. cbn [q_f q0] in L.
      assert (L' : qf_apply q0 xmin <= qf_apply q0 y). { replace (qf_apply q0 xmin) with (qf_apply q0 xmin + half * hd 0 mu * (norm * norm - norm * norm)) by ring. apply L. intros i Hi. rewrite M2 by assumption. ring. }
      pose proof (fle_add2 _ _ _ _ L' (G xmin y)) as S. apply fle_sub. apply fle_sub in S.
      rewrite (fsumn_ext n (fun i => fabs (y i) + fabs (xmin i)) (fun i => fabs (xmin i) + fabs (y i))) by (intros; ring).
      match goal with |- 0 <= ?t => match type of S with 0 <= ?u => replace t with u by ring end end. exact S.
    - pose proof (lagrange n (q_H q) mu V ES q0 xmax y (last mu 0) eq_refl eq_refl (mu_max n (q_H q) mu V ES)) as L. rewrite Hy, N1 in L. cbn [q_f q0] in L.
      assert (L' : qf_apply q0 y <= qf_apply q0 xmax). { replace (qf_apply q0 xmax) with (qf_apply q0 xmax + half * last mu 0 * (norm * norm - norm * norm)) by ring. apply L. intros i Hi. rewrite M1 by assumption. ring. }
      pose proof (fle_add2 _ _ _ _ L' (G y xmax)) as S. apply fle_sub. apply fle_sub in S.
      match goal with |- 0 <= ?t => match type of S with 0 <= ?u => replace t with u by ring end end. exact S.
  Qed.

  (** ** C242: xmax and xmin are extremal on the spheres on which they lie *)
  Definition linear (q : qform) : Prop := (forall i, (i < q_n q)%nat -> q_f q i = 0) \/ (exists i, (i < q_n q)%nat /\ eps_f <= fabs (q_f q i)).
  Lemma extrema_lagrange fuel q norm tol xmax xmin : let n := q_n q in (1 <= n)%nat -> 0 < eps_f -> symmetric n (q_H q) -> 0 < norm -> roots q -> linear q -> extrema fuel q norm tol = QOk (xmax, xmin) ->
    (exists l, stationary q l xmax /\ (forall v, quad n (q_H q) v v <= l * dot n v v) /\ forall y, qf_apply q y <= qf_apply q xmax + half * l * (dot n y y - dot n xmax xmax)) /\
    (exists l, stationary q l xmin /\ (forall v, l * dot n v v <= quad n (q_H q) v v) /\ forall y, qf_apply q xmin + half * l * (dot n y y - dot n xmin xmin) <= qf_apply q y).
  Proof.
    intros n Hn He SY HN [HR HR0] HF E. destruct HF as [HF|HF].
    - destruct (zero_branch fuel q norm tol xmax xmin Hn SY) as (mu & V & ES & E1 & E2); [intros i Hi; rewrite HF by exact Hi; rewrite fabs0; exact He|exact E|]. fold n in ES, E1.
      destruct (scaled n (q_H q) mu V (n - 1)%nat norm xmax ES ltac:(lia) E1) as [N1 M1]. destruct (scaled n (q_H q) mu V O norm xmin ES ltac:(lia) E2) as [N2 M2]. rewrite (zero_last n (q_H q) mu V ES) in M1. rewrite zero_first in M2.
      split; [exists (last mu 0)|exists (hd 0 mu)]; (split; [intros i Hi; fold n; rewrite HF by exact Hi; rewrite ?M1, ?M2 by exact Hi; ring|]; split; [|]).
      + apply (quad_max n (q_H q) mu V ES).
      + intros y. apply (lagrange n (q_H q) mu V ES); [reflexivity|reflexivity|apply (mu_max n (q_H q) mu V ES)|intros i Hi; rewrite M1, HF by assumption; ring].
      + apply (quad_min n (q_H q) mu V ES).
      + intros y. apply (lagrange_min n (q_H q) mu V ES); [reflexivity|reflexivity|apply (mu_min n (q_H q) mu V ES)|intros i Hi; rewrite M2, HF by assumption; ring].
    - destruct (extrema_cases fuel q norm tol xmax xmin Hn He SY HN HR HR0 E) as [[S _]|[_ (mu & V & ES & CX & CN)]].
      { exfalso. destruct HF as (i & Hi & B). apply (flt_not_le _ _ (S i Hi) B). }
      fold n in ES, CX, CN. split.
      + destruct CX as [MX|(ST & _ & NG)].
        * destruct MX as (mu' & V' & l & ES' & L1 & L2 & HX & _). exists l. split; [intros i Hi; fold n; rewrite HX by exact Hi; ring|]. split.
          -- intros v. apply fle_trans with (last mu' 0 * dot n v v); [apply (quad_max n (q_H q) mu' V' ES')|]. apply fle_mul; [apply dot_sq|now apply flt_le].
          -- intros y. apply (lagrange n (q_H q) mu' V' ES'); [reflexivity|reflexivity| |exact HX]. intros k Hk. apply fle_trans with (last mu' 0); [now apply (mu_max n (q_H q) mu' V' ES')|now apply flt_le].
        * exists 0. split; [exact ST|]. split.
          -- intros v. apply fle_trans with (last mu 0 * dot n v v); [apply (quad_max n (q_H q) mu V ES)|]. apply fle_mul; [apply dot_sq|exact NG].
          -- intros y. apply (lagrange n (q_H q) mu V ES); [reflexivity|reflexivity| |]. { intros k Hk. apply fle_trans with (last mu 0); [now apply (mu_max n (q_H q) mu V ES)|exact NG]. }
             intros i Hi. pose proof (ST i Hi) as X. fold n in X. replace (mulv n (q_H q) xmax i) with (mulv n (q_H q) xmax i + q_f q i - q_f q i) by ring. now rewrite X.
      + destruct CN as [MX|(ST & _ & NG)].
        * destruct MX as (mu' & V' & l & ES' & L1 & L2 & HX & _). exists (- l). assert (HX' : forall i, (i < n)%nat -> mulv n (q_H q) xmin i + q_f q i = - l * xmin i).
          { intros i Hi. pose proof (HX i Hi) as X. rewrite mulv_opp in X. replace (mulv n (q_H q) xmin i) with (- - mulv n (q_H q) xmin i) by ring. rewrite X. ring. }
          split; [exact HX'|]. split.
          -- intros v. apply fle_opp. rewrite <- quad_opp. replace (- (- l * dot n v v)) with (l * dot n v v) by ring. apply fle_trans with (last mu' 0 * dot n v v); [apply (quad_max n _ mu' V' ES')|]. apply fle_mul; [apply dot_sq|now apply flt_le].
          -- intros y. apply fle_opp. rewrite <- apply_opp. replace (- (qf_apply q xmin + half * - l * (dot n y y - dot n xmin xmin))) with (- qf_apply q xmin + half * l * (dot n y y - dot n xmin xmin)) by ring. rewrite <- apply_opp.
             apply (lagrange n (fun i j => - q_H q i j) mu' V' ES'); [reflexivity|reflexivity| |exact HX]. intros k Hk. apply fle_trans with (last mu' 0); [now apply (mu_max n _ mu' V' ES')|now apply flt_le].
        * exists 0. split; [exact ST|]. split.
          -- intros v. apply fle_trans with (hd 0 mu * dot n v v); [apply fle_mul; [apply dot_sq|exact NG]|apply (quad_min n (q_H q) mu V ES)].
          -- intros y. apply (lagrange_min n (q_H q) mu V ES); [reflexivity|reflexivity| |]. { intros k Hk. apply fle_trans with (hd 0 mu); [exact NG|now apply (mu_min n (q_H q) mu V ES)]. }
             intros i Hi. pose proof (ST i Hi) as X. fold n in X. replace (mulv n (q_H q) xmin i) with (mulv n (q_H q) xmin i + q_f q i - q_f q i) by ring. now rewrite X.
  Qed.
  Theorem C242_extremal : forall fuel q norm tol xmax xmin, let n := q_n q in (1 <= n)%nat -> 0 < eps_f -> symmetric n (q_H q) -> 0 < norm -> roots q -> linear q -> extrema fuel q norm tol = QOk (xmax, xmin) ->
    (forall y, dot n y y = dot n xmax xmax -> qf_apply q y <= qf_apply q xmax) /\ (forall y, dot n y y = dot n xmin xmin -> qf_apply q xmin <= qf_apply q y).
  Proof.
    intros fuel q norm tol xmax xmin n Hn He SY HN HR HF E. destruct (extrema_lagrange fuel q norm tol xmax xmin Hn He SY HN HR HF E) as [(l & _ & _ & L) (l' & _ & _ & L')]. fold n in L, L'. split; intros y Hy.
    - specialize (L y). rewrite Hy in L. now replace (qf_apply q xmax + half * l * (dot n xmax xmax - dot n xmax xmax)) with (qf_apply q xmax) in L by ring.
    - specialize (L' y). rewrite Hy in L'. now replace (qf_apply q xmin + half * l' * (dot n xmin xmin - dot n xmin xmin)) with (qf_apply q xmin) in L' by ring.
  Qed.
  (** the gradient is parallel to the vector *)
  Theorem C242_gradient : forall fuel q norm tol xmax xmin, let n := q_n q in (1 <= n)%nat -> 0 < eps_f -> symmetric n (q_H q) -> 0 < norm -> roots q -> linear q -> extrema fuel q norm tol = QOk (xmax, xmin) ->
    (exists l, forall i, (i < n)%nat -> fsumn n (fun j => q_H q i j * xmax j) + q_f q i = l * xmax i) /\ (exists l, forall i, (i < n)%nat -> fsumn n (fun j => q_H q i j * xmin j) + q_f q i = l * xmin i).
  Proof.
    intros fuel q norm tol xmax xmin n Hn He SY HN HR HF E. destruct (extrema_lagrange fuel q norm tol xmax xmin Hn He SY HN HR HF E) as [(l & G & _) (l' & G' & _)]. split; [exists l; exact G|exists l'; exact G'].
  Qed.

  (** ** C243: the norm of the result *)
  Lemma unique n (H : mtx) mu V l (f x z : vec) : eigensystem n H mu V -> last mu 0 < l -> (forall i, (i < n)%nat -> mulv n H x i + f i = l * x i) -> (forall i, (i < n)%nat -> mulv n H z i + f i = l * z i) ->
    forall i, (i < n)%nat -> x i = z i.
  Proof.
    intros ES HL HX HZ. set (d := fun i => x i - z i). assert (D : forall i, (i < n)%nat -> mulv n H d i = l * d i).
    { intros i Hi. unfold d. rewrite mulv_sub. replace (mulv n H x i - mulv n H z i) with (mulv n H x i + f i - (mulv n H z i + f i)) by ring. rewrite HX, HZ by exact Hi. ring. }
    assert (Q : quad n H d d = l * dot n d d). { unfold quad. rewrite <- dot_scale. apply dot_ext; [reflexivity|exact D]. }
    pose proof (quad_max n H mu V ES d) as M. rewrite Q in M.
    assert (Z : dot n d d = 0).
    { destruct (fle_lt_eq _ _ (dot_sq n d)) as [P|E]; [exfalso|now symmetry]. apply (flt_not_le (last mu 0 * dot n d d) (l * dot n d d)); [now apply flt_mulr|exact M]. }
    intros i Hi. assert (Z' : d i = 0). { apply fsq0. apply (fsum_map_eq0 (seq 0 n) (fun i => d i * d i)); [intros; apply fsq|exact Z|apply in_seq; lia]. }
    unfold d in Z'. replace (x i) with (x i - z i + z i) by ring. rewrite Z'. ring.
  Qed.
  (** the multiplier l of x, the largest eigenvalue m, and how the search ended *)
  Definition searched (n : nat) (H : mtx) (f : vec) (norm tol : K) (x : vec) : Prop :=
    let stat l z := forall i, (i < n)%nat -> mulv n H z i + f i = l * z i in
    exists m l, (forall v, quad n H v v <= m * dot n v v) /\ (exists v, dot n v v = 1 /\ quad n H v v = m) /\ m < l /\ l <= norm2 sqrt_ n f / norm + m /\ stat l x /\
      (fabs (dot n x x - norm * norm) <= tol \/
       exists ll lr, (lr - ll) / lr <= eps_l /\ m <= ll /\ ll < lr /\ (l = ll \/ l = lr) /\ (forall z, stat lr z -> dot n z z <= norm * norm) /\ (ll = m \/ forall z, stat ll z -> norm * norm < dot n z z)).
  Lemma maximum_searched n H f norm tol x : (1 <= n)%nat -> maximum n H f norm tol x -> searched n H f norm tol x.
  Proof.
    intros Hn (mu & V & l & ES & L1 & L2 & HX & HE). exists (last mu 0), l. split; [apply (quad_max n H mu V ES)|].
    split; [exists (nthv (n - 1) V); split; [apply (eig_unit n H mu V ES); lia|rewrite (quad_at n H mu V ES) by lia; now apply (zero_last n H mu V)]|].
    split; [exact L1|]. split; [exact L2|]. split; [intros i Hi; rewrite HX by exact Hi; ring|]. destruct HE as [HE|(ll & lr & B1 & B2 & B3 & B4 & B5 & B6)]; [now left|right].
    assert (G : forall c z, last mu 0 < c -> (forall i, (i < n)%nat -> mulv n H z i + f i = c * z i) -> dot n z z = norm_x2 mu (map (fun v => dot n v f) V) c).
    { intros c z Hc Hz. rewrite <- (xl_norm n H mu V ES f c). assert (U : forall i, (i < n)%nat -> z i = xl n mu V f c i); [|apply dot_ext; assumption].
      apply (unique n H mu V c f z _ ES Hc Hz). intros i Hi. rewrite (xl_solves n H mu V ES f c); [ring| |exact Hi]. intros k Hk X. apply (flt_not_le _ _ Hc). rewrite <- X. now apply (mu_max n H mu V ES). }
    exists ll, lr. repeat (split; [assumption|]). split.
    - intros z Hz. rewrite (G lr z); [exact B5|now apply fle_lt_trans with ll|exact Hz].
    - destruct B6 as [->|B6]; [now left|]. destruct (fle_lt_eq _ _ B2) as [L|<-]; [right|now left]. intros z Hz. rewrite (G ll z L Hz). exact B6.
  Qed.
  Theorem C243_norm : forall fuel q norm tol xmax xmin, let n := q_n q in (1 <= n)%nat -> 0 < eps_f -> symmetric n (q_H q) -> 0 < norm -> roots q -> (exists i, (i < n)%nat /\ eps_f <= fabs (q_f q i)) ->
    extrema fuel q norm tol = QOk (xmax, xmin) ->
    (searched n (q_H q) (q_f q) norm tol xmax \/ dot n xmax xmax <= norm * norm /\ forall y, qf_apply q y <= qf_apply q xmax) /\
    (searched n (fun i j => - q_H q i j) (fun i => - q_f q i) norm tol xmin \/ dot n xmin xmin <= norm * norm /\ forall y, qf_apply q xmin <= qf_apply q y).
  Proof.
    intros fuel q norm tol xmax xmin n Hn He SY HN [HR HR0] HF E. destruct (extrema_cases fuel q norm tol xmax xmin Hn He SY HN HR HR0 E) as [[S _]|[_ (mu & V & ES & CX & CN)]].
    { exfalso. destruct HF as (i & Hi & B). apply (flt_not_le _ _ (S i Hi) B). }
    fold n in ES, CX, CN. split; [destruct CX as [MX|(ST & NX & NG)]|destruct CN as [MX|(ST & NX & NG)]]; [left; now apply maximum_searched|right|left; now apply maximum_searched|right]; (split; [exact NX|]; intros y).
    - pose proof (lagrange n (q_H q) mu V ES q xmax y 0 eq_refl eq_refl) as G. replace (qf_apply q xmax) with (qf_apply q xmax + half * 0 * (dot n y y - dot n xmax xmax)) by ring. apply G.
      + intros k Hk. apply fle_trans with (last mu 0); [now apply (mu_max n (q_H q) mu V ES)|exact NG].
      + intros i Hi. pose proof (ST i Hi) as X. fold n in X. replace (mulv n (q_H q) xmax i) with (mulv n (q_H q) xmax i + q_f q i - q_f q i) by ring. now rewrite X.
    - pose proof (lagrange_min n (q_H q) mu V ES q xmin y 0 eq_refl eq_refl) as G. replace (qf_apply q xmin) with (qf_apply q xmin + half * 0 * (dot n y y - dot n xmin xmin)) by ring. apply G.
      + intros k Hk. apply fle_trans with (hd 0 mu); [exact NG|now apply (mu_min n (q_H q) mu V ES)].
      + intros i Hi. pose proof (ST i Hi) as X. fold n in X. replace (mulv n (q_H q) xmin i) with (mulv n (q_H q) xmin i + q_f q i - q_f q i) by ring. now rewrite X.
  Qed.
  (** when the norm is within the tolerance, no vector of the norm asked for is better by more than half of the multiplier times the tolerance *)
  Theorem C243_bound : forall fuel q norm tol xmax xmin, let n := q_n q in (1 <= n)%nat -> 0 < eps_f -> symmetric n (q_H q) -> 0 < norm -> roots q -> linear q -> extrema fuel q norm tol = QOk (xmax, xmin) ->
    (exists l, stationary q l xmax /\ forall y, dot n y y = norm * norm -> fabs (dot n xmax xmax - norm * norm) <= tol -> qf_apply q y <= qf_apply q xmax + half * tol * fabs l) /\
    (exists l, stationary q l xmin /\ forall y, dot n y y = norm * norm -> fabs (dot n xmin xmin - norm * norm) <= tol -> qf_apply q xmin - half * tol * fabs l <= qf_apply q y).
  Proof.
    intros fuel q norm tol xmax xmin n Hn He SY HN HR HF E. destruct (extrema_lagrange fuel q norm tol xmax xmin Hn He SY HN HR HF E) as [(l & G & _ & L) (l' & G' & _ & L')]. fold n in L, L'. split; [exists l|exists l']; (split; [assumption|]; intros y Hy HT).
    - apply fle_trans with (qf_apply q xmax + half * l * (dot n y y - dot n xmax xmax)); [apply L|]. replace (half * l * (dot n y y - dot n xmax xmax)) with (half * (l * (dot n y y - dot n xmax xmax))) by ring.
      apply fle_add2; [apply fle_refl|]. replace (half * tol * fabs l) with (tol * fabs l * half) by ring. replace (half * (l * (dot n y y - dot n xmax xmax))) with (l * (dot n y y - dot n xmax xmax) * half) by ring.
      apply fle_mul; [apply flt_le, half_pos|]. apply fabs_mul_le. rewrite Hy. replace (norm * norm - dot n xmax xmax) with (- (dot n xmax xmax - norm * norm)) by ring. now rewrite fabs_opp.
    - apply fle_trans with (qf_apply q xmin + half * l' * (dot n y y - dot n xmin xmin)); [|apply L']. apply fle_sub.
      replace (qf_apply q xmin + half * l' * (dot n y y - dot n xmin xmin) - (qf_apply q xmin - half * tol * fabs l')) with ((tol * fabs l' - l' * (dot n xmin xmin - dot n y y)) * half) by ring.
      apply fle_mul0; [|apply flt_le, half_pos]. apply (proj1 (fle_sub _ _)). apply fabs_mul_le. now rewrite Hy.
  Qed.

  (** ** C245: the invariances *)
  (** the columns of Q are orthonormal and the first is parallel to xs *)
  Definition qr_at (n : nat) (xs : vec) : Prop :=
    let Q := qr n (fun i j => if j =? 0 then xs i else delta i j) in length Q = n /\ orthonormal n Q /\ exists t, forall i, (i < n)%nat -> xs i = t * nthv O Q i.
  Lemma comb_dot n (B : list vec) a b : orthonormal n B -> dot n (comb B a) (comb B b) = dot (length B) a b.
  Proof. intros ON. rewrite dot_comb. unfold dot at 2. apply fsumn_ext. intros k Hk. rewrite dot_sym, dot_comb_on by assumption. ring. Qed.
  Theorem C245_invariances : forall q xs w nu, let n := q_n q in (1 <= n)%nat -> symmetric n (q_H q) -> qr_at n xs -> root (dot n xs xs) -> invariances q xs = QOk (w, nu) ->
    length w = (n - 1)%nat /\ length nu = (n - 1)%nat /\ (forall i j, (i < n - 1)%nat -> (j < n - 1)%nat -> dot n (nthv i w) (nthv j w) = if i =? j then 1 else 0) /\
    (forall i, (i < n - 1)%nat -> dot n (nthv i w) xs = 0) /\
    (forall i, (i < n - 1)%nat -> nthd i nu = quad n (q_H q) (nthv i w) (nthv i w) - (quad n (q_H q) xs xs + dot n (q_f q) xs) / dot n xs xs) /\
    (forall i j, (i < n - 1)%nat -> (j < n - 1)%nat -> i <> j -> quad n (q_H q) (nthv i w) (nthv j w) = 0) /\
    (forall i j, (i <= j)%nat -> (j < n - 1)%nat -> fabs (nthd i nu) <= fabs (nthd j nu)).
  Proof.
    intros q xs w nu n Hn SY QR [R1 R2] E. unfold get_invariances in E. fold n in E. set (Q := qr n (fun i j => if j =? 0 then xs i else delta i j)) in *. set (B := tl Q) in *.
    destruct QR as (LQ & OQ & t & HT). fold Q in LQ, OQ, HT. assert (LB : length B = (n - 1)%nat) by (unfold B; destruct Q; cbn [tl length] in *; lia).
    assert (NB : forall k, nthv k B = nthv (S k) Q) by (intros k; unfold B; destruct Q as [|a r]; [now destruct k|reflexivity]).
    assert (OB : orthonormal n B). { intros i j Hi Hj. rewrite !NB, OQ by lia. reflexivity. }
    destruct (eig_sort eig argsort (length B) (congr n (q_H q) B)) as [[D W]|] eqn:EE; [|discriminate]. apply eigs in EE; [|now apply congr_sym].
    set (s := (quad n (q_H q) xs xs + dot n (q_f q) xs) / (norm2 sqrt_ n xs * norm2 sqrt_ n xs)) in *. set (D' := map (fun a => a - s) D) in *. set (idx := argsort (map fabs D')) in *. injection E as <- <-.
    pose proof EE as (LD & LW & OW & _). rewrite LB in LD, LW. destruct (sort_ok (map fabs D')) as [P S]. fold idx in P, S. assert (LD' : length D' = (n - 1)%nat) by (unfold D'; now rewrite map_length).
    rewrite map_length, LD' in P. destruct (perm_lt _ _ P) as (LI & ND & LT).
    assert (ES : s = (quad n (q_H q) xs xs + dot n (q_f q) xs) / dot n xs xs) by (unfold s, norm2; now rewrite R2).
    assert (NW : forall i, (i < n - 1)%nat -> nthv i (map (fun i => comb B (nthv i W)) idx) = comb B (nthv (nth i idx O) W)) by (intros i Hi; apply (nth_map_in (fun i => comb B (nthv i W)) idx i vzero O); lia).
    assert (NN : forall i, (i < n - 1)%nat -> nthd i (map (fun i => nthd i D') idx) = nthd (nth i idx O) D - s).
    { intros i Hi. rewrite (nth_map_in (fun i => nthd i D') idx i 0 O) by lia. unfold D'. rewrite (nth_map_in (fun a => a - s) D (nth i idx O) 0 0) by (rewrite LD; now apply LT). reflexivity. }
    assert (DI : forall i j, (i < n - 1)%nat -> (j < n - 1)%nat -> (delta (nth i idx O) (nth j idx O) : K) = delta i j).
    { intros i j Hi Hj. unfold delta. destruct (Nat.eqb_spec i j) as [->|NE]; [now rewrite Nat.eqb_refl|]. destruct (Nat.eqb_spec (nth i idx O) (nth j idx O)) as [X|]; [|reflexivity]. exfalso. apply NE. apply (proj1 (NoDup_nth idx O) ND); lia. }
    assert (DW : forall i j, (i < n - 1)%nat -> (j < n - 1)%nat -> quad n (q_H q) (nthv i (map (fun i => comb B (nthv i W)) idx)) (nthv j (map (fun i => comb B (nthv i W)) idx)) = nthd (nth j idx O) D * delta i j).
    { intros i j Hi Hj. rewrite !NW by assumption. rewrite quad_congr by exact SY. rewrite (eig_quad _ _ D W EE) by (rewrite LB; now apply LT). now rewrite DI. }
    split; [now rewrite map_length|]. split; [now rewrite map_length|]. split; [|split; [|split; [|split]]].
    - intros i j Hi Hj. rewrite !NW by assumption. rewrite comb_dot by exact OB. rewrite OW by (rewrite LW; now apply LT). rewrite DI by assumption. reflexivity.
    - intros i Hi. rewrite NW by exact Hi. rewrite dot_sym, dot_comb. apply fsumn_zero. intros k Hk.
      rewrite (dot_ext n xs (fun i => t * nthv O Q i) (nthv k B) (nthv k B)) by auto. rewrite dot_scale_l, NB, OQ by lia. unfold delta. cbn [Nat.eqb]. ring.
    - intros i Hi. rewrite NN, DW by assumption. rewrite <- ES. unfold delta. rewrite Nat.eqb_refl. ring.
    - intros i j Hi Hj NE. rewrite DW by assumption. unfold delta. destruct (Nat.eqb_spec i j); [contradiction|]. ring.
    - intros i j Hij Hj. pose proof (sorted_nth _ S i j Hij) as G. rewrite map_length, LI in G. specialize (G Hj). rewrite !(nth_map_in (fun i => nthd i (map fabs D')) idx _ 0 O) in G by lia.
      rewrite !(nth_map_in fabs D' _ 0 0) in G by (rewrite LD'; apply LT; lia). rewrite !(nth_map_in (fun i => nthd i D') idx _ 0 O) by lia. exact G.
  Qed.

  (** ** C246: the number nu of a direction is the second derivative along the great circle *)
  Theorem C246_circle : forall q (x w : vec) l r c s, let n := q_n q in let y : vec := fun i => c * x i + s * (r * w i) in let nu := quad n (q_H q) w w - (quad n (q_H q) x x + dot n (q_f q) x) / dot n x x in
    symmetric n (q_H q) -> stationary q l x -> dot n w w = 1 -> dot n w x = 0 -> r * r = dot n x x -> dot n x x <> 0 -> c * c + s * s = 1 ->
    dot n y y = r * r /\ qf_apply q y = qf_apply q x + half * (s * r) * (s * r) * nu - (1 - c) * (s * r * quad n (q_H q) x w + half * (1 - c) * dot n (q_f q) x).
  Proof.
    intros q x w l r c s n y nu SY ST Hw Hwx Hr NZ CS.
    assert (DY : forall g : vec, dot n g y = c * dot n g x + s * r * dot n g w).
    { intros g. unfold dot, y. rewrite <- !fsumn_mul, <- fsumn_add. apply fsumn_ext. intros. ring. }
    assert (MY : forall i, mulv n (q_H q) y i = c * mulv n (q_H q) x i + s * r * mulv n (q_H q) w i).
    { intros i. unfold mulv, y. rewrite <- !fsumn_mul, <- fsumn_add. apply fsumn_ext. intros. ring. }
    assert (QY : forall g, quad n (q_H q) g y = c * quad n (q_H q) g x + s * r * quad n (q_H q) g w).
    { intros g. unfold quad, dot. rewrite <- !fsumn_mul, <- fsumn_add. apply fsumn_ext. intros i _. rewrite MY. ring. }
    assert (S2 : s * s = 1 - c * c) by (rewrite <- CS; ring).
    assert (GW : quad n (q_H q) w x + dot n w (q_f q) = 0).
    { transitivity (dot n w (fun i => l * x i)); [|rewrite dot_scale, Hwx; ring]. unfold quad, dot. rewrite <- fsumn_add. apply fsumn_ext. intros i Hi. rewrite <- (ST i Hi). fold n. ring. }
    assert (FW : dot n (q_f q) w = - quad n (q_H q) x w). { rewrite (quad_sym n (q_H q) x w SY), dot_sym. replace (dot n w (q_f q)) with (quad n (q_H q) w x + dot n w (q_f q) - quad n (q_H q) w x) by ring. rewrite GW. ring. }
    split.
    - rewrite DY, !(dot_sym n y), !DY, (dot_sym n x w), Hwx, Hw, <- Hr. transitivity (c * c * (r * r) + s * s * (r * r)); [ring|]. rewrite S2. ring.
    - rewrite !apply_eq. fold n. rewrite !(dot_sym n _ (q_f q)), DY, FW, QY, (quad_sym n (q_H q) y x SY), (quad_sym n (q_H q) y w SY), !QY, (quad_sym n (q_H q) w x SY).
      set (a := quad n (q_H q) x x). set (b := quad n (q_H q) x w). set (d := quad n (q_H q) w w) in *. set (e := dot n (q_f q) x).
      assert (NU : (r * r) * nu = (r * r) * d - (a + e)). { unfold nu. fold a d e. rewrite <- Hr. field. intros Z. apply NZ. rewrite <- Hr, Z. ring. }
      transitivity (half * a + e + q_c q + half * ((s * s) * ((r * r) * nu)) - (1 - c) * (s * r * b + half * (1 - c) * e)); [|ring]. rewrite NU.
      transitivity (half * (c * c * a + (1 + 1) * c * s * r * b + s * s * (r * r) * d) + (c * e - s * r * b) + q_c q); [field; exact f2|]. rewrite S2. field. exact f2.
  Qed.

  (** ** C247: at xmax no second derivative is positive, at xmin none is negative *)
  Theorem C247_max : forall fuel q norm tol xmax xmin w nu, let n := q_n q in (1 <= n)%nat -> 0 < eps_f -> symmetric n (q_H q) -> 0 < norm -> roots q -> linear q -> extrema fuel q norm tol = QOk (xmax, xmin) ->
    qr_at n xmax -> root (dot n xmax xmax) -> dot n xmax xmax <> 0 -> invariances q xmax = QOk (w, nu) -> forall a, In a nu -> a <= 0.
  Proof.
    intros fuel q norm tol xmax xmin w nu n Hn He SY HN HR HF E QR RT NZ EI a Ha. destruct (extrema_lagrange fuel q norm tol xmax xmin Hn He SY HN HR HF E) as [(l & ST & QM & _) _]. fold n in QM.
    destruct (C245_invariances q xmax w nu Hn SY QR RT EI) as (_ & LN & ON & _ & NU & _). fold n in LN, ON, NU.
    destruct (In_nth nu a 0 Ha) as (i & Hi & <-). rewrite LN in Hi. rewrite NU by exact Hi. specialize (QM (nthv i w)). rewrite ON in QM by exact Hi. rewrite Nat.eqb_refl in QM.
    assert (SL : quad n (q_H q) xmax xmax + dot n (q_f q) xmax = l * dot n xmax xmax).
    { rewrite (dot_sym n (q_f q)). unfold quad. rewrite <- dot_scale. unfold dot. rewrite <- fsumn_add. apply fsumn_ext. intros k Hk. rewrite <- (ST k Hk). fold n. ring. }
    rewrite SL. replace (l * dot n xmax xmax / dot n xmax xmax) with l by (field; exact NZ). apply fle_sub. apply fle_sub in QM.
    match goal with |- 0 <= ?t => match type of QM with 0 <= ?u => replace t with u by ring end end. exact QM.
  Qed.
  Theorem C247_min : forall fuel q norm tol xmax xmin w nu, let n := q_n q in (1 <= n)%nat -> 0 < eps_f -> symmetric n (q_H q) -> 0 < norm -> roots q -> linear q -> extrema fuel q norm tol = QOk (xmax, xmin) ->
    qr_at n xmin -> root (dot n xmin xmin) -> dot n xmin xmin <> 0 -> invariances q xmin = QOk (w, nu) -> forall a, In a nu -> 0 <= a.
  Proof.
    intros fuel q norm tol xmax xmin w nu n Hn He SY HN HR HF E QR RT NZ EI a Ha. destruct (extrema_lagrange fuel q norm tol xmax xmin Hn He SY HN HR HF E) as [_ (l & ST & QM & _)]. fold n in QM.
    destruct (C245_invariances q xmin w nu Hn SY QR RT EI) as (_ & LN & ON & _ & NU & _). fold n in LN, ON, NU.
    destruct (In_nth nu a 0 Ha) as (i & Hi & <-). rewrite LN in Hi. rewrite NU by exact Hi. specialize (QM (nthv i w)). rewrite ON in QM by exact Hi. rewrite Nat.eqb_refl in QM.
    assert (SL : quad n (q_H q) xmin xmin + dot n (q_f q) xmin = l * dot n xmin xmin).
    { rewrite (dot_sym n (q_f q)). unfold quad. rewrite <- dot_scale. unfold dot. rewrite <- fsumn_add. apply fsumn_ext. intros k Hk. rewrite <- (ST k Hk). fold n. ring. }
    rewrite SL. replace (l * dot n xmin xmin / dot n xmin xmin) with l by (field; exact NZ). apply fle_sub in QM.
    match goal with |- 0 <= ?t => match type of QM with 0 <= ?u => replace t with u by ring end end. exact QM.
  Qed.

  (** ** C244: the search ends *)
  Hypothesis arch : forall a : K, exists k, a <= fn k.
  Lemma maximize_total q norm tol (neg : bool) mu V : let n := q_n q in let H : mtx := if neg then fun i j => - q_H q i j else q_H q in let f : vec := if neg then fun i => - q_f q i else q_f q in
    symmetric n (q_H q) -> 0 < norm -> (exists i, (i < n)%nat /\ f i <> 0) -> root (dot n f f) -> tol < norm * norm -> 0 < eps_l -> eig_sort eig argsort n H = Some (mu, V) ->
    (last mu 0 <> 0) -> (last mu 0 < 0 -> norm * norm < norm_x2 mu (map (fun v => dot n v f) V) 0) -> eps_l * (norm2 sqrt_ n f / norm + last mu 0) < norm2 sqrt_ n f / norm ->
    exists k, forall fuel, (k <= fuel)%nat -> exists x, maxim fuel q norm tol neg = QOk x.
  Proof.
    intros n H f SY HN HF HR HT HE EE NZ NEG EP. assert (SH : symmetric n H) by (unfold H; destruct neg; [now apply sym_opp|exact SY]). pose proof (eigs n H mu V SH EE) as ES.
    pose proof (norm_pos n f HR HF) as PF. assert (PW : 0 < norm2 sqrt_ n f / norm) by now apply fdiv_pos'. set (al := map (fun v => dot n v f) V) in *. set (w := norm2 sqrt_ n f / norm) in *.
    assert (NR : norm_x2 mu al (w + last mu 0) <= norm * norm) by (apply (norm_right n H mu V ES f (norm2 sqrt_ n f) norm HN PF); apply HR).
    assert (HL : exists L, 0 < L /\ forall l, last mu 0 < l -> norm_x2 mu al l <= norm * norm -> L <= l).
    { destruct (fle_or_lt (last mu 0) 0) as [B|B].
      - destruct (fle_lt_eq _ _ B) as [B1|B1]; [|contradiction]. apply (lower n H mu V ES f (norm * norm)); [now apply flt_mul|exact B1|now apply NEG].
      - exists (last mu 0). split; [exact B|]. intros l Hl _. now apply flt_le. }
    destruct HL as (L & PL & HL). assert (ML : last mu 0 < w + last mu 0) by (replace (w + last mu 0) with (last mu 0 + w) by ring; now apply flt_add_pos).
    assert (PR : 0 < w + last mu 0) by (apply flt_le_trans with L; [exact PL|now apply HL]).
    assert (PE : 0 < eps_l * L) by now apply flt_mul. destruct (arch (w / (eps_l * L))) as [k Hk]. exists k. intros fuel HFu.
    assert (W : w + last mu 0 - last mu 0 <= pow2 fuel * (eps_l * L)).
    { replace (w + last mu 0 - last mu 0) with w by ring. apply (proj1 (fle_div w (pow2 fuel) (eps_l * L) PE)). apply fle_trans with (fn k); [exact Hk|]. apply fle_trans with (fn fuel); [|apply pow2_fn].
      replace fuel with (k + (fuel - k))%nat by lia. rewrite fn_add. apply fle_sub. replace (fn k + fn (fuel - k) - fn k) with (fn (fuel - k) : K) by ring. apply fn_nonneg. }
    unfold maximize. fold n H f. rewrite EE. fold al w.
    pose proof (bisect_total eps_l mu al (last mu 0) (norm * norm) tol L fuel PL (last mu 0) (w + last mu 0) 0 None ML (fle_refl _) HL NR W) as T.
    destruct (bisect eps_l fuel mu al (norm * norm) tol (last mu 0) (w + last mu 0) 0 None) as [[[[ll lr] nx] [l|]]|] eqn:EB; [eexists; reflexivity| |now destruct T]. exfalso.
    apply (bisect_ok eps_l mu al (last mu 0)) in EB; [|apply fle_refl|exact ML|now left|exact NR|intros l0 X; discriminate]. destruct EB as (_ & _ & _ & _ & _ & _ & _ & B). destruct (B eq_refl) as [[_ B1]|B1].
    - apply fabs_le in B1. destruct B1 as [_ B1]. replace (- (0 - norm * norm)) with (norm * norm) in B1 by ring. now apply (flt_not_le _ _ HT).
    - apply fle_div in B1; [|exact PR]. replace (w + last mu 0 - last mu 0) with w in B1 by ring. now apply (flt_not_le _ _ EP).
  Qed.
  Theorem C244_total : forall q norm tol x0, let n := q_n q in let r := norm2 sqrt_ n (q_f q) / norm in (1 <= n)%nat -> 0 < eps_f -> symmetric n (q_H q) -> 0 < norm -> roots q -> (exists i, (i < n)%nat /\ eps_f <= fabs (q_f q i)) ->
    (forall v, (forall i, (i < n)%nat -> mulv n (q_H q) v i = 0) -> forall i, (i < n)%nat -> v i = 0) -> solve n (fun i j => - q_H q i j) (q_f q) = Some x0 ->
    eig n (q_H q) <> None -> eig n (fun i j => - q_H q i j) <> None -> tol < norm * norm -> 0 < eps_l -> (forall v, dot n v v = 1 -> eps_l * (r + fabs (quad n (q_H q) v v)) < r) ->
    exists k, forall fuel, (k <= fuel)%nat -> exists xmax xmin, extrema fuel q norm tol = QOk (xmax, xmin).
  Proof.
    intros q norm tol x0 n r Hn He SY HN [HR HR0] HF REG EX E1 E2 HT HE EP.
    assert (NZ : exists i, (i < n)%nat /\ q_f q i <> 0). { destruct HF as (i & Hi & B). exists i. split; [exact Hi|]. intros Z. rewrite Z, fabs0 in B. now apply (flt_not_le _ _ He). }
    assert (NZ2 : exists i, (i < n)%nat /\ - q_f q i <> 0). { destruct NZ as (i & Hi & Z). exists i. split; [exact Hi|]. intros X. apply Z. transitivity (- - q_f q i); [ring|]. rewrite X. ring. }
    assert (DO : dot n (fun i => - q_f q i) (fun i => - q_f q i) = dot n (q_f q) (q_f q)) by (apply fsumn_ext; intros; ring).
    assert (HR' : root (dot n (fun i => - q_f q i) (fun i => - q_f q i))) by (rewrite DO; exact HR).
    assert (RE : norm2 sqrt_ n (fun i => - q_f q i) = norm2 sqrt_ n (q_f q)) by (unfold norm2; now rewrite DO).
    assert (EE : forall C, eig n C <> None -> exists mu V, eig_sort eig argsort n C = Some (mu, V)). { intros C X. unfold eig_sort. destruct (eig n C) as [[D W]|]; [|now destruct X]. eexists _, _. reflexivity. }
    destruct (EE _ E1) as (mu & V & S1). destruct (EE _ E2) as (mu' & V' & S2). pose proof (eigs n (q_H q) mu V SY S1) as ES. pose proof (eigs n _ mu' V' (sym_opp n _ SY) S2) as ES'.
    set (v := nthv (n - 1) V). set (v' := nthv (n - 1) V'). set (u := nthv O V).
    assert (Vv : dot n v v = 1) by (apply (eig_unit n (q_H q) mu V ES); lia). assert (Vv' : dot n v' v' = 1) by (apply (eig_unit n _ mu' V' ES'); lia). assert (Vu : dot n u u = 1) by (apply (eig_unit n (q_H q) mu V ES); lia).
    assert (Qv : quad n (q_H q) v v = last mu 0) by (unfold v; rewrite (quad_at n (q_H q) mu V ES) by lia; now apply (zero_last n (q_H q) mu V)).
    assert (Qv' : - quad n (q_H q) v' v' = last mu' 0) by (rewrite <- quad_opp; unfold v'; rewrite (quad_at n _ mu' V' ES') by lia; exact (zero_last n _ mu' V' ES')).
    assert (Qu : quad n (q_H q) u u = hd 0 mu) by (unfold u; rewrite (quad_at n (q_H q) mu V ES) by lia; apply zero_first).
    assert (Z1 : forall D W C k, eigensystem n C D W -> (k < n)%nat -> nthd k D = 0 -> (forall i, (i < n)%nat -> mulv n (q_H q) (nthv k W) i = mulv n C (nthv k W) i \/ mulv n (q_H q) (nthv k W) i = - mulv n C (nthv k W) i) -> False).
    { intros D W C k HE' Hk Z X. assert (Y : forall i, (i < n)%nat -> nthv k W i = 0). { apply REG. intros i Hi. pose proof HE' as (_ & _ & _ & _ & EV & _). pose proof (EV k i Hk Hi) as Y. rewrite Z in Y. destruct (X i Hi) as [-> | ->]; rewrite Y; ring. }
      pose proof (eig_unit n C D W HE' k Hk) as U. unfold dot in U. rewrite fsumn_zero in U by (intros i Hi; rewrite Y by exact Hi; ring). now apply (f10 (K := K)). }
    assert (N1 : last mu 0 <> 0). { intros Z. apply (Z1 mu V (q_H q) (n - 1)%nat ES); [lia|rewrite (zero_last n (q_H q) mu V ES); exact Z|]. now left. }
    assert (N2 : last mu' 0 <> 0). { intros Z. apply (Z1 mu' V' _ (n - 1)%nat ES'); [lia|rewrite (zero_last n _ mu' V' ES'); exact Z|]. intros i Hi. right. rewrite mulv_opp. ring. }
    assert (LE : forall a : K, a <= fabs a) by (intros a; now apply (fabs_le a (fabs a)); apply fle_refl). assert (LEo : forall a : K, - a <= fabs a) by (intros a; now apply (fabs_le a (fabs a)); apply fle_refl).
    assert (EP1 : eps_l * (norm2 sqrt_ n (q_f q) / norm + last mu 0) < norm2 sqrt_ n (q_f q) / norm).
    { fold r. apply (fle_lt_trans _ (eps_l * (r + fabs (quad n (q_H q) v v)))); [|now apply EP]. replace (eps_l * (r + last mu 0)) with ((r + last mu 0) * eps_l) by ring. replace (eps_l * (r + fabs (quad n (q_H q) v v))) with ((r + fabs (quad n (q_H q) v v)) * eps_l) by ring.
      apply fle_mul; [now apply flt_le|]. apply fle_add2; [apply fle_refl|]. rewrite <- Qv. apply LE. }
    assert (EP2 : eps_l * (norm2 sqrt_ n (fun i => - q_f q i) / norm + last mu' 0) < norm2 sqrt_ n (fun i => - q_f q i) / norm).
    { rewrite RE. fold r. apply (fle_lt_trans _ (eps_l * (r + fabs (quad n (q_H q) v' v')))); [|now apply EP]. replace (eps_l * (r + last mu' 0)) with ((r + last mu' 0) * eps_l) by ring. replace (eps_l * (r + fabs (quad n (q_H q) v' v'))) with ((r + fabs (quad n (q_H q) v' v')) * eps_l) by ring.
      apply fle_mul; [now apply flt_le|]. apply fle_add2; [apply fle_refl|]. rewrite <- Qv'. apply LEo. }
    assert (X0 : forall i, (i < n)%nat -> mulv n (q_H q) x0 i + q_f q i = 0). { intros i Hi. pose proof (solve_ok _ _ _ _ EX i Hi) as X. rewrite mulv_opp in X. rewrite <- X. ring. }
    assert (OUT : fltb norm (norm2 sqrt_ n x0) = true -> norm * norm < dot n x0 x0).
    { intros B. destruct (HR0 x0 EX) as [R1 R2]. fold n in R1, R2. unfold norm2 in B. rewrite <- R2. apply (flt_le_trans _ (sqrt_ (dot n x0 x0) * norm)); [now apply flt_mulr|].
      replace (sqrt_ (dot n x0 x0) * norm) with (norm * sqrt_ (dot n x0 x0)) by ring. apply fle_mul; [exact R1|now apply flt_le]. }
    assert (XN : forall C (g : vec) D W, eigensystem n C D W -> last D 0 < 0 -> (forall i, (i < n)%nat -> mulv n C x0 i + g i = 0) -> norm_x2 D (map (fun w => dot n w g) W) 0 = dot n x0 x0).
    { intros C g D W HE' NG HX. rewrite <- (xl_norm n C D W HE' g 0). symmetry. assert (U : forall i, (i < n)%nat -> x0 i = xl n D W g 0 i); [|apply dot_ext; assumption].
      apply (unique n C D W 0 g x0 _ HE' NG); [intros i Hi; rewrite HX by exact Hi; ring|]. intros i Hi. rewrite (xl_solves n C D W HE' g 0); [ring| |exact Hi]. intros k Hk X. apply (flt_not_le _ _ NG). apply fle_trans with (nthd k D); [rewrite X; apply fle_refl|now apply (mu_max n C D W HE')]. }
    destruct (fltb norm (norm2 sqrt_ n x0)) eqn:IN.
    - (* the stationary point is outside *)
      destruct (maximize_total q norm tol false mu V SY HN NZ HR HT HE S1 N1) as [k1 K1]; [|exact EP1|].
      { intros NG. fold n. rewrite (XN (q_H q) (q_f q) mu V ES NG X0). now apply OUT. }
      destruct (maximize_total q norm tol true mu' V' SY HN NZ2 HR' HT HE S2 N2) as [k2 K2]; [|exact EP2|].
      { intros NG. fold n. rewrite (XN (fun i j => - q_H q i j) (fun i => - q_f q i) mu' V' ES' NG); [now apply OUT|]. intros i Hi. rewrite mulv_opp. replace (- mulv n (q_H q) x0 i + - q_f q i) with (- (mulv n (q_H q) x0 i + q_f q i)) by ring. rewrite X0 by exact Hi. ring. }
      exists (max k1 k2). intros fuel Hf. destruct (K1 fuel ltac:(lia)) as [xm M1]. destruct (K2 fuel ltac:(lia)) as [xn M2].
      exists xm, xn. unfold get_extrema. fold n. rewrite S1, EX, IN. rewrite M1, M2. cbn [negb]. rewrite !andb_false_r.
      destruct (forallb _ (seq 0 n)) eqn:SM; [|reflexivity]. exfalso. destruct HF as (i & Hi & B). apply (all_small q He) with (i := i) in SM; [|exact Hi]. now apply (flt_not_le _ _ SM).
    - (* inside *)
      assert (C1 : exists k, forall fuel, (k <= fuel)%nat -> exists x, (if negb (negb (fltb (hd 0 mu) 0)) && negb (fltb 0 (last mu 0)) && true then QOk x0 else maxim fuel q norm tol false) = QOk x).
      { destruct (negb (negb (fltb (hd 0 mu) 0)) && negb (fltb 0 (last mu 0))) eqn:B; cbn [andb]; [exists O; intros; eexists; reflexivity|].
        apply (maximize_total q norm tol false mu V SY HN NZ HR HT HE S1 N1); [|exact EP1]. intros NG. exfalso. apply andb_false_iff in B. destruct B as [B|B].
        - apply negb_false_iff, negb_true_iff in B. apply (flt_not_le _ _ NG). apply fle_trans with (hd 0 mu); [exact B|]. rewrite <- zero_first. apply (mu_max n (q_H q) mu V ES). lia.
        - apply negb_false_iff in B. apply (flt_not_le _ _ NG). now apply flt_le. }
      assert (C2 : exists k, forall fuel, (k <= fuel)%nat -> exists x, (if negb (fltb (hd 0 mu) 0) && true then QOk x0 else maxim fuel q norm tol true) = QOk x).
      { destruct (fltb (hd 0 mu) 0) eqn:B; cbn [negb andb]; [|exists O; intros; eexists; reflexivity].
        apply (maximize_total q norm tol true mu' V' SY HN NZ2 HR' HT HE S2 N2); [|exact EP2]. intros NG. exfalso.
        pose proof (quad_max n _ mu' V' ES' u) as M. rewrite quad_opp, Qu, Vu in M. replace (last mu' 0 * 1) with (last mu' 0) in M by ring. apply (flt_not_le 0 (- hd 0 mu)); [now apply fopp_pos|]. apply fle_trans with (last mu' 0); [exact M|now apply flt_le]. }
      destruct C1 as [k1 K1]. destruct C2 as [k2 K2]. exists (max k1 k2). intros fuel Hf. destruct (K1 fuel ltac:(lia)) as [xm M1]. destruct (K2 fuel ltac:(lia)) as [xn M2].
      exists xm, xn. unfold get_extrema. fold n. rewrite S1, EX, IN. cbn [negb]. rewrite M1, M2.
      destruct (forallb _ (seq 0 n)) eqn:SM; [|reflexivity]. exfalso. destruct HF as (i & Hi & B). apply (all_small q He) with (i := i) in SM; [|exact Hi]. now apply (flt_not_le _ _ SM).
  Qed.
End Props.

(** ** an argsort and a solver *)
Section Concrete.
  Context {K : ofield}.
  Add Field Kq3 : (fth K).
  Notation vec := (vec (K := K)). Notation mtx := (mtx (K := K)).
  Fixpoint ins (l : list K) (i : nat) (r : list nat) : list nat := match r with [] => [i] | j :: t => if fltb (nth j l f0) (nth i l f0) then j :: ins l i t else i :: r end.
  Definition asort (l : list K) : list nat := fold_right (ins l) [] (seq 0 (length l)).
  Lemma ins_perm l i r : Permutation (ins l i r) (i :: r).
  Proof. induction r as [|j r IH]; [reflexivity|]. cbn. destruct (fltb _ _); [|reflexivity]. rewrite IH. apply perm_swap. Qed.
  Lemma ins_sorted l i r : StronglySorted fle (map (fun i => nth i l f0) r) -> StronglySorted fle (map (fun i => nth i l (f0 : K)) (ins l i r)).
  Proof.
    induction r as [|j r IH]; intros S; [repeat constructor|]. cbn. destruct (fltb (nth j l f0) (nth i l f0)) eqn:B; cbn [map] in *.
    - inversion S as [|a t S' F]; subst. constructor; [now apply IH|]. apply Forall_forall. intros a Ha. apply in_map_iff in Ha. destruct Ha as (k & <- & Hk). apply (Permutation_in _ (ins_perm l i r)) in Hk.
      destruct Hk as [->|Hk]; [now apply flt_le|]. rewrite Forall_forall in F. apply F. apply (in_map (fun i => nth i l f0)). exact Hk.
    - constructor; [exact S|]. inversion S as [|a t S' F]; subst. constructor; [exact B|]. eapply Forall_impl; [|exact F]. intros a Ha. apply fle_trans with (nth j l f0); [exact B|exact Ha].
  Qed.
  Lemma asort_ok : argsort_ok (K := K) asort.
  Proof.
    intros l. unfold asort. split.
    - generalize (seq 0 (length l)). induction l0 as [|a r IH]; [reflexivity|]. cbn. rewrite ins_perm. now constructor.
    - induction (seq 0 (length l)) as [|a r IH]; [constructor|]. cbn. now apply ins_sorted.
  Qed.
  Definition det2 (a b c d : K) : K := (a * d - b * c)%of.
  Definition solve2 (n : nat) (A : mtx) (b : vec) : option vec :=
    let d := det2 (A 0 0) (A 0 1) (A 1 0) (A 1 1) in
    if negb (n =? 2) || negb (fltb d f0 || fltb f0 d) then None
    else Some (fun i => if i =? 0 then fdiv (det2 (b 0) (A 0 1) (b 1) (A 1 1)) d else fdiv (det2 (A 0 0) (b 0) (A 1 0) (b 1)) d).
  Lemma solve2_ok n A b x : solve2 n A b = Some x -> forall i, i < n -> mulv n A x i = b i.
  Proof.
    unfold solve2. destruct (Nat.eqb_spec n 2) as [->|]; [|discriminate]. cbn [negb orb]. set (d := det2 (A 0 0) (A 0 1) (A 1 0) (A 1 1)). destruct (fltb d f0 || fltb f0 d) eqn:B; [|discriminate]. intros E. injection E as <-.
    assert (N : d <> f0). { apply orb_true_iff in B. destruct B as [B|B]; [now apply flt_ne|now apply fpos_ne]. }
    intros i Hi. assert (C : i = 0 \/ i = 1) by lia. unfold mulv, fsumn. destruct C as [-> | ->]; cbn [seq map fsum Nat.eqb]; unfold d, det2 in *; field; exact N.
  Qed.
  Lemma deig_basis n (C : mtx) D W : symmetric n C -> deig n C = Some (D, W) -> eigbasis n C D W.
  Proof. intros S E. destruct (deig_ok n C D W S E) as (A1 & A2 & A3 & A4 & A5 & _). repeat split; assumption. Qed.
End Concrete.
(** the reals are archimedean *)
Lemma arch_R : forall a : R_of, exists k, (a <= fn k)%of.
Proof.
  intros a. assert (E : forall k, (fn k : R_of) = INR k). { induction k as [|k IH]; [reflexivity|]. rewrite S_INR, <- IH. cbn [fn]. apply Rplus_comm. }
  exists (Z.to_nat (up a)). rewrite E. unfold fle. cbn. destruct (RIneq.Rlt_dec _ _) as [L|L]; [|reflexivity]. exfalso. destruct (archimed a) as [A _].
  destruct (Z.le_gt_cases 0 (up a)) as [P|P].
  - rewrite INR_IZR_INZ, Z2Nat.id in L by exact P. lra.
  - replace (Z.to_nat (up a)) with O in L by lia. cbn in L. apply IZR_lt in P. lra.
Qed.

Section Examples.
  Notation vQ := (@vec Qc_of). Notation mQ := (@mtx Qc_of).
  Definition v2 (a b : Q) : vQ := fun i => match i with 0 => Q2Qc a | 1 => Q2Qc b | _ => Q2Qc 0 end%nat.
  Definition eps0 : Qc := Q2Qc (1 # 4503599627370496).
  (** square roots of 1, 4, 9, 10^-30 and 10^-32; other numbers are left *)
  Definition rE (a : Qc) : Qc := if Qc_eq_dec a (Q2Qc (1 # 1000000000000000000000000000000)) then Q2Qc (1 # 1000000000000000)
    else if Qc_eq_dec a (Q2Qc (1 # 100000000000000000000000000000000)) then Q2Qc (1 # 10000000000000000) else rQ a.
  Definition ext (fuel : nat) (a b : Q) (f : vQ) (norm tol : Q) := @get_extrema Qc_of deig asort solve2 rE eps0 eps0 fuel (mkQ 2 (dQ a b) f (Q2Qc 0)) (Q2Qc norm) (Q2Qc tol).
  Definition pair2 (r : qres (vQ * vQ)) : qres (list Q * list Q) := match r with QOk (a, b) => QOk ([this (a 0%nat); this (a 1%nat)], [this (b 0%nat); this (b 1%nat)]) | QErr e => QErr e end.
  Lemma dQ_sym a b : symmetric 2 (dQ a b).
  Proof. intros i j Hi Hj. assert (I : i = 0%nat \/ i = 1%nat) by lia. assert (J : j = 0%nat \/ j = 1%nat) by lia. destruct I as [-> | ->]; destruct J as [-> | ->]; reflexivity. Qed.
  (** C240: the matrix (0 1; 3 0) is refused *)
  Definition asym : mQ := fun i j => match i, j with 0, 1 => Q2Qc 1 | 1, 0 => Q2Qc 3 | _, _ => Q2Qc 0 end%nat.
  Example ex_C240 : this (qf_apply (mkQ 2 (dQ 2 4) (v2 1 (-1)) (Q2Qc 7) : @qform Qc_of) (v2 3 2)) = 25%Q /\ match @qf_new Qc_of tQ tQ 2 asym None None with QErr QSym => true | _ => false end = true /\
    match @qf_new Qc_of tQ tQ 2 (dQ 2 4) None None with QOk q => this (qf_apply q (v2 3 2)) | QErr _ => 0%Q end = 17%Q.
  Proof. split; [vm_compute; reflexivity|]. split; vm_compute; reflexivity. Qed.
  (** C241 *)
  Example ex_C241 : pair2 (ext 10 2 8 (v2 0 0) 3 (1 # 10)) = QOk ([0; 3]%Q, [3; 0]%Q).
  Proof. vm_compute. reflexivity. Qed.
  (** C242, C243: the maximum 1/2 (x^2 + 3 y^2) + 3 y near the circle of radius 2, the minimum inside of it *)
  Definition q13 : @qform Qc_of := mkQ 2 (dQ 1 3) (v2 0 3) (Q2Qc 0).
  Example ex_C243 : pair2 (ext 10 1 3 (v2 0 3) 2 (1 # 10)) = QOk ([0; 256 # 127]%Q, [0; -1]%Q).
  Proof. vm_compute. reflexivity. Qed.
  Lemma roots13 : @roots Qc_of solve2 rE q13.
  Proof.
    split; [split; [vm_compute; reflexivity|apply Qc_is_canon; vm_compute; reflexivity]|]. intros x E. unfold solve2 in E.
    match type of E with (if ?b then _ else _) = _ => replace b with false in E by (vm_compute; reflexivity) end. injection E as <-.
    split; [vm_compute; reflexivity|apply Qc_is_canon; vm_compute; reflexivity].
  Qed.
  (** the conditions of the theorem hold *)
  Example ex_C242 : exists xmax xmin, ext 10 1 3 (v2 0 3) 2 (1 # 10) = QOk (xmax, xmin) /\
    (forall y, dot 2 y y = dot 2 xmax xmax -> qf_apply q13 y <= qf_apply q13 xmax)%of /\ (forall y, dot 2 y y = dot 2 xmin xmin -> qf_apply q13 xmin <= qf_apply q13 y)%of.
  Proof.
    destruct (ext 10 1 3 (v2 0 3) 2 (1 # 10)) as [[xmax xmin]|e] eqn:E; [|exfalso; pose proof (f_equal pair2 E) as X; vm_compute in X; discriminate]. exists xmax, xmin. split; [reflexivity|].
    apply (C242_extremal (K := Qc_of) deig asort solve2 rE eps0 eps0 deig_basis asort_ok solve2_ok 10 q13 (Q2Qc 2) (Q2Qc (1 # 10)) xmax xmin); [cbn; lia|vm_compute; reflexivity|apply dQ_sym|vm_compute; reflexivity|exact roots13| |exact E].
    right. exists 1%nat. split; [cbn; lia|vm_compute; reflexivity].
  Qed.
  Lemma pick (r : qres (vQ * vQ)) (t : vQ -> vQ -> bool) : match r with QOk (a, b) => t a b | QErr _ => false end = true -> exists a b, r = QOk (a, b) /\ t a b = true.
  Proof. destruct r as [[a b]|e]; [|discriminate]. intros H. now exists a, b. Qed.
  (** C243 is false: the vector asked for has norm 10, the result is near (0, 1/2), and (10, 0) is better; the norm of the minimum of q13 is 1 instead of 2 *)
  Theorem C243_refuted : exists fuel (q : @qform Qc_of) norm tol xmax xmin y, @get_extrema Qc_of deig asort solve2 rE eps0 eps0 fuel q norm tol = QOk (xmax, xmin) /\
    norm = Q2Qc 10 /\ tol = Q2Qc (1 # 10000) /\ (dot 2 xmax xmax < 1)%of /\ dot 2 y y = (norm * norm)%of /\ (fn 100 * qf_apply q xmax < qf_apply q y)%of.
  Proof.
    set (q := mkQ 2 (dQ 1 (-1)) (v2 0 1) (Q2Qc 0) : @qform Qc_of).
    destruct (pick (ext 200 1 (-1) (v2 0 1) 10 (1 # 10000)) (fun a _ => fltb (dot 2 a a) (f1 : Qc_of) && fltb (fn 100 * qf_apply q a)%of (qf_apply q (v2 10 0)))%bool) as [a [b [E T]]]; [vm_compute; reflexivity|].
    apply andb_prop in T. destruct T as [T1 T2].
    exists 200%nat, q, (Q2Qc 10), (Q2Qc (1 # 10000)), a, b, (v2 10 0). split; [exact E|]. split; [reflexivity|]. split; [reflexivity|]. split; [exact T1|]. split; [apply Qc_is_canon; vm_compute; reflexivity|exact T2].
  Qed.
  Theorem C243_interior_refuted : exists xmax xmin, ext 10 1 3 (v2 0 3) 2 (1 # 10) = QOk (xmax, xmin) /\ (dot 2 xmin xmin < fn 2)%of.
  Proof. apply (pick _ (fun _ b => fltb (dot 2 b b) (fn 2 : Qc_of))). vm_compute. reflexivity. Qed.
  (** C244: a small norm, a linear form, a linear term which is small in comparison *)
  Definition is_err (e : qerr) (r : qres (vQ * vQ)) : bool := match r, e with QErr QUnbound, QUnbound | QErr QLinAlg, QLinAlg => true | _, _ => false end.
  Lemma is_err_eq e r : is_err e r = true -> r = QErr e.
  Proof. destruct r as [[a b]|[]]; destruct e; cbn; congruence. Qed.
  Theorem C244_refuted : (exists fuel, ext fuel 1 2 (v2 1 0) (1 # 200) (1 # 10000) = QErr QUnbound) /\ (exists fuel, ext fuel 0 0 (v2 1 0) 1 (1 # 10000) = QErr QLinAlg) /\
    (exists fuel, ext fuel (-10) 10 (v2 0 (1 # 1000000000000000)) 1 (1 # 10000) = QErr QUnbound).
  Proof. split; [|split]; exists 20%nat; apply is_err_eq; vm_compute; reflexivity. Qed.
  (** C242 is false for an eig which only returns linearly independent eigenvectors of length 1, which are not orthogonal for equal eigenvalues *)
  Definition skew (n : nat) (C : mQ) : option (list Qc * list vQ) := Some ([C 0%nat 0%nat; C 0%nat 0%nat], [v2 1 0; v2 (3 # 5) (4 # 5)]).
  Theorem C242_eig_refuted : exists (eig : nat -> mQ -> option (list Qc * list vQ)) fuel (q : @qform Qc_of) norm tol D W xmax xmin y,
    eig 2%nat (q_H q) = Some (D, W) /\ length W = 2%nat /\ (forall i k, (i < 2)%nat -> (k < 2)%nat -> mulv 2 (q_H q) (nth k W (@vzero Qc_of)) i = (nth k D (Q2Qc 0) * nth k W (@vzero Qc_of) i)%Qc) /\
    (forall k, (k < 2)%nat -> dot 2 (nth k W (@vzero Qc_of)) (nth k W (@vzero Qc_of)) = (f1 : Qc_of)) /\ (nth 0 W (@vzero Qc_of) 0%nat * nth 1 W (@vzero Qc_of) 1%nat - nth 0 W (@vzero Qc_of) 1%nat * nth 1 W (@vzero Qc_of) 0%nat)%Qc <> Q2Qc 0 /\
    @get_extrema Qc_of eig asort solve2 rE eps0 eps0 fuel q norm tol = QOk (xmax, xmin) /\ dot 2 y y = (dot 2 xmax xmax : Qc_of) /\ (qf_apply q xmax < qf_apply q y)%of.
  Proof.
    set (q := mkQ 2 (dQ 1 1) (v2 0 1) (Q2Qc 0) : @qform Qc_of).
    set (yy := fun (a : vQ) (i : nat) => match i with 1%nat => (a 0%nat * Q2Qc (5 # 3))%Qc | _ => Q2Qc 0 end).
    destruct (pick (@get_extrema Qc_of skew asort solve2 rE eps0 eps0 20 q (Q2Qc 2) (Q2Qc (1 # 10))) (fun a _ => Qc_eq_bool (@dot Qc_of 2 (yy a) (yy a)) (@dot Qc_of 2 a a) && fltb (qf_apply q a) (qf_apply q (yy a)))%bool) as [a [b [E T]]]; [vm_compute; reflexivity|].
    apply andb_prop in T. destruct T as [T1 T2].
    exists skew, 20%nat, q, (Q2Qc 2), (Q2Qc (1 # 10)), [Q2Qc 1; Q2Qc 1], [v2 1 0; v2 (3 # 5) (4 # 5)], a, b, (yy a).
    split; [reflexivity|]. split; [reflexivity|]. split; [|split; [|split]].
    - intros i k Hi Hk. assert (I : i = 0%nat \/ i = 1%nat) by lia. assert (J : k = 0%nat \/ k = 1%nat) by lia.
      destruct I as [-> | ->]; destruct J as [-> | ->]; apply Qc_is_canon; vm_compute; reflexivity.
    - intros k Hk. assert (J : k = 0%nat \/ k = 1%nat) by lia. destruct J as [-> | ->]; apply Qc_is_canon; vm_compute; reflexivity.
    - intros Z. apply (f_equal this) in Z. vm_compute in Z. discriminate.
    - split; [exact E|]. split; [exact (Qc_eq_bool_correct _ _ T1)|exact T2].
  Qed.
  (** C245, C246: the direction (-1, 0) at the maximum (0, 2) of q13 on the circle of radius 2; the second derivative is 1 - (3 2 + 3) / 2 = -7/2 *)
  Definition rot (n : nat) (A : mQ) : list vQ := [v2 0 1; v2 (-1) 0].
  Definition inv (xs : vQ) := @get_invariances Qc_of deig asort rot rE q13 xs.
  Definition show_inv (r : qres (list vQ * list Qc)) : qres (list (list Q) * list Q) := match r with QOk (w, nu) => QOk (map (fun v : vQ => [this (v 0%nat); this (v 1%nat)]) w, map this nu) | QErr e => QErr e end.
  Example ex_C245 : show_inv (inv (v2 0 2)) = QOk ([[-(1); 0]], [-7 # 2])%Q.
  Proof. vm_compute. reflexivity. Qed.
  Lemma rot_qr b : @qr_at Qc_of rot 2 (v2 0 b).
  Proof.
    split; [reflexivity|]. split.
    - intros i j Hi Hj. cbn [rot length] in Hi, Hj. assert (I : i = 0%nat \/ i = 1%nat) by lia. assert (J : j = 0%nat \/ j = 1%nat) by lia. destruct I as [-> | ->]; destruct J as [-> | ->]; apply Qc_is_canon; vm_compute; reflexivity.
    - exists (Q2Qc b). intros i Hi. assert (I : i = 0%nat \/ i = 1%nat) by lia. destruct I as [-> | ->]; [exact (eq_sym (Qcmult_0_r (Q2Qc b)))|exact (eq_sym (Qcmult_1_r (Q2Qc b)))].
  Qed.
  Example ex_C246 : let y : vQ := fun i => (Q2Qc (3 # 5) * v2 0 2 i + Q2Qc (4 # 5) * (Q2Qc 2 * v2 (-1) 0 i))%Qc in
    @stationary Qc_of q13 (Q2Qc (9 # 2)) (v2 0 2) /\ this (@dot Qc_of 2 y y) = 4%Q /\ this (qf_apply q13 (v2 0 2)) = 12%Q /\ this (qf_apply q13 y) = (176 # 25)%Q.
  Proof.
    intros y. split; [|split; [|split]; vm_compute; reflexivity]. intros i Hi. cbn in Hi. assert (I : i = 0%nat \/ i = 1%nat) by lia. destruct I as [-> | ->]; apply Qc_is_canon; vm_compute; reflexivity.
  Qed.
  (** C247: at the minimum (0, -1) of the second form the second derivative is 1 *)
  Example ex_C247 : show_inv (inv (v2 0 (-1))) = QOk ([[-(1); 0]], [1])%Q.
  Proof. vm_compute. reflexivity. Qed.
End Examples.
