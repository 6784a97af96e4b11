(** Lemmas about the model of QuadraticForm. *)
From Coq Require Import List Arith ZArith Bool Lia Sorting.Sorted Field Permutation.
From Verif Require Import OField LinAlg GenEig PCAModel SymeigModel SFAModel ExpModel QuadModel.
Import ListNotations.
Open Scope nat_scope.

Section Quad.
  Context {K : ofield}.
  Add Field Kq1 : (fth K).
  Notation vec := (vec (K := K)). Notation mtx := (mtx (K := K)). Notation qform := (qform (K := K)).
  Open Scope of_scope.
  Notation nthv k V := (nth k V vzero).
  Notation nthd k D := (nth k D (0 : K)).
  Notation half := ((1 / (1 + 1)) : K).
  Lemma f2 : (1 + 1 : K) <> 0. Proof. intros E. pose proof (fn_ne (K := K) 2 ltac:(lia)) as H. apply H. cbn [fn]. transitivity (1 + 1 : K); [ring|exact E]. Qed.
  Lemma half2 (a : K) : half * a + half * a = a. Proof. field. exact f2. Qed.
  Lemma half_pos : 0 < (half : K).
  Proof. replace (half : K) with (finv (1 + 1) : K) by (field; exact f2). apply finv_pos. pose proof (fn_pos (K := K) 1) as H. cbn [fn] in H. now replace (1 + (1 + 0)) with (1 + 1 : K) in H by ring. Qed.
  Lemma flt_add_pos (a b : K) : 0 < b -> a < a + b. Proof. intros H. apply flt_sub. now replace (a + b - a) with b by ring. Qed.
  Lemma fabs_le (a b : K) : fabs a <= b <-> a <= b /\ - a <= b.
  Proof.
    unfold fabs. destruct (fltb a 0) eqn:E.
    - split; [intros H|tauto]. split; [|exact H]. apply fle_trans with (- a); [|exact H]. apply flt_le. apply (flt_trans K _ 0); [exact E|]. now apply fopp_pos.
    - split; [intros H|tauto]. split; [exact H|]. apply fle_trans with a; [|exact H]. apply fle_sub. replace (a - - a) with (a + a) by ring.
      replace (0 : K) with (0 + 0 : K) by ring. now apply fle_add2.
  Qed.
  Lemma fabs_nonneg (a : K) : 0 <= fabs a. Proof. unfold fabs. destruct (fltb a 0) eqn:E; [|exact E]. now apply flt_le, fopp_pos. Qed.
  Lemma fle_div (a b c : K) : 0 < c -> (a / c <= b <-> a <= b * c). Proof. intros H. symmetry. exact (fdiv_le a b c H). Qed.
  Lemma fpos_ne (a : K) : 0 < a -> a <> 0. Proof. intros H E. rewrite E in H. unfold flt in H. now rewrite flt_irrefl in H. Qed.
  Lemma flt_mulr (a b c : K) : 0 < c -> a < b -> a * c < b * c.
  Proof. intros H H1. apply flt_sub. replace (b * c - a * c) with ((b - a) * c) by ring. apply flt_mul; [now apply (proj1 (flt_sub a b))|exact H]. Qed.
  Lemma fle_mul2 (a b c d : K) : 0 <= a -> 0 <= c -> a <= b -> c <= d -> a * c <= b * d.
  Proof. intros A C H1 H2. apply fle_trans with (b * c); [now apply fle_mul|]. replace (b * c) with (c * b) by ring. replace (b * d) with (d * b) by ring. apply fle_mul; [now apply fle_trans with a|exact H2]. Qed.
  Lemma finv_anti (a b : K) : 0 < a -> a <= b -> 1 / b <= 1 / a.
  Proof. intros A H. assert (B : 0 < b) by (now apply flt_le_trans with a). apply fle_div; [exact B|]. replace (1 / a * b) with (b / a) by (field; now apply fpos_ne).
    apply fle_sub. replace (b / a - 1) with ((b - a) / a) by (field; now apply fpos_ne). apply fdiv_pos; [now apply (proj1 (fle_sub _ _))|exact A]. Qed.
  Lemma fadd_pos (a b : K) : 0 < a -> 0 < b -> 0 < a + b. Proof. intros A B. apply (flt_trans K _ a); [exact A|now apply flt_add_pos]. Qed.
  Lemma fdiv_pos' (a b : K) : 0 < a -> 0 < b -> 0 < a / b.
  Proof. intros A B. replace (a / b) with (a * finv b) by (field; now apply fpos_ne). apply flt_mul; [exact A|now apply finv_pos]. Qed.

  (** ** the value of the form *)
  Lemma apply_eq (q : qform) x : qf_apply q x = half * quad (q_n q) (q_H q) x x + dot (q_n q) x (q_f q) + q_c q.
  Proof.
    unfold qf_apply. f_equal. f_equal. f_equal. unfold quad, dot, mulv. apply fsumn_ext. intros j _. replace (fsumn (q_n q) (fun k => x k * q_H q j k)) with (fsumn (q_n q) (fun k => q_H q j k * x k)) by (apply fsumn_ext; intros; ring). ring.
  Qed.

  (** ** sorting the eigenvalues *)
  Definition eigbasis (n : nat) (C : mtx) (D : list K) (V : list vec) : Prop :=
    length D = n /\ length V = n /\ orthonormal n V /\
    (forall i j, (i < n)%nat -> (j < n)%nat -> fsumn n (fun k => nthv k V i * nthv k V j) = delta i j) /\
    (forall k i, (k < n)%nat -> (i < n)%nat -> mulv n C (nthv k V) i = nthd k D * nthv k V i).
  Definition argsort_ok (argsort : list K -> list nat) : Prop :=
    forall l, Permutation (argsort l) (seq 0 (length l)) /\ StronglySorted fle (map (fun i => nthd i l) (argsort l)).
  Lemma nth_map_in {A B} (f : A -> B) (l : list A) k d e : (k < length l)%nat -> nth k (map f l) d = f (nth k l e).
  Proof. intros H. rewrite (nth_indep _ d (f e)) by (now rewrite map_length). apply map_nth. Qed.
  Lemma perm_lt idx n : Permutation idx (seq 0 n) -> length idx = n /\ NoDup idx /\ forall k, (k < n)%nat -> (nth k idx O < n)%nat.
  Proof.
    intros P. assert (L : length idx = n) by (rewrite (Permutation_length P); apply seq_length). split; [exact L|]. split; [apply (Permutation_NoDup (Permutation_sym P)), seq_NoDup|].
    intros k Hk. assert (I : In (nth k idx O) (seq 0 n)) by (apply (Permutation_in _ P), nth_In; lia). apply in_seq in I. lia.
  Qed.
  Lemma sum_perm idx n (f : nat -> K) : Permutation idx (seq 0 n) -> fsumn n (fun k => f (nth k idx O)) = fsumn n f.
  Proof.
    intros P. destruct (perm_lt idx n P) as (L & _). rewrite <- L at 1. rewrite <- (fsum_map_nth idx f O). unfold fsumn. apply fsum_perm. now apply Permutation_map.
  Qed.
  Lemma eig_sort_ok eig argsort n C mu V : (forall D W, eig n C = Some (D, W) -> eigbasis n C D W) -> argsort_ok argsort -> eig_sort eig argsort n C = Some (mu, V) -> eigensystem n C mu V.
  Proof.
    intros HE HA H. unfold eig_sort in H. destruct (eig n C) as [[D W]|] eqn:EE; [|discriminate]. destruct (HE D W eq_refl) as (LD & LW & ON & CP & EV). injection H as <- <-.
    destruct (HA D) as [P S]. rewrite LD in P. destruct (perm_lt _ _ P) as (L & ND & LT). set (idx := argsort D) in *.
    split; [now rewrite map_length|]. split; [now rewrite map_length|]. split; [|split; [|split; [|exact S]]].
    - intros i j Hi Hj. rewrite map_length in Hi, Hj. rewrite !(nth_map_in _ idx _ _ O) by assumption. rewrite ON by (rewrite LW; apply LT; lia). unfold delta.
      destruct (Nat.eqb_spec i j) as [->|NE]; [now rewrite Nat.eqb_refl|]. destruct (Nat.eqb_spec (nth i idx O) (nth j idx O)) as [E|]; [|reflexivity]. exfalso. apply NE.
      apply (proj1 (NoDup_nth idx O) ND); assumption.
    - intros i j Hi Hj. rewrite <- CP by assumption. rewrite <- (sum_perm idx n (fun k => nthv k W i * nthv k W j) P). apply fsumn_ext. intros k Hk. now rewrite !(nth_map_in _ idx _ _ O) by lia.
    - intros k i Hk Hi. rewrite !(nth_map_in _ idx _ _ O) by lia. rewrite EV; auto.
  Qed.

    Lemma last_nth {A} (l : list A) d : last l d = nth (length l - 1) l d.
    Proof. induction l as [|a [|b l] IH]; [reflexivity|reflexivity|]. change (last (a :: b :: l) d) with (last (b :: l) d). rewrite IH. cbn [length]. replace (S (S (length l)) - 1)%nat with (S (length l)) by lia. cbn [nth]. now replace (S (length l) - 1)%nat with (length l) by lia. Qed.
  (** ** facts about an eigensystem *)
  Section Eig.
    Context (n : nat) (C : mtx) (mu : list K) (V : list vec).
    Hypothesis ES : eigensystem n C mu V.
    Let LV : length V = n. Proof. apply ES. Qed.
    Let LD : length mu = n. Proof. apply ES. Qed.
    Lemma eig_sym a b : quad n C a b = quad n C b a.
    Proof. rewrite !(quad_spectral n C mu V ES). apply fsumn_ext. intros. ring. Qed.
    Lemma mu_max k : (k < n)%nat -> nthd k mu <= last mu 0.
    Proof. intros Hk. rewrite last_nth. apply sorted_nth; [apply ES|lia|lia]. Qed.
    Lemma mu_min k : (k < n)%nat -> hd 0 mu <= nthd k mu.
    Proof. intros Hk. replace (hd 0 mu) with (nthd O mu) by (destruct mu; reflexivity). apply sorted_nth; [apply ES|lia|lia]. Qed.
    (** the form minus l/2 |x|^2 at a point where its gradient vanishes *)
    Lemma lagrange_id (q : qform) (x y : vec) l : q_n q = n -> q_H q = C -> (forall i, (i < n)%nat -> mulv n C x i = l * x i - q_f q i) ->
      qf_apply q x + half * l * (dot n y y - dot n x x) - qf_apply q y = half * fsumn n (fun k => (l - nthd k mu) * (dot n (fun i => y i - x i) (nthv k V) * dot n (fun i => y i - x i) (nthv k V))).
    Proof.
      intros EN EH HX. rewrite !apply_eq, EN, EH. set (d := fun i => y i - x i : K).
      assert (Qx : forall a, quad n C a x = l * dot n a x - dot n a (q_f q)).
      { intros a. unfold quad. rewrite (dot_ext n a a (mulv n C x) (fun i => l * x i - q_f q i)) by auto. now rewrite (dot_sub_r n (fun i => l * x i) (q_f q) a), dot_scale. }
      assert (Qy : quad n C y y = quad n C d d + quad n C y x + quad n C x y - quad n C x x).
      { assert (E1 : quad n C d d = dot n y (mulv n C d) - dot n x (mulv n C d)) by (unfold quad, d; now rewrite dot_sub_l).
        assert (E2 : forall a, dot n a (mulv n C d) = quad n C a y - quad n C a x). { intros a. unfold quad. rewrite <- dot_sub_r. apply dot_ext; [reflexivity|]. intros i _. unfold d. apply mulv_sub. }
        rewrite E1, !E2. ring. }
      rewrite Qy, (eig_sym x y), !Qx.
      assert (Dd : dot n d d = dot n y y - (1 + 1) * dot n y x + dot n x x). { unfold d. rewrite dot_sub_l, !dot_sub_r, (dot_sym n x y). ring. }
      transitivity (half * (l * dot n d d - quad n C d d)); [rewrite Dd; field; exact f2|]. f_equal.
      rewrite (quad_spectral n C mu V ES), <- (parseval n C mu V ES d d), <- fsumn_mul, <- fsumn_sub. apply fsumn_ext. intros. ring.
    Qed.
    Lemma lagrange (q : qform) (x y : vec) l : q_n q = n -> q_H q = C -> (forall k, (k < n)%nat -> nthd k mu <= l) -> (forall i, (i < n)%nat -> mulv n C x i = l * x i - q_f q i) ->
      qf_apply q y <= qf_apply q x + half * l * (dot n y y - dot n x x).
    Proof.
      intros EN EH HL HX. apply fle_sub. rewrite (lagrange_id q x y l EN EH HX). apply fle_mul0; [apply flt_le, half_pos|].
      apply fsumn_nonneg. intros k Hk. apply fle_mul0; [|apply fsq]. apply (proj1 (fle_sub _ _)). now apply HL.
    Qed.
    Lemma lagrange_min (q : qform) (x y : vec) l : q_n q = n -> q_H q = C -> (forall k, (k < n)%nat -> l <= nthd k mu) -> (forall i, (i < n)%nat -> mulv n C x i = l * x i - q_f q i) ->
      qf_apply q x + half * l * (dot n y y - dot n x x) <= qf_apply q y.
    Proof.
      intros EN EH HL HX. apply fle_sub. pose proof (lagrange_id q x y l EN EH HX) as E. 
      replace (qf_apply q y - (qf_apply q x + half * l * (dot n y y - dot n x x))) with (- (qf_apply q x + half * l * (dot n y y - dot n x x) - qf_apply q y)) by ring. rewrite E.
      match goal with |- 0 <= - (_ * fsumn n ?g) => replace (- (half * fsumn n g)) with (half * fsumn n (fun k => (nthd k mu - l) * (dot n (fun i => y i - x i) (nthv k V) * dot n (fun i => y i - x i) (nthv k V)))) end.
      - apply fle_mul0; [apply flt_le, half_pos|]. apply fsumn_nonneg. intros k Hk. apply fle_mul0; [|apply fsq]. apply (proj1 (fle_sub _ _)). now apply HL.
      - replace (- (half * fsumn n (fun k => (l - nthd k mu) * (dot n (fun i => y i - x i) (nthv k V) * dot n (fun i => y i - x i) (nthv k V))))) with (half * ((- (1)) * fsumn n (fun k => (l - nthd k mu) * (dot n (fun i => y i - x i) (nthv k V) * dot n (fun i => y i - x i) (nthv k V))))) by ring.
        f_equal. rewrite <- fsumn_mul. apply fsumn_ext. intros. ring.
    Qed.
    (** the largest and the smallest eigenvalue bound the quadratic form *)
    Lemma quad_max v : quad n C v v <= last mu 0 * dot n v v.
    Proof.
      rewrite (quad_spectral n C mu V ES), <- (parseval n C mu V ES v v), <- fsumn_mul. apply fsumn_le. intros k Hk. apply fle_mul; [apply fsq|now apply mu_max].
    Qed.
    Lemma quad_min v : hd 0 mu * dot n v v <= quad n C v v.
    Proof.
      rewrite (quad_spectral n C mu V ES), <- (parseval n C mu V ES v v), <- fsumn_mul. apply fsumn_le. intros k Hk. apply fle_mul; [apply fsq|now apply mu_min].
    Qed.
    Lemma eig_unit k : (k < n)%nat -> dot n (nthv k V) (nthv k V) = 1.
    Proof. intros Hk. destruct ES as (_ & _ & ON & _). rewrite ON by lia. unfold delta. now rewrite Nat.eqb_refl. Qed.
    Lemma quad_at k : (k < n)%nat -> quad n C (nthv k V) (nthv k V) = nthd k mu.
    Proof. intros Hk. rewrite (eig_quad n C mu V ES) by exact Hk. unfold delta. rewrite Nat.eqb_refl. ring. Qed.
    (** ** the solution for a given multiplier *)
    Context (f : vec).
    Let al := map (fun v => dot n v f) V.
    Let La : length al = n. Proof. unfold al. now rewrite map_length. Qed.
    Lemma al_nth k : (k < n)%nat -> nthd k al = dot n (nthv k V) f.
    Proof. intros Hk. unfold al. apply (nth_map_in (fun v => dot n v f)). lia. Qed.
    Definition xl (l : K) : vec := fun i => fsum (map (fun p : K * K * vec => snd p i * snd (fst p) * (1 / (l - fst (fst p)))) (combine (combine mu al) V)).
    Lemma combine_nth' {A B} (a : list A) (b : list B) k d e : length a = length b -> nth k (combine a b) (d, e) = (nth k a d, nth k b e). Proof. apply combine_nth. Qed.
    Lemma xl_comb l i : xl l i = comb V (fun k => dot n (nthv k V) f * (1 / (l - nthd k mu))) i.
    Proof.
      unfold xl, comb. rewrite (fsum_map_nth _ _ ((0 : K, 0 : K), vzero)). rewrite !combine_length, LV, LD, La, !Nat.min_id. apply fsumn_ext. intros k Hk.
      rewrite combine_nth' by (rewrite combine_length; lia). rewrite combine_nth' by lia. cbn [fst snd]. rewrite al_nth by exact Hk. ring.
    Qed.
    Lemma norm_x2_eq l : norm_x2 mu al l = fsumn n (fun k => dot n (nthv k V) f * dot n (nthv k V) f * (1 / (l - nthd k mu) * (1 / (l - nthd k mu)))).
    Proof.
      unfold norm_x2. rewrite (fsum_map_nth _ _ (0 : K, 0 : K)). rewrite combine_length, LD, La, Nat.min_id. apply fsumn_ext. intros k Hk. rewrite combine_nth' by lia. cbn [fst snd]. now rewrite al_nth by exact Hk.
    Qed.
    Lemma xl_norm l : dot n (xl l) (xl l) = norm_x2 mu al l.
    Proof.
      rewrite norm_x2_eq. set (c := fun k => dot n (nthv k V) f * (1 / (l - nthd k mu))). rewrite (dot_ext n _ (comb V c) _ (comb V c)) by (intros; apply xl_comb).
      rewrite norm_comb by apply ES. rewrite LV. apply fsumn_ext. intros. unfold c. ring.
    Qed.
    Lemma xl_solves l : (forall k, (k < n)%nat -> nthd k mu <> l) -> forall i, (i < n)%nat -> mulv n C (xl l) i = l * xl l i - f i.
    Proof.
      intros HL i Hi. set (c := fun k => dot n (nthv k V) f * (1 / (l - nthd k mu))).
      transitivity (mulv n C (comb V c) i); [apply fsumn_ext; intros; now rewrite xl_comb|].
      transitivity (fsumn n (fun k => c k * (nthd k mu * nthv k V i))).
      - unfold mulv, comb. rewrite LV. rewrite (fsumn_ext n _ (fun j => fsumn n (fun k => c k * (C i j * nthv k V j)))) by (intros; rewrite <- fsumn_mul; apply fsumn_ext; intros; ring).
        rewrite fsumn_swap. apply fsumn_ext. intros k Hk. rewrite fsumn_mul. f_equal. change (fsumn n (fun i0 => C i i0 * nthv k V i0)) with (mulv n C (nthv k V) i). now apply ES.
      - rewrite xl_comb. fold c. unfold comb. rewrite LV, <- fsumn_mul. rewrite <- (LinAlg.expand n C mu V ES f i Hi). unfold comb. rewrite LV, <- fsumn_sub. apply fsumn_ext. intros k Hk. unfold c.
        rewrite (dot_sym n f). field. intros E. apply (HL k Hk). symmetry. apply fle_antisym; apply fle_sub; [replace (nthd k mu - l) with (- (l - nthd k mu)) by ring; rewrite E; replace (- (0)) with (0 : K) by ring|rewrite E]; apply fle_refl.
    Qed.
    (** the norm decreases above the largest eigenvalue *)
    Lemma norm_anti l l' : last mu 0 < l -> l <= l' -> norm_x2 mu al l' <= norm_x2 mu al l.
    Proof.
      intros H H1. rewrite !norm_x2_eq. apply fsumn_le. intros k Hk. assert (P : 0 < l - nthd k mu) by (apply (proj1 (flt_sub _ _)); now apply fle_lt_trans with (last mu 0); [apply mu_max|]).
      assert (Q : l - nthd k mu <= l' - nthd k mu) by (replace (l - nthd k mu) with (l + - nthd k mu) by ring; replace (l' - nthd k mu) with (l' + - nthd k mu) by ring; now apply fle_add).
      pose proof (finv_anti _ _ P Q) as G. assert (P' : 0 < l' - nthd k mu) by (now apply flt_le_trans with (l - nthd k mu)).
      set (b := 1 / (l - nthd k mu)) in *. set (b' := 1 / (l' - nthd k mu)) in *. assert (B' : 0 <= b') by (apply fdiv_pos; [apply flt_le, f01|exact P']).
      set (a := dot n (nthv k V) f). replace (a * a * (b' * b')) with (b' * b' * (a * a)) by ring. replace (a * a * (b * b)) with (b * b * (a * a)) by ring.
      apply fle_mul; [apply fsq|]. now apply fle_mul2.
    Qed.
    (** the right end of the first interval *)
    Lemma norm_right r nrm : 0 < nrm -> 0 < r -> r * r = dot n f f -> norm_x2 mu al (r / nrm + last mu 0) <= nrm * nrm.
    Proof.
      intros Hn Hr E. rewrite norm_x2_eq. assert (Nr : r <> 0) by now apply fpos_ne. assert (Nn : nrm <> 0) by now apply fpos_ne.
      replace (nrm * nrm) with (dot n f f * ((nrm / r) * (nrm / r))) by (rewrite <- E; field; exact Nr).
      rewrite <- (parseval n C mu V ES f f), <- fsumn_mulr. apply fsumn_le. intros k Hk. rewrite !(dot_sym n f). set (a := dot n (nthv k V) f).
      set (b := 1 / (r / nrm + last mu 0 - nthd k mu)). replace (a * a * (b * b)) with (b * b * (a * a)) by ring. replace (a * a * ((nrm / r) * (nrm / r))) with (nrm / r * (nrm / r) * (a * a)) by ring.
      assert (P : 0 < r / nrm) by now apply fdiv_pos'.
      assert (Q : r / nrm <= r / nrm + last mu 0 - nthd k mu). { apply fle_sub. replace (r / nrm + last mu 0 - nthd k mu - r / nrm) with (last mu 0 - nthd k mu) by ring. apply (proj1 (fle_sub _ _)). now apply mu_max. }
      assert (G : b <= nrm / r). { unfold b. replace (nrm / r) with (1 / (r / nrm)) by (field; split; assumption). now apply finv_anti. }
      assert (B : 0 <= b) by (apply fdiv_pos; [apply flt_le, f01|now apply flt_le_trans with (r / nrm)]).
      apply fle_mul; [apply fsq|]. now apply fle_mul2.
    Qed.
    (** all eigenvalues negative and the stationary point outside of the sphere: the multiplier is bounded away from 0 *)
    Lemma lower N2 : 0 < N2 -> last mu 0 < 0 -> N2 < norm_x2 mu al 0 -> exists L, 0 < L /\ forall l, last mu 0 < l -> norm_x2 mu al l <= N2 -> L <= l.
    Proof.
      intros HN HM H0. set (N0 := norm_x2 mu al 0) in *. set (m := - last mu 0). assert (Hm : 0 < m) by now apply fopp_pos. set (e := N0 - N2). assert (He : 0 < e) by now apply (proj1 (flt_sub _ _)).
      assert (P0 : 0 < N0) by now apply (flt_trans K _ N2). pose proof f2 as F2. assert (HW : exists w, w = (1 + 1) * (1 + 1) /\ 0 < (w : K)).
      { exists ((1 + 1) * (1 + 1)). split; [reflexivity|]. assert (P2 : 0 < (1 + 1 : K)) by (apply fadd_pos; apply f01). now apply flt_mul. }
      destruct HW as (w & Ew & Pw). assert (P4 : 0 < w * N0) by now apply flt_mul.
      set (t := e / (w * N0)). assert (Ht : 0 < t) by now apply fdiv_pos'. exists (m * t). assert (PL : 0 < m * t) by now apply flt_mul. split; [exact PL|].
      intros l Hl HNl. destruct (fle_or_lt (m * t) l) as [|B]; [assumption|exfalso].
      assert (NL : norm_x2 mu al (m * t) <= N2) by (apply fle_trans with (norm_x2 mu al l); [apply norm_anti; [exact Hl|now apply flt_le]|exact HNl]).
      assert (E1 : N0 <= norm_x2 mu al (m * t) * ((1 + t) * (1 + t))).
      { unfold N0. rewrite !norm_x2_eq, <- fsumn_mulr. apply fsumn_le. intros k Hk. set (u := - nthd k mu). assert (Hu : m <= u). { apply fle_sub. replace (u - m) with (last mu 0 - nthd k mu) by (unfold u, m; ring). apply (proj1 (fle_sub _ _)). now apply mu_max. }
        assert (Pu : 0 < u) by now apply flt_le_trans with m. replace (0 - nthd k mu) with u by (unfold u; ring). replace (m * t - nthd k mu) with (m * t + u) by (unfold u; ring).
        assert (Pv : 0 < m * t + u). { apply (flt_trans K _ u); [exact Pu|]. replace (m * t + u) with (u + m * t) by ring. now apply flt_add_pos. }
        set (a := dot n (nthv k V) f). replace (a * a * (1 / u * (1 / u))) with (1 / u * (1 / u) * (a * a)) by ring. set (v := m * t + u) in *.
        replace (a * a * (1 / v * (1 / v)) * ((1 + t) * (1 + t))) with ((1 + t) / v * ((1 + t) / v) * (a * a)) by (field; now apply fpos_ne). apply fle_mul; [apply fsq|].
        assert (G : 1 / u <= (1 + t) / v). { apply fle_div; [exact Pu|]. replace ((1 + t) / v * u) with ((1 + t) * u / v) by (field; now apply fpos_ne). apply fle_sub. replace ((1 + t) * u / v - 1) with (((1 + t) * u - v) / v) by (field; now apply fpos_ne).
          apply fdiv_pos; [|exact Pv]. unfold v. replace ((1 + t) * u - (m * t + u)) with ((u - m) * t) by ring. apply fle_mul0; [now apply (proj1 (fle_sub _ _))|now apply flt_le]. }
        assert (G0 : 0 <= 1 / u) by (apply fdiv_pos; [apply flt_le, f01|exact Pu]). now apply fle_mul2. }
      apply (flt_not_le (N2 * ((1 + t) * (1 + t))) N0).
      - apply flt_sub. assert (ET : e = t * (w * N0)) by (unfold t; field; split; apply fpos_ne; assumption).
        assert (T1 : t <= 1). { unfold t. apply fle_div; [exact P4|]. apply fle_sub. replace (1 * (w * N0) - e) with (N0 + N0 + N0 + N2) by (rewrite Ew; unfold e; ring). apply flt_le. repeat apply fadd_pos; assumption. }
        replace (N0 - N2 * ((1 + t) * (1 + t))) with (e - (1 + 1 + t) * t * N2) by (unfold e; ring). rewrite ET.
        replace (t * (w * N0) - (1 + 1 + t) * t * N2) with (t * (w * e + (1 - t) * N2 + N2)) by (rewrite Ew; unfold e; ring). apply flt_mul; [exact Ht|].
        apply (flt_le_trans _ N2); [exact HN|]. apply fle_sub. replace (w * e + (1 - t) * N2 + N2 - N2) with (w * e + (1 - t) * N2) by ring. replace (0 : K) with (0 + 0 : K) by ring. apply fle_add2; [apply flt_le; now apply flt_mul|].
        apply fle_mul0; [now apply (proj1 (fle_sub _ _))|now apply flt_le].
      - apply fle_trans with (norm_x2 mu al (m * t) * ((1 + t) * (1 + t))); [exact E1|]. apply fle_mul; [apply fsq|exact NL].
    Qed.
  End Eig.

  (** ** the bisection *)
  Section Bisect.
    Context (eps_l : K) (mu al : list K) (m norm_2 tol : K).
    Notation N := (norm_x2 mu al).
    Notation bis := (bisect eps_l).
    Lemma mid (ll lr : K) : ll < lr -> ll < half * (lr - ll) + ll /\ half * (lr - ll) + ll < lr /\ lr - (half * (lr - ll) + ll) = half * (lr - ll).
    Proof.
      intros H. pose proof (proj1 (flt_sub _ _) H) as D. pose proof (flt_mul K _ _ half_pos D) as P.
      split; [|split].
      - apply flt_sub. now replace (half * (lr - ll) + ll - ll) with (half * (lr - ll)) by ring.
      - apply flt_sub. replace (lr - (half * (lr - ll) + ll)) with (half * (lr - ll)) by (field; exact f2). exact P.
      - field. exact f2.
    Qed.
    Lemma bisect_ok fuel : forall ll lr nx lam ll' lr' nx' lam', m <= ll -> ll < lr -> (ll = m \/ norm_2 < N ll) -> N lr <= norm_2 ->
      (forall l, lam = Some l -> nx = N l /\ (l = ll \/ l = lr) /\ m < l) -> bis fuel mu al norm_2 tol ll lr nx lam = Some (ll', lr', nx', lam') ->
      ll <= ll' /\ ll' < lr' /\ lr' <= lr /\ (ll' = m \/ norm_2 < N ll') /\ N lr' <= norm_2 /\ (fabs (nx' - norm_2) <= tol \/ (lr' - ll') / lr' <= eps_l) /\
      (forall l, lam' = Some l -> nx' = N l /\ (l = ll' \/ l = lr') /\ m < l) /\
      (lam' = None -> lam = None /\ fabs (nx - norm_2) <= tol \/ (lr - ll) / lr <= eps_l).
    Proof.
      induction fuel as [|fuel IH]; intros ll lr nx lam ll' lr' nx' lam' H1 H2 H3 H4 H5 H; cbn [bisect] in H.
      - destruct (fltb tol (fabs (nx - norm_2))) eqn:A; destruct (fltb eps_l ((lr - ll) / lr)) eqn:B; cbn [andb] in H; try discriminate; injection H as <- <- <- <-; (split; [apply fle_refl|]; split; [exact H2|]; split; [apply fle_refl|]; split; [exact H3|]; split; [exact H4|]; split; [tauto|]; split; [exact H5|]; intros E; tauto).
      - destruct (fltb tol (fabs (nx - norm_2)) && fltb eps_l ((lr - ll) / lr)) eqn:AB.
        2: { apply andb_false_iff in AB. injection H as <- <- <- <-; (split; [apply fle_refl|]; split; [exact H2|]; split; [apply fle_refl|]; split; [exact H3|]; split; [exact H4|]; split; [exact AB|]; split; [exact H5|]; intros E; unfold fle; tauto). }
        destruct (mid ll lr H2) as (M1 & M2 & _). set (l := half * (lr - ll) + ll) in *.
        assert (NL : m < l) by now apply fle_lt_trans with ll.
        assert (NN : forall fu a b x y, bis fu mu al norm_2 tol a b (N x) (Some y) = Some (ll', lr', nx', lam') -> lam' <> None).
        { clear. induction fu as [|fu IH]; intros a b x y H E; subst lam'; cbn [bisect] in H.
          - destruct (_ && _); [discriminate|]. injection H. discriminate.
          - destruct (_ && _); [|injection H; discriminate]. destruct (fltb norm_2 _); now apply IH in H. }
        destruct (fltb norm_2 (N l)) eqn:C.
        + pose proof (NN _ _ _ _ _ H) as NE. apply IH in H; [|apply flt_le; exact NL|exact M2|now right|exact H4|intros l0 E; injection E as <-; auto].
          destruct H as (R1 & R2 & R3 & R4 & R5 & R6 & R7 & R8). split; [apply fle_trans with l; [now apply flt_le|exact R1]|]. repeat (split; [assumption|]). intros E. contradiction.
        + pose proof (NN _ _ _ _ _ H) as NE. apply IH in H; [|exact H1|exact M1|exact H3|exact C|intros l0 E; injection E as <-; auto].
          destruct H as (R1 & R2 & R3 & R4 & R5 & R6 & R7 & R8). split; [exact R1|]. split; [exact R2|]. split; [apply fle_trans with l; [exact R3|now apply flt_le]|]. repeat (split; [assumption|]). intros E. contradiction.
    Qed.
    (** every round halves the interval; [L] is a positive lower bound of its right end *)
    Fixpoint pow2 (k : nat) : K := match k with O => 1 | S k => (1 + 1) * pow2 k end.
    Lemma bisect_total L fuel : 0 < L -> forall ll lr nx lam, ll < lr -> m <= ll -> (forall l, m < l -> N l <= norm_2 -> L <= l) -> N lr <= norm_2 -> 
      lr - ll <= pow2 fuel * (eps_l * L) -> bis fuel mu al norm_2 tol ll lr nx lam <> None.
    Proof.
      intros HL. assert (EX : forall ll lr, ll < lr -> L <= lr -> lr - ll <= 1 * (eps_l * L) -> fltb eps_l ((lr - ll) / lr) = false).
      { intros ll lr H1 H2 H3. change ((lr - ll) / lr <= eps_l). assert (P : 0 < lr) by now apply flt_le_trans with L. apply fle_div; [exact P|]. apply fle_trans with (eps_l * L); [now replace (1 * (eps_l * L)) with (eps_l * L) in H3 by ring|].
        assert (PE : 0 <= eps_l). { destruct (fle_or_lt 0 eps_l) as [|B]; [assumption|exfalso]. apply (flt_not_le 0 (lr - ll)); [now apply (proj1 (flt_sub ll lr))|]. apply fle_trans with (1 * (eps_l * L)); [exact H3|].
          apply fle_sub. replace (0 - 1 * (eps_l * L)) with (- eps_l * L) by ring. apply fle_mul0; [apply flt_le; now apply fopp_pos|now apply flt_le]. }
        replace (eps_l * L) with (L * eps_l) by ring. replace (eps_l * lr) with (lr * eps_l) by ring. now apply fle_mul. }
      induction fuel as [|fuel IH]; intros ll lr nx lam H1 H2 H3 H4 H5; cbn [bisect pow2] in *.
      - assert (PL : L <= lr) by (apply H3; [now apply fle_lt_trans with ll|exact H4]). rewrite (EX ll lr H1 PL H5), andb_false_r. discriminate.
      - destruct (_ && _); [|discriminate]. destruct (mid ll lr H1) as (M1 & M2 & M3). set (l := half * (lr - ll) + ll) in *.
        assert (W : half * (lr - ll) <= pow2 fuel * (eps_l * L)).
        { replace (pow2 fuel * (eps_l * L)) with ((1 + 1) * pow2 fuel * (eps_l * L) * half) by (field; exact f2). replace (half * (lr - ll)) with ((lr - ll) * half) by ring. apply fle_mul; [apply flt_le, half_pos|exact H5]. }
        assert (ML : m < l) by now apply fle_lt_trans with ll.
        destruct (fltb norm_2 (N l)) eqn:C; apply IH; try assumption; try (now apply flt_le).
        + now rewrite M3.
        + now replace (l - ll) with (half * (lr - ll)) by (unfold l; ring).
    Qed.
    Lemma pow2_fn k : fn k <= pow2 k.
    Proof.
      assert (P : forall k, 1 <= pow2 k). { clear. induction k as [|k IH]; cbn [pow2]; [apply fle_refl|]. apply fle_trans with (pow2 k); [exact IH|]. apply fle_sub. replace ((1 + 1) * pow2 k - pow2 k) with (pow2 k) by ring. apply fle_trans with 1; [apply flt_le, f01|exact IH]. }
      induction k as [|k IH]; cbn [fn pow2]; [apply flt_le, f01|]. replace ((1 + 1) * pow2 k) with (pow2 k + pow2 k) by ring. now apply fle_add2.
    Qed.
  End Bisect.
End Quad.
