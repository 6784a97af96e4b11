(** Total derivatives in an ordered field, and lemmas about GradModel.v. *)
From Coq Require Import List Arith ZArith Bool Lia Field.
From Verif Require Import OField LinAlg SymeigModel QuadModel QuadProofs ExpModel ExpProofs GradModel.
Import ListNotations.
Open Scope of_scope.

Section Calculus.
  Context {K : ofield}.
  Add Field Kgp : (fth K).
  Notation vec := (vec (K := K)). Notation mtx := (mtx (K := K)).

  Notation half := ((1 / (1 + 1)) : K).
  (** [J] is the derivative of the real function [f] of n variables at x: the error of the linear approximation is smaller than any multiple of the distance *)
  Definition deriv1 (n : nat) (f : vec -> K) (x : vec) (J : vec) : Prop :=
    forall e : K, 0 < e -> exists d : K, 0 < d /\ forall (r : K) (y : vec), 0 <= r -> r <= d -> (forall i, (i < n)%nat -> fabs (y i - x i) <= r) ->
      fabs (f y - f x - fsumn n (fun i => J i * (y i - x i))) <= e * r.
  (** [J] is the matrix of the total derivative of a function of n variables with m values *)
  Definition deriv (n m : nat) (F : vec -> vec) (x : vec) (J : mtx) : Prop :=
    forall e : K, 0 < e -> exists d : K, 0 < d /\ forall (r : K) (y : vec), 0 <= r -> r <= d -> (forall i, (i < n)%nat -> fabs (y i - x i) <= r) ->
      forall o, (o < m)%nat -> fabs (F y o - F x o - fsumn n (fun i => J o i * (y i - x i))) <= e * r.

  Lemma fabs_tri (a b : K) : fabs (a + b) <= fabs a + fabs b.
  Proof.
    assert (forall c : K, c <= fabs c /\ - c <= fabs c) as H by (intros c; apply fabs_le, fle_refl).
    apply fabs_le. split; [apply fle_add2; apply H|]. replace (- (a + b)) with (- a + - b) by ring. apply fle_add2; apply H.
  Qed.
  Lemma fabs_cases (a : K) : (0 <= a /\ fabs a = a) \/ (a < 0 /\ fabs a = - a).
  Proof. unfold fabs, fle, flt. destruct (fltb a 0) eqn:E; [right|left]; now split. Qed.
  Lemma fabs_mul (a b : K) : fabs (a * b) = fabs a * fabs b.
  Proof.
    destruct (fabs_cases a) as [[Ha ->]|[Ha ->]]; destruct (fabs_cases b) as [[Hb ->]|[Hb ->]].
    - destruct (fabs_cases (a * b)) as [[_ ->]|[H _]]; [ring|]. exfalso. apply (flt_not_le _ _ H). now apply fle_mul0.
    - destruct (fabs_cases (a * b)) as [[H ->]|[_ ->]]; [|ring]. assert (0 <= a * - b) as H' by (apply fle_mul0; [exact Ha|apply flt_le, fopp_pos, Hb]).
      assert (a * b = 0) as E. { apply fle_antisym; [|exact H]. apply fle_sub. replace (0 - a * b) with (a * - b) by ring. exact H'. }
      rewrite E. replace (a * - b) with (- (a * b)) by ring. rewrite E. ring.
    - destruct (fabs_cases (a * b)) as [[H ->]|[_ ->]]; [|ring]. assert (0 <= - a * b) as H' by (apply fle_mul0; [apply flt_le, fopp_pos, Ha|exact Hb]).
      assert (a * b = 0) as E. { apply fle_antisym; [|exact H]. apply fle_sub. replace (0 - a * b) with (- a * b) by ring. exact H'. }
      rewrite E. replace (- a * b) with (- (a * b)) by ring. rewrite E. ring.
    - destruct (fabs_cases (a * b)) as [[_ ->]|[H _]]; [ring|]. exfalso. apply (flt_not_le _ _ H). replace (a * b) with (- a * - b) by ring. apply fle_mul0; now apply flt_le, fopp_pos.
  Qed.
  Lemma fabs_sum n (f : nat -> K) : fabs (fsumn n f) <= fsumn n (fun i => fabs (f i)).
  Proof.
    induction n as [|n IH]; [unfold fsumn; cbn; apply fabs_le; split; [apply fle_refl|]; replace (- 0 : K) with (0 : K) by ring; apply fle_refl|].
    rewrite !fsumn_S. eapply fle_trans; [apply fabs_tri|]. apply fle_add2; [exact IH|apply fle_refl].
  Qed.
  Lemma fabs_0 : fabs (0 : K) = 0. Proof. unfold fabs. now destruct (fltb 0 0); [ring|]. Qed.
  Lemma bound m (f : nat -> K) : exists B, 0 <= B /\ forall o, (o < m)%nat -> f o <= B.
  Proof.
    induction m as [|m [B [P H]]]; [exists 0; split; [apply fle_refl|lia]|].
    destruct (fle_or_lt (f m) B) as [L|L].
    - exists B. split; [exact P|]. intros o Ho. destruct (Nat.eq_dec o m) as [->|]; [exact L|apply H; lia].
    - exists (f m). split; [eapply fle_trans; [exact P|now apply flt_le]|]. intros o Ho. destruct (Nat.eq_dec o m) as [->|]; [apply fle_refl|]. eapply fle_trans; [apply H; lia|now apply flt_le].
  Qed.
  Lemma pick2 (a b : K) : 0 < a -> 0 < b -> exists d, 0 < d /\ d <= a /\ d <= b.
  Proof. intros A B. destruct (fle_or_lt a b) as [L|L]; [exists a|exists b]; repeat split; auto using fle_refl, flt_le. Qed.

  Lemma div_back (a b : K) : 0 < b -> a / b * b = a. Proof. intros H. field. now apply fpos_ne. Qed.
  Lemma div_back2 (a b c : K) : 0 < b -> a / b * (b * c) = a * c. Proof. intros H. field. now apply fpos_ne. Qed.
  (** coordinate by coordinate *)
  Lemma deriv_coord n m F x J : deriv n m F x J <-> forall o, (o < m)%nat -> deriv1 n (fun y => F y o) x (J o).
  Proof.
    split.
    - intros H o Ho e He. destruct (H e He) as [d [D H']]. exists d. split; [exact D|]. intros r y R0 R Y. now apply H'.
    - intros H e He. induction m as [|m IH].
      + exists 1. split; [apply f01|]. intros. lia.
      + destruct IH as [d1 [D1 H1]]; [intros o Ho; apply H; lia|]. destruct (H m ltac:(lia) e He) as [d2 [D2 H2]].
        destruct (pick2 d1 d2 D1 D2) as [d [D [L1 L2]]]. exists d. split; [exact D|]. intros r y R0 R Y o Ho.
        destruct (Nat.eq_dec o m) as [->|]; [apply H2; try assumption; now apply (fle_trans _ d)|apply H1; try assumption; [now apply (fle_trans _ d)|lia]].
  Qed.
  Lemma deriv1_ext n f g x J J' : (forall y, f y = g y) -> (forall i, (i < n)%nat -> J i = J' i) -> deriv1 n f x J -> deriv1 n g x J'.
  Proof.
    intros E EJ H e He. destruct (H e He) as [d [D H']]. exists d. split; [exact D|]. intros r y R0 R Y. specialize (H' r y R0 R Y).
    rewrite <- !E, (fsumn_ext n _ (fun i => J i * (y i - x i))); [exact H'|]. intros i Hi. now rewrite EJ.
  Qed.
  Lemma deriv_ext n m F G x J J' : (forall y o, (o < m)%nat -> F y o = G y o) -> (forall o i, (o < m)%nat -> (i < n)%nat -> J o i = J' o i) -> deriv n m F x J -> deriv n m G x J'.
  Proof. rewrite !deriv_coord. intros E EJ H o Ho. eapply deriv1_ext; [| |exact (H o Ho)]; [intros; now apply E|intros; now apply EJ]. Qed.

  (** affine functions *)
  Lemma deriv1_affine n (a : vec) (b : K) x : deriv1 n (fun y => fsumn n (fun i => y i * a i) - b) x a.
  Proof.
    intros e He. exists 1. split; [apply f01|]. intros r y R0 R Y.
    replace (fsumn n (fun i => y i * a i) - b - (fsumn n (fun i => x i * a i) - b) - fsumn n (fun i => a i * (y i - x i))) with (0 : K); [rewrite fabs_0; apply fle_mul0; [now apply flt_le|exact R0]|].
    rewrite (fsumn_ext n (fun i => a i * (y i - x i)) (fun i => y i * a i - x i * a i)) by (intros; ring). rewrite fsumn_sub. ring.
  Qed.
  Lemma deriv1_coord n i x : (i < n)%nat -> deriv1 n (fun y => y i) x (fun j => delta i j).
  Proof.
    intros Hi. eapply deriv1_ext; [| |apply (deriv1_affine n (fun j => delta i j) 0 x)]; [|reflexivity].
    intros y. cbn beta. rewrite fsumn_delta by exact Hi. ring.
  Qed.
  (** products *)
  Lemma deriv1_prod n i j x : (i < n)%nat -> (j < n)%nat -> deriv1 n (fun y => y i * y j) x (fun c => delta i c * x j + delta j c * x i).
  Proof.
    intros Hi Hj e He. exists e. split; [exact He|]. intros r y R0 R Y.
    rewrite (fsumn_ext n _ (fun c => (x j * (y c - x c)) * delta i c + (x i * (y c - x c)) * delta j c)) by (intros; ring).
    rewrite fsumn_add, (fsumn_delta n (fun c => x j * (y c - x c)) i Hi), (fsumn_delta n (fun c => x i * (y c - x c)) j Hj).
    replace (y i * y j - x i * x j - (x j * (y i - x i) + x i * (y j - x j))) with ((y i - x i) * (y j - x j)) by ring.
    rewrite fabs_mul. apply fle_trans with (r * r); [apply fle_mul2; try apply fabs_nonneg; now apply Y|]. now apply fle_mul.
  Qed.
  (** some of the variables *)
  Lemma deriv1_shift n i s f x J : (s + i <= n)%nat -> deriv1 i f (fun c => x (s + c)%nat) J ->
    deriv1 n (fun y => f (fun c => y (s + c)%nat)) x (fun c => if (s <=? c) && (c <? s + i) then J (c - s)%nat else 0).
  Proof.
    intros L H e He. destruct (H e He) as [d [D H']]. exists d. split; [exact D|]. intros r y R0 R Y.
    specialize (H' r (fun c => y (s + c)%nat) R0 R ltac:(intros c Hc; apply Y; lia)). cbn beta in H'.
    replace (fsumn n _) with (fsumn i (fun c => J c * (y (s + c)%nat - x (s + c)%nat))); [exact H'|].
    replace n with (s + (i + (n - s - i)))%nat by lia. rewrite !fsumn_split.
    rewrite (fsumn_zero s), (fsumn_zero (n - s - i)).
    - rewrite (fsumn_ext i (fun k => (if (s <=? s + k) && (s + k <? s + i) then J (s + k - s)%nat else 0) * _) (fun c => J c * (y (s + c)%nat - x (s + c)%nat))); [ring|].
      intros k Hk. rewrite (proj2 (Nat.leb_le s (s + k))) by lia. rewrite (proj2 (Nat.ltb_lt (s + k) (s + i))) by lia. cbn [andb]. now replace (s + k - s)%nat with k by lia.
    - intros k Hk. rewrite (proj2 (Nat.ltb_ge (s + (i + k)) (s + i))) by lia. rewrite andb_false_r. ring.
    - intros k Hk. rewrite (proj2 (Nat.leb_gt s k)) by lia. cbn [andb]. ring.
  Qed.

  (** the chain rule *)
  Lemma deriv_chain n m p F G x J L : deriv n m F x J -> deriv m p G (F x) L -> deriv n p (fun y => G (F y)) x (fun o i => fsumn m (fun k => L o k * J k i)).
  Proof.
    intros HF HG e He.
    destruct (bound m (fun o => fsumn n (fun i => fabs (J o i)))) as [B [B0 HB]]. destruct (bound p (fun o => fsumn m (fun k => fabs (L o k)))) as [C [C0 HC]].
    assert (0 < B + 1) as B1 by (apply (fle_lt_trans _ B); [exact B0|apply flt_add_pos, f01]). assert (0 < C + 1) as C1 by (apply (fle_lt_trans _ C); [exact C0|apply flt_add_pos, f01]).
    assert (0 < half * e) as E2 by (apply (flt_mul K); [apply half_pos|exact He]).
    destruct (HG (half * e / (B + 1))) as [d1 [D1 H1]]; [now apply fdiv_pos'|].
    destruct (pick2 1 (half * e / (C + 1)) f01) as [e2 [P2 [Q2 Q3]]]; [now apply fdiv_pos'|].
    destruct (HF e2 P2) as [d2 [D2 H2]].
    destruct (pick2 (d1 / (B + 1)) d2) as [d [D [L1 L2]]]; [now apply fdiv_pos'|exact D2|]. exists d. split; [exact D|]. intros r y R0 R Y o Ho.
    assert (forall k, (k < m)%nat -> fabs (F y k - F x k) <= (B + 1) * r) as S.
    { intros k Hk. specialize (H2 r y R0 (fle_trans _ _ _ R L2) Y k Hk).
      replace (F y k - F x k) with ((F y k - F x k - fsumn n (fun i => J k i * (y i - x i))) + fsumn n (fun i => J k i * (y i - x i))) by ring.
      eapply fle_trans; [apply fabs_tri|]. replace ((B + 1) * r) with (1 * r + B * r) by ring. apply fle_add2; [eapply fle_trans; [exact H2|now apply fle_mul]|].
      eapply fle_trans; [apply fabs_sum|]. apply fle_trans with (fsumn n (fun i => fabs (J k i) * r)).
      - apply fsumn_le. intros i Hi. rewrite fabs_mul. apply fle_mul2; try apply fabs_nonneg; [apply fle_refl|now apply Y].
      - rewrite fsumn_mulr. apply fle_mul; [exact R0|now apply HB]. }
    assert ((B + 1) * r <= d1) as Rd.
    { apply fle_trans with (d1 / (B + 1) * (B + 1)); [|replace (d1 / (B + 1) * (B + 1)) with d1 by (field; now apply fpos_ne); apply fle_refl].
      replace ((B + 1) * r) with (r * (B + 1)) by ring. apply fle_mul; [now apply flt_le|]. now apply (fle_trans _ d). }
    specialize (H1 ((B + 1) * r) (F y) ltac:(apply fle_mul0; [now apply flt_le|exact R0]) Rd S o Ho).
    rewrite (div_back2 (half * e)) in H1 by exact B1.
    replace (G (F y) o - G (F x) o - fsumn n (fun i => fsumn m (fun k => L o k * J k i) * (y i - x i)))
      with ((G (F y) o - G (F x) o - fsumn m (fun k => L o k * (F y k - F x k))) + fsumn m (fun k => L o k * (F y k - F x k - fsumn n (fun i => J k i * (y i - x i))))).
    - eapply fle_trans; [apply fabs_tri|]. replace (e * r) with (half * e * r + half * e * r) by (rewrite <- (half2 (e * r)); ring). apply fle_add2; [exact H1|].
      eapply fle_trans; [apply fabs_sum|]. apply fle_trans with (fsumn m (fun k => fabs (L o k) * (e2 * r))).
      + apply fsumn_le. intros k Hk. rewrite fabs_mul. apply fle_mul2; try apply fabs_nonneg; [apply fle_refl|]. now apply H2; try assumption; apply (fle_trans _ d).
      + rewrite fsumn_mulr. apply fle_trans with (C * (e2 * r)); [apply fle_mul; [apply fle_mul0; [now apply flt_le|exact R0]|now apply HC]|].
        replace (C * (e2 * r)) with (e2 * C * r) by ring. apply fle_mul; [exact R0|].
        apply fle_trans with (half * e / (C + 1) * (C + 1)); [|rewrite div_back by exact C1; apply fle_refl].
        apply fle_mul2; [now apply flt_le|exact C0|exact Q3|now apply flt_le, flt_add_pos, f01].
    - rewrite (fsumn_ext m (fun k => L o k * (F y k - F x k - _)) (fun k => L o k * (F y k - F x k) - L o k * fsumn n (fun i => J k i * (y i - x i)))) by (intros; ring).
      rewrite fsumn_sub. rewrite (fsumn_ext m (fun k => L o k * fsumn n (fun i => J k i * (y i - x i))) (fun k => fsumn n (fun i => L o k * (J k i * (y i - x i))))) by (intros; symmetry; apply fsumn_mul).
      rewrite fsumn_swap. rewrite (fsumn_ext n (fun i => fsumn m (fun k => L o k * J k i) * (y i - x i)) (fun i => fsumn m (fun k => L o k * (J k i * (y i - x i))))).
      + ring.
      + intros i Hi. rewrite <- fsumn_mulr. apply fsumn_ext. intros. ring.
  Qed.

  (** there is only one derivative *)
  Lemma deriv1_unique n f x J J' : deriv1 n f x J -> deriv1 n f x J' -> forall i, (i < n)%nat -> J i = J' i.
  Proof.
    intros H H' i Hi.
    assert (forall e, 0 < e -> fabs (J i - J' i) <= e + e) as Z.
    { intros e He. destruct (H e He) as [d [D HD]]. destruct (H' e He) as [d' [D' HD']]. destruct (pick2 d d' D D') as [r [R [L L']]].
      set (y := fun c => x c + r * delta i c).
      assert (forall c, (c < n)%nat -> fabs (y c - x c) <= r) as Y.
      { intros c _. unfold y. replace (x c + r * delta i c - x c) with (r * delta i c) by ring. unfold delta. destruct (i =? c).
        - replace (r * 1) with r by ring. apply fabs_le. split; [apply fle_refl|]. apply fle_sub. replace (r - - r) with (r + r) by ring. apply flt_le, fadd_pos; exact R.
        - replace (r * 0) with (0 : K) by ring. rewrite fabs_0. now apply flt_le. }
      pose proof (HD r y (flt_le _ _ R) L Y) as A. pose proof (HD' r y (flt_le _ _ R) L' Y) as A'.
      assert (forall G : vec, fsumn n (fun c => G c * (y c - x c)) = G i * r) as S.
      { intros G. rewrite (fsumn_ext n _ (fun c => (G c * r) * delta i c)) by (intros; unfold y; ring). now rewrite (fsumn_delta n (fun c => G c * r) i Hi). }
      rewrite S in A, A'. apply fabs_le in A, A'. destruct A as [A1 A2], A' as [A1' A2'].
      assert (forall a : K, a * r <= (e + e) * r -> a <= e + e) as Q.
      { intros a Ha. apply (fdiv_le (a * r)) in Ha; [|exact R]. replace (a * r / r) with a in Ha by (field; now apply fpos_ne). exact Ha. }
      apply fabs_le. split; apply Q.
      - replace ((J i - J' i) * r) with ((- (f y - f x - J i * r)) + (f y - f x - J' i * r)) by ring. replace ((e + e) * r) with (e * r + e * r) by ring. now apply fle_add2.
      - replace (- (J i - J' i) * r) with ((f y - f x - J i * r) + (- (f y - f x - J' i * r))) by ring. replace ((e + e) * r) with (e * r + e * r) by ring. now apply fle_add2. }
    destruct (fle_lt_eq _ _ (fabs_nonneg (J i - J' i))) as [P|E].
    - exfalso. set (q := half * (half * fabs (J i - J' i))). assert (0 < q) as Q by (unfold q; apply (flt_mul K); [apply half_pos|apply (flt_mul K); [apply half_pos|exact P]]).
      specialize (Z q Q). apply (flt_not_le _ _ (flt_add_pos (q + q) (q + q) (fadd_pos _ _ Q Q))). 
      replace (q + q + (q + q)) with (fabs (J i - J' i)); [exact Z|]. unfold q. rewrite (half2 (half * fabs (J i - J' i))). symmetry. apply half2.
    - symmetry in E. apply fle_antisym.
      + apply fle_sub. replace (J' i - J i) with (- (J i - J' i)) by ring.
        destruct (fabs_cases (J i - J' i)) as [[A B]|[A B]]; rewrite B in E; rewrite ?E; [replace (- 0 : K) with (0:K) by ring|]; apply fle_refl.
      + apply fle_sub. destruct (fabs_cases (J i - J' i)) as [[A B]|[A B]]; [exact A|]. rewrite B in E. replace (J i - J' i) with (- - (J i - J' i)) by ring. rewrite E. replace (- 0 : K) with (0:K) by ring. apply fle_refl.
  Qed.
End Calculus.

(** ** The quadratic expansion *)
Fixpoint start (n i : nat) : nat := match i with O => O | S i => (start n i + (n - i))%nat end.
Lemma start_cases n : forall m o, (o < start n m)%nat -> exists i d, (i < m)%nat /\ (d < n - i)%nat /\ o = (start n i + d)%nat.
Proof.
  induction m as [|m IH]; cbn [start]; intros o H; [lia|]. destruct (Nat.lt_ge_cases o (start n m)) as [L|L].
  - destruct (IH o L) as (i & d & A & B & C). exists i, d. repeat split; auto.
  - exists m, (o - start n m)%nat. repeat split; lia.
Qed.
Lemma start_mono n i : forall m, (i < m)%nat -> (start n i + (n - i) <= start n m)%nat.
Proof. induction m as [|m IH]; cbn [start]; intros H; [lia|]. destruct (Nat.eq_dec i m) as [->|]; [lia|]. specialize (IH ltac:(lia)). lia. Qed.
Lemma mblock1 n j : mblock n 1 j = map (fun l => [j; l]) (seq j (n - j)).
Proof. cbn [mblock]. generalize (seq j (n - j)). induction l as [|a l IH]; [reflexivity|]. cbn. now rewrite IH. Qed.
Lemma pairs_pos n : forall m, length (flat_map (mblock n 1) (seq 0 m)) = start n m /\
  forall i d, (i < m)%nat -> (d < n - i)%nat -> nth (start n i + d) (flat_map (mblock n 1) (seq 0 m)) [] = [i; (i + d)%nat].
Proof.
  induction m as [|m [L H]]; [split; [reflexivity|intros; lia]|]. rewrite seq_S, flat_map_app. cbn [flat_map plus]. rewrite app_nil_r. split.
  - rewrite app_length, L, mblock1, map_length, seq_length. reflexivity.
  - intros i d Hi Hd. destruct (Nat.eq_dec i m) as [->|N].
    + rewrite app_nth2 by lia. rewrite L. replace (start n m + d - start n m)%nat with d by lia. rewrite mblock1.
      rewrite (nth_indep _ [] ((fun l => [m; l]) 0%nat)) by (rewrite map_length, seq_length; lia). rewrite (map_nth (fun l => [m; l])), seq_nth by lia. reflexivity.
    + pose proof (start_mono n i m ltac:(lia)). rewrite app_nth1 by lia. apply H; lia.
Qed.
Lemma mall_2 n : mall n 2 = map (fun j => [j]) (seq 0 n) ++ flat_map (mblock n 1) (seq 0 n).
Proof.
  rewrite mall_S. f_equal. unfold mall. cbn [seq flat_map]. rewrite app_nil_r. unfold mdeg. cbn [mblock]. generalize (seq 0 n). induction l as [|a l IH]; [reflexivity|]. cbn. now rewrite IH.
Qed.
Lemma edim_start n : edim n = (n + start n n)%nat.
Proof.
  unfold edim. change 2%Z with (Z.of_nat 2). rewrite expanded_dim_length, Nat2Z.id, mall_2, app_length, map_length, seq_length. f_equal. apply pairs_pos.
Qed.
Section Expand.
  Context {K : ofield}.
  Add Field Kgp2 : (fth K).
  Notation vec := (vec (K := K)). Notation mtx := (mtx (K := K)).
  Lemma nth_tab n (v : vec) i d : (i < n)%nat -> nth i (map v (seq 0 n)) d = v i.
  Proof. intros H. rewrite (nth_indep _ d (v 0%nat)) by (rewrite map_length, seq_length; lia). rewrite map_nth, seq_nth by lia. reflexivity. Qed.
  Lemma expand_word n (v : vec) o : expand n v o = nth o (map (mono (0 : K) fmul (map v (seq 0 n))) (mall n 2)) 0.
  Proof. unfold expand. rewrite poly_ok by lia. rewrite map_length, seq_length. reflexivity. Qed.
  Lemma expand_one n (v : vec) o : (o < n)%nat -> expand n v o = v o.
  Proof.
    intros H. rewrite expand_word, mall_2, map_app, app_nth1 by (rewrite !map_length, seq_length; lia). rewrite map_map.
    rewrite (nth_indep _ 0 (mono (0 : K) fmul (map v (seq 0 n)) [0%nat])) by (rewrite map_length, seq_length; lia).
    rewrite (map_nth (fun j => mono (0 : K) fmul (map v (seq 0 n)) [j])), seq_nth by lia. cbn [plus mono]. now apply nth_tab.
  Qed.
  Lemma expand_two n (v : vec) i d : (i < n)%nat -> (d < n - i)%nat -> expand n v (n + start n i + d)%nat = v i * v (i + d)%nat.
  Proof.
    intros Hi Hd. destruct (pairs_pos n n) as [L P]. pose proof (start_mono n i n Hi).
    rewrite expand_word, mall_2, map_app, app_nth2 by (rewrite !map_length, seq_length; lia). rewrite !map_length, seq_length.
    replace (n + start n i + d - n)%nat with (start n i + d)%nat by lia.
    rewrite (nth_indep _ 0 (mono (0 : K) fmul (map v (seq 0 n)) [])) by (rewrite map_length; lia). rewrite map_nth, P by lia. cbn [mono].
    rewrite !nth_tab by lia. reflexivity.
  Qed.
  Lemma quad_loop n (x : vec) : forall k, (k <= n)%nat ->
    let s := fold_left (quad_step n x) (seq 0 k) (fun r c => if (r <? n) && (r =? c) then 1 else 0, n) in
    snd s = (n + start n k)%nat /\
    (forall r c, (r < n)%nat -> fst s r c = delta r c) /\
    (forall i d c, (i < k)%nat -> (d < n - i)%nat -> fst s (n + start n i + d)%nat c = delta i c * x (i + d)%nat + delta (i + d) c * x i) /\
    (forall r c, (n + start n k <= r)%nat -> fst s r c = 0).
  Proof.
    induction k as [|k IH]; intros Hk.
    - cbn [seq fold_left fst snd start]. repeat split; [lia| | |].
      + intros r c Hr. rewrite (proj2 (Nat.ltb_lt r n)) by lia. reflexivity.
      + intros. lia.
      + intros r c Hr. rewrite (proj2 (Nat.ltb_ge r n)) by lia. reflexivity.
    - specialize (IH ltac:(lia)). cbv zeta in *. rewrite seq_S, fold_left_app. cbn [fold_left plus].
      destruct (fold_left (quad_step n x) (seq 0 k) _) as [g st]. cbn [fst snd] in *. destruct IH as (E & H1 & H2 & H3). subst st. unfold quad_step. cbn [fst snd start].
      repeat split.
      + lia.
      + intros r c Hr. rewrite (proj2 (Nat.leb_gt (n + start n k) r)) by lia. cbn [andb]. now apply H1.
      + intros i d c Hi Hd. destruct (Nat.eq_dec i k) as [->|N].
        * rewrite (proj2 (Nat.leb_le (n + start n k) (n + start n k + d))) by lia. rewrite (proj2 (Nat.ltb_lt (n + start n k + d) (n + start n k + (n - k)))) by lia. cbn [andb].
          replace (n + start n k + d - (n + start n k))%nat with d by lia. rewrite H3 by lia. unfold delta. rewrite (Nat.eqb_sym k c), (Nat.eqb_sym (k + d) c).
          destruct (c =? k), (c =? k + d); ring.
        * pose proof (start_mono n i k ltac:(lia)). rewrite (proj2 (Nat.leb_gt (n + start n k) (n + start n i + d))) by lia. cbn [andb]. apply H2; lia.
      + intros r c Hr. rewrite (proj2 (Nat.ltb_ge r (n + start n k + (n - k)))) by lia. rewrite andb_false_r. cbn [andb]. apply H3. lia.
  Qed.
  Lemma quad_deriv n x : deriv (K := K) n (edim n) (expand n) x (quad_grad n x).
  Proof.
    apply deriv_coord. intros o Ho. rewrite edim_start in Ho. destruct (quad_loop n x n (le_n n)) as (_ & H1 & H2 & _). unfold quad_grad. destruct (Nat.lt_ge_cases o n) as [L|L].
    - eapply deriv1_ext; [| |apply (deriv1_coord n o x L)]; [intros y; symmetry; now apply expand_one|]. intros i _. symmetry. now apply H1.
    - destruct (start_cases n n (o - n) ltac:(lia)) as (i & d & Hi & Hd & E). assert (o = n + start n i + d)%nat as -> by lia.
      eapply deriv1_ext; [| |apply (deriv1_prod n i (i + d) x ltac:(lia) ltac:(lia))]; [intros y; symmetry; now apply expand_two|].
      intros c _. cbn beta. symmetry. now apply H2.
  Qed.
End Expand.

(** ** The nodes *)
Section Nodes.
  Context {K : ofield}.
  Add Field Kgp3 : (fth K).
  Notation vec := (vec (K := K)). Notation mtx := (mtx (K := K)). Notation gnode := (gnode (K := K)). Notation data := (data (K := K)).
  Lemma gnode_rect' (P : gnode -> Prop) : (forall d, P (GId d)) -> (forall b n m s v, P (GSfa b n m s v)) -> (forall d, P (GQuad d)) -> (forall b n m s v, P (GSfa2 b n m s v)) ->
    (forall ts, Forall P ts -> P (GLayer ts)) -> (forall ts, Forall P ts -> P (GSame ts)) -> (forall n c, P (GSwitch n c)) -> (forall k u, P u -> P (GClone k u)) -> (forall n m f, P (GOther n m f)) -> forall t, P t.
  Proof.
    intros H1 H2 H3 H4 H5 H6 H7 H8 H9. fix IH 1. intros [d|b n m s v|d|b n m s v|ts|ts|n c|k u|n m f];
      [apply H1|apply H2|apply H3|apply H4| | |apply H7|apply H8, IH|apply H9].
    - apply H5. induction ts as [|u ts IHt]; constructor; [apply IH|exact IHt].
    - apply H6. induction ts as [|u ts IHt]; constructor; [apply IH|exact IHt].
  Qed.
  (** nodes whose _get_grad is implemented, trained, with known dimensions *)
  Fixpoint smooth (t : gnode) : bool :=
    match t with
    | GId (Some _) => true | GQuad (Some _) => true
    | GSfa b _ _ _ _ => negb b | GSfa2 b _ _ _ _ => negb b
    | GLayer ts => match ts with [] => false | _ => forallb smooth ts end
    | _ => false
    end.
  Definition din (t : gnode) : nat := match in_dim t with Some n => n | None => O end.
  Definition dout (t : gnode) : nat := match out_dim t with Some n => n | None => O end.
  (** and those with _gradient *)
  Fixpoint good (t : gnode) : bool :=
    match t with
    | GSwitch n c => forallb (fun i => i <? n) c
    | GClone k u => negb (k =? 0) && good u && negb (din u =? 0)
    | t => smooth t
    end.
  Definition block : Type := nat * nat * (vec -> vec).
  Fixpoint stackf (l : list block) (s : nat) (v : vec) : vec :=
    match l with [] => vzero | (i, o, f) :: l => hcat o (f (fun c => v (s + c)%nat)) (stackf l (s + i) v) end.
  (** what a node does to a sample *)
  Fixpoint fx (t : gnode) (v : vec) : vec :=
    match t with
    | GId _ => v
    | GSfa _ n m sf bias => mult_sf n m sf bias v
    | GQuad d => match d with Some n => expand n v | None => v end
    | GSfa2 _ n m sf bias => mult_sf (edim n) m sf bias (expand n v)
    | GLayer ts => stackf (map (fun u => (din u, dout u, fx u)) ts) 0 v
    | GSame ts => v
    | GSwitch n c => fun i => v (nth i c 0%nat)
    | GClone k u => stackf (repeat (din u, dout u, fx u) k) 0 v
    | GOther n m f => f v
    end.
  Definition jblock : Type := nat * nat * (vec -> mtx).
  Fixpoint bfold (l : list jblock) (p q : nat) (v : vec) (base : mtx) : mtx :=
    match l with
    | [] => base
    | (o, i, j) :: l => bfold l (p + o) (q + i) v (fun r c => if (p <=? r) && (r <? p + o) && (q <=? c) && (c <? q + i) then j (fun c => v (q + c)%nat) (r - p)%nat (c - q)%nat else base r c)
    end.
  Fixpoint jac (t : gnode) (v : vec) : mtx :=
    match t with
    | GId _ => delta
    | GSfa _ n m sf bias => transpose sf
    | GQuad d => match d with Some n => quad_grad n v | None => delta end
    | GSfa2 _ n m sf bias => mmul (edim n) (transpose sf) (quad_grad n v)
    | GLayer ts => bfold (map (fun u => (dout u, din u, jac u)) ts) 0 0 v (fun _ _ => 0)
    | _ => delta
    end.
  Lemma osum_some {A} (l : list A) f (g : A -> nat) : (forall a, In a l -> f a = Some (g a)) -> osum (map f l) = Some (fold_right (fun a s => (g a + s)%nat) O l).
  Proof. induction l as [|a l IH]; intros H; [reflexivity|]. cbn [map osum fold_right]. unfold osum in IH. rewrite H by now left. rewrite IH; [reflexivity|]. intros; apply H; now right. Qed.
  Lemma smooth_dims t : smooth t = true -> in_dim t = Some (din t) /\ out_dim t = Some (dout t) /\ in_training t = false.
  Proof.
    unfold din, dout. induction t as [d|b n m s v|d|b n m s v|ts IH|ts IH|n c|k u IH|n m f] using gnode_rect'; intros S; try discriminate.
    - destruct d; [|discriminate]. repeat split.
    - cbn in *. destruct b; [discriminate|]. repeat split.
    - destruct d; [|discriminate]. repeat split.
    - cbn in *. destruct b; [discriminate|]. repeat split.
    - assert (forall u, In u ts -> smooth u = true) as S'. { destruct ts as [|u0 ts]; [discriminate|]. cbn [smooth] in S. intros u Hu. rewrite forallb_forall in S. now apply S. }
      rewrite Forall_forall in IH. cbn [in_dim out_dim in_training].
      rewrite (osum_some ts in_dim din) by (intros u Hu; now apply IH, S'). rewrite (osum_some ts out_dim dout) by (intros u Hu; now apply IH, S'). repeat split.
      apply Bool.not_true_iff_false. rewrite existsb_exists. intros (u & Hu & T). destruct (IH u Hu (S' u Hu)) as (_ & _ & F). congruence.
  Qed.
  Lemma smooth_layer ts : smooth (GLayer ts) = true -> ts <> [] /\ (forall u, In u ts -> smooth u = true) /\
    din (GLayer ts) = fold_right (fun u s => (din u + s)%nat) O ts /\ dout (GLayer ts) = fold_right (fun u s => (dout u + s)%nat) O ts.
  Proof.
    intros S. assert (forall u, In u ts -> smooth u = true) as S'. { destruct ts as [|u0 ts]; [discriminate|]. cbn [smooth] in S. intros u Hu. rewrite forallb_forall in S. now apply S. }
    repeat split; [intros ->; discriminate|exact S'| |].
    - unfold din at 1. cbn [in_dim]. rewrite (osum_some ts in_dim din) by (intros u Hu; apply smooth_dims; now apply S'). reflexivity.
    - unfold dout at 1. cbn [out_dim]. rewrite (osum_some ts out_dim dout) by (intros u Hu; apply smooth_dims; now apply S'). reflexivity.
  Qed.

  Lemma join_len (l : list (nat * list vec)) N : Forall (fun p => length (snd p) = N) l -> length (join l N) = N.
  Proof. induction 1 as [|[a ys] l H _ IH]; cbn [join]; [apply repeat_length|]. rewrite map_length, combine_length, IH. cbn in H. lia. Qed.
  Lemma combine_maps {A B C} (f : A -> B) (g : A -> C) (l : list A) : combine (map f l) (map g l) = map (fun a => (f a, g a)) l.
  Proof. induction l as [|a l IH]; [reflexivity|]. cbn. now rewrite IH. Qed.
  Lemma repeat_map {A B} (a : B) (l : list A) : repeat a (length l) = map (fun _ => a) l.
  Proof. induction l as [|b l IH]; [reflexivity|]. cbn. now rewrite IH. Qed.
  Lemma cut_cols s i (x : data) : (s + i <= d_cols x)%nat -> d_cols (cut s (s + i) x) = i. Proof. unfold cut. cbn. lia. Qed.
  Definition ins (l : list block) : nat := fold_right (fun b s => (fst (fst b) + s)%nat) O l.
  Definition outs (l : list block) : nat := fold_right (fun b s => (snd (fst b) + s)%nat) O l.
  (** columns with nodes that work *)
  Lemma columns_ok (l : list block) ex : forall s (x : data), (s + ins l <= d_cols x)%nat ->
    (forall b, In b l -> forall z, d_cols z = fst (fst b) -> ex b z = inr (mkD (snd (fst b)) (map (snd b) (d_rows z)))) ->
    exists r, columns (map (fun b => (Some (fst (fst b)), Some (snd (fst b)), ex b)) l) s x = inr r /\ dsum r = outs l /\
    join r (length (d_rows x)) = map (stackf l s) (d_rows x).
  Proof.
    induction l as [|[[i o] f] l IH]; intros s x L H.
    - exists []. repeat split. cbn [join stackf]. now rewrite repeat_map.
    - cbn [ins fold_right fst snd] in L. destruct (IH (s + i)%nat x) as (r & E & D & J); [fold (ins l) in L; lia|intros b Hb; apply H; now right|].
      exists ((o, map f (d_rows (cut s (s + i) x))) :: r). cbn [map columns fst snd]. 
      rewrite (H (i, o, f) (or_introl eq_refl)) by (cbn [fst]; apply cut_cols; lia). cbn [fst snd d_cols d_rows]. rewrite Nat.eqb_refl, E. repeat split.
      + cbn [dsum fold_right outs fst snd]. fold (dsum r) (outs l). now rewrite D.
      + cbn [join]. rewrite J. unfold cut. cbn [d_rows]. rewrite map_map, combine_maps, map_map. reflexivity.
  Qed.
  Lemma checks_ok t x : in_training t = false -> in_dim t = Some (din t) -> d_cols x = din t -> checks t x = None.
  Proof. intros T I D. unfold checks. rewrite T, I, D, Nat.eqb_refl. reflexivity. Qed.
  Lemma raw_smooth t : smooth t = true -> forall x, d_cols x = din t -> raw t x = inr (mkD (dout t) (map (fx t) (d_rows x))).
  Proof.
    induction t as [d|b n m s v|d|b n m s v|ts IH|ts IH|n c|k u IH|n m f] using gnode_rect'; intros S x D; try discriminate.
    - destruct d; [|discriminate]. unfold din, dout in *. cbn in *. subst. rewrite map_id. now destruct x.
    - unfold din, dout in *. cbn in *. now rewrite D, Nat.eqb_refl.
    - destruct d; [|discriminate]. unfold din, dout in *. cbn in *. now rewrite D, Nat.eqb_refl.
    - unfold din, dout in *. cbn in *. now rewrite D, Nat.eqb_refl.
    - destruct (smooth_layer ts S) as (_ & S' & DI & DO). rewrite Forall_forall in IH. cbn [raw fx].
      set (l := map (fun u => (din u, dout u, fx u)) ts).
      assert (ins l = din (GLayer ts)) as EI. { rewrite DI. unfold l, ins. clear. induction ts as [|u ts IHt]; [reflexivity|]. cbn. now rewrite IHt. }
      assert (outs l = dout (GLayer ts)) as EO. { rewrite DO. unfold l, outs. clear. induction ts as [|u ts IHt]; [reflexivity|]. cbn. now rewrite IHt. }
      assert (forall ts', incl ts' ts -> forall s, (s + ins (map (fun u => (din u, dout u, fx u)) ts') <= d_cols x)%nat ->
        exists r, columns (map (fun u => (in_dim u, out_dim u, fun xs => match checks u xs with Some e => inl e | None => raw u xs end)) ts') s x = inr r /\
          dsum r = outs (map (fun u => (din u, dout u, fx u)) ts') /\ join r (length (d_rows x)) = map (stackf (map (fun u => (din u, dout u, fx u)) ts') s) (d_rows x)) as Q.
      { intros ts'. induction ts' as [|u ts' IHt]; intros Inc s L.
        - exists []. repeat split. cbn [join map stackf]. now rewrite repeat_map.
        - cbn [map ins fold_right fst snd] in L. assert (In u ts) as Hu by (apply Inc; now left).
          destruct (smooth_dims u (S' u Hu)) as (I & O & T).
          destruct (IHt ltac:(intros a Ha; apply Inc; now right) (s + din u)%nat) as (r & E & Ds & J); [unfold ins; lia|].
          exists ((dout u, map (fx u) (d_rows (cut s (s + din u) x))) :: r). cbn [map columns]. rewrite I, O.
          rewrite checks_ok; [|exact T|exact I|apply cut_cols; lia]. rewrite (IH u Hu (S' u Hu)) by (apply cut_cols; lia). cbn [d_cols d_rows]. rewrite Nat.eqb_refl, E. repeat split.
          + cbn [dsum map outs fold_right fst snd]. fold (dsum r). rewrite Ds. reflexivity.
          + cbn [join map stackf]. rewrite J. unfold cut. cbn [d_rows]. rewrite map_map, combine_maps, map_map. reflexivity. }
      destruct (Q ts (incl_refl ts) 0%nat) as (r & E & Ds & J); [fold l; rewrite EI, D; lia|]. rewrite E, Ds, J. fold l. now rewrite EO.
  Qed.

  (** _get_grad *)
  Lemma block_w N q i : (q + i <= N)%nat -> (Nat.min (q + i) N - Nat.min q N = i)%nat. Proof. lia. Qed.
  Lemma grad_smooth t : smooth t = true -> forall x, d_cols x = din t -> d_rows x <> [] -> get_grad t x = inr (G3 (dout t) (din t) (map (jac t) (d_rows x))).
  Proof.
    induction t as [d|b n m s v|d|b n m s v|ts IH|ts IH|n c|k u IH|n m f] using gnode_rect'; intros S x D NE; try discriminate.
    - destruct d; [|discriminate]. reflexivity.
    - reflexivity.
    - destruct d; [|discriminate]. unfold din, dout in *. cbn in *. now rewrite D, Nat.eqb_refl.
    - unfold din, dout in *. cbn in *. rewrite D, Nat.eqb_refl. destruct (d_rows x); [congruence|reflexivity].
    - destruct (smooth_layer ts S) as (NT & S' & DI & DO). destruct (smooth_dims _ S) as (I & Od & _). rewrite Forall_forall in IH. cbn [get_grad]. rewrite I, Od. cbn [jac].
      assert (forall ts' p q (base : vec -> mtx), incl ts' ts -> (q + fold_right (fun u s => (din u + s)%nat) O ts' <= d_cols x)%nat ->
        blocks (din (GLayer ts)) (map (fun u => (out_dim u, in_dim u, get_grad u)) ts') p q (Some (map base (d_rows x))) x
        = inr (Some (map (fun v => bfold (map (fun u => (dout u, din u, jac u)) ts') p q v (base v)) (d_rows x)))) as Q.
      { induction ts' as [|u ts' IHt]; intros p q base Inc L; [reflexivity|]. cbn [map blocks bfold]. cbn [fold_right] in L.
        assert (In u ts) as Hu by (apply Inc; now left). destruct (smooth_dims u (S' u Hu)) as (Iu & Ou & _). rewrite Ou, Iu.
        rewrite (IH u Hu (S' u Hu)); [|apply cut_cols; lia|unfold cut; cbn [d_rows]; destruct (d_rows x); [congruence|discriminate]].
        cbn [put_block]. rewrite <- D. rewrite block_w by lia. rewrite !Nat.eqb_refl. cbn [andb orb]. unfold cut at 1. cbn [d_rows]. rewrite map_map, combine_maps, map_map. cbn [fst snd].
        rewrite D. apply (IHt (p + dout u)%nat (q + din u)%nat (fun v => fun r c => if (p <=? r) && (r <? p + dout u) && (q <=? c) && (c <? q + din u) then jac u (fun c => v (q + c)%nat) (r - p)%nat (c - q)%nat else base v r c));
          [intros a Ha; apply Inc; now right|lia]. }
      destruct ts as [|u0 ts0]; [congruence|]. 
      assert (blocks (din (GLayer (u0 :: ts0))) (map (fun u => (out_dim u, in_dim u, get_grad u)) (u0 :: ts0)) 0 0 None x =
              blocks (din (GLayer (u0 :: ts0))) (map (fun u => (out_dim u, in_dim u, get_grad u)) (u0 :: ts0)) 0 0 (Some (map (fun _ => fun _ _ => 0) (d_rows x))) x) as ->.
      { cbn [map blocks]. assert (In u0 (u0 :: ts0)) as Hu by now left. destruct (smooth_dims u0 (S' u0 Hu)) as (Iu & Ou & _). rewrite Ou, Iu. cbn [fold_right] in DI.
        rewrite (IH u0 Hu (S' u0 Hu)); [|apply cut_cols; lia|unfold cut; cbn [d_rows]; destruct (d_rows x); [congruence|discriminate]].
        replace (length (map (jac u0) (d_rows (cut 0 (0 + din u0) x)))) with (length (d_rows x)) by (unfold cut; cbn [d_rows]; now rewrite !map_length). rewrite repeat_map. reflexivity. }
      rewrite Q; [reflexivity|apply incl_refl|]. rewrite D, DI. lia.
  Qed.
  Lemma hcat_deriv n o o' F G x J J' : deriv (K := K) n o F x J -> deriv n o' G x J' -> deriv n (o + o') (fun y => hcat o (F y) (G y)) x (fun r c => if r <? o then J r c else J' (r - o)%nat c).
  Proof.
    rewrite !deriv_coord. intros H H' r Hr. destruct (Nat.ltb_spec r o) as [L|L].
    - eapply deriv1_ext; [| |exact (H r L)]; [intros y; unfold hcat; now rewrite (proj2 (Nat.ltb_lt r o) L)|reflexivity].
    - eapply deriv1_ext; [| |exact (H' (r - o)%nat ltac:(lia))]; [intros y; unfold hcat; now rewrite (proj2 (Nat.ltb_ge r o) L)|reflexivity].
  Qed.
  (** the blocks of a layer *)
  Lemma bfold_deriv n x (l : list (nat * nat * (vec -> vec) * (vec -> mtx))) :
    (forall i o f j, In (i, o, f, j) l -> forall v, deriv i o f v (j v)) ->
    let fl := map (fun b => fst b) l in let jl := map (fun b => (snd (fst (fst b)), fst (fst (fst b)), snd b)) l in
    forall p q base, (forall r c, (p <= r)%nat -> base r c = 0) -> (q + ins fl <= n)%nat ->
    (forall r c, (r < p)%nat -> bfold jl p q x base r c = base r c) /\
    forall r, (r < outs fl)%nat -> deriv1 n (fun y => stackf fl q y r) x (bfold jl p q x base (p + r)%nat).
  Proof.
    intros H. induction l as [|[[[i o] f] j] l IH]; cbv zeta in *; intros p q base B L.
    - split; [reflexivity|]. cbn. intros. lia.
    - cbn [map fst snd bfold stackf ins outs fold_right] in *. specialize (IH ltac:(intros; eapply H; right; eassumption)).
      set (base' := fun r c => if (p <=? r) && (r <? p + o) && (q <=? c) && (c <? q + i) then j (fun c => x (q + c)%nat) (r - p)%nat (c - q)%nat else base r c).
      destruct (IH (p + o)%nat (q + i)%nat base') as [E D].
      { intros r c Hr. unfold base'. rewrite (proj2 (Nat.ltb_ge r (p + o))) by lia. rewrite andb_false_r. cbn [andb]. apply B. lia. }
      { unfold ins. lia. }
      split.
      + intros r c Hr. rewrite E by lia. unfold base'. rewrite (proj2 (Nat.leb_gt p r)) by lia. reflexivity.
      + intros r Hr. destruct (Nat.lt_ge_cases r o) as [Lo|Lo].
        * pose proof (H i o f j (or_introl eq_refl) (fun c => x (q + c)%nat)) as Hd. rewrite deriv_coord in Hd. specialize (Hd r Lo).
          apply (deriv1_shift n i q (fun y => f y r) x) in Hd; [|lia].
          eapply deriv1_ext; [| |exact Hd]; [intros y; unfold hcat; now rewrite (proj2 (Nat.ltb_lt r o) Lo)|].
          intros c Hc. cbn beta. rewrite E by lia. unfold base'. rewrite (proj2 (Nat.leb_le p (p + r))) by lia. rewrite (proj2 (Nat.ltb_lt (p + r) (p + o))) by lia. cbn [andb].
          replace (p + r - p)%nat with r by lia. destruct ((q <=? c) && (c <? q + i)); [reflexivity|]. symmetry. apply B. lia.
        * specialize (D (r - o)%nat). fold (outs (map (fun b => fst b) l)) in Hr. eapply deriv1_ext; [| |apply D; lia]; [intros y; unfold hcat; now rewrite (proj2 (Nat.ltb_ge r o) Lo)|].
          intros c Hc. now replace (p + o + (r - o))%nat with (p + r)%nat by lia.
  Qed.
  Lemma node_deriv t : smooth t = true -> forall x, deriv (din t) (dout t) (fx t) x (jac t x).
  Proof.
    induction t as [d|b n m s v|d|b n m s v|ts IH|ts IH|n c|k u IH|n m f] using gnode_rect'; intros S x; try discriminate.
    - destruct d; [|discriminate]. apply deriv_coord. intros o Ho. apply deriv1_coord. exact Ho.
    - apply deriv_coord. intros o Ho. apply (deriv1_affine n (fun i => s i o) (v o)).
    - destruct d; [|discriminate]. apply quad_deriv.
    - cbn [fx jac]. unfold mmul. apply (deriv_chain n (edim n) m (expand n) (fun w => mult_sf (edim n) m s v w) x (quad_grad n x) (transpose s)); [apply quad_deriv|].
      apply deriv_coord. intros o Ho. apply (deriv1_affine (edim n) (fun i => s i o) (v o)).
    - destruct (smooth_layer ts S) as (_ & S' & DI & DO). rewrite Forall_forall in IH. cbn [fx jac]. apply deriv_coord. intros o Ho.
      pose proof (bfold_deriv (din (GLayer ts)) x (map (fun u => (din u, dout u, fx u, jac u)) ts)) as Q. cbv zeta in Q. rewrite !map_map in Q. cbn [fst snd] in Q.
      destruct (Q ltac:(intros i' o' f' j' Hin v; apply in_map_iff in Hin; destruct Hin as (u & [= <- <- <- <-] & Hu); now apply IH, S') 0%nat 0%nat (fun _ _ => 0)) as [_ D].
      + reflexivity.
      + rewrite DI. cbn [plus]. clear. induction ts as [|u ts IHt]; [apply le_n|]. cbn [map ins fold_right fst snd]. unfold ins in IHt. lia.
      + apply D. rewrite DO in Ho. eapply Nat.lt_le_trans; [exact Ho|]. clear. induction ts as [|u ts IHt]; [apply le_n|]. cbn [map outs fold_right fst snd]. unfold outs in IHt. lia.
  Qed.
End Nodes.
