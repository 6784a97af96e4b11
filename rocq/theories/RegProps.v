(** Properties of LinearRegressionNode (RegModel): least squares. *)
From Coq Require Import List Arith QArith Qcanon Bool Lia Permutation.
From Verif Require Import CovModel CovProofs RegModel.
Import ListNotations.
Open Scope nat_scope.

(** ** Sums *)
Definition sumn (n : nat) (f : nat -> Qc) : Qc := qsum (map f (seq 0 n)).
Lemma qsum_ext_in {A} (f g : A -> Qc) l : (forall x, In x l -> f x = g x) -> qsum (map f l) = qsum (map g l).
Proof. induction l as [|a l IH]; intro H; cbn; [reflexivity|]. rewrite (H a) by now left. rewrite IH; [reflexivity|]. intros x Hx. apply H. now right. Qed.
Lemma sumn_ext n f g : (forall i, i < n -> f i = g i) -> sumn n f = sumn n g.
Proof. intro H. apply qsum_ext_in. intros i Hi. apply in_seq in Hi. apply H. lia. Qed.
Lemma sq_nonneg (a : Qc) : (0 <= a * a)%Qc.
Proof.
  destruct (Qclt_le_dec a 0) as [H|H].
  - replace (a * a)%Qc with ((- a) * (- a))%Qc by ring. assert (K : (0 <= - a)%Qc) by (apply Qclt_le_weak in H; apply Qcopp_le_compat in H; exact H). rewrite <- (Qcmult_0_l (- a)%Qc). now apply Qcmult_le_compat_r.
  - rewrite <- (Qcmult_0_l a). now apply Qcmult_le_compat_r.
Qed.
Lemma qsum_sq_nonneg {A} (f : A -> Qc) l : (0 <= qsum (map (fun x => f x * f x) l))%Qc.
Proof. induction l as [|a l IH]; cbn; [apply Qcle_refl|]. apply (Qcle_trans _ (0 + 0)%Qc); [apply Qcle_refl|]. apply Qcplus_le_compat; [apply sq_nonneg|exact IH]. Qed.
Lemma qsum_sq_zero {A} (f : A -> Qc) l : qsum (map (fun x => f x * f x)%Qc l) = 0%Qc -> forall x, In x l -> f x = 0%Qc.
Proof.
  induction l as [|a l IH]; cbn; intros H x Hx; [destruct Hx|].
  assert (E : forall u w, (0 <= u -> 0 <= w -> u + w = 0 -> u = 0 /\ w = 0)%Qc).
  { intros u w U W K. assert (u = - w)%Qc by (rewrite <- (Qcplus_0_l (- w)), <- K; ring). subst u. assert (w = 0)%Qc; [|subst; auto]. apply Qcle_antisym; [|assumption]. apply Qcopp_le_compat in U. rewrite Qcopp_involutive in U. exact U. }
  destruct (E _ _ (sq_nonneg (f a)) (qsum_sq_nonneg f l) H) as [E1 E2]. destruct Hx as [<-|Hx]; [|now apply IH]. destruct (Qcmult_integral _ _ E1); assumption.
Qed.

(** ** Least squares *)
(** data: pairs (input row, target row); n inputs *)
Definition gram (D : list (row * row)) : mat := fun i j => qsum (map (fun p : row * row => fst p i * fst p j)%Qc D).
Definition cross (D : list (row * row)) : mat := fun i o => qsum (map (fun p : row * row => fst p i * snd p o)%Qc D).
Definition lin (n : nat) (b : nat -> Qc) (x : row) : Qc := sumn n (fun i => x i * b i)%Qc.
(** sum of squared errors of the coefficients b for output o *)
Definition sse (n : nat) (D : list (row * row)) (o : nat) (b : nat -> Qc) : Qc :=
  qsum (map (fun p : row * row => (lin n b (fst p) - snd p o) * (lin n b (fst p) - snd p o))%Qc D).
(** a generalised inverse, of which the inverse and the pseudo-inverse are instances *)
Definition ginverse (n : nat) (A P : mat) : Prop := forall i j, i < n -> j < n -> mmult n (mmult n A P) A i j = A i j.
Definition inverse (n : nat) (A P : mat) : Prop := forall i j, i < n -> j < n -> mmult n A P i j = (if i =? j then 1 else 0)%Qc /\ mmult n P A i j = (if i =? j then 1 else 0)%Qc.

Lemma delta_sum n i (f : nat -> Qc) : i < n -> sumn n (fun k => (if i =? k then 1 else 0) * f k)%Qc = f i.
Proof.
  unfold sumn. induction n as [|n IH]; intro H; [lia|]. rewrite seq_S, map_app, qsum_app. cbn [map qsum]. cbn [Nat.add]. destruct (Nat.eq_dec i n) as [->|Hn].
  - rewrite Nat.eqb_refl. rewrite (qsum_ext_in _ (fun _ => 0%Qc)); [rewrite qsum_zero; ring|]. intros k Hk. apply in_seq in Hk. destruct (Nat.eqb_spec n k); [lia|ring].
  - rewrite IH by lia. destruct (Nat.eqb_spec i n); [congruence|ring].
Qed.
Lemma inverse_ginverse n A P : inverse n A P -> ginverse n A P.
Proof.
  intros H i j Hi Hj. change (sumn n (fun k => mmult n A P i k * A k j)%Qc = A i j). transitivity (sumn n (fun k => (if i =? k then 1 else 0) * A k j)%Qc); [|exact (delta_sum n i (fun k => A k j) Hi)]. apply sumn_ext. intros k Hk. now rewrite (proj1 (H i k Hi Hk)).
Qed.
Section LS.
  Variables (n : nat) (D : list (row * row)) (P : mat).
  Hypothesis HP : ginverse n (gram D) P.
  Let G := mmult n (gram D) P.
  Lemma project p i : In p D -> i < n -> lin n (G i) (fst p) = fst p i.
  Proof.
    intros Hp Hi. assert (Z : forall k, k < n -> qsum (map (fun q : row * row => (lin n (G i) (fst q) - fst q i) * fst q k)%Qc D) = 0%Qc).
    { intros k Hk. pose proof (HP i k Hi Hk) as E. change (qsum (map (fun l => G i l * gram D l k)%Qc (seq 0 n)) = gram D i k) in E.
      transitivity (qsum (map (fun l => G i l * gram D l k)%Qc (seq 0 n)) - gram D i k)%Qc; [|rewrite E; ring].
      unfold gram at 2. unfold Qcminus. rewrite <- (Qcmult_1_l (qsum (map (fun p : row * row => fst p i * fst p k)%Qc D))). replace (- (1 * qsum (map (fun p : row * row => fst p i * fst p k)%Qc D)))%Qc with (- (1) * qsum (map (fun p : row * row => fst p i * fst p k)%Qc D))%Qc by ring. rewrite <- qsum_map_mul.
      rewrite (qsum_ext (fun l => G i l * gram D l k)%Qc (fun l => qsum (map (fun q : row * row => G i l * (fst q l * fst q k))%Qc D))) by (intro l; unfold gram; now rewrite qsum_map_mul).
      rewrite qsum_swap, <- qsum_map_add. apply qsum_ext. intro q. unfold lin, sumn. rewrite (qsum_ext (fun l => G i l * (fst q l * fst q k))%Qc (fun l => (fst q l * G i l) * fst q k)%Qc) by (intro; ring). rewrite qsum_map_mulr. ring. }
    assert (S0 : qsum (map (fun q : row * row => (lin n (G i) (fst q) - fst q i) * (lin n (G i) (fst q) - fst q i))%Qc D) = 0%Qc).
    { set (M := fun q : row * row => (lin n (G i) (fst q) - fst q i)%Qc) in *.
      transitivity (qsum (map (fun l => G i l * qsum (map (fun q : row * row => M q * fst q l) D)) (seq 0 n)) + - (1) * qsum (map (fun q : row * row => M q * fst q i) D))%Qc.
      - rewrite (qsum_ext (fun l => G i l * qsum (map (fun q : row * row => M q * fst q l) D))%Qc (fun l => qsum (map (fun q : row * row => G i l * (M q * fst q l))%Qc D))) by (intro l; now rewrite qsum_map_mul).
        rewrite qsum_swap, <- qsum_map_mul, <- qsum_map_add. apply qsum_ext. intro q. rewrite (qsum_ext (fun l => G i l * (M q * fst q l))%Qc (fun l => M q * (fst q l * G i l))%Qc) by (intro; ring). rewrite qsum_map_mul. fold (sumn n (fun l => fst q l * G i l)%Qc). fold (lin n (G i) (fst q)). change (lin n (G i) (fst q) - fst q i)%Qc with (M q). unfold M. ring.
      - unfold M. rewrite Z by assumption. rewrite (qsum_ext_in _ (fun _ => 0%Qc)); [rewrite qsum_zero; ring|]. intros l Hl. apply in_seq in Hl. rewrite Z by lia. ring. }
    pose proof (qsum_sq_zero _ _ S0 p Hp) as K. cbn beta in K. rewrite <- (Qcplus_0_l (fst p i)), <- K. ring.
  Qed.
  (** the normal equations *)
  Lemma normal o i : i < n -> qsum (map (fun j => gram D i j * mmult n P (cross D) j o)%Qc (seq 0 n)) = cross D i o.
  Proof.
    intro Hi. unfold mmult.
    rewrite (qsum_ext (fun j => gram D i j * qsum (map (fun l => P j l * cross D l o) (seq 0 n)))%Qc (fun j => qsum (map (fun l => (gram D i j * P j l) * cross D l o)%Qc (seq 0 n)))) by (intro j; rewrite <- qsum_map_mul; apply qsum_ext; intro; ring).
    rewrite qsum_swap. rewrite (qsum_ext (fun l => qsum (map (fun j => gram D i j * P j l * cross D l o) (seq 0 n)))%Qc (fun l => G i l * cross D l o)%Qc) by (intro l; now rewrite qsum_map_mulr).
    rewrite (qsum_ext (fun l => G i l * cross D l o)%Qc (fun l => qsum (map (fun q : row * row => (fst q l * G i l) * snd q o)%Qc D))) by (intro l; unfold cross; rewrite <- qsum_map_mul; apply qsum_ext; intro; ring).
    rewrite qsum_swap. unfold cross. apply qsum_ext_in. intros q Hq. rewrite qsum_map_mulr. f_equal. now apply project.
  Qed.
  Lemma lin_gram b c : qsum (map (fun q : row * row => lin n c (fst q) * lin n b (fst q))%Qc D) = sumn n (fun i => c i * sumn n (fun j => gram D i j * b j))%Qc.
  Proof.
    transitivity (qsum (map (fun q : row * row => sumn n (fun i => c i * (fst q i * lin n b (fst q))))%Qc D)).
    - apply qsum_ext. intro q. unfold lin at 1, sumn. rewrite <- qsum_map_mulr. apply qsum_ext. intro. ring.
    - unfold sumn. rewrite qsum_swap. apply qsum_ext. intro i. rewrite qsum_map_mul. f_equal.
      transitivity (qsum (map (fun q : row * row => qsum (map (fun j => fst q i * fst q j * b j) (seq 0 n))) D))%Qc.
      + apply qsum_ext. intro q. unfold lin, sumn. rewrite <- qsum_map_mul. apply qsum_ext. intro. ring.
      + rewrite qsum_swap. apply qsum_ext. intro j. unfold gram. now rewrite <- qsum_map_mulr.
  Qed.
  Lemma lin_cross c o : qsum (map (fun q : row * row => lin n c (fst q) * snd q o)%Qc D) = sumn n (fun i => c i * cross D i o)%Qc.
  Proof.
    transitivity (qsum (map (fun q : row * row => qsum (map (fun i => c i * (fst q i * snd q o)) (seq 0 n))) D))%Qc.
    - apply qsum_ext. intro q. unfold lin, sumn. rewrite <- qsum_map_mulr. apply qsum_ext. intro. ring.
    - rewrite qsum_swap. unfold sumn. apply qsum_ext. intro i. unfold cross. now rewrite qsum_map_mul.
  Qed.
  Lemma lin_sub b c x : lin n (fun i => c i - b i)%Qc x = (lin n c x - lin n b x)%Qc.
  Proof.
    unfold lin, sumn. replace (qsum (map (fun i => x i * c i) (seq 0 n)) - qsum (map (fun i => x i * b i) (seq 0 n)))%Qc with (qsum (map (fun i => x i * c i) (seq 0 n)) + - (1) * qsum (map (fun i => x i * b i) (seq 0 n)))%Qc by ring.
    rewrite <- qsum_map_mul, <- qsum_map_add. apply qsum_ext. intro. ring.
  Qed.
  Lemma sse_split o b : let beta := fun i => mmult n P (cross D) i o in
    sse n D o b = (sse n D o beta + qsum (map (fun q : row * row => lin n (fun i => b i - beta i)%Qc (fst q) * lin n (fun i => b i - beta i)%Qc (fst q)) D))%Qc.
  Proof.
    intro beta. set (dl := fun i => (b i - beta i)%Qc).
    assert (C : qsum (map (fun q : row * row => lin n dl (fst q) * (lin n beta (fst q) - snd q o))%Qc D) = 0%Qc).
    { transitivity (qsum (map (fun q : row * row => lin n dl (fst q) * lin n beta (fst q)) D) + - (1) * qsum (map (fun q : row * row => lin n dl (fst q) * snd q o) D))%Qc.
      - rewrite <- qsum_map_mul, <- qsum_map_add. apply qsum_ext. intro. ring.
      - rewrite lin_gram, lin_cross. rewrite (sumn_ext n (fun i => dl i * sumn n (fun j => gram D i j * beta j))%Qc (fun i => dl i * cross D i o)%Qc); [ring|]. intros i Hi. f_equal. now apply normal. }
    unfold sse. transitivity (qsum (map (fun q : row * row => (lin n beta (fst q) - snd q o) * (lin n beta (fst q) - snd q o)) D) + qsum (map (fun q : row * row => lin n dl (fst q) * lin n dl (fst q)) D) + (1 + 1) * qsum (map (fun q : row * row => lin n dl (fst q) * (lin n beta (fst q) - snd q o)) D))%Qc; [|rewrite C; ring].
    rewrite <- qsum_map_mul, <- !qsum_map_add. apply qsum_ext. intro q. unfold dl. rewrite (lin_sub beta b). ring.
  Qed.
  Theorem least o b : (sse n D o (fun i => mmult n P (cross D) i o) <= sse n D o b)%Qc.
  Proof.
    rewrite (sse_split o b). cbv zeta. set (u := sse n D o _). rewrite <- (Qcplus_0_r u) at 1. apply Qcplus_le_compat; [apply Qcle_refl|apply qsum_sq_nonneg].
  Qed.
  (** with an inverse, the minimum is attained once *)
  Theorem unique o b : inverse n (gram D) P -> sse n D o b = sse n D o (fun i => mmult n P (cross D) i o) -> forall i, i < n -> b i = mmult n P (cross D) i o.
  Proof.
    intros HI E i Hi. pose proof (sse_split o b) as S. cbv zeta in S. rewrite E in S. set (u := sse n D o _) in S. set (dl := fun i => (b i - mmult n P (cross D) i o)%Qc) in *.
    assert (Z : qsum (map (fun q : row * row => lin n dl (fst q) * lin n dl (fst q)) D)%Qc = 0%Qc). { transitivity (u + qsum (map (fun q : row * row => lin n dl (fst q) * lin n dl (fst q)) D) - u)%Qc; [ring|]. rewrite <- S. ring. }
    pose proof (qsum_sq_zero _ _ Z) as Z'. cbn beta in Z'.
    assert (A0 : forall k, k < n -> sumn n (fun j => gram D k j * dl j)%Qc = 0%Qc).
    { intros k Hk. unfold sumn, gram. rewrite (qsum_ext (fun j => qsum (map (fun p : row * row => fst p k * fst p j) D) * dl j)%Qc (fun j => qsum (map (fun p : row * row => fst p k * (fst p j * dl j)) D))%Qc) by (intro j; rewrite <- qsum_map_mulr; apply qsum_ext; intro; ring).
      rewrite qsum_swap. rewrite (qsum_ext_in _ (fun _ => 0%Qc)); [apply qsum_zero|]. intros q Hq. rewrite qsum_map_mul. fold (sumn n (fun j => fst q j * dl j)%Qc). fold (lin n dl (fst q)). rewrite Z' by assumption. ring. }
    assert (K : dl i = 0%Qc).
    { rewrite <- (delta_sum n i dl Hi). rewrite (sumn_ext n _ (fun k => mmult n P (gram D) i k * dl k)%Qc) by (intros k Hk; now rewrite (proj2 (HI i k Hi Hk))).
      unfold mmult, sumn. rewrite (qsum_ext (fun k => qsum (map (fun l => P i l * gram D l k) (seq 0 n)) * dl k)%Qc (fun k => qsum (map (fun l => P i l * (gram D l k * dl k)) (seq 0 n)))%Qc) by (intro k; rewrite <- qsum_map_mulr; apply qsum_ext; intro; ring).
      rewrite qsum_swap. rewrite (qsum_ext_in _ (fun _ => 0%Qc)); [apply qsum_zero|]. intros l Hl. apply in_seq in Hl. rewrite qsum_map_mul. fold (sumn n (fun j => gram D l j * dl j)%Qc). rewrite A0 by lia. ring. }
    unfold dl in K. rewrite <- (Qcplus_0_l (mmult n P (cross D) i o)), <- K. ring.
  Qed.
End LS.

(** ** The node *)
Section Node.
  Variable invfun : nat -> mat -> option mat.
  Variable with_bias : bool.
  Variable dim : nat.
  Notation reg_trains := (reg_trains with_bias).
  Notation reg_train := (reg_train with_bias).
  Notation reg_stop := (reg_stop invfun with_bias dim).
  Notation execute := (reg_execute with_bias dim).
  Notation size := (size with_bias dim).
  Notation extend := (extend with_bias).
  (** the points presented, and the squared error of the node with coefficients beta on them *)
  Definition presented (calls : list (list row * nat * list row)) : list (row * row) := flat_map (fun c => combine (fst (fst c)) (snd c)) calls.
  Definition error (data : list (row * row)) (o : nat) (beta : mat) : Qc :=
    qsum (map (fun p : row * row => (execute beta (fst p) o - snd p o) * (execute beta (fst p) o - snd p o))%Qc data).
  Definition ext (data : list (row * row)) : list (row * row) := map (fun p => (extend (fst p), snd p)) data.
  Lemma error_sse data o beta : error data o beta = sse size (ext data) o (fun i => beta i o).
  Proof. unfold error, sse, ext. now rewrite map_map. Qed.
  Lemma error_any data o (b : nat -> Qc) : sse size (ext data) o b = error data o (fun i _ => b i).
  Proof. now rewrite error_sse. Qed.
  Lemma combine_ext x y : combine (map extend x) y = ext (combine x y).
  Proof. revert y. induction x as [|a x IH]; intros [|b y]; cbn; try reflexivity. now rewrite IH. Qed.
  Definition rep (s : reg) (data : list (row * row)) : Prop :=
    let (a, b) := match r_acc s with Some ab => ab | None => (zero_mat, zero_mat) end in (forall i j, a i j = gram (ext data) i j) /\ (forall i o, b i o = cross (ext data) i o).
  Lemma rep_new out : rep (reg_new out) [].
  Proof. split; reflexivity. Qed.
  Lemma check_ok s x yd y s' : check_args s x yd y = (s', ROk tt) -> r_acc s' = r_acc s /\ r_training s' = r_training s /\ r_tlen s' = r_tlen s /\ length y = length x /\ r_out s' = Some yd.
  Proof.
    unfold check_args. destruct (r_out s) as [o|] eqn:Eo; cbn [r_out].
    - rewrite Eo. destruct (Nat.eqb_spec yd o); cbn [negb]; [|discriminate]. destruct (Nat.eqb_spec (length y) (length x)); cbn [negb]; [|discriminate]. intros [= <-]. subst. auto.
    - rewrite Nat.eqb_refl. cbn [negb]. destruct (Nat.eqb_spec (length y) (length x)); cbn [negb]; [|discriminate]. intros [= <-]. auto.
  Qed.
  Lemma tmult_self_pairs i j : forall (l y : list row), length y = length l -> tmult l l i j = qsum (map (fun p : row * row => fst p i * fst p j)%Qc (combine l y)).
  Proof. unfold tmult. induction l as [|a l IH]; intros [|b y] H; cbn in *; try lia; try reflexivity. now rewrite (IH y) by lia. Qed.
  Lemma rep_train s x yd y s' data : rep s data -> reg_train s x yd y = (s', ROk tt) -> rep s' (data ++ combine x y) /\ r_acc s' <> None /\ r_training s' = true /\ r_started s' = true /\ r_tlen s' = r_tlen s + length x /\ length y = length x.
  Proof.
    intros R E. unfold RegModel.reg_train in E. destruct (r_training s); cbn [negb] in E; [|discriminate]. destruct (check_args s x yd y) as [s1 [u|e]] eqn:Ec; [|discriminate]. destruct u. apply check_ok in Ec as (A & _ & T & L & _). unfold rep in R. rewrite A in E.
    destruct (match r_acc s with Some ab => ab | None => (zero_mat, zero_mat) end) as [a b]. injection E as <-. destruct R as [R1 R2]. cbn [r_acc r_training r_started r_tlen]. rewrite map_length, T. split; [|repeat split; try discriminate; assumption]. unfold rep. cbn [r_acc]. split.
    - intros i j. rewrite R1. unfold gram, ext. rewrite map_app, map_app, qsum_app. f_equal. fold (ext (combine x y)). rewrite <- combine_ext. apply tmult_self_pairs. now rewrite map_length.
    - intros i j. rewrite R2. unfold cross, ext. rewrite map_app, map_app, qsum_app. f_equal. fold (ext (combine x y)). now rewrite <- combine_ext.
  Qed.
  Lemma rep_trains : forall calls s s' data, rep s data -> reg_trains s calls = (s', ROk tt) -> rep s' (data ++ presented calls) /\ r_tlen s' = r_tlen s + length (presented calls) /\ (calls <> [] -> r_acc s' <> None /\ r_training s' = true /\ r_started s' = true).
  Proof.
    induction calls as [|[[x yd] y] calls IH]; intros s s' data R E; cbn [RegModel.reg_trains presented flat_map fst snd] in *.
    - injection E as <-. rewrite app_nil_r. cbn. split; [assumption|]. split; [lia|congruence].
    - destruct (reg_train s x yd y) as [s1 [u|e]] eqn:E1; [|discriminate]. destruct u. destruct (rep_train _ _ _ _ _ _ R E1) as (R1 & A1 & T1 & S1 & L1 & Ly). fold (presented calls). destruct (IH s1 s' _ R1 E) as (R2 & L2 & K2). rewrite app_assoc, app_length, combine_length. split; [assumption|]. split; [lia|]. intros _.
      destruct calls as [|c calls]; [|apply K2; discriminate]. cbn in E. injection E as <-. auto.
  Qed.
  Lemma ginverse_ext n A B P : (forall i j, A i j = B i j) -> ginverse n A P -> ginverse n B P.
  Proof.
    intros E H i j Hi Hj. rewrite <- E, <- (H i j Hi Hj). unfold mmult. apply sumn_ext. intros k _. rewrite E. f_equal. apply qsum_ext. intro l. now rewrite E.
  Qed.
  Lemma inverse_ext n A B P : (forall i j, A i j = B i j) -> inverse n A P -> inverse n B P.
  Proof.
    intros E H i j Hi Hj. destruct (H i j Hi Hj) as [H1 H2]. split; [rewrite <- H1|rewrite <- H2]; unfold mmult; apply qsum_ext; intro k; rewrite E; reflexivity.
  Qed.
  (** what stop_training computes *)
  Lemma stop_beta calls out s s' : reg_trains (reg_new out) calls = (s, ROk tt) -> reg_stop s = (s', ROk tt) ->
    exists a p beta, invfun size a = Some p /\ (forall i j, a i j = gram (ext (presented calls)) i j) /\ r_beta s' = Some beta /\ forall i o, beta i o = mmult size p (cross (ext (presented calls))) i o.
  Proof.
    intros E S. destruct (rep_trains _ _ _ [] (rep_new out) E) as (R & _). cbn [app] in R. unfold RegModel.reg_stop in S. destruct (r_training s && negb (r_started s)); [discriminate|]. destruct (negb (r_training s)); [discriminate|]. unfold rep in R. destruct (r_acc s) as [[a b]|]; [|discriminate]. destruct R as [R1 R2].
    destruct (invfun size a) as [p|] eqn:Ei; [|discriminate]. injection S as <-. exists a, p. eexists. split; [exact Ei|]. split; [exact R1|]. split; [reflexivity|]. intros i o. unfold mmult. apply qsum_ext. intro k. now rewrite R2.
  Qed.
  Lemma error_ext data o b b' : (forall i, b i o = b' i o) -> error data o b = error data o b'.
  Proof. intro H. unfold error. apply qsum_ext. intro p. assert (K : execute b (fst p) o = execute b' (fst p) o) by (unfold reg_execute; apply qsum_ext; intro i; now rewrite H). now rewrite K. Qed.

  (** C200 *)
  Theorem C200_least_squares calls out s s' : (forall a p, invfun size a = Some p -> ginverse size a p) ->
    reg_trains (reg_new out) calls = (s, ROk tt) -> reg_stop s = (s', ROk tt) ->
    exists beta, r_beta s' = Some beta /\ r_training s' = false /\ forall o beta', (error (presented calls) o beta <= error (presented calls) o beta')%Qc.
  Proof.
    intros HI E S. destruct (stop_beta calls out s s' E S) as (a & p & beta & Ei & Ea & Eb & B). exists beta. split; [assumption|]. split.
    { unfold RegModel.reg_stop in S. destruct (r_training s && negb (r_started s)); [discriminate|]. destruct (negb (r_training s)); [discriminate|]. destruct (r_acc s) as [[? ?]|]; [|discriminate]. destruct (invfun size _); [|discriminate]. now injection S as <-. }
    intros o beta'. rewrite (error_ext _ o beta (mmult size p (cross (ext (presented calls))))) by (intro i; apply B). rewrite !error_sse. apply least. eapply ginverse_ext; [exact Ea|]. now apply HI.
  Qed.
  (** C201 *)
  Theorem C201_unique calls out s s' : (forall a p, invfun size a = Some p -> inverse size a p) ->
    reg_trains (reg_new out) calls = (s, ROk tt) -> reg_stop s = (s', ROk tt) ->
    exists beta, r_beta s' = Some beta /\ forall o beta', (forall beta'', error (presented calls) o beta' <= error (presented calls) o beta'')%Qc -> forall i, i < size -> beta' i o = beta i o.
  Proof.
    intros HI E S. destruct (stop_beta calls out s s' E S) as (a & p & beta & Ei & Ea & Eb & B). exists beta. split; [assumption|]. intros o beta' Hm i Hi. rewrite B. pose proof (inverse_ext _ _ _ _ Ea (HI _ _ Ei)) as I.
    apply (unique size (ext (presented calls)) p (inverse_ginverse _ _ _ I) o (fun i => beta' i o) I); [|assumption]. apply Qcle_antisym.
    - rewrite <- error_sse. rewrite error_any. apply Hm.
    - apply least. now apply inverse_ginverse.
  Qed.
  Theorem C201_exact calls out s s' beta0 : (forall a p, invfun size a = Some p -> ginverse size a p) ->
    reg_trains (reg_new out) calls = (s, ROk tt) -> reg_stop s = (s', ROk tt) -> forall o, (forall x y, In (x, y) (presented calls) -> execute beta0 x o = y o) ->
    exists beta, r_beta s' = Some beta /\ forall x y, In (x, y) (presented calls) -> execute beta x o = y o.
  Proof.
    intros HI E S o H0. destruct (C200_least_squares calls out s s' HI E S) as (beta & Eb & _ & L). exists beta. split; [assumption|].
    assert (Z : error (presented calls) o beta = 0%Qc).
    { apply Qcle_antisym; [|apply (qsum_sq_nonneg (fun p : row * row => (execute beta (fst p) o - snd p o)%Qc))]. eapply Qcle_trans; [apply (L o beta0)|]. unfold error. rewrite (qsum_ext_in _ (fun _ => 0%Qc)); [rewrite qsum_zero; apply Qcle_refl|]. intros [x y] Hp. cbn [fst snd]. rewrite (H0 x y Hp). ring. }
    intros x y Hp. pose proof (qsum_sq_zero (fun p : row * row => (execute beta (fst p) o - snd p o)%Qc) _ Z (x, y) Hp) as K. cbn [fst snd] in K. rewrite <- (Qcplus_0_l (y o)), <- K. ring.
  Qed.
  (** C202: neither the chunks nor the order of the points matter *)
  Theorem C202_order calls1 calls2 out1 out2 s1 s1' s2 s2' beta1 beta2 : (forall a p, invfun size a = Some p -> inverse size a p) -> Permutation (presented calls1) (presented calls2) ->
    reg_trains (reg_new out1) calls1 = (s1, ROk tt) -> reg_stop s1 = (s1', ROk tt) -> reg_trains (reg_new out2) calls2 = (s2, ROk tt) -> reg_stop s2 = (s2', ROk tt) ->
    r_beta s1' = Some beta1 -> r_beta s2' = Some beta2 -> r_tlen s1' = r_tlen s2' /\ forall i o, i < size -> beta1 i o = beta2 i o.
  Proof.
    intros HI P E1 S1 E2 S2 B1 B2. assert (EP : forall o b, error (presented calls1) o b = error (presented calls2) o b).
    { intros o b. unfold error. induction P as [|x l l' P IH|x y l|l l' l'' P1 IH1 P2 IH2]; cbn; [reflexivity|now rewrite IH|ring|congruence]. }
    split.
    - destruct (rep_trains _ _ _ [] (rep_new out1) E1) as (_ & L1 & _). destruct (rep_trains _ _ _ [] (rep_new out2) E2) as (_ & L2 & _). apply Permutation_length in P.
      assert (T : forall s s', reg_stop s = (s', ROk tt) -> r_tlen s' = r_tlen s). { intros s s' S. unfold RegModel.reg_stop in S. destruct (r_training s && negb (r_started s)); [discriminate|]. destruct (negb (r_training s)); [discriminate|]. destruct (r_acc s) as [[? ?]|]; [|discriminate]. destruct (invfun size _); [|discriminate]. now injection S as <-. }
      rewrite (T _ _ S1), (T _ _ S2), L1, L2, P. reflexivity.
    - intros i o Hi. destruct (C201_unique calls2 out2 s2 s2' HI E2 S2) as (b2 & B2' & U). rewrite B2 in B2'. injection B2' as <-. apply U; [|assumption].
      destruct (C200_least_squares calls1 out1 s1 s1' (fun a p H => inverse_ginverse _ _ _ (HI a p H)) E1 S1) as (b1 & B1' & _ & L). rewrite B1 in B1'. injection B1' as <-. intro b. rewrite <- !EP. apply L.
  Qed.
  (** C203 *)
  Theorem C203_execute beta x o : execute beta x o = ((if with_bias then beta 0%nat o else 0) + sumn dim (fun i => x i * beta (if with_bias then i + 1 else i)%nat o))%Qc.
  Proof.
    unfold reg_execute, RegModel.size, RegModel.extend, add_constant. destruct with_bias; [|unfold sumn; ring]. rewrite Nat.add_1_r. cbn [seq map qsum]. rewrite <- seq_shift, map_map. cbn [Nat.eqb]. unfold sumn. f_equal; [ring|]. apply qsum_ext. intro i. now rewrite Nat.add_1_r, Nat.sub_succ, Nat.sub_0_r.
  Qed.
  (** C204: a failing stop_training changes nothing, training can go on *)
  Theorem C204_redundant s s' : reg_stop s = (s', RErr RNode) -> s' = s.
  Proof. unfold RegModel.reg_stop. destruct (r_training s && negb (r_started s)); [discriminate|]. destruct (negb (r_training s)); [discriminate|]. destruct (r_acc s) as [[a b]|]; [|congruence]. destruct (invfun size a); [discriminate|congruence]. Qed.
  Theorem C204_continue calls1 calls2 out s s1 s2 : reg_trains (reg_new out) calls1 = (s, ROk tt) -> reg_stop s = (s1, RErr RNode) -> reg_trains s1 calls2 = (s2, ROk tt) -> reg_trains (reg_new out) (calls1 ++ calls2) = (s2, ROk tt).
  Proof.
    intros E S E2. apply C204_redundant in S as ->. generalize dependent (reg_new out). induction calls1 as [|[[x yd] y] calls1 IH]; intros s0 E; cbn [app RegModel.reg_trains] in *; [injection E as <-; exact E2|]. destruct (reg_train s0 x yd y) as [s3 [u|e]]; [|discriminate]. now apply IH.
  Qed.
  (** C205: a rejected call *)
  Theorem C205_rejected s x yd y s' e : r_out s <> None -> reg_train s x yd y = (s', RErr e) -> s' = s.
  Proof.
    intros Ho. unfold RegModel.reg_train. destruct (r_training s); cbn [negb]; [|congruence]. unfold check_args. destruct (r_out s) as [o|] eqn:E; [|congruence]. rewrite E. destruct (yd =? o); cbn [negb]; [|congruence]. destruct (length y =? length x); cbn [negb]; [|congruence]. destruct (match r_acc s with Some ab => ab | None => _ end). discriminate.
  Qed.
  Theorem C205_data s x yd y s' e : reg_train s x yd y = (s', RErr e) -> r_acc s' = r_acc s /\ r_tlen s' = r_tlen s /\ r_started s' = r_started s /\ r_training s' = r_training s.
  Proof.
    unfold RegModel.reg_train. destruct (r_training s) eqn:T; cbn [negb]; [|intros [= <- _]; auto]. unfold check_args. destruct (r_out s) as [o|] eqn:E; cbn [r_out]; [rewrite E; destruct (yd =? o)|rewrite Nat.eqb_refl]; cbn [negb].
    all: try (intros [= <- _]; now auto). all: destruct (length y =? length x); cbn [negb]; [|intros [= <- _]; cbn; auto]; destruct (match r_acc _ with Some ab => ab | None => _ end); discriminate.
  Qed.
End Node.

(** ** A concrete inversion: matrices of size 1 and 2 *)
Definition det2 (a : mat) : Qc := (a 0%nat 0%nat * a 1%nat 1%nat - a 0%nat 1%nat * a 1%nat 0%nat)%Qc.
Definition inv2 (n : nat) (a : mat) : option mat :=
  if n =? 2 then if Qc_eq_dec (det2 a) 0 then None
                 else Some (fun i j => (match i, j with O, O => a 1%nat 1%nat | O, _ => - a 0%nat 1%nat | _, O => - a 1%nat 0%nat | _, _ => a 0%nat 0%nat end) / det2 a)%Qc
  else None.
Lemma inv2_inverse a p : inv2 2 a = Some p -> inverse 2 a p.
Proof.
  unfold inv2. cbn [Nat.eqb]. destruct (Qc_eq_dec (det2 a) 0) as [|H]; [discriminate|]. intros [= <-] i j Hi Hj. unfold mmult. cbn [seq map qsum].
  destruct i as [|[|i]]; [| |lia]; (destruct j as [|[|j]]; [| |lia]); cbn [Nat.eqb]; split; unfold det2 in *; field; exact H.
Qed.
Definition w (z : Z) : row := fun i => if i =? 0 then Q2Qc (z # 1) else 0%Qc.
(** y = 1 + 2 x with noise *)
Definition ex_calls := [([w 0; w 1], 1, [w 1; w 3]); ([w 2; w 3], 1, [w 6; w 6])].
Example ex_C200 : match reg_trains true (reg_new None) ex_calls with (s, r) => match reg_stop inv2 true 1 s with (s', r') => (r, r', r_tlen s', option_map (fun b : mat => (this (b 0 0), this (b 1 0))) (r_beta s')) end end
  = (ROk tt, ROk tt, 4, Some (13 # 10, 9 # 5)).
Proof. vm_compute. reflexivity. Qed.
Example ex_C204 : match reg_trains true (reg_new None) [([w 5; w 5], 1, [w 1; w 3])] with (s, _) => match reg_stop inv2 true 1 s with (s1, r1) => match reg_trains true s1 ex_calls with (s2, _) => match reg_stop inv2 true 1 s2 with (s3, r3) => (r1, r3, r_tlen s3) end end end end
  = (RErr RNode, ROk tt, 6).
Proof. vm_compute. reflexivity. Qed.
(** C203: the constant terms are the first row of beta, not the first column (docstring of __init__, comment :67-68) *)
Theorem C203_column_refuted : exists calls o, match reg_trains true (reg_new None) calls with (s, r) => match reg_stop inv2 true 1 s with (s', r') =>
  r = ROk tt /\ r' = ROk tt /\ r_out s' = Some 2 /\ o < 2 /\ match r_beta s' with Some beta => this (reg_execute true 1 beta zero_row o) <> this (beta o 0) | None => False end end end.
Proof. exists [([w 0; w 1], 2, [w 1; w 3])], 1. vm_compute. repeat split; try (intro H; discriminate H). repeat constructor. Qed.
Theorem C203_row dim beta o : reg_execute true dim beta zero_row o = beta 0 o.
Proof. rewrite C203_execute. unfold sumn. rewrite (qsum_ext _ (fun _ => 0%Qc)); [rewrite qsum_zero; ring|]. intro. unfold zero_row. ring. Qed.
(** C205: the output dimension is set by a call that is rejected; the correct call fails afterwards *)
Theorem C205_rejected_refuted : exists x y yd y', length y' = length x /\ match reg_train true (reg_new None) x 1 y with (s1, r1) => r1 = RErr RTraining /\ snd (reg_train true s1 x yd y') = RErr RNode end /\ snd (reg_train true (reg_new None) x yd y') = ROk tt.
Proof. exists [w 0; w 1], [w 1], 2, [w 1; w 3]. repeat split. Qed.
