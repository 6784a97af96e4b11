(** C57: recall of the Hopfield net terminates in a fixed point; C144: mutually orthogonal patterns are recalled. *)
From Coq Require Import List Arith QArith Qcanon Bool Lia Permutation.
From Verif Require Import CovModel CovProofs RoutModel RoutProps MiscModel HopModel ClassProofs RecProps.
Import ListNotations.
Open Scope Qc_scope.

Definition pm (a : Qc) : Prop := a = 1 \/ a = - (1).
Lemma set_len {A} r (v : A) s : length (set r v s) = length s.
Proof. revert r. induction s as [|a s IH]; intros [|r]; cbn; auto. Qed.
Lemma nth_set {A} r (v d : A) s i : (r < length s)%nat -> nth i (set r v s) d = if (i =? r)%nat then v else nth i s d.
Proof. revert r i. induction s as [|a s IH]; intros [|r] [|i] H; cbn in *; try lia; try reflexivity. apply IH. lia. Qed.
Lemma forall_set {A} (P : A -> Prop) r v s : P v -> Forall P s -> Forall P (set r v s).
Proof. intros Hv H. revert r. induction H; intros [|r]; cbn; constructor; auto. Qed.
Lemma sign_cases x : (x < 0 /\ sign x = - (1)) \/ (x = 0 /\ sign x = 0) \/ (0 < x /\ sign x = 1).
Proof. unfold sign. destruct (Qclt_le_dec x 0); [auto|]. destruct (Qclt_le_dec 0 x); [auto|]. right; left. split; [|reflexivity]. apply Qcle_antisym; assumption. Qed.

(** sums with one term changed *)
Lemma qsum_delta (f : nat -> Qc) d r n : (r < n)%nat -> qsum (map (fun i => (if (i =? r)%nat then d else 0) * f i) (seq 0 n)) = d * f r.
Proof.
  intro H. assert (G : forall m a, (a <= r < a + m)%nat -> qsum (map (fun i => (if (i =? r)%nat then d else 0) * f i) (seq a m)) = d * f r).
  { induction m as [|m IH]; intros a Ha; [lia|]. cbn [seq map qsum]. destruct (Nat.eqb_spec a r) as [->|Hn].
    - assert (Z : qsum (map (fun i => (if (i =? r)%nat then d else 0) * f i) (seq (S r) m)) = 0).
      { transitivity (qsum (map (fun _ : nat => 0) (seq (S r) m))); [|apply qsum_zero]. f_equal. apply map_ext_in. intros i Hi. apply in_seq in Hi.
        destruct (Nat.eqb_spec i r); [lia|ring]. }
      rewrite Z. ring.
    - rewrite IH by lia. ring. }
  apply G. lia.
Qed.
Section Energy.
  Context (n : nat) (w : mat) (th : row).
  Hypothesis w_sym : forall i j, w i j = w j i.
  Hypothesis w_diag : forall i, w i i = 0.
  (** minus twice the energy *)
  Definition harmony (s : list Qc) : Qc := qsum (map (fun i => nth i s 0 * (field_at n w s i - (1 + 1) * th i)) (seq 0 n)).
  Definition val_at (s : list Qc) r v i := nth i s 0 + (if (i =? r)%nat then v - nth r s 0 else 0).
  Lemma field_set s r v i : length s = n -> (r < n)%nat -> field_at n w (set r v s) i = field_at n w s i + (v - nth r s 0) * w i r.
  Proof.
    intros Hl Hr. unfold field_at. rewrite <- (qsum_delta (fun j => w i j) (v - nth r s 0) r n Hr), <- qsum_map_add. f_equal. apply map_ext. intro j.
    rewrite nth_set by lia. destruct (Nat.eqb_spec j r) as [->|]; ring.
  Qed.
  Lemma harmony_set s r v : length s = n -> (r < n)%nat ->
    harmony (set r v s) = harmony s + (1 + 1) * (v - nth r s 0) * (field_at n w s r - th r).
  Proof.
    intros Hl Hr. unfold harmony.
    transitivity (qsum (map (fun i => nth i s 0 * (field_at n w s i - (1 + 1) * th i) + ((v - nth r s 0) * (w r i * nth i s 0) +
       (if (i =? r)%nat then v - nth r s 0 else 0) * (field_at n w s i - (1 + 1) * th i + (v - nth r s 0) * w i r))) (seq 0 n))).
    - f_equal. apply map_ext. intro i. rewrite field_set by assumption. rewrite nth_set by lia. rewrite (w_sym r i). destruct (Nat.eqb_spec i r) as [->|]; ring.
    - rewrite !qsum_map_add, (qsum_map_mul (v - nth r s 0) (fun i => w r i * nth i s 0)), (qsum_delta (fun i => field_at n w s i - (1 + 1) * th i + (v - nth r s 0) * w i r)) by assumption.
      fold (field_at n w s r). rewrite w_diag. ring.
  Qed.
  Definition state (s : list Qc) : Prop := length s = n /\ Forall pm s.
  Definition fixed_point (s : list Qc) : Prop := forall r, (r < n)%nat -> fst (hop_update n w th (s, true) r) = s.
  Lemma update_state s c r : state s -> state (fst (hop_update n w th (s, c) r)).
  Proof.
    intros [Hl Hp]. cbn. destruct (Qc_eq_dec _ 0); [now split|]. destruct (Qc_eq_dec _ _); [now split|]. cbn. split; [now rewrite set_len|]. apply forall_set; [|assumption].
    destruct (sign_cases (field_at n w s r - th r)) as [[_ ->]|[[_ E]|[_ ->]]]; [now right|contradiction|now left].
  Qed.
  Lemma pm_lt : (- (1) < 1)%Qc.
  Proof. reflexivity. Qed.
  Lemma update_harmony s c r : state s -> (r < n)%nat ->
    let (s', c') := hop_update n w th (s, c) r in (s' = s /\ c' = c) \/ (harmony s < harmony s' /\ c' = false).
  Proof.
    intros [Hl Hp] Hr. cbn. destruct (Qc_eq_dec _ 0) as [|Hz]; [now left|]. destruct (Qc_eq_dec _ _) as [|Hne]; [now left|]. right. split; [|reflexivity].
    rewrite harmony_set by assumption. set (h := field_at n w s r - th r) in *.
    assert (Hn : pm (nth r s 0)) by (rewrite Forall_forall in Hp; apply Hp, nth_In; lia).
    assert (Hd : 0 < (sign h - nth r s 0) * h).
    { destruct (sign_cases h) as [[Hh E]|[[_ E]|[Hh E]]]; rewrite E in *; [|congruence|]; destruct Hn as [En|En]; rewrite En in *; try congruence.
      - replace ((- (1) - 1) * h) with ((- h) + (- h)) by ring. clearbody h. qlra.
      - replace ((1 - - (1)) * h) with (h + h) by ring. clearbody h. qlra. }
    replace ((1 + 1) * (sign h - nth r s 0) * h) with ((sign h - nth r s 0) * h + (sign h - nth r s 0) * h) by ring.
    set (z := (sign h - nth r s 0) * h) in *. clearbody z. set (e := harmony s). clearbody e. qlra.
  Qed.
  Lemma sweep_spec order : (forall r, In r order -> (r < n)%nat) -> forall s c, state s ->
    let (s', c') := fold_left (hop_update n w th) order (s, c) in
    state s' /\ ((s' = s /\ c' = c /\ forall r, In r order -> fst (hop_update n w th (s, true) r) = s) \/ (harmony s < harmony s' /\ c' = false)).
  Proof.
    induction order as [|r order IH]; intros Ho s c Hs; [cbn; split; [assumption|left; repeat split; intros r []]|]. cbn [fold_left].
    pose proof (update_state s c r Hs) as H1. pose proof (update_harmony s c r Hs (Ho r (or_introl eq_refl))) as H2.
    assert (Hu : hop_update n w th (s, c) r = (s, c) -> fst (hop_update n w th (s, true) r) = s).
    { cbn. destruct (Qc_eq_dec _ 0); [reflexivity|]. destruct (Qc_eq_dec _ _); [reflexivity|]. cbn. now intros [= E _]. }
    destruct (hop_update n w th (s, c) r) as [s1 c1] eqn:E1. cbn [fst] in H1. specialize (IH (fun r' H => Ho r' (or_intror H)) s1 c1 H1).
    destruct (fold_left (hop_update n w th) order (s1, c1)) as [s2 c2]. destruct IH as [Hs2 IH]. split; [assumption|].
    destruct H2 as [[-> ->]|[Hlt ->]]; destruct IH as [[-> [-> Hf]]|[Hlt2 ->]].
    - left. repeat split. intros r' [<-|Hr']; auto.
    - now right.
    - now right.
    - right. split; [now apply Qclt_trans with (harmony s1)|reflexivity].
  Qed.

  (** finitely many states *)
  Fixpoint all_states (m : nat) : list (list Qc) := match m with O => [[]] | S m => map (cons 1) (all_states m) ++ map (cons (- (1))) (all_states m) end.
  Lemma all_states_len m : length (all_states m) = (2 ^ m)%nat.
  Proof. induction m; cbn; [reflexivity|]. rewrite app_length, !map_length. lia. Qed.
  Lemma all_states_in s : Forall pm s -> In s (all_states (length s)).
  Proof. intro H. induction H as [|a s [-> | ->] _ IH]; cbn; [now left| |]; apply in_or_app; [left|right]; now apply in_map. Qed.

  Lemma loop_terminates orders : (forall t, Permutation (orders t) (seq 0 n)) ->
    forall fuel t s past, state s -> NoDup past -> Forall (fun p => state p /\ harmony p < harmony s) past -> (2 ^ n <= fuel + length past)%nat ->
    exists s', hop_loop n w th (fuel + 1) t orders s = Some s' /\ state s' /\ fixed_point s'.
  Proof.
    intro Ho. assert (Hlt : forall t r, In r (orders t) <-> (r < n)%nat).
    { intros t r. split; intro H; [apply (Permutation_in _ (Ho t)) in H; apply in_seq in H; lia|apply (Permutation_in _ (Permutation_sym (Ho t))), in_seq; lia]. }
    induction fuel as [|fuel IH]; intros t s past Hs Hn Hp Hf.
    - exfalso. assert (Hnd : NoDup (s :: past)).
      { constructor; [|assumption]. intro Hi. rewrite Forall_forall in Hp. destruct (Hp _ Hi) as [_ Hx]. exact (Qclt_not_eq _ _ Hx eq_refl). }
      assert (Hinc : incl (s :: past) (all_states n)).
      { intros p [<-|Hi]; [destruct Hs as [<- Hs]; now apply all_states_in|]. rewrite Forall_forall in Hp. destruct (Hp _ Hi) as [[<- Hpm] _]. now apply all_states_in. }
      apply (NoDup_incl_length Hnd) in Hinc. rewrite all_states_len in Hinc. cbn in *. lia.
    - cbn [plus hop_loop]. pose proof (sweep_spec (orders t) (fun r H => proj1 (Hlt t r) H) s true Hs) as Hsw. unfold hop_sweep.
      destruct (fold_left (hop_update n w th) (orders t) (s, true)) as [s1 c1]. destruct Hsw as [Hs1 [[-> [-> Hfix]]|[Hlt1 ->]]].
      + exists s. split; [reflexivity|]. split; [assumption|]. intros r Hr. apply Hfix. now apply Hlt.
      + apply (IH (S t) s1 (s :: past)); [assumption| | |cbn; lia].
        * constructor; [|assumption]. intro Hi. rewrite Forall_forall in Hp. destruct (Hp _ Hi) as [_ Hx]. exact (Qclt_not_eq _ _ Hx eq_refl).
        * constructor; [now split|]. eapply Forall_impl; [|exact Hp]. intros p [H1 H2]. split; [assumption|]. now apply Qclt_trans with (harmony s).
  Qed.
  Lemma loop_fixed orders fuel t s : (forall t, Permutation (orders t) (seq 0 n)) -> length s = n -> fixed_point s -> hop_loop n w th (S fuel) t orders s = Some s.
  Proof.
    intros Ho Hl Hf. cbn. unfold hop_sweep. assert (G : forall l c, (forall r, In r l -> (r < n)%nat) -> fold_left (hop_update n w th) l (s, c) = (s, c)).
    { induction l as [|r l IH]; intros c Hi; [reflexivity|]. cbn [fold_left]. specialize (Hf r (Hi r (or_introl eq_refl))).
      replace (hop_update n w th (s, c) r) with (s, c); [apply IH; intros; apply Hi; now right|]. revert Hf. cbn.
      destruct (Qc_eq_dec (sign (field_at n w s r - th r)) 0) as [|Hz]; [reflexivity|]. destruct (Qc_eq_dec (nth r s 0) (sign (field_at n w s r - th r))) as [|Hne]; [reflexivity|]. cbn. intro E. exfalso. apply Hne.
      rewrite <- E at 1. rewrite nth_set, Nat.eqb_refl; [reflexivity|]. rewrite Hl. apply Hi. now left. }
    rewrite G; [reflexivity|]. intros r Hr. apply (Permutation_in _ (Ho t)) in Hr. apply in_seq in Hr. lia.
  Qed.
End Energy.

(** ** the weights *)
Definition signs (p : list bool) (i : nat) : Qc := if nth i p false then 1 else - (1).
Lemma bts_nth p i : (i < length p)%nat -> nth i (bool_to_sign p) 0 = signs p i.
Proof.
  revert i. induction p as [|b p IH]; intros [|i] H; cbn in H; [lia|lia|destruct b; reflexivity|]. apply IH. lia.
Qed.
Lemma bts_len p : length (bool_to_sign p) = length p.
Proof. apply map_length. Qed.
Lemma train_weights n ps : Forall (fun p => length p = n) ps -> forall w i j, (i < n)%nat -> (j < n)%nat ->
  hop_train n w ps i j = w i j + qsum (map (fun p => signs p i * signs p j) ps) / qn n.
Proof.
  intro H. unfold hop_train. induction H as [|p ps Hp _ IH]; intros w i j Hi Hj; cbn [fold_left map qsum].
  - unfold Qcdiv. ring.
  - rewrite IH by assumption. unfold hop_train_one. rewrite !bts_nth by lia. unfold Qcdiv. ring.
Qed.
Definition hop_weights (n : nat) (ps : list (list bool)) : mat := hop_stop (hop_train n zero_mat ps).
Theorem C57_weights n ps i j : Forall (fun p => length p = n) ps -> (i < n)%nat -> (j < n)%nat ->
  hop_weights n ps i j = if (i =? j)%nat then 0 else qsum (map (fun p => signs p i * signs p j) ps) / qn n.
Proof. intros H Hi Hj. unfold hop_weights, hop_stop. destruct (i =? j)%nat; [reflexivity|]. rewrite train_weights by assumption. unfold zero_mat. ring. Qed.
Lemma hop_sym n ps i j : hop_weights n ps i j = hop_weights n ps j i.
Proof.
  unfold hop_weights, hop_stop. rewrite (Nat.eqb_sym j i). destruct (i =? j)%nat; [reflexivity|]. unfold hop_train.
  assert (G : forall w : mat, w i j = w j i -> fold_left (hop_train_one n) ps w i j = fold_left (hop_train_one n) ps w j i).
  { induction ps as [|p ps IH]; intros w Hw; cbn [fold_left]; [assumption|]. apply IH. unfold hop_train_one. rewrite Hw. unfold Qcdiv. ring. }
  now apply G.
Qed.
Lemma hop_diag n ps i : hop_weights n ps i i = 0.
Proof. unfold hop_weights, hop_stop. now rewrite Nat.eqb_refl. Qed.
Lemma bts_stb s : Forall pm s -> bool_to_sign (sign_to_bool s true) = s.
Proof.
  intro H. rewrite C125_sign_to_bool. induction H as [|a s [-> | ->] _ IH]; cbn [map]; [reflexivity| |]; now rewrite IH.
Qed.
Lemma field_signs n w p r : length p = n -> field_at n w (bool_to_sign p) r = qsum (map (fun j => w r j * signs p j) (seq 0 n)).
Proof. intro H. unfold field_at. f_equal. apply map_ext_in. intros j Hj. apply in_seq in Hj. now rewrite bts_nth by lia. Qed.

(** ** C57: every recall ends, after at most 2^n + 1 sweeps, whatever the orders; no unit wants to change in the result *)
Theorem C57_recall n ps (threshold : row) (p : list bool) (orders : nat -> list nat) :
  Forall (fun q => length q = n) ps -> length p = n -> (forall t, Permutation (orders t) (seq 0 n)) ->
  exists q, hop_label n (hop_weights n ps) threshold (2 ^ n + 1) orders p = Some q /\ length q = n
    /\ forall r, (r < n)%nat ->
         let h := qsum (map (fun j => (if (r =? j)%nat then 0 else qsum (map (fun p => signs p r * signs p j) ps) / qn n) * signs q j) (seq 0 n)) - threshold r in
         (0 < h -> nth r q false = true) /\ (h < 0 -> nth r q false = false).
Proof.
  intros Hps Hp Ho. destruct (loop_terminates n (hop_weights n ps) threshold (hop_sym n ps) (hop_diag n ps) orders Ho (2 ^ n) 0 (bool_to_sign p) []) as (s & Hs & [Hl Hpm] & Hf).
  - split; [now rewrite bts_len|apply (C125_signs p true)].
  - constructor.
  - constructor.
  - lia.
  - exists (sign_to_bool s true). unfold hop_label. rewrite Hs. split; [reflexivity|]. split; [unfold sign_to_bool; now rewrite map_length|].
    intros r Hr. cbv zeta. match goal with |- (0 < ?x -> _) /\ _ => set (h := x) end. specialize (Hf r Hr). pose proof (bts_stb s Hpm) as Es. assert (Hlq : length (sign_to_bool s true) = n) by (unfold sign_to_bool; now rewrite map_length).
    assert (Eh : h = field_at n (hop_weights n ps) s r - threshold r).
    { unfold h. rewrite <- Es, field_signs by assumption. f_equal. f_equal. apply map_ext_in. intros j Hj. apply in_seq in Hj. rewrite C57_weights by (assumption || lia). now rewrite bts_stb. }
    assert (Hq : nth r s 0 = signs (sign_to_bool s true) r) by (rewrite <- (bts_nth (sign_to_bool s true) r) by lia; now rewrite Es).
    cbn in Hf. rewrite <- Eh in Hf.
    assert (Hd : sign h = 0 \/ nth r s 0 = sign h).
    { destruct (Qc_eq_dec (sign h) 0) as [|Hz]; [now left|]. destruct (Qc_eq_dec (nth r s 0) (sign h)) as [|Hne]; [now right|]. cbn in Hf. exfalso. apply Hne. rewrite <- Hf at 1.
      rewrite nth_set, Nat.eqb_refl by lia. reflexivity. }
    rewrite Hq in Hd. unfold signs in Hd. clearbody h. split; intro Hh; destruct (sign_cases h) as [[H0 E]|[[H0 E]|[H0 E]]]; rewrite E in Hd.
    + exfalso. apply (Qclt_not_le _ _ Hh). now apply Qclt_le_weak.
    + exfalso. rewrite H0 in Hh. discriminate.
    + destruct (nth r (sign_to_bool s true) false); [reflexivity|]. destruct Hd; discriminate.
    + destruct (nth r (sign_to_bool s true) false); [|reflexivity]. destruct Hd; discriminate.
    + exfalso. rewrite H0 in Hh. discriminate.
    + exfalso. apply (Qclt_not_le _ _ Hh). now apply Qclt_le_weak.
Qed.

(** ** C144: with threshold 0 a stored pattern that is orthogonal to all others, and its complement, are recalled unchanged *)
Definition overlap (n : nat) (p q : list bool) : Qc := qsum (map (fun j => signs p j * signs q j) (seq 0 n)).
Lemma signs_sq p i : signs p i * signs p i = 1.
Proof. unfold signs. destruct (nth i p false); reflexivity. Qed.
Lemma overlap_self n p : overlap n p p = qn n.
Proof. unfold overlap. rewrite (map_ext _ (fun _ => 1) (signs_sq p)), qsum_const, seq_length. ring. Qed.
Lemma field_stored n ps (c : Qc) p r : Forall (fun q => length q = n) ps -> (r < n)%nat ->
  qsum (map (fun j => hop_weights n ps r j * (c * signs p j)) (seq 0 n)) = c * (qsum (map (fun q => signs q r * overlap n q p) ps) - qn (length ps) * signs p r) / qn n.
Proof.
  intros Hps Hr. assert (Hn : qn n <> 0) by (apply qn_pos; lia).
  transitivity (qsum (map (fun j => qsum (map (fun q => signs q r * signs q j) ps) * (c * signs p j / qn n) + (if (j =? r)%nat then - (qn (length ps) * c / qn n) else 0) * signs p j) (seq 0 n))).
  - f_equal. apply map_ext_in. intros j Hj. apply in_seq in Hj. rewrite C57_weights by (assumption || lia). rewrite (Nat.eqb_sym r j). destruct (Nat.eqb_spec j r) as [->|].
    + rewrite (map_ext _ (fun _ => 1) (fun q => signs_sq q r)), qsum_const. field. exact Hn.
    + field. exact Hn.
  - rewrite qsum_map_add, qsum_delta by assumption.
    transitivity (qsum (map (fun q => signs q r * overlap n q p) ps) * (c / qn n) + - (qn (length ps) * c / qn n) * signs p r); [|field; exact Hn]. f_equal.
    rewrite <- qsum_map_mulr.
    transitivity (qsum (map (fun j => qsum (map (fun q => signs q r * signs q j * (c * signs p j / qn n)) ps)) (seq 0 n))).
    + f_equal. apply map_ext. intro j. now rewrite qsum_map_mulr.
    + rewrite qsum_swap. apply qsum_ext. intro q. unfold overlap. rewrite <- (qsum_map_mul (signs q r)), <- qsum_map_mulr. apply qsum_ext. intro j. field. exact Hn.
Qed.
Lemma signs_negb p i : (i < length p)%nat -> signs (map negb p) i = - (1) * signs p i.
Proof.
  intro H. unfold signs. rewrite nth_indep with (d' := negb false) by (now rewrite map_length). rewrite map_nth. destruct (nth i p false); reflexivity.
Qed.
Theorem C144_recalled n l1 p l2 (orders : nat -> list nat) fuel (compl : bool) :
  Forall (fun q => length q = n) (l1 ++ p :: l2) -> (forall q, In q (l1 ++ l2) -> overlap n q p = 0) -> (length (l1 ++ p :: l2) <= n)%nat ->
  (forall t, Permutation (orders t) (seq 0 n)) ->
  let q := if compl then map negb p else p in
  hop_label n (hop_weights n (l1 ++ p :: l2)) zero_row (S fuel) orders q = Some q.
Proof.
  intros Hps Hov Hle Ho q. set (ps := l1 ++ p :: l2) in *. assert (Hp : length p = n) by (rewrite Forall_forall in Hps; apply Hps, in_elt).
  assert (Hq : length q = n) by (unfold q; destruct compl; rewrite ?map_length; assumption).
  set (c := if compl then - (1) else 1). assert (Hs : forall i, (i < n)%nat -> signs q i = c * signs p i).
  { intros i Hi. unfold q, c. destruct compl; [now apply signs_negb; rewrite Hp|ring]. }
  assert (Hsum : forall r, qsum (map (fun q => signs q r * overlap n q p) ps) = qn n * signs p r).
  { intro r. unfold ps. rewrite map_app, qsum_app. cbn [map qsum]. rewrite overlap_self.
    assert (Hz : forall l, (forall q, In q l -> overlap n q p = 0) -> qsum (map (fun q => signs q r * overlap n q p) l) = 0).
    { intros l Hl. transitivity (qsum (map (fun _ : list bool => 0) l)); [|apply qsum_zero]. f_equal. apply map_ext_in. intros q' Hq'. rewrite Hl by assumption. ring. }
    rewrite !Hz by (intros; apply Hov, in_or_app; auto). ring. }
  unfold hop_label. rewrite loop_fixed; [|assumption|now rewrite bts_len|].
  - cbn. now rewrite (proj1 (C125_signs q true)).
  - intros r Hr. cbn. rewrite field_signs by assumption. rewrite (map_ext_in _ (fun j => hop_weights n ps r j * (c * signs p j))); [|intros j Hj; apply in_seq in Hj; rewrite Hs by lia; reflexivity].
    rewrite field_stored, Hsum by assumption. rewrite bts_nth, Hs by lia. assert (Hn : qn n <> 0) by (apply qn_pos; lia).
    replace (c * (qn n * signs p r - qn (length ps) * signs p r) / qn n - zero_row r) with ((c * signs p r) * ((qn n - qn (length ps)) / qn n)) by (unfold zero_row; field; exact Hn).
    assert (Hd : qn n - qn (length ps) = qn (n - length ps)) by (rewrite <- (Nat.sub_add (length ps) n) at 1 by assumption; rewrite qn_add; ring). rewrite Hd.
    set (d := qn (n - length ps) / qn n). assert (H0 : 0 <= d).
    { unfold d, Qcdiv. replace 0 with (0 * / qn n) by ring. apply Qcmult_le_compat_r; [apply qn_nonneg|]. destruct (Qclt_le_dec (/ qn n) 0) as [Hi|Hi]; [|assumption]. exfalso.
      pose proof (Qcmult_lt_compat_r (/ qn n) 0 (qn n)) as Hc. assert (0 < qn n) as Hn0; [destruct (Qcle_lt_or_eq _ _ (qn_nonneg n)); [assumption|congruence]|].
      specialize (Hc Hn0 Hi). rewrite (Qcmult_comm (/ qn n)), Qcmult_inv_r in Hc by assumption. replace (0 * qn n) with 0 in Hc by ring. discriminate. }
    clearbody d. assert (Hcp : c * signs p r = 1 \/ c * signs p r = - (1)). { unfold c, signs. destruct compl, (nth r p false); auto. }
    destruct (Qc_eq_dec (sign (c * signs p r * d)) 0) as [|Hz]; [reflexivity|]. destruct (Qc_eq_dec (c * signs p r) (sign (c * signs p r * d))) as [|Hne]; [reflexivity|]. exfalso. apply Hne.
    destruct Hcp as [E|E]; rewrite E in *; destruct (sign_cases (1 * d)) as [[A1 A2]|[[A1 A2]|[A1 A2]]]; destruct (sign_cases (- (1) * d)) as [[B1 B2]|[[B1 B2]|[B1 B2]]]; try congruence.
    all: exfalso; replace (1 * d) with d in * by ring; replace (- (1) * d) with (- d) in * by ring; qlra.
Qed.
Example C57_ex : hop_label 4 (hop_weights 4 [[true; true; false; false]; [true; false; true; false]]) zero_row 3 (fun t => if Nat.even t then [3; 2; 1; 0] else [0; 1; 2; 3])%nat [true; true; true; false]
  = Some [true; true; false; false]
  /\ hop_label 4 (hop_weights 4 [[true; true; false; false]]) zero_row 3 (fun t => [3; 2; 1; 0])%nat [true; true; true; false] = Some [true; true; false; false].
Proof. split; vm_compute; reflexivity. Qed.
Example C144_ex : overlap 4 [true; true; false; false] [true; false; true; false] = 0.
Proof. apply Qc_is_canon. reflexivity. Qed.
