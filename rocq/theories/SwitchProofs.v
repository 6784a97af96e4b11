(** Supporting lemmas for the switchboards: indexing, argsort, the mean inverse. *)
From Coq Require Import List ZArith Bool Permutation Sorted Lia.
From Verif Require Import SwitchModel.
Import ListNotations.
Open Scope Z_scope.

Definition in_range (n : Z) (conns : list Z) : Prop := forall c, In c conns -> 0 <= c < n.

(** ** Range, maximum *)
Lemma in_zrange a b x : In x (zrange a b) <-> a <= x < b.
Proof.
  unfold zrange. rewrite in_map_iff. split.
  - intros (i & <- & Hi). apply in_seq in Hi. lia.
  - intros H. exists (Z.to_nat (x - a)). split; [lia|]. apply in_seq. lia.
Qed.
Lemma zrange_length a b : length (zrange a b) = Z.to_nat (b - a).
Proof. unfold zrange. rewrite map_length, seq_length. reflexivity. Qed.
Lemma zrange_nth a b i d : (i < Z.to_nat (b - a))%nat -> nth i (zrange a b) d = a + Z.of_nat i.
Proof.
  intros H. unfold zrange. rewrite (nth_indep _ d (a + Z.of_nat 0)) by (rewrite map_length, seq_length; exact H).
  rewrite (map_nth (fun i => a + Z.of_nat i)). rewrite seq_nth by exact H. reflexivity.
Qed.
Lemma zrange_nodup a b : NoDup (zrange a b).
Proof. unfold zrange. apply FinFun.Injective_map_NoDup; [intros i j; lia|apply seq_NoDup]. Qed.

Lemma zmax_spec l : l <> [] -> In (zmax l) l /\ forall c, In c l -> c <= zmax l.
Proof.
  destruct l as [|a l]; [congruence|]. intros _. unfold zmax. revert a. induction l as [|b l IH]; intros a.
  - cbn [fold_left]. split; [left; reflexivity|]. intros c [<-|[]]. lia.
  - cbn [fold_left]. destruct (IH (Z.max a b)) as [H1 H2]. split.
    + destruct H1 as [H1|H1]; [|right; right; exact H1]. rewrite <- H1. destruct (Z.max_spec a b) as [[_ ->]|[_ ->]]; [right; left|left]; reflexivity.
    + intros c [<-|[<-|Hc]].
      * specialize (H2 (Z.max a b) (or_introl eq_refl)). lia.
      * specialize (H2 (Z.max a b) (or_introl eq_refl)). lia.
      * apply H2. right. exact Hc.
Qed.
Lemma sw_init_ok n conns : sw_init n conns = SOk conns <-> conns <> [] /\ forall c, In c conns -> c < n.
Proof.
  unfold sw_init, sguard. destruct conns as [|a l]; [split; [discriminate|tauto]|]. cbn [length Nat.eqb].
  destruct (zmax_spec (a :: l)) as [M1 M2]; [discriminate|]. destruct (Z.leb_spec n (zmax (a :: l))).
  - split; [discriminate|]. intros [_ Hc]. specialize (Hc _ M1). lia.
  - split; [|reflexivity]. intros _. split; [discriminate|]. intros c Hc. specialize (M2 c Hc). lia.
Qed.

(** ** Fancy indexing *)
Lemma np_index_pos n i : 0 <= i < Z.of_nat n -> np_index n i = Some (Z.to_nat i).
Proof. intros H. unfold np_index. rewrite (proj2 (Z.leb_le 0 i)), (proj2 (Z.ltb_lt i _)) by lia. reflexivity. Qed.
Lemma take_ok {A} (row : list A) idx d : in_range (Z.of_nat (length row)) idx -> take_ row idx = SOk (map (fun i => nth (Z.to_nat i) row d) idx).
Proof.
  induction idx as [|i idx IH]; intros H; cbn [take_ map]; [reflexivity|].
  rewrite np_index_pos by (apply H; left; reflexivity).
  assert (Z.to_nat i < length row)%nat as Hi by (specialize (H i (or_introl eq_refl)); lia).
  rewrite (nth_error_nth' row d Hi). rewrite IH by (intros c Hc; apply H; right; exact Hc). reflexivity.
Qed.

(** ** argsort *)
Lemma sorted_split (key : list Z) (i : Z) p : StronglySorted (fun a b => nth a key 0 <= nth b key 0) p ->
  p = filter (fun a => nth a key 0 <? i) p ++ filter (fun a => nth a key 0 =? i) p ++ filter (fun a => i <? nth a key 0) p.
Proof.
  assert (forall q, (forall b, In b q -> i <= nth b key 0) -> filter (fun a => nth a key 0 <? i) q = []) as F1.
  { induction q as [|b q IHq]; intros H; [reflexivity|]. cbn. destruct (Z.ltb_spec (nth b key 0) i); [specialize (H b (or_introl eq_refl)); lia|].
    apply IHq. intros c Hc. apply H. right. exact Hc. }
  assert (forall q, (forall b, In b q -> i < nth b key 0) -> filter (fun a => nth a key 0 =? i) q = []) as F2.
  { induction q as [|b q IHq]; intros H; [reflexivity|]. cbn. destruct (Z.eqb_spec (nth b key 0) i); [specialize (H b (or_introl eq_refl)); lia|].
    apply IHq. intros c Hc. apply H. right. exact Hc. }
  assert (forall q, (forall b, In b q -> i < nth b key 0) -> filter (fun a => i <? nth a key 0) q = q) as F3.
  { induction q as [|b q IHq]; intros H; [reflexivity|]. cbn. destruct (Z.ltb_spec i (nth b key 0)); [|specialize (H b (or_introl eq_refl)); lia].
    f_equal. apply IHq. intros c Hc. apply H. right. exact Hc. }
  induction p as [|a p IH]; [reflexivity|]. intros S. inversion S as [|? ? S' Hall]; subst. specialize (IH S'). rewrite Forall_forall in Hall. cbn [filter].
  destruct (Z.ltb_spec (nth a key 0) i).
  - destruct (Z.eqb_spec (nth a key 0) i); [lia|]. destruct (Z.ltb_spec i (nth a key 0)); [lia|]. cbn. f_equal. exact IH.
  - destruct (Z.eqb_spec (nth a key 0) i).
    + destruct (Z.ltb_spec i (nth a key 0)); [lia|]. rewrite (F1 p) in * by (intros b Hb; specialize (Hall b Hb); cbn in Hall; lia). cbn in *. f_equal. exact IH.
    + destruct (Z.ltb_spec i (nth a key 0)); [|lia].
      assert (forall b, In b p -> i < nth b key 0) as Hp by (intros b Hb; specialize (Hall b Hb); cbn in Hall; lia).
      rewrite (F1 p), (F2 p), (F3 p); auto. intros b Hb. specialize (Hp b Hb). lia.
Qed.

Lemma filter_perm {A} (f : A -> bool) l l' : Permutation l l' -> Permutation (filter f l) (filter f l').
Proof.
  induction 1 as [|x l l' H IH|x y l|l1 l2 l3 H1 IH1 H2 IH2]; cbn; auto.
  - destruct (f x); auto.
  - destruct (f x), (f y); auto. constructor.
  - eapply Permutation_trans; eassumption.
Qed.
Lemma map_nth_seq {A} (l : list A) d : map (fun i => nth i l d) (seq 0 (length l)) = l.
Proof.
  apply nth_ext with (d := d) (d' := d); [rewrite map_length, seq_length; reflexivity|]. intros i Hi. rewrite map_length, seq_length in Hi.
  rewrite (nth_indep _ d (nth 0 l d)) by (rewrite map_length, seq_length; exact Hi). rewrite (map_nth (fun i => nth i l d)). rewrite seq_nth by exact Hi. reflexivity.
Qed.
Lemma filter_map_length {A B} (g : A -> B) f l : length (filter (fun a => f (g a)) l) = length (filter f (map g l)).
Proof. induction l as [|a l IH]; cbn; [reflexivity|]. destruct (f (g a)); cbn; congruence. Qed.
Lemma filter_seq_length (key : list Z) f : length (filter (fun a => f (nth a key 0)) (seq 0 (length key))) = length (filter f key).
Proof. rewrite (filter_map_length (fun a => nth a key 0) f). rewrite map_nth_seq. reflexivity. Qed.
Lemma filter_eq_count l i : length (filter (fun c => c =? i) l) = count_occ Z.eq_dec l i.
Proof. induction l as [|c l IH]; cbn; [reflexivity|]. destruct (Z.eqb_spec c i), (Z.eq_dec c i); cbn; congruence. Qed.

(** Number of keys below [i]: where the group of [i] starts in the sorted order. *)
Definition below (key : list Z) (i : Z) : nat := length (filter (fun c => c <? i) key).
Lemma argsort_group p key i : is_argsort p key ->
  let g := firstn (count_occ Z.eq_dec key i) (skipn (below key i) p) in
  Permutation g (filter (fun a => nth a key 0 =? i) (seq 0 (length key))) /\ (below key i + count_occ Z.eq_dec key i <= length p)%nat.
Proof.
  intros [Hp Hs] g. pose proof (sorted_split key i p Hs) as E.
  assert (length (filter (fun a => nth a key 0 <? i) p) = below key i) as L1.
  { unfold below. rewrite <- (filter_seq_length key (fun c => c <? i)). apply Permutation_length. apply filter_perm. exact Hp. }
  assert (length (filter (fun a => nth a key 0 =? i) p) = count_occ Z.eq_dec key i) as L2.
  { rewrite <- filter_eq_count. rewrite <- (filter_seq_length key (fun c => c =? i)). apply Permutation_length. apply filter_perm. exact Hp. }
  assert (g = filter (fun a => nth a key 0 =? i) p) as ->.
  { unfold g. rewrite E at 1. rewrite <- L1, skipn_app, skipn_all, Nat.sub_diag. cbn [app skipn]. rewrite <- L2, firstn_app, firstn_all, Nat.sub_diag.
    cbn. rewrite app_nil_r. reflexivity. }
  split; [apply filter_perm; exact Hp|]. rewrite E, !app_length, L1, L2. lia.
Qed.

(** ** Permutations *)
Lemma perm_iff n conns : in_range n conns -> 0 <= n ->
  (invertible n conns = true <-> Permutation conns (zrange 0 n)).
Proof.
  intros Hr Hn. unfold invertible. rewrite andb_true_iff, !Z.eqb_eq. split.
  - intros [E1 E2]. apply Permutation_sym, NoDup_Permutation_bis; [apply zrange_nodup| |].
    + rewrite zrange_length. lia.
    + (* incl (zrange 0 n) conns: NoDup conns and same length *)
      assert (NoDup conns) as Hd.
      { assert (length (nodup Z.eq_dec conns) = length conns) as E by lia. clear Hr E1 E2. revert E. induction conns as [|c l IH]; intros E; [constructor|].
        cbn in E. destruct (in_dec Z.eq_dec c l).
        - exfalso. pose proof (NoDup_incl_length (NoDup_nodup Z.eq_dec l) (l' := l) (fun x => proj1 (nodup_In Z.eq_dec l x))). lia.
        - cbn in E. constructor; [exact n0|]. apply IH. lia. }
      apply NoDup_length_incl; [exact Hd|rewrite zrange_length; lia|]. intros c Hc. apply in_zrange. apply Hr. exact Hc.
  - intros P. pose proof (Permutation_length P) as L. rewrite zrange_length in L. split; [lia|].
    assert (NoDup conns) as Hd by (apply (Permutation_NoDup (Permutation_sym P)); apply zrange_nodup). rewrite nodup_fixed_point by exact Hd. lia.
Qed.

Lemma perm_facts n conns : Permutation conns (zrange 0 n) -> 0 <= n ->
  length conns = Z.to_nat n /\ NoDup conns /\ in_range n conns /\ forall i, 0 <= i < n -> count_occ Z.eq_dec conns i = 1%nat /\ below conns i = Z.to_nat i.
Proof.
  intros P Hn. split; [rewrite (Permutation_length P), zrange_length; f_equal; lia|].
  assert (NoDup conns) as Hd by (apply (Permutation_NoDup (Permutation_sym P)); apply zrange_nodup). split; [exact Hd|]. split.
  - intros c Hc. apply in_zrange. eapply Permutation_in; [exact P|exact Hc].
  - intros i Hi. split.
    + apply NoDup_count_occ'; [exact Hd|]. eapply Permutation_in; [apply Permutation_sym; exact P|]. apply in_zrange. exact Hi.
    + unfold below. rewrite (Permutation_length (filter_perm (fun c => c <? i) _ _ P)).
      assert (Permutation (filter (fun c => c <? i) (zrange 0 n)) (zrange 0 i)) as Q.
      { apply NoDup_Permutation; [apply NoDup_filter, zrange_nodup|apply zrange_nodup|]. intros x. rewrite filter_In, !in_zrange, Z.ltb_lt. lia. }
      rewrite (Permutation_length Q), zrange_length. f_equal. lia.
Qed.
(** The argsort of a permutation is its inverse. *)
Lemma argsort_inverse n conns p : Permutation conns (zrange 0 n) -> 0 <= n -> is_argsort p conns ->
  length p = length conns /\
  (forall i, (i < length conns)%nat -> (nth i p 0 < length conns)%nat /\ nth (nth i p 0%nat) conns 0 = Z.of_nat i) /\
  (forall j, (j < length conns)%nat -> nth (Z.to_nat (nth j conns 0)) p 0%nat = j).
Proof.
  intros P Hn A. destruct (perm_facts n conns P Hn) as (L & D & R & C). assert (length p = length conns) as Lp.
  { destruct A as [A _]. rewrite (Permutation_length A), seq_length. reflexivity. }
  assert (forall i, (i < length conns)%nat -> (nth i p 0 < length conns)%nat /\ nth (nth i p 0%nat) conns 0 = Z.of_nat i) as K.
  { intros i Hi. destruct (C (Z.of_nat i)) as [C1 C2]; [lia|]. destruct (argsort_group p conns (Z.of_nat i) A) as [G1 G2]. rewrite C1, C2 in *. rewrite Nat2Z.id in *.
    assert (In (nth i p 0%nat) (filter (fun a => nth a conns 0 =? Z.of_nat i) (seq 0 (length conns)))) as Hin.
    { eapply Permutation_in; [exact G1|]. rewrite <- (firstn_skipn i p) at 1. rewrite app_nth2; rewrite firstn_length_le by lia; [|lia].
      rewrite Nat.sub_diag. destruct (skipn i p) as [|x q] eqn:E; [|left; reflexivity].
      exfalso. pose proof (f_equal (@length _) E) as El. rewrite skipn_length in El. cbn in El. lia. }
    apply filter_In in Hin as [H1 H2]. apply in_seq in H1. apply Z.eqb_eq in H2. split; [lia|exact H2]. }
  split; [exact Lp|]. split; [exact K|]. intros j Hj.
  assert (0 <= nth j conns 0 < n) as Hc by (apply R, nth_In; exact Hj).
  destruct (K (Z.to_nat (nth j conns 0))) as [K1 K2]; [lia|]. rewrite Z2Nat.id in K2 by lia.
  apply (NoDup_nth conns 0); auto.
Qed.

Lemma map_nth_in {A B} (f : A -> B) l i d d' : (i < length l)%nat -> nth i (map f l) d = f (nth i l d').
Proof. intros H. rewrite (nth_indep _ d (f d')) by (rewrite map_length; exact H). apply map_nth. Qed.

Lemma sw_inverse_ok {A} n conns p (row : list A) : Permutation conns (zrange 0 n) -> 0 <= n -> is_argsort p conns -> Z.of_nat (length row) = n ->
  exists out back, sw_execute conns row = SOk out /\ sw_inverse n conns p out = SOk row /\ sw_inverse n conns p row = SOk back /\ sw_execute conns back = SOk row.
Proof.
  intros P Hn Ar Hl. destruct (perm_facts n conns P Hn) as (L & D & R & C). destruct (argsort_inverse n conns p P Hn Ar) as (Lp & K1 & K2).
  assert (invertible n conns = true) as Hi by (apply perm_iff; assumption).
  destruct row as [|r0 row'].
  { cbn in Hl. subst n. destruct conns; [|discriminate]. destruct p; [|discriminate]. exists [], []. unfold sw_inverse. rewrite Hi. auto. }
  set (row := r0 :: row') in *. set (d := r0).
  assert (in_range (Z.of_nat (length row)) (map Z.of_nat p)) as Rp.
  { intros c Hc. apply in_map_iff in Hc as (i & <- & Hc). destruct Ar as [Ar _]. apply (Permutation_in _ Ar) in Hc. apply in_seq in Hc. lia. }
  assert (forall row2 : list A, length row2 = length conns -> sw_inverse n conns p row2 = SOk (map (fun i => nth i row2 d) p)) as Hinv.
  { intros row2 H2. unfold sw_inverse. rewrite Hi. cbn [negb sguard]. rewrite (take_ok row2 _ d); [|rewrite H2; intros c Hc; specialize (Rp c Hc); lia].
    rewrite map_map. f_equal. apply map_ext. intros i. rewrite Nat2Z.id. reflexivity. }
  assert (forall row2 : list A, length row2 = length conns -> sw_execute conns row2 = SOk (map (fun i => nth (Z.to_nat i) row2 d) conns)) as Hex.
  { intros row2 H2. apply take_ok. rewrite H2. intros c Hc. specialize (R c Hc). lia. }
  exists (map (fun i => nth (Z.to_nat i) row d) conns), (map (fun i => nth i row d) p).
  split; [apply Hex; lia|]. split; [|split; [apply Hinv; lia|]].
  - rewrite Hinv by (rewrite map_length; reflexivity). f_equal. apply nth_ext with (d := d) (d' := d); [rewrite map_length; lia|]. intros i Hi'. rewrite map_length in Hi'.
    rewrite (map_nth_in _ _ _ _ 0%nat) by exact Hi'. destruct (K1 i) as [H1 H2]; [lia|]. rewrite (map_nth_in _ _ _ _ 0) by exact H1. rewrite H2, Nat2Z.id. reflexivity.
  - rewrite Hex by (rewrite map_length; exact Lp). f_equal. apply nth_ext with (d := d) (d' := d); [rewrite map_length; lia|]. intros j Hj. rewrite map_length in Hj.
    rewrite (map_nth_in _ _ _ _ 0) by exact Hj. assert (0 <= nth j conns 0 < n) as Hc by (apply R, nth_In; exact Hj).
    rewrite (map_nth_in _ _ _ _ 0%nat) by lia. rewrite K2 by exact Hj. reflexivity.
Qed.

(** ** The mean inverse *)
Section MeanProofs.
  Context {A : Type}.
  Variables (zero : A) (add : A -> A -> A) (div : A -> Z -> A).
  Hypothesis add_comm : forall a b, add a b = add b a.
  Hypothesis add_assoc : forall a b c, add a (add b c) = add (add a b) c.

  Lemma np_sum_perm l l' : Permutation l l' -> np_sum zero add l = np_sum zero add l'.
  Proof.
    unfold np_sum. induction 1 as [|x l l' H IH|x y l|l1 l2 l3 H1 IH1 H2 IH2]; cbn; try congruence.
  Qed.

  (** Mean of the values of the output columns connected to input [i]. *)
  Definition mean_at (conns : list Z) (x : list A) (i : Z) : A :=
    if (count_occ Z.eq_dec conns i =? 0)%nat then zero
    else div (np_sum zero add (map (fun j => nth j x zero) (filter (fun j => nth j conns 0 =? i) (seq 0 (length conns))))) (Z.of_nat (count_occ Z.eq_dec conns i)).

  Lemma set_at_length (y : list A) i a : length (set_at y i a) = length y.
  Proof.
    unfold set_at. rewrite <- (firstn_skipn i y) at 3. rewrite !app_length. f_equal. destruct (skipn i y); reflexivity.
  Qed.
  Lemma set_at_nth (y : list A) i a j d : (i < length y)%nat -> nth j (set_at y i a) d = if (j =? i)%nat then a else nth j y d.
  Proof.
    intros Hi. unfold set_at. destruct (skipn i y) as [|b r] eqn:E; [apply (f_equal (@length _)) in E; rewrite skipn_length in E; cbn in E; lia|].
    assert (y = firstn i y ++ b :: r) as Ey by (rewrite <- E; symmetry; apply firstn_skipn).
    assert (length (firstn i y) = i) as Lf by (apply firstn_length_le; lia).
    destruct (Nat.eqb_spec j i) as [->|Hn].
    - rewrite app_nth2 by lia. rewrite Lf, Nat.sub_diag. reflexivity.
    - rewrite Ey at 2. destruct (Nat.lt_ge_cases j i).
      + rewrite !app_nth1 by lia. reflexivity.
      + rewrite !app_nth2 by lia. rewrite Lf. destruct (j - i)%nat as [|m] eqn:Em; [lia|]. reflexivity.
  Qed.

  Lemma below_le key i : (below key i <= length key)%nat.
  Proof. unfold below. induction key as [|c l IH]; cbn; [lia|]. destruct (c <? i); cbn; lia. Qed.
  Lemma below_succ key i : below key (i + 1) = (below key i + count_occ Z.eq_dec key i)%nat.
  Proof.
    unfold below. induction key as [|c l IH]; [reflexivity|]. cbn. destruct (Z.ltb_spec c (i + 1)), (Z.ltb_spec c i), (Z.eq_dec c i); cbn; lia.
  Qed.
  Lemma below_all key i : (forall c, In c key -> c < i) -> below key i = length key.
  Proof.
    unfold below. induction key as [|c l IH]; intros H; [reflexivity|]. cbn. destruct (Z.ltb_spec c i); [|specialize (H c (or_introl eq_refl)); lia].
    cbn. f_equal. apply IH. intros c' Hc. apply H. right. exact Hc.
  Qed.
  Lemma below_full key i c : below key i = length key -> In c key -> c < i.
  Proof.
    unfold below. induction key as [|b l IH]; intros E H; [destruct H|]. cbn in E. destruct (Z.ltb_spec b i).
    - cbn in E. destruct H as [<-|H]; [lia|]. apply IH; [lia|exact H].
    - exfalso. assert (forall l : list Z, length (filter (fun c => (c <? i)%Z) l) <= length l)%nat as Hl.
      { clear. induction l as [|c l IH]; cbn; [lia|]. destruct (c <? i); cbn; lia. }
      specialize (Hl l). lia.
  Qed.

  Lemma mean_loop_ok n conns p x : in_range n conns -> conns <> [] -> is_argsort p conns -> length x = length conns ->
    forall m k y, (k + m = Z.to_nat (zmax conns + 1))%nat -> length y = Z.to_nat n -> (below conns (Z.of_nat k) < length conns)%nat ->
      (forall i, (i < k)%nat -> (i < length y)%nat -> nth i y zero = mean_at conns x (Z.of_nat i)) ->
      (forall i, (k <= i)%nat -> nth i y zero = zero) ->
      exists y', mean_loop zero add div x (Z.of_nat (length conns)) (map Z.of_nat p)
                   (map (fun i => Z.of_nat (count_occ Z.eq_dec conns (Z.of_nat i))) (seq k m)) k (Z.of_nat (below conns (Z.of_nat k))) y = SOk y' /\
        length y' = Z.to_nat n /\ forall i, (i < length y')%nat -> nth i y' zero = mean_at conns x (Z.of_nat i).
  Proof.
    intros Hr Hne Ha Hx. destruct (zmax_spec conns Hne) as [M1 M2].
    assert (length p = length conns) as Lp by (destruct Ha as [Ha _]; rewrite (Permutation_length Ha), seq_length; reflexivity).
    induction m as [|m IH]; intros k y Hk Hy Hb Hlo Hhi; cbn [seq map mean_loop].
    - exfalso. rewrite below_all in Hb; [lia|]. intros c Hc. specialize (M2 c Hc). specialize (Hr c Hc). lia.
    - assert (Z.of_nat (S k) = Z.of_nat k + 1) as Es by lia.
      assert (0 <= zmax conns < n) as Hz by (apply Hr; exact M1).
      destruct (Z.ltb_spec 0 (Z.of_nat (count_occ Z.eq_dec conns (Z.of_nat k)))) as [Hc|Hc].
      + destruct (argsort_group p conns (Z.of_nat k) Ha) as [G1 G2]. rewrite !Nat2Z.id.
        set (g := firstn (count_occ Z.eq_dec conns (Z.of_nat k)) (skipn (below conns (Z.of_nat k)) p)) in *.
        assert (firstn (count_occ Z.eq_dec conns (Z.of_nat k)) (skipn (below conns (Z.of_nat k)) (map Z.of_nat p)) = map Z.of_nat g) as ->.
        { unfold g. rewrite skipn_map, firstn_map. reflexivity. }
        assert (in_range (Z.of_nat (length x)) (map Z.of_nat g)) as Hg.
        { intros c Hcg. apply in_map_iff in Hcg as (i & <- & Hi). apply (Permutation_in _ G1) in Hi. apply filter_In in Hi as [Hi _]. apply in_seq in Hi. lia. }
        rewrite (take_ok x _ zero) by exact Hg. cbn [sbind].
        assert (set_at y k (div (np_sum zero add (map (fun i => nth (Z.to_nat i) x zero) (map Z.of_nat g))) (Z.of_nat (count_occ Z.eq_dec conns (Z.of_nat k)))) =
                set_at y k (mean_at conns x (Z.of_nat k))) as ->.
        { f_equal. unfold mean_at. destruct (Nat.eqb_spec (count_occ Z.eq_dec conns (Z.of_nat k)) 0); [lia|]. f_equal. apply np_sum_perm.
          rewrite map_map. rewrite (map_ext _ (fun i => nth i x zero)) by (intros i; rewrite Nat2Z.id; reflexivity). apply Permutation_map. exact G1. }
        set (y1 := set_at y k (mean_at conns x (Z.of_nat k))).
        assert (k < length y)%nat as Hky by lia.
        assert (length y1 = Z.to_nat n) as Hy1 by (unfold y1; rewrite set_at_length; exact Hy).
        assert (forall i, (i < S k)%nat -> (i < length y1)%nat -> nth i y1 zero = mean_at conns x (Z.of_nat i)) as Hlo1.
        { intros i Hi Hiy. unfold y1. rewrite set_at_nth by exact Hky. destruct (Nat.eqb_spec i k) as [->|]; [reflexivity|]. apply Hlo; lia. }
        assert (forall i, (S k <= i)%nat -> nth i y1 zero = zero) as Hhi1.
        { intros i Hi. unfold y1. rewrite set_at_nth by exact Hky. destruct (Nat.eqb_spec i k) as [->|]; [lia|]. apply Hhi; lia. }
        assert (Z.of_nat (below conns (Z.of_nat k)) + Z.of_nat (count_occ Z.eq_dec conns (Z.of_nat k)) = Z.of_nat (below conns (Z.of_nat (S k)))) as Eb by (rewrite Es, below_succ; lia).
        rewrite Eb. destruct (Z.leb_spec (Z.of_nat (length conns)) (Z.of_nat (below conns (Z.of_nat (S k))))) as [Hdone|Hgo].
        * exists y1. split; [reflexivity|]. split; [exact Hy1|]. intros i Hi. destruct (Nat.lt_ge_cases i (S k)) as [Hlt|Hge]; [apply Hlo1; assumption|].
          rewrite Hhi1 by exact Hge. unfold mean_at. destruct (Nat.eqb_spec (count_occ Z.eq_dec conns (Z.of_nat i)) 0) as [_|Hn]; [reflexivity|].
          exfalso. assert (In (Z.of_nat i) conns) as Hin by (apply (count_occ_In Z.eq_dec); lia).
          pose proof (below_le conns (Z.of_nat (S k))). apply (below_full conns (Z.of_nat (S k))) in Hin; lia.
        * apply IH; auto; lia.
      + assert (count_occ Z.eq_dec conns (Z.of_nat k) = 0)%nat as Hc0 by lia.
        assert (below conns (Z.of_nat k) = below conns (Z.of_nat (S k))) as Eb by (rewrite Es, below_succ; lia). rewrite Eb.
        apply IH; auto; try lia.
        * intros i Hi Hiy. destruct (Nat.eq_dec i k) as [->|]; [|apply Hlo; lia]. rewrite Hhi by lia. unfold mean_at. rewrite Hc0. reflexivity.
        * intros i Hi. apply Hhi. lia.
  Qed.

  Lemma mean_inverse_ok n conns p x : in_range n conns -> conns <> [] -> is_argsort p conns -> length x = length conns ->
    exists y, mean_inverse zero add div n conns p x = SOk y /\ length y = Z.to_nat n /\ forall i, (i < length y)%nat -> nth i y zero = mean_at conns x (Z.of_nat i).
  Proof.
    intros Hr Hne Ha Hx. unfold mean_inverse, bincount.
    assert (existsb (fun c => c <? 0) conns = false) as ->.
    { apply not_true_iff_false. intros H. apply existsb_exists in H as (c & Hc & H). apply Z.ltb_lt in H. specialize (Hr c Hc). lia. }
    cbn [sguard sbind].
    assert (below conns (Z.of_nat 0) = 0%nat) as E0.
    { unfold below. clear - Hr. induction conns as [|c l IH]; [reflexivity|]. cbn. destruct (Z.ltb_spec c 0); [specialize (Hr c (or_introl eq_refl)); lia|].
      apply IH. intros c' Hc. apply Hr. right. exact Hc. }
    destruct (mean_loop_ok n conns p x Hr Hne Ha Hx (Z.to_nat (zmax conns + 1)) 0 (repeat zero (Z.to_nat n))) as (y & E & H).
    - reflexivity.
    - apply repeat_length.
    - rewrite E0. destruct conns; [congruence|]. cbn. lia.
    - intros i Hi. lia.
    - intros i _. apply nth_repeat.
    - rewrite E0 in E. exists y. split; [exact E|exact H].
  Qed.
End MeanProofs.
