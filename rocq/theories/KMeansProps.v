(** C145, C146, C147: k-means. *)
From Coq Require Import List Arith QArith Qcanon Bool Lia Permutation.
From Verif Require Import CovModel CovProofs MiscModel ClassModel ClassProofs ClassProps HopProps KMeansModel RecProps.
Import ListNotations.
Local Open Scope nat_scope.

Definition dimd (d : nat) (x : vec) : Prop := length x = d.
(** the points nearest to centroid i and their mean *)
Definition cluster (cs data : list vec) (i : nat) : list vec := filter (fun x => nearest cs x =? i) data.
Definition mean_vec (d : nat) (xs : list vec) : vec := map (fun j => (qsum (map (fun v : vec => nth j v 0) xs) / qn (length xs))%Qc) (seq 0 d).

Lemma nearest_lt cs x : cs <> [] -> nearest cs x < length cs.
Proof.
  intro H. unfold nearest. destruct (argmin _) eqn:E; [apply argmin_spec in E as [E _]; now rewrite map_length in E|]. destruct cs; [congruence|cbn; lia].
Qed.
Lemma nth_map_sq cs x i : i < length cs -> nth i (map (fun c => sqdist x c) cs) 0%Qc = sqdist x (nth i cs []).
Proof. revert i. induction cs as [|c cs IH]; intros [|i] H; cbn in *; try lia; [reflexivity|]. apply IH. lia. Qed.
Lemma nearest_min cs x i : i < length cs -> (sqdist x (nth (nearest cs x) cs []) <= sqdist x (nth i cs []))%Qc.
Proof.
  intro Hi. unfold nearest. destruct (argmin _) as [j|] eqn:E; [|destruct cs; [cbn in Hi; lia|discriminate]].
  apply argmin_spec in E as (Hj & Hm & _). rewrite map_length in *. specialize (Hm i Hi). now rewrite !nth_map_sq in Hm.
Qed.

Section KM.
  Context (d : nat) (data : list vec).
  Hypothesis data_dim : Forall (dimd d) data.

  Lemma sum_one x : dimd d x -> sum_vec d [x] = x.
  Proof.
    intro H. unfold sum_vec. transitivity (map (fun i => nth i x 0%Qc) (seq 0 (length x))); [|apply map_nth_seq]. rewrite H. apply map_ext. intro j. cbn. ring.
  Qed.
  Lemma accumulate_spec cs : cs <> [] -> forall i, i < length cs ->
    nth i (km_accumulate d cs data) (repeat 0%Qc d, 0) = (sum_vec d (cluster cs data i), length (cluster cs data i)) /\ length (km_accumulate d cs data) = length cs.
  Proof.
    intro Hne.
    assert (G : forall l pre acc, Forall (dimd d) l -> length acc = length cs ->
      (forall i, i < length cs -> nth i acc (repeat 0%Qc d, 0) = (sum_vec d (cluster cs pre i), length (cluster cs pre i))) ->
      let r := fold_left (fun acc x => let i := nearest cs x in let (s, n) := nth i acc (repeat 0%Qc d, 0) in set i (vadd s x, S n) acc) l acc in
      length r = length cs /\ forall i, i < length cs -> nth i r (repeat 0%Qc d, 0) = (sum_vec d (cluster cs (pre ++ l) i), length (cluster cs (pre ++ l) i))).
    { induction l as [|x l IH]; intros pre acc Hl Ha Hi; cbn [fold_left]; [split; [assumption|now rewrite app_nil_r]|]. inversion Hl as [|? ? Hx Hl']; subst.
      replace (pre ++ x :: l) with ((pre ++ [x]) ++ l) by now rewrite <- app_assoc. apply IH; [assumption| |].
      - destruct (nth _ acc _). now rewrite set_len.
      - intros i Hil. pose proof (nearest_lt cs x Hne) as Hn. rewrite (Hi _ Hn). rewrite nth_set by lia. unfold cluster. rewrite !filter_app. cbn [filter].
        destruct (Nat.eqb_spec i (nearest cs x)) as [->|E].
        + rewrite Nat.eqb_refl. rewrite <- vadd_sum, sum_one, app_length by assumption. cbn [length]. f_equal. lia.
        + destruct (Nat.eqb_spec (nearest cs x) i); [congruence|]. rewrite app_nil_r. now apply Hi. }
    intros i Hi. destruct (G data [] (repeat (repeat 0%Qc d, 0) (length cs)) data_dim) as [G1 G2]; [apply repeat_length| |].
    - intros j Hj. rewrite nth_repeat. cbn. f_equal. apply (vsum_sum d []). constructor.
    - split; [apply G2; assumption|exact G1].
  Qed.
  (** every new centroid is the mean of its cluster, or the old one if the cluster is empty *)
  Theorem step_spec cs : cs <> [] -> length (km_step d data cs) = length cs /\ forall i, i < length cs ->
    nth i (km_step d data cs) [] = match cluster cs data i with [] => nth i cs [] | xs => mean_vec d xs end.
  Proof.
    intro Hne. unfold km_step. split; [now rewrite map_length, seq_length|]. intros i Hi.
    match goal with |- nth i (map ?f _) [] = _ => rewrite (nth_indep _ [] (f 0)) by (now rewrite map_length, seq_length); rewrite (map_nth f (seq 0 (length cs)) 0) end.
    rewrite seq_nth by assumption. cbn [plus]. rewrite (proj1 (accumulate_spec cs Hne i Hi)). destruct (cluster cs data i) as [|x xs]; [reflexivity|].
    cbn [length Nat.ltb Nat.leb]. unfold mean_vec, sum_vec. rewrite map_map. reflexivity.
  Qed.

  (** ** distances *)
  Lemma sqdist_sum a b : dimd d a -> dimd d b -> sqdist a b = qsum (map (fun j => ((nth j a 0 - nth j b 0) * (nth j a 0 - nth j b 0))%Qc) (seq 0 d)).
  Proof.
    unfold dimd, sqdist. revert d b data_dim. clear. intros d b _. revert d b. induction a as [|x a IH]; intros [|d] [|y b] Ha Hb; try discriminate; [reflexivity|]. cbn [combine map qsum seq fst snd nth]. injection Ha as Ha. injection Hb as Hb.
    f_equal. rewrite (IH d b Ha Hb), <- seq_shift, map_map. reflexivity.
  Qed.
  Lemma sq_nonneg a : (0 <= a * a)%Qc.
  Proof.
    destruct (Qclt_le_dec a 0) as [H|H].
    - replace (a * a)%Qc with ((- a) * (- a))%Qc by ring. replace 0%Qc with (0 * - a)%Qc by ring. assert (0 <= - a)%Qc by qlra. now apply Qcmult_le_compat_r.
    - replace 0%Qc with (0 * a)%Qc by ring. now apply Qcmult_le_compat_r.
  Qed.
  Lemma sq_pos a : a <> 0%Qc -> (0 < a * a)%Qc.
  Proof. intro H. destruct (Qcle_lt_or_eq _ _ (sq_nonneg a)) as [|E]; [assumption|]. exfalso. symmetry in E. apply Qcmult_integral in E. tauto. Qed.
  Lemma qsum_nonneg {A} (f : A -> Qc) l : (forall a, In a l -> 0 <= f a)%Qc -> (0 <= qsum (map f l))%Qc.
  Proof. induction l as [|a l IH]; intro H; cbn; [apply Qcle_refl|]. pose proof (H a (or_introl eq_refl)). specialize (IH (fun x Hx => H x (or_intror Hx))). set (u := f a) in *. set (v := qsum _) in *. clearbody u v. qlra. Qed.
  Lemma sqdist_nonneg a b : (0 <= sqdist a b)%Qc.
  Proof. unfold sqdist. apply qsum_nonneg. intros. apply sq_nonneg. Qed.
  Lemma sqdist_pos : forall a b, length a = length b -> a <> b -> (0 < sqdist a b)%Qc.
  Proof.
    induction a as [|x a IH]; intros [|y b] Hl Hne; try discriminate; [congruence|]. unfold sqdist in *. cbn [combine map qsum fst snd]. injection Hl as Hl.
    destruct (Qc_eq_dec x y) as [->|Hxy].
    - assert (a <> b) by congruence. specialize (IH b Hl H). replace ((y - y) * (y - y))%Qc with 0%Qc by ring. set (u := qsum _) in *. clearbody u. qlra.
    - assert (0 < (x - y) * (x - y))%Qc by (apply sq_pos; intro E; apply Hxy; replace x with ((x - y) + y)%Qc by ring; rewrite E; ring).
      pose proof (sqdist_nonneg a b) as Hn. unfold sqdist in Hn. set (u := qsum _) in *. set (v := ((x - y) * (x - y))%Qc) in *. clearbody u v. qlra.
  Qed.
  Lemma mean_dim xs : dimd d (mean_vec d xs).
  Proof. unfold dimd, mean_vec. now rewrite map_length, seq_length. Qed.
  Lemma mean_nth xs j : j < d -> nth j (mean_vec d xs) 0%Qc = (qsum (map (fun v : vec => nth j v 0%Qc) xs) / qn (length xs))%Qc.
  Proof.
    intro H. unfold mean_vec. match goal with |- nth j (map ?f _) _ = _ => rewrite (nth_indep _ _ (f 0)) by (now rewrite map_length, seq_length); rewrite (map_nth f (seq 0 d) 0) end.
    now rewrite seq_nth.
  Qed.
  (** the mean minimises the sum of squared distances *)
  Lemma huygens xs c : Forall (dimd d) xs -> dimd d c -> xs <> [] ->
    qsum (map (fun x => sqdist x c) xs) = (qsum (map (fun x => sqdist x (mean_vec d xs)) xs) + qn (length xs) * sqdist (mean_vec d xs) c)%Qc.
  Proof.
    intros Hd Hc Hne. assert (Hn : qn (length xs) <> 0%Qc) by (apply qn_pos; destruct xs; [congruence|discriminate]).
    rewrite Forall_forall in Hd.
    transitivity (qsum (map (fun x => qsum (map (fun j => ((nth j x 0 - nth j c 0) * (nth j x 0 - nth j c 0))%Qc) (seq 0 d))) xs)).
    { f_equal. apply map_ext_in. intros x Hx. apply sqdist_sum; auto. }
    rewrite qsum_swap.
    transitivity (qsum (map (fun j => (qsum (map (fun x : vec => (nth j x 0 - nth j (mean_vec d xs) 0) * (nth j x 0 - nth j (mean_vec d xs) 0))%Qc xs)
       + qn (length xs) * ((nth j (mean_vec d xs) 0 - nth j c 0) * (nth j (mean_vec d xs) 0 - nth j c 0)))%Qc) (seq 0 d))).
    { f_equal. apply map_ext_in. intros j Hj. apply in_seq in Hj. rewrite mean_nth by lia. set (m := (qsum (map (fun v : vec => nth j v 0%Qc) xs) / qn (length xs))%Qc).
      assert (Hm : qsum (map (fun v : vec => nth j v 0%Qc) xs) = (qn (length xs) * m)%Qc) by (unfold m; field; exact Hn). clearbody m.
      set (g := nth j c 0%Qc). clearbody g.
      assert (E : forall t, qsum (map (fun x : vec => (nth j x 0 - t) * (nth j x 0 - t))%Qc xs)
         = (qsum (map (fun x : vec => nth j x 0 * nth j x 0)%Qc xs) - (1 + 1) * t * qsum (map (fun v : vec => nth j v 0%Qc) xs) + qn (length xs) * (t * t))%Qc).
      { intro t. clear. induction xs as [|x xs IH]; cbn [map qsum length qn]; [ring|]. rewrite IH. ring. }
      rewrite !E, Hm. ring. }
    rewrite qsum_map_add, <- qsum_swap, qsum_map_mul, <- (sqdist_sum (mean_vec d xs) c (mean_dim xs) Hc). f_equal. f_equal. apply map_ext_in. intros x Hx. symmetry. apply sqdist_sum; [auto|apply mean_dim].
  Qed.

  (** ** the objective *)
  Definition cost (c cs : list vec) : Qc := qsum (map (fun x => sqdist x (nth (nearest cs x) c [])) data).
  Lemma cost_clusters c cs : cs <> [] -> cost c cs = qsum (map (fun i => qsum (map (fun x => sqdist x (nth i c [])) (cluster cs data i))) (seq 0 (length cs))).
  Proof.
    intro Hne. unfold cost, cluster. clear data_dim. induction data as [|x l IH]; cbn [map qsum filter].
    - symmetry. apply (qsum_zero (seq 0 (length cs))).
    - rewrite IH. clear IH. rewrite <- (Qcmult_1_l (sqdist x (nth (nearest cs x) c []))) at 1.
      rewrite <- (qsum_delta (fun i => sqdist x (nth i c [])) 1%Qc (nearest cs x) (length cs) (nearest_lt cs x Hne)), <- qsum_map_add. f_equal. apply map_ext. intro i.
      rewrite (Nat.eqb_sym i). destruct (nearest cs x =? i); cbn [map qsum]; ring.
  Qed.
  Definition good (k : nat) (cs : list vec) : Prop := length cs = k /\ Forall (dimd d) cs.
  Lemma cluster_dim cs i : Forall (dimd d) (cluster cs data i).
  Proof. unfold cluster. apply Forall_forall. intros x Hx. apply filter_In in Hx as [Hx _]. rewrite Forall_forall in data_dim. auto. Qed.
  Lemma step_good k cs : 0 < k -> good k cs -> good k (km_step d data cs).
  Proof.
    intros Hk [Hl Hd]. assert (Hne : cs <> []) by (destruct cs; [cbn in Hl; lia|discriminate]). destruct (step_spec cs Hne) as [Sl Sn]. split; [congruence|].
    apply Forall_forall. intros c Hc. apply In_nth with (d := []) in Hc as (i & Hi & <-). rewrite Sl in Hi. rewrite (Sn i Hi).
    destruct (cluster cs data i) as [|y ys]; [|apply mean_dim]. rewrite Forall_forall in Hd. now apply Hd, nth_In.
  Qed.
  Lemma qsum_le {A} (f g : A -> Qc) l : (forall a, In a l -> f a <= g a)%Qc -> (qsum (map f l) <= qsum (map g l))%Qc.
  Proof. induction l as [|a l IH]; intro H; cbn; [apply Qcle_refl|]. apply Qcplus_le_compat; [apply H; now left|apply IH; intros; apply H; now right]. Qed.
  Lemma qsum_lt {A} (f g : A -> Qc) l a : In a l -> (f a < g a)%Qc -> (forall a, In a l -> f a <= g a)%Qc -> (qsum (map f l) < qsum (map g l))%Qc.
  Proof.
    induction l as [|b l IH]; intros Hi Hlt H; [destruct Hi|]. destruct Hi as [->|Hi]; cbn.
    - assert (qsum (map f l) <= qsum (map g l))%Qc by (apply qsum_le; intros; apply H; now right). set (u := qsum _) in *. set (v := qsum _) in *. set (x := f a) in *. set (y := g a) in *. clearbody u v x y. qlra.
    - assert (qsum (map f l) < qsum (map g l))%Qc by (apply IH; auto; intros; apply H; now right). pose proof (H b (or_introl eq_refl)) as Hb.
      set (u := qsum _) in *. set (v := qsum _) in *. set (x := f b) in *. set (y := g b) in *. clearbody u v x y. qlra.
  Qed.
  Lemma cluster_part k cs i : 0 < k -> good k cs -> i < k ->
    let f c := qsum (map (fun x => sqdist x (nth i c [])) (cluster cs data i)) in
    (f (km_step d data cs) <= f cs)%Qc /\ (nth i (km_step d data cs) [] <> nth i cs [] -> (f (km_step d data cs) < f cs)%Qc).
  Proof.
    intros Hk [Hl Hd] Hi. cbv zeta. assert (Hne : cs <> []) by (destruct cs; [cbn in Hl; lia|discriminate]).
    pose proof (proj2 (step_spec cs Hne) i ltac:(lia)) as Hst. pose proof (cluster_dim cs i) as Hcd. unfold vec in *. rewrite Hst. clear Hst. destruct (cluster cs data i) as [|y ys] eqn:E; [split; [apply Qcle_refl|congruence]|]. set (xs := y :: ys) in *.
    assert (Hcdim : dimd d (nth i cs [])) by (rewrite Forall_forall in Hd; apply Hd, nth_In; lia).
    pose proof (huygens xs (nth i cs []) Hcd Hcdim ltac:(discriminate)) as Hh. unfold vec in *. rewrite Hh. clear Hh. set (S0 := qsum (map _ xs)).
    assert (Hq : (0 < qn (length xs))%Qc) by (destruct (Qcle_lt_or_eq _ _ (qn_nonneg (length xs))) as [|E0]; [assumption|exfalso; symmetry in E0; revert E0; apply qn_pos; discriminate]).
    pose proof (sqdist_nonneg (mean_vec d xs) (nth i cs [])) as Hs. split.
    - assert (0 <= qn (length xs) * sqdist (mean_vec d xs) (nth i cs []))%Qc.
      { replace 0%Qc with (0 * sqdist (mean_vec d xs) (nth i cs []))%Qc by ring. apply Qcmult_le_compat_r; [now apply Qclt_le_weak|assumption]. }
      set (z := (qn _ * _)%Qc) in *. clearbody z S0. qlra.
    - intro Hx. assert (Hp : (0 < sqdist (mean_vec d xs) (nth i cs []))%Qc) by (apply sqdist_pos; [rewrite (mean_dim xs), Hcdim; reflexivity|assumption]).
      assert (0 < qn (length xs) * sqdist (mean_vec d xs) (nth i cs []))%Qc.
      { replace 0%Qc with (0 * sqdist (mean_vec d xs) (nth i cs []))%Qc by ring. now apply Qcmult_lt_compat_r. }
      set (z := (qn _ * _)%Qc) in *. clearbody z S0. qlra.
  Qed.
  Lemma step_decreases k cs : 0 < k -> good k cs -> (cost (km_step d data cs) cs <= cost cs cs)%Qc /\ (km_step d data cs <> cs -> (cost (km_step d data cs) cs < cost cs cs)%Qc).
  Proof.
    intros Hk Hg. pose proof Hg as [Hl Hd]. assert (Hne : cs <> []) by (destruct cs; [cbn in Hl; lia|discriminate]). rewrite !cost_clusters by assumption. split.
    - apply qsum_le. intros i Hi. apply in_seq in Hi. apply (cluster_part k cs i Hk Hg). lia.
    - intro Hx. assert (Hex : exists i, i < k /\ nth i (km_step d data cs) [] <> nth i cs []).
      { destruct (step_spec cs Hne) as [Sl _]. destruct (Exists_dec (fun i => nth i (km_step d data cs) [] <> nth i cs []) (seq 0 k)) as [He|He].
        - intro i. destruct (list_eq_dec Qc_eq_dec (nth i (km_step d data cs) []) (nth i cs [])); [right; tauto|now left].
        - apply Exists_exists in He as (i & Hi & He). apply in_seq in Hi. exists i. split; [lia|assumption].
        - exfalso. apply Hx. apply nth_ext with (d := []) (d' := []); [assumption|]. intros i Hi. destruct (list_eq_dec Qc_eq_dec (nth i (km_step d data cs) []) (nth i cs [])); [assumption|].
          exfalso. apply He. apply Exists_exists. exists i. split; [apply in_seq; lia|assumption]. }
      destruct Hex as (i & Hi & Hix). apply qsum_lt with (a := i); [apply in_seq; lia|now apply (cluster_part k cs i Hk Hg)|].
      intros j Hj. apply in_seq in Hj. apply (cluster_part k cs j Hk Hg). lia.
  Qed.
  Lemma reassign k c cs : 0 < k -> good k c -> good k cs -> (cost c c <= cost c cs)%Qc.
  Proof.
    intros Hk [Hl _] [Hl' _]. unfold cost. apply qsum_le. intros x _. apply nearest_min. rewrite Hl, <- Hl'. apply nearest_lt. destruct cs; [cbn in Hl'; lia|discriminate].
  Qed.
  Definition assignment (cs : list vec) : list nat := map (nearest cs) data.
  Lemma cost_assignment k cs cs' : 0 < k -> good k cs -> good k cs' -> assignment cs = assignment cs' -> cost (km_step d data cs) cs = cost (km_step d data cs') cs'.
  Proof.
    intros Hk [Hl _] [Hl' _] E. assert (Hne : cs <> []) by (destruct cs; [cbn in Hl; lia|discriminate]). assert (Hne' : cs' <> []) by (destruct cs'; [cbn in Hl'; lia|discriminate]).
    assert (Hn : forall x, In x data -> nearest cs x = nearest cs' x).
    { unfold assignment in E. clear -E. induction data as [|a l IH]; intros x Hx; [destruct Hx|]. cbn in E. injection E as E1 E2. destruct Hx as [<-|Hx]; auto. }
    unfold cost. f_equal. apply map_ext_in. intros x Hx. rewrite (Hn x Hx). f_equal. pose proof (nearest_lt cs' x Hne') as Hlt.
    rewrite (proj2 (step_spec cs Hne)), (proj2 (step_spec cs' Hne')) by lia.
    assert (Ec : cluster cs data (nearest cs' x) = cluster cs' data (nearest cs' x)). { unfold cluster. apply filter_ext_in. intros y Hy. now rewrite Hn. }
    rewrite Ec. destruct (cluster cs' data (nearest cs' x)) as [|y ys] eqn:Ecl; [|reflexivity]. exfalso.
    assert (In x (cluster cs' data (nearest cs' x))) as Hi by (apply filter_In; split; [assumption|apply Nat.eqb_refl]). now rewrite Ecl in Hi.
  Qed.
  (** finitely many assignments *)
  Fixpoint all_lists (k n : nat) : list (list nat) := match n with O => [[]] | S n => flat_map (fun l => map (fun i => i :: l) (seq 0 k)) (all_lists k n) end.
  Lemma all_lists_len k n : length (all_lists k n) = k ^ n.
  Proof.
    induction n as [|n IH]; [reflexivity|]. cbn [all_lists Nat.pow]. rewrite <- IH. generalize (all_lists k n). induction l as [|a l IHl]; cbn; [lia|]. rewrite app_length, map_length, seq_length, IHl. lia.
  Qed.
  Lemma all_lists_in k l : Forall (fun i => i < k) l -> In l (all_lists k (length l)).
  Proof. intro H. induction H as [|i l Hi _ IH]; cbn; [now left|]. apply in_flat_map. exists l. split; [assumption|]. apply in_map_iff. exists i. split; [reflexivity|apply in_seq; lia]. Qed.
  Lemma assignment_in k cs : 0 < k -> good k cs -> In (assignment cs) (all_lists k (length data)).
  Proof.
    intros Hk [Hl _]. unfold assignment. rewrite <- (map_length (nearest cs) data). apply all_lists_in. apply Forall_forall. intros i Hi. apply in_map_iff in Hi as (x & <- & _). rewrite <- Hl. apply nearest_lt.
    destruct cs; [cbn in Hl; lia|discriminate].
  Qed.
  Lemma loop_converges k : 0 < k -> forall fuel cs past, good k cs -> NoDup (map assignment past) ->
    Forall (fun c => good k c /\ (cost cs cs <= cost (km_step d data c) c)%Qc) past -> (k ^ length data <= fuel + length past) -> exists r, km_loop (fuel + 1) d data cs = Some r.
  Proof.
    intro Hk. induction fuel as [|fuel IH]; intros cs past Hg Hn Hp Hf; cbn [plus km_loop].
    - destruct (centroids_eqb (km_step d data cs) cs) eqn:E; [eauto|]. exfalso. unfold centroids_eqb in E. destruct (list_eq_dec _ _ _) as [|Hx]; [discriminate|].
      destruct (step_decreases k cs Hk Hg) as [_ Hs]. specialize (Hs Hx).
      assert (Hnd : NoDup (map assignment (cs :: past))).
      { cbn. constructor; [|assumption]. intro Hi. apply in_map_iff in Hi as (c & Ec & Hi). rewrite Forall_forall in Hp. destruct (Hp c Hi) as [Hgc Hc].
        rewrite (cost_assignment k c cs Hk Hgc Hg Ec) in Hc. apply (Qclt_not_le _ _ Hs Hc). }
      assert (Hinc : incl (map assignment (cs :: past)) (all_lists k (length data))).
      { intros a Ha. apply in_map_iff in Ha as (c & <- & Hc). apply assignment_in; [assumption|]. destruct Hc as [<-|Hc]; [assumption|]. rewrite Forall_forall in Hp. now apply Hp. }
      apply (NoDup_incl_length Hnd) in Hinc. rewrite all_lists_len, map_length in Hinc. cbn in Hinc. lia.
    - destruct (centroids_eqb (km_step d data cs) cs) eqn:E; [eauto|]. unfold centroids_eqb in E. destruct (list_eq_dec _ _ _) as [|Hx]; [discriminate|].
      destruct (step_decreases k cs Hk Hg) as [_ Hs]. specialize (Hs Hx). pose proof (step_good k cs Hk Hg) as Hg'.
      assert (Hr : (cost (km_step d data cs) (km_step d data cs) <= cost (km_step d data cs) cs)%Qc) by (now apply (reassign k)).
      apply (IH (km_step d data cs) (cs :: past)); [assumption| | |cbn; lia].
      + cbn. constructor; [|assumption]. intro Hi. apply in_map_iff in Hi as (c & Ec & Hi). rewrite Forall_forall in Hp. destruct (Hp c Hi) as [Hgc Hc].
        rewrite (cost_assignment k c cs Hk Hgc Hg Ec) in Hc. apply (Qclt_not_le _ _ Hs Hc).
      + constructor; [now split|]. eapply Forall_impl; [|exact Hp]. intros c [H1 H2]. split; [assumption|]. apply Qcle_trans with (cost cs cs); [|assumption].
        apply Qclt_le_weak. eapply Qcle_lt_trans; [exact Hr|exact Hs].
  Qed.
End KM.

(** ** C145: the centroids found form a fixed point: each is the mean of the data points nearest to it (if there are any); data points get the index of a nearest one *)
Theorem C145_fixed_point max_iter d data idx cs : Forall (dimd d) data -> idx <> [] -> km_stop max_iter d data idx = Some cs ->
  length cs = length idx
  /\ (forall i, i < length cs -> let xs := filter (fun x => nearest cs x =? i) data in xs = [] \/ nth i cs [] = map (fun j => (qsum (map (fun v => nth j v 0) xs) / qn (length xs))%Qc) (seq 0 d))
  /\ (forall x i, i < length cs -> (sqdist x (nth (nearest cs x) cs []) <= sqdist x (nth i cs []))%Qc)
  /\ km_label (Some cs) data = Some (map (nearest cs) data).
Proof.
  intros Hd Hne. unfold km_stop. assert (H0 : length (map (fun i => nth i data []) idx) = length idx) by apply map_length. revert H0.
  generalize (map (fun i => nth i data []) idx). assert (Hl : length idx <> 0) by (destruct idx; [congruence|discriminate]). generalize dependent (length idx). clear idx Hne.
  induction max_iter as [|m IH]; intros k Hk cs0 H0 H; [discriminate|]. cbn [km_loop] in H. assert (Hne : cs0 <> []) by (destruct cs0; [cbn in H0; lia|discriminate]).
  destruct (step_spec d data Hd cs0 Hne) as [Sl Sn]. destruct (centroids_eqb (km_step d data cs0) cs0) eqn:E; [|apply (IH k Hk) in H; [exact H|congruence]].
  unfold centroids_eqb in E. destruct (list_eq_dec _ _ _) as [Ex|]; [|discriminate]. injection H as <-. split; [assumption|]. split; [|split; [intros; now apply nearest_min|reflexivity]].
  intros i Hi. cbv zeta. specialize (Sn i Hi). rewrite Ex in Sn. change (filter (fun x => nearest cs0 x =? i) data) with (cluster cs0 data i).
  destruct (cluster cs0 data i) as [|y ys] eqn:Exs; [now left|right]. rewrite Sn. reflexivity.
Qed.
(** ** C146: enough iterations always suffice *)
Theorem C146_converges max_iter d data idx : Forall (dimd d) data -> idx <> [] -> (forall i, In i idx -> i < length data) -> (length idx) ^ (length data) + 1 <= max_iter ->
  exists cs, km_stop max_iter d data idx = Some cs.
Proof.
  intros Hd Hne Hi Hm. replace max_iter with ((max_iter - 1) + 1) by lia. unfold km_stop.
  apply (loop_converges d data Hd (length idx)) with (past := []); [destruct idx; [congruence|cbn; lia]| |constructor|constructor|cbn; lia].
  split; [apply map_length|]. rewrite Forall_map. apply Forall_forall. intros i Hx. rewrite Forall_forall in Hd. apply Hd, nth_In. auto.
Qed.
Example C145_ex : km_stop 10 1 [[q_ 0]; [q_ 1]; [q_ 10]; [q_ 11]] [0; 1] = Some [[Q2Qc (1 # 2)]; [Q2Qc (21 # 2)]].
Proof. vm_compute. apply f_equal. apply f_equal2; [apply f_equal2; [apply Qc_is_canon; reflexivity|reflexivity]|]. apply f_equal2; [apply f_equal2; [apply Qc_is_canon; reflexivity|reflexivity]|reflexivity]. Qed.
(** ** C147: documented: stop after max_iter iterations; but then there are no centroids and label fails *)
Theorem C147_max_iter_refuted : exists data idx max_iter, 0 < max_iter /\ km_label (km_stop max_iter 1 data idx) data = None.
Proof. exists [[q_ 0]; [q_ 1]; [q_ 10]; [q_ 11]], [0; 1], 2. split; [lia|]. vm_compute. reflexivity. Qed.
