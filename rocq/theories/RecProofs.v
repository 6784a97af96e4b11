(** Proofs about the recursive expansion: the products are the words i^(t+1) w with w over smaller variables. *)
From Coq Require Import List Arith ZArith QArith Qcanon Bool Lia Permutation Sorted.
From Verif Require Import CovModel RoutModel MiscModel ExpModel ExpProofs RecModel.
Import ListNotations.
Local Open Scope nat_scope.

Definition qprod (l : list Qc) : Qc := fold_right Qcmult 1%Qc l.
Lemma slice_nth {A B} (f : A -> B) (d : A) ms rest a l : a + l <= length ms -> slice a (a + l) (map f ms ++ rest) = map (fun t => f (nth (a + t) ms d)) (seq 0 l).
Proof.
  intro H. unfold slice. replace (a + l - a) with l by lia. revert a H. induction ms as [|m ms IH]; intros a H; cbn [length] in H.
  - replace a with 0 by lia. replace l with 0 by lia. reflexivity.
  - destruct a as [|a].
    + clear IH. cbn [skipn]. change (0 + l <= length (m :: ms)) in H. revert H. generalize (m :: ms) as k. clear. induction l as [|l IH]; intros [|x k] H; cbn [length] in H; try lia; try reflexivity.
      cbn [map app firstn seq nth Nat.add]. f_equal. rewrite IH by lia. rewrite <- seq_shift, map_map. reflexivity.
    + cbn [map app skipn]. rewrite IH by lia. reflexivity.
Qed.
Lemma flat_map_app_perm {A B} (f g : A -> list B) l : Permutation (flat_map (fun a => f a ++ g a) l) (flat_map f l ++ flat_map g l).
Proof.
  induction l as [|a l IH]; [reflexivity|]. cbn [flat_map]. rewrite IH, <- !app_assoc. apply Permutation_app_head. rewrite !app_assoc. apply Permutation_app_tail. apply Permutation_app_comm.
Qed.
Lemma flat_map_perm {A B} (f g : A -> list B) l : (forall a, In a l -> Permutation (f a) (g a)) -> Permutation (flat_map f l) (flat_map g l).
Proof. induction l as [|a l IH]; intro H; cbn; [reflexivity|]. apply Permutation_app; [apply H; now left|apply IH; intros; apply H; now right]. Qed.
Lemma flat_map_ext_in' {A B} (f g : A -> list B) l : (forall a, In a l -> f a = g a) -> flat_map f l = flat_map g l.
Proof. induction l as [|a l IH]; intro H; cbn; [reflexivity|]. rewrite H by now left. rewrite IH; [reflexivity|]. intros; apply H; now right. Qed.
Lemma flat_map_flat_map {A B C} (f : B -> list C) (g : A -> list B) l : flat_map f (flat_map g l) = flat_map (fun a => flat_map f (g a)) l.
Proof. induction l as [|a l IH]; [reflexivity|]. cbn. now rewrite flat_map_app, IH. Qed.
Lemma nth_map_seq {B} (f : nat -> B) m t d : t < m -> nth t (map f (seq 0 m)) d = f t.
Proof. intro H. rewrite (nth_indep _ d (f 0)) by now rewrite map_length, seq_length. rewrite map_nth, seq_nth by exact H. reflexivity. Qed.

Section Rec.
  Context (deg n : nat) (p : nat -> nat -> Qc) (Hp : forall v, p v 0 = 1%Qc).
  Definition val (w : list nat) : Qc := qprod (map (fun v => p v (count_occ Nat.eq_dec w v)) (seq 0 n)).
  Lemma count_repeat v d u : count_occ Nat.eq_dec (repeat v d) u = if Nat.eq_dec v u then d else 0.
  Proof. induction d as [|d IH]; cbn; [destruct (Nat.eq_dec v u); reflexivity|]. rewrite IH. now destruct (Nat.eq_dec v u). Qed.
  Lemma val_app_rep w v d : v < n -> ~ In v w -> val (w ++ repeat v d) = (val w * p v d)%Qc.
  Proof.
    intros Hv Hw. unfold val. assert (Hc : count_occ Nat.eq_dec w v = 0) by now apply count_occ_not_In.
    assert (G : forall l, NoDup l -> qprod (map (fun u => p u (count_occ Nat.eq_dec (w ++ repeat v d) u)) l) =
      (qprod (map (fun u => p u (count_occ Nat.eq_dec w u)) l) * (if in_dec Nat.eq_dec v l then p v d else 1))%Qc).
    { induction l as [|u l IH]; intro Hn; [cbn; ring|]. inversion Hn as [|? ? Hni Hn']; subst. cbn [map qprod fold_right]. fold (qprod (map (fun u => p u (count_occ Nat.eq_dec (w ++ repeat v d) u)) l)).
      rewrite IH by exact Hn'. rewrite count_occ_app, count_repeat. fold (qprod (map (fun u => p u (count_occ Nat.eq_dec w u)) l)). destruct (Nat.eq_dec v u) as [E|Hne].
      - subst u. rewrite Hc, Hp. cbn [Nat.add]. destruct (in_dec Nat.eq_dec v l); [contradiction|]. destruct (in_dec Nat.eq_dec v (v :: l)) as [|Hx]; [ring|]. elim Hx. now left.
      - rewrite Nat.add_0_r. destruct (in_dec Nat.eq_dec v l) as [Hi|Hi], (in_dec Nat.eq_dec v (u :: l)) as [Hj|Hj]; try ring.
        + elim Hj. now right.
        + destruct Hj; [congruence|contradiction]. }
    rewrite G by apply seq_NoDup. destruct (in_dec Nat.eq_dec v (seq 0 n)) as [|Hx]; [reflexivity|]. elim Hx. apply in_seq. lia.
  Qed.
  Lemma val_nil : val [] = 1%Qc.
  Proof. unfold val. induction (seq 0 n) as [|v l IH]; [reflexivity|]. cbn [map qprod fold_right]. cbn in IH |- *. rewrite Hp. fold (qprod (map (fun v => p v 0) l)) in *. rewrite IH. ring. Qed.
  Lemma val_rep v d : v < n -> val (repeat v d) = p v d.
  Proof. intro Hv. pose proof (val_app_rep [] v d Hv (fun H => H)) as E. cbn [app] in E. rewrite E, val_nil. ring. Qed.

  (** ** groups *)
  Definition group := (nat * list nat * nat)%type.   (* top variable, rest word, variables below *)
  Definition blk (i : nat) (w : list nat) (v d : nat) : list (list nat) := map (fun t => repeat i (S t) ++ w ++ repeat v d) (seq 0 (deg - length w - d)).
  Definition valid (ms : list (list nat)) (e : entry) (g : group) : Prop :=
    let '(off, lv', ld) := e in let '(i, w, lv) := g in
    lv' = lv /\ ld = S (length w) /\ lv <= i < n /\ Forall (fun a => lv <= a < i) w /\ ld <= deg /\
    off + 1 + (deg - length w) <= length ms /\ (forall t, t < deg - length w -> nth (1 + off + t) ms [] = repeat i (S t) ++ w).
  Definition based (ms : list (list nat)) : Prop := forall v d, v < n -> 1 <= d <= deg -> deg * v + d < length ms /\ nth (deg * v + d) ms [] = repeat v d.
  Lemma valid_app ms ms' e g : valid ms e g -> valid (ms ++ ms') e g.
  Proof.
    destruct e as [[off lv'] ld], g as [[i w] lv]. intros (H1 & H2 & H3 & H4 & H5 & H6 & H7). repeat split; auto; try lia; [rewrite app_length; lia|].
    intros t Ht. rewrite app_nth1 by lia. now apply H7.
  Qed.
  Lemma based_app ms ms' : based ms -> based (ms ++ ms').
  Proof. intros H v d Hv Hd. destruct (H v d Hv Hd) as [H1 H2]. rewrite app_length, app_nth1 by lia. split; [lia|exact H2]. Qed.
  Lemma valid_app_all ms ms' todo G : Forall2 (valid ms) todo G -> Forall2 (valid (ms ++ ms')) todo G.
  Proof. induction 1; constructor; auto. now apply valid_app. Qed.
  Definition cells (ms : list (list nat)) (r : nat) : list cell := map Some (map val ms) ++ repeat None r.
  Lemma rd_cells ms r k : k < length ms -> rd k (cells ms r) = Some (val (nth k ms [])).
  Proof.
    intro H. unfold rd, cells. rewrite app_nth1 by (rewrite !map_length; exact H). rewrite (nth_indep _ None (Some (val []))) by (rewrite !map_length; exact H).
    now rewrite !map_nth.
  Qed.
  Lemma cells_length ms r : length (cells ms r) = length ms + r.
  Proof. unfold cells. now rewrite app_length, !map_length, repeat_length. Qed.
  Lemma put_block_ok ms r todo off lv ld i w v d : valid ms (off, lv, ld) (i, w, lv) -> based ms -> v < lv -> 1 <= d -> d <= deg - ld ->
    deg + 1 - ld - d <= r ->
    put_block off (deg + 1 - ld - d) (deg * v + d) (mkR (length ms) (cells ms r) todo) = Some (cells (ms ++ blk i w v d) (r - (deg + 1 - ld - d))).
  Proof.
    intros (_ & Hld & Hi & Hw & Hdeg & Hlen & Hnth) Hb Hv Hd1 Hd2 Hr. unfold put_block. cbn [r_res r_pos]. destruct (Hb v d) as [Hk Hkn]; [lia|lia|].
    rewrite cells_length. destruct (Nat.ltb_spec (deg * v + d) (length ms + r)); [|lia]. rewrite rd_cells by exact Hk. rewrite Hkn, val_rep by lia.
    set (l := deg + 1 - ld - d) in *. assert (Hl0 : l = deg - length w - d) by (unfold l; lia). clearbody l. unfold cells at 1. rewrite map_map. rewrite (slice_nth (fun x => Some (val x)) []) by lia. rewrite map_map.
    assert (E : map (fun t => ap2 Qcmult (Some (val (nth (1 + off + t) ms []))) (Some (p v d))) (seq 0 l) = map Some (map val (blk i w v d))).
    { unfold blk. replace (deg - length w - d) with l by lia. rewrite !map_map. apply map_ext_in. intros t Ht. apply in_seq in Ht. cbn [ap2]. f_equal.
      rewrite Hnth by lia. rewrite app_assoc. symmetry. apply val_app_rep; [lia|]. rewrite in_app_iff. intros [Hx|Hx].
      - apply repeat_spec in Hx. lia.
      - rewrite Forall_forall in Hw. specialize (Hw _ Hx). lia. }
    rewrite E. assert (Hl : length (map Some (map val (blk i w v d))) = l) by (rewrite !map_length; unfold blk; rewrite map_length, seq_length; lia).
    pose proof (assign_exact (None : cell) (map Some (map val ms)) (map Some (map val (blk i w v d))) r (Nat.le_trans _ _ _ (Nat.eq_le_incl _ _ Hl) Hr)) as Ha.
    unfold cell in *. rewrite Hl in Ha. rewrite !map_length in Ha. unfold cells. rewrite Ha. rewrite !map_app, <- app_assoc. reflexivity.
  Qed.
  Definition newg (i : nat) (w : list nat) (v : nat) (ds : list nat) : list group := map (fun d => (i, w ++ repeat v d, v)) (filter (fun d => 1 <? deg - length w - d) ds).
  Lemma new_valid ms off lv ld i w v d : valid ms (off, lv, ld) (i, w, lv) -> 1 <= length ms -> v < lv -> 1 <= d -> d <= deg - ld ->
    valid (ms ++ blk i w v d) (length ms - 1, v, ld + d) (i, w ++ repeat v d, v).
  Proof.
    intros (_ & Hld & Hi & Hw & Hdeg & Hlen & Hnth) Hm Hv Hd1 Hd2. assert (Hlb : length (blk i w v d) = deg - length w - d) by (unfold blk; now rewrite map_length, seq_length).
    repeat split; try lia.
    - rewrite app_length, repeat_length. lia.
    - apply Forall_app. split; [eapply Forall_impl; [|exact Hw]; cbn; lia|]. apply Forall_forall. intros a Ha. apply repeat_spec in Ha. lia.
    - rewrite !app_length, repeat_length, Hlb. lia.
    - intros t Ht. rewrite app_length, repeat_length in Ht. rewrite app_nth2 by lia. replace (1 + (length ms - 1) + t - length ms) with t by lia. unfold blk. apply (nth_map_seq (fun t => repeat i (S t) ++ w ++ repeat v d)). lia.
  Qed.
  Lemma proc_d_ok off lv ld i w v : v < lv -> forall m a ms r todo G, valid ms (off, lv, ld) (i, w, lv) -> based ms -> 1 <= length ms -> Forall2 (valid ms) todo G ->
    1 <= a -> a + m = deg - ld + 1 -> length (flat_map (blk i w v) (seq a m)) <= r ->
    exists todo', proc_d deg off lv ld v (seq a m) (deg * v + a) (mkR (length ms) (cells ms r) todo) =
      Some (mkR (length (ms ++ flat_map (blk i w v) (seq a m))) (cells (ms ++ flat_map (blk i w v) (seq a m)) (r - length (flat_map (blk i w v) (seq a m)))) todo') /\
      Forall2 (valid (ms ++ flat_map (blk i w v) (seq a m))) todo' (G ++ newg i w v (seq a m)).
  Proof.
    intro Hv. induction m as [|m IH]; intros a ms r todo G Hval Hb Hm HF Ha Ham Hr; cbn [seq proc_d flat_map newg map filter].
    - exists todo. cbn [length]. rewrite !app_nil_r, Nat.sub_0_r. now split.
    - cbn [seq] in Hr. rewrite flat_map_length_cons in Hr. pose proof Hval as (_ & Hld & _).
      assert (Hlb : length (blk i w v a) = deg + 1 - ld - a) by (unfold blk; rewrite map_length, seq_length; lia).
      rewrite (put_block_ok ms r todo off lv ld i w v a); auto; try lia. cbn [r_pos r_todo].
      replace (length ms + (deg + 1 - ld - a)) with (length (ms ++ blk i w v a)) by (rewrite app_length; lia).
      assert (Hlv0 : (0 <? lv) = true) by (apply Nat.ltb_lt; lia). rewrite Hlv0, andb_true_r. rewrite app_assoc.
      set (todo1 := if 1 <? deg + 1 - ld - a then todo ++ [(length ms - 1, v, ld + a)] else todo).
      set (G1 := if 1 <? deg + 1 - ld - a then G ++ [(i, w ++ repeat v a, v)] else G).
      destruct (IH (S a) (ms ++ blk i w v a) (r - (deg + 1 - ld - a)) todo1 G1) as (todo' & E & F).
      + now apply valid_app.
      + now apply based_app.
      + rewrite app_length. lia.
      + unfold todo1, G1. destruct (1 <? deg + 1 - ld - a); [|now apply valid_app_all]. apply Forall2_app; [now apply valid_app_all|]. constructor; [|constructor].
        apply (new_valid ms off lv ld i w v a); auto; lia.
      + lia.
      + lia.
      + lia.
      + exists todo'. replace (S (deg * v + a)) with (deg * v + S a) by lia. rewrite E. split.
        * f_equal. f_equal. f_equal. rewrite app_length. lia.
        * replace (1 <? deg - length w - a) with (1 <? deg + 1 - ld - a) by (f_equal; lia). unfold G1 in F. destruct (1 <? deg + 1 - ld - a); [|exact F].
          cbn [map]. rewrite <- (app_assoc G) in F. exact F.
  Qed.
  Lemma proc_v_ok off lv ld i w : forall vs ms r todo G, Forall (fun v => v < lv) vs -> valid ms (off, lv, ld) (i, w, lv) -> based ms -> 1 <= length ms -> Forall2 (valid ms) todo G ->
    let B := flat_map (fun v => flat_map (blk i w v) (seq 1 (deg - ld))) vs in length B <= r ->
    exists todo', proc_v deg off lv ld vs (mkR (length ms) (cells ms r) todo) = Some (mkR (length (ms ++ B)) (cells (ms ++ B) (r - length B)) todo') /\
      Forall2 (valid (ms ++ B)) todo' (G ++ flat_map (fun v => newg i w v (seq 1 (deg - ld))) vs).
  Proof.
    induction vs as [|v vs IH]; intros ms r todo G Hvs Hval Hb Hm HF B HB; cbn [proc_v flat_map] in *.
    - exists todo. unfold B. cbn [length]. rewrite !app_nil_r, Nat.sub_0_r. now split.
    - inversion Hvs as [|? ? Hv Hvs']; subst. unfold B in HB |- *. rewrite app_length in HB. pose proof Hval as (_ & Hld & _ & _ & Hdeg & _).
      destruct (proc_d_ok off lv ld i w v Hv (deg - ld) 1 ms r todo G) as (todo1 & E & F); auto; try lia.
      rewrite Nat.add_comm in E. rewrite E.
      destruct (IH (ms ++ flat_map (blk i w v) (seq 1 (deg - ld))) (r - length (flat_map (blk i w v) (seq 1 (deg - ld)))) todo1 (G ++ newg i w v (seq 1 (deg - ld)))) as (todo2 & E2 & F2); auto.
      + now apply valid_app.
      + now apply based_app.
      + rewrite app_length. lia.
      + lia.
      + exists todo2. rewrite E2. rewrite !app_assoc. rewrite <- app_assoc in F2. split; [|rewrite <- !app_assoc in *; exact F2].
        f_equal. f_equal. f_equal. rewrite app_length. lia.
  Qed.
  (** all words below a group *)
  Fixpoint desc (f i : nat) (w : list nat) (lv : nat) : list (list nat) :=
    match f with
    | O => []
    | S f => flat_map (fun v => flat_map (fun d => blk i w v d ++ desc f i (w ++ repeat v d) v) (seq 1 (deg - S (length w)))) (seq 0 lv)
    end.
  Lemma desc_fuel : forall f1 f2 i w lv, lv <= f1 -> lv <= f2 -> desc f1 i w lv = desc f2 i w lv.
  Proof.
    induction f1 as [|f1 IH]; intros [|f2] i w lv H1 H2; [reflexivity|replace lv with 0 by lia; reflexivity|replace lv with 0 by lia; reflexivity|].
    cbn [desc]. apply flat_map_ext_in'. intros v Hv. apply in_seq in Hv. apply flat_map_ext_in'. intros d _. f_equal. apply IH; lia.
  Qed.
  Definition D (g : group) : list (list nat) := let '(i, w, lv) := g in desc lv i w lv.
  Lemma D_unfold i w lv : D (i, w, lv) = flat_map (fun v => flat_map (fun d => blk i w v d ++ D (i, w ++ repeat v d, v)) (seq 1 (deg - S (length w)))) (seq 0 lv).
  Proof.
    unfold D. destruct lv as [|lv]; [reflexivity|]. cbn [desc]. apply flat_map_ext_in'. intros v Hv. apply in_seq in Hv. apply flat_map_ext_in'. intros d _. f_equal. apply desc_fuel; lia.
  Qed.
  Lemma D_full i w lv : deg <= S (length w) -> D (i, w, lv) = [].
  Proof. intro H. rewrite D_unfold. replace (deg - S (length w)) with 0 by lia. cbn [seq flat_map]. induction (seq 0 lv) as [|a l IH]; [reflexivity|exact IH]. Qed.
  Lemma D_newg i w v ds : Permutation (flat_map (fun d => D (i, w ++ repeat v d, v)) ds) (flat_map D (newg i w v ds)).
  Proof.
    induction ds as [|d ds IH]; [reflexivity|]. unfold newg in *. cbn [flat_map filter]. destruct (Nat.ltb_spec 1 (deg - length w - d)) as [H|H]; cbn [map flat_map].
    - apply Permutation_app_head. exact IH.
    - rewrite D_full; [exact IH|]. rewrite app_length, repeat_length. lia.
  Qed.
  Lemma D_split i w lv : Permutation (D (i, w, lv)) (flat_map (fun v => flat_map (blk i w v) (seq 1 (deg - S (length w)))) (seq 0 lv)
    ++ flat_map D (flat_map (fun v => newg i w v (seq 1 (deg - S (length w)))) (seq 0 lv))).
  Proof.
    rewrite D_unfold, flat_map_flat_map. rewrite <- flat_map_app_perm. apply flat_map_perm. intros v _. rewrite flat_map_app_perm. apply Permutation_app_head. apply D_newg.
  Qed.
  Lemma newg_count i w v ds : length (newg i w v ds) <= length (flat_map (blk i w v) ds).
  Proof.
    unfold newg. rewrite map_length. induction ds as [|d ds IH]; [reflexivity|]. rewrite flat_map_length_cons. cbn [filter]. unfold blk at 1. rewrite map_length, seq_length.
    destruct (Nat.ltb_spec 1 (deg - length w - d)); cbn [length]; lia.
  Qed.
  Lemma newg_count_all i w l vs : length (flat_map (fun v => newg i w v l) vs) <= length (flat_map (fun v => flat_map (blk i w v) l) vs).
  Proof. induction vs as [|v vs IH]; [reflexivity|]. rewrite !flat_map_length_cons. pose proof (newg_count i w v l). lia. Qed.
  (** the words in the order in which the blocks are written *)
  Fixpoint tail_of (fuel : nat) (G : list group) : list (list nat) :=
    match fuel, G with
    | S fuel, (i, w, lv) :: G => flat_map (fun v => flat_map (blk i w v) (seq 1 (deg - S (length w)))) (seq 0 lv) ++ tail_of fuel (G ++ flat_map (fun v => newg i w v (seq 1 (deg - S (length w)))) (seq 0 lv))
    | _, _ => []
    end.
  Lemma products_ok : forall fuel ms r todo G, Forall2 (valid ms) todo G -> based ms -> 1 <= length ms -> length G + length (flat_map D G) <= fuel -> length (flat_map D G) <= r ->
    products fuel deg (mkR (length ms) (cells ms r) todo) = Done (cells (ms ++ tail_of fuel G) (r - length (flat_map D G))) /\ Permutation (tail_of fuel G) (flat_map D G).
  Proof.
    induction fuel as [|fuel IH]; intros ms r todo G HF Hb Hm Hfuel Hr.
    - destruct HF; cbn [length] in Hfuel; [|lia]. cbn. rewrite Nat.sub_0_r, app_nil_r. now split.
    - destruct HF as [|e g todo G Hv HF]; [cbn; rewrite Nat.sub_0_r, app_nil_r; now split|]. cbn [products r_todo r_pos r_res].
      destruct e as [[off lv'] ld], g as [[i w] lv]. pose proof Hv as (-> & Hld & _). cbn [flat_map length] in *. rewrite app_length in Hfuel, Hr.
      pose proof (D_split i w lv) as HP. pose proof (Permutation_length HP) as HL. rewrite app_length in HL. rewrite <- Hld in HP, HL.
      set (B := flat_map (fun v => flat_map (blk i w v) (seq 1 (deg - ld))) (seq 0 lv)) in *.
      set (N := flat_map (fun v => newg i w v (seq 1 (deg - ld))) (seq 0 lv)) in *.
      unfold process. destruct (proc_v_ok off lv ld i w (seq 0 lv) ms r todo G) as (todo' & E & F); auto.
      { apply Forall_forall. intros v Hi. apply in_seq in Hi. lia. }
      { fold B. lia. }
      fold B N in E, F. rewrite E. pose proof (newg_count_all i w (seq 1 (deg - ld)) (seq 0 lv)) as HN. fold B N in HN.
      cbn [tail_of]. rewrite <- Hld. fold B N.
      destruct (IH (ms ++ B) (r - length B) todo' (G ++ N)) as (E2 & P2); auto.
      + now apply based_app.
      + rewrite app_length. lia.
      + rewrite flat_map_app, !app_length. lia.
      + rewrite flat_map_app, !app_length. lia.
      + rewrite E2. split.
        * rewrite <- app_assoc. f_equal. f_equal. rewrite flat_map_app, !app_length. lia.
        * rewrite P2, HP. rewrite flat_map_app, <- !app_assoc. apply Permutation_app_head. apply Permutation_app_comm.
  Qed.
End Rec.
