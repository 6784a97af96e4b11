(** The two-dimensional switchboards: pure form of the connection lists, counting. *)
From Coq Require Import List ZArith Bool Permutation Lia.
From Verif Require Import SwitchModel SwitchProofs.
Import ListNotations.
Open Scope Z_scope.

(** ** Lists *)
Lemma for_ok {A} (l : list A) f g : (forall a, In a l -> f a = SOk (g a)) -> for_ l f = SOk (flat_map g l).
Proof.
  induction l as [|a l IH]; intros H; cbn [for_ flat_map]; [reflexivity|]. rewrite (H a (or_introl eq_refl)). cbn [sbind].
  rewrite IH by (intros b Hb; apply H; right; exact Hb). reflexivity.
Qed.
Lemma flat_map_length {A B} (f : A -> list B) l n : (forall a, In a l -> length (f a) = n) -> length (flat_map f l) = (length l * n)%nat.
Proof.
  induction l as [|a l IH]; intros H; cbn; [reflexivity|]. rewrite app_length, (H a (or_introl eq_refl)), IH; [reflexivity|]. intros b Hb. apply H. right. exact Hb.
Qed.
Lemma flat_map_nth {A B} (f : A -> list B) n l i j d da : (forall a, In a l -> length (f a) = n) -> (i < length l)%nat -> (j < n)%nat ->
  nth (i * n + j) (flat_map f l) d = nth j (f (nth i l da)) d.
Proof.
  revert i. induction l as [|a l IH]; intros i H Hi Hj; [cbn in Hi; lia|]. cbn [flat_map]. pose proof (H a (or_introl eq_refl)) as Ha. destruct i as [|i].
  - cbn. apply app_nth1. lia.
  - rewrite app_nth2 by lia. rewrite Ha. replace (S i * n + j - n)%nat with (i * n + j)%nat by lia. cbn in Hi. apply IH; [|lia|exact Hj].
    intros b Hb. apply H. right. exact Hb.
Qed.
Lemma flat_map_flat_map {A B C} (f : B -> list C) (g : A -> list B) l : flat_map f (flat_map g l) = flat_map (fun a => flat_map f (g a)) l.
Proof. induction l as [|a l IH]; cbn; [reflexivity|]. rewrite flat_map_app, IH. reflexivity. Qed.
Lemma flat_map_map {A B C} (f : B -> list C) (g : A -> B) l : flat_map f (map g l) = flat_map (fun a => f (g a)) l.
Proof. induction l as [|a l IH]; cbn; [reflexivity|]. rewrite IH. reflexivity. Qed.
Lemma flat_map_ext' {A B} (f g : A -> list B) l : (forall a, In a l -> f a = g a) -> flat_map f l = flat_map g l.
Proof.
  induction l as [|a l IH]; intros H; cbn; [reflexivity|]. rewrite (H a (or_introl eq_refl)). f_equal. apply IH. intros b Hb. apply H. right. exact Hb.
Qed.
Lemma flat_map_nodup {A B} (f : A -> list B) l : NoDup l -> (forall a, In a l -> NoDup (f a)) ->
  (forall a b x, In a l -> In b l -> In x (f a) -> In x (f b) -> a = b) -> NoDup (flat_map f l).
Proof.
  induction 1 as [|a l Ha Hl IH]; intros Hf Hd; [constructor|]. cbn.
  assert (NoDup (flat_map f l)) as Hn.
  { apply IH; [intros b Hb; apply Hf; right; exact Hb|]. intros b c x Hb Hc. apply Hd; right; assumption. }
  assert (forall x, In x (f a) -> ~ In x (flat_map f l)) as Hx.
  { intros x Hx H. apply in_flat_map in H as (b & Hb & Hxb). apply Ha. rewrite (Hd a b x (or_introl eq_refl) (or_intror Hb) Hx Hxb). exact Hb. }
  specialize (Hf a (or_introl eq_refl)). revert Hf Hx. generalize (f a). induction l0 as [|y l0 IHl]; intros N Hx; cbn; [exact Hn|].
  inversion N; subst. constructor.
  - rewrite in_app_iff. intros [H|H]; [contradiction|]. exact (Hx y (or_introl eq_refl) H).
  - apply IHl; [assumption|]. intros x H. apply Hx. right. exact H.
Qed.
Lemma count_flat_map {A} (f : A -> list Z) l i : (forall a, In a l -> NoDup (f a)) ->
  count_occ Z.eq_dec (flat_map f l) i = length (filter (fun a => if in_dec Z.eq_dec i (f a) then true else false) l).
Proof.
  induction l as [|a l IH]; intros H; cbn; [reflexivity|]. rewrite count_occ_app, IH by (intros b Hb; apply H; right; exact Hb).
  destruct (in_dec Z.eq_dec i (f a)) as [Hi|Hi].
  - rewrite (proj1 (NoDup_count_occ' Z.eq_dec (f a)) (H a (or_introl eq_refl)) i Hi). reflexivity.
  - rewrite (proj1 (count_occ_not_In Z.eq_dec (f a) i) Hi). reflexivity.
Qed.
Lemma filter_exact {A} (P : A -> bool) l gs : NoDup l -> NoDup gs -> (forall a, In a l /\ P a = true <-> In a gs) -> length (filter P l) = length gs.
Proof.
  intros Hl Hg H. apply Permutation_length. apply NoDup_Permutation; [apply NoDup_filter; exact Hl|exact Hg|]. intros a. rewrite filter_In. apply H.
Qed.

(** ** Channels and connections *)
Definition block (cd i : Z) : list Z := zrange (i * cd) (i * cd + cd).
Lemma block_length cd i : length (block cd i) = Z.to_nat cd.
Proof. unfold block. rewrite zrange_length. f_equal. lia. Qed.
Lemma in_block cd i c : 0 < cd -> In c (block cd i) <-> c / cd = i.
Proof.
  intros Hc. unfold block. rewrite in_zrange. split.
  - intros H. symmetry. apply Z.div_unique with (r := c - cd * i); lia.
  - intros <-. pose proof (Z.div_mod c cd ltac:(lia)). pose proof (Z.mod_pos_bound c cd Hc). lia.
Qed.
Lemma count_blocks cd is c : 0 < cd -> count_occ Z.eq_dec (flat_map (block cd) is) c = count_occ Z.eq_dec is (c / cd).
Proof.
  intros Hc. rewrite count_flat_map by (intros a _; apply zrange_nodup).
  induction is as [|i is IH]; cbn; [reflexivity|]. destruct (in_dec Z.eq_dec c (block cd i)) as [H|H]; rewrite in_block in H by exact Hc.
  - cbn. destruct (Z.eq_dec i (c / cd)); [congruence|]. congruence.
  - destruct (Z.eq_dec i (c / cd)); congruence.
Qed.
Lemma blocks_range cd N is c : 0 < cd -> in_range N is -> In c (flat_map (block cd) is) -> 0 <= c < cd * N.
Proof.
  intros Hc Hr H. apply in_flat_map in H as (i & Hi & H). apply Hr in Hi. unfold block in H. apply in_zrange in H. nia.
Qed.
(** The cells of a grid, row by row *)
Definition cells (xs ys : list Z) : list (Z * Z) := flat_map (fun y => map (fun x => (x, y)) xs) ys.
Lemma in_cells xs ys x y : In (x, y) (cells xs ys) <-> In x xs /\ In y ys.
Proof.
  unfold cells. rewrite in_flat_map. split.
  - intros (y' & Hy & H). apply in_map_iff in H as (x' & [= <- <-] & Hx). auto.
  - intros [Hx Hy]. exists y. split; [exact Hy|]. apply in_map_iff. exists x. auto.
Qed.
Lemma cells_nodup xs ys : NoDup xs -> NoDup ys -> NoDup (cells xs ys).
Proof.
  intros Hx Hy. apply flat_map_nodup; [exact Hy| |].
  - intros y _. apply FinFun.Injective_map_NoDup; [intros a b [= H]; exact H|exact Hx].
  - intros a b p _ _ Ha Hb. apply in_map_iff in Ha as (x1 & <- & _). apply in_map_iff in Hb as (x2 & [= _ H] & _). congruence.
Qed.
Lemma cells_flat {B} (g : Z -> Z -> list B) xs ys : flat_map (fun y => flat_map (fun x => g x y) xs) ys = flat_map (fun p => g (fst p) (snd p)) (cells xs ys).
Proof. unfold cells. rewrite flat_map_flat_map. apply flat_map_ext'. intros y _. rewrite flat_map_map. reflexivity. Qed.
Lemma cells_length xs ys : length (cells xs ys) = (length ys * length xs)%nat.
Proof. unfold cells. apply flat_map_length. intros y _. apply map_length. Qed.
Definition chan_index (X : Z) (p : Z * Z) : Z := snd p * X + fst p.
Lemma chan_index_inj X x y x' y' : 0 <= x < X -> 0 <= x' < X -> y * X + x = y' * X + x' -> x = x' /\ y = y'.
Proof.
  intros H1 H2 E. assert (y = y') by nia. split; [|assumption]. subst. lia.
Qed.

Lemma inside_true a n : 0 <= a < n -> inside a n = true.
Proof. intros H. unfold inside. rewrite (proj2 (Z.leb_le _ _)), (proj2 (Z.ltb_lt _ _)) by lia. reflexivity. Qed.
Lemma image_to_index_ok X Y x y : 0 <= x < X -> 0 <= y < Y -> image_to_index X Y x y = SOk (y * X + x).
Proof. intros Hx Hy. unfold image_to_index. rewrite !inside_true by assumption. reflexivity. Qed.

(** The points of a rectangular field *)
Definition rect_pts (x0 y0 fx fy : Z) : list (Z * Z) := cells (zrange x0 (x0 + fx)) (zrange y0 (y0 + fy)).
Lemma field_ok X Y cd x0 y0 fx fy : 0 <= x0 -> x0 + fx <= X -> 0 <= y0 -> y0 + fy <= Y ->
  field_loop X Y cd x0 y0 fx fy = SOk (flat_map (block cd) (map (chan_index X) (rect_pts x0 y0 fx fy))).
Proof.
  intros H1 H2 H3 H4. unfold field_loop.
  rewrite (for_ok _ _ (fun y => flat_map (fun x => block cd (y * X + x)) (zrange x0 (x0 + fx)))).
  - f_equal. rewrite (cells_flat (fun x y => block cd (y * X + x))). rewrite flat_map_map. reflexivity.
  - intros y Hy. apply in_zrange in Hy. rewrite (for_ok _ _ (fun x => block cd (y * X + x))); [reflexivity|].
    intros x Hx. apply in_zrange in Hx. unfold chan_conns. rewrite image_to_index_ok by lia. reflexivity.
Qed.

Lemma buffer_exact n l : Z.of_nat (length l) = n -> buffer n l = SOk l.
Proof.
  intros E. unfold buffer, sguard. destruct (Z.ltb_spec n 0); [lia|]. destruct (Z.ltb_spec n (Z.of_nat (length l))); [lia|].
  replace (Z.to_nat n - length l)%nat with 0%nat by lia. cbn. rewrite app_nil_r. reflexivity.
Qed.
Lemma ch_init_ok n conns ocd icd k m : conns <> [] -> (forall c, In c conns -> c < n) -> ocd <> 0 -> icd <> 0 ->
  Z.of_nat (length conns) = k * ocd -> n = m * icd -> ch_init n conns ocd icd = SOk (mkB n conns ocd icd).
Proof.
  intros H1 H2 H3 H4 H5 H6. unfold ch_init. rewrite (proj2 (sw_init_ok n conns)) by auto. cbn [sbind]. unfold pymod.
  rewrite (proj2 (Z.eqb_neq ocd 0)), (proj2 (Z.eqb_neq icd 0)) by assumption. cbn [sbind]. rewrite H5, H6, !Z.mod_mul by assumption. cbn. reflexivity.
Qed.

(** ** Rectangular fields *)
Definition rect_list (X cd fx fy sx sy ox oy xo yo : Z) : list Z :=
  flat_map (block cd) (flat_map (fun c => map (chan_index X) (rect_pts (fst c * sx + ox) (snd c * sy + oy) fx fy)) (cells (zrange 0 xo) (zrange 0 yo))).
Lemma rect_loop_ok X Y cd fx fy sx sy ox oy gx gy xo yo : (forall c, gx c = c * sx + ox) -> (forall c, gy c = c * sy + oy) -> 0 <= sx -> 0 <= sy -> 0 <= ox -> 0 <= oy -> (xo - 1) * sx + ox + fx <= X -> (yo - 1) * sy + oy + fy <= Y ->
  for_ (zrange 0 yo) (fun yc => for_ (zrange 0 xo) (fun xc => field_loop X Y cd (gx xc) (gy yc) fx fy)) = SOk (rect_list X cd fx fy sx sy ox oy xo yo).
Proof.
  intros Gx Gy H1 H2 Ho1 Ho2 H3 H4.
  rewrite (for_ok _ _ (fun yc => flat_map (fun xc => flat_map (block cd) (map (chan_index X) (rect_pts (xc * sx + ox) (yc * sy + oy) fx fy))) (zrange 0 xo))).
  - f_equal. rewrite (cells_flat (fun xc yc => flat_map (block cd) (map (chan_index X) (rect_pts (xc * sx + ox) (yc * sy + oy) fx fy)))).
    unfold rect_list. rewrite flat_map_flat_map. reflexivity.
  - intros yc Hy. apply in_zrange in Hy. apply for_ok. intros xc Hx. apply in_zrange in Hx. rewrite Gx, Gy. apply field_ok; nia.
Qed.
Lemma rect_pts_length x0 y0 fx fy : 0 <= fx -> 0 <= fy -> Z.of_nat (length (rect_pts x0 y0 fx fy)) = fx * fy.
Proof. intros Hx Hy. unfold rect_pts. rewrite cells_length, !zrange_length. nia. Qed.
Lemma rect_list_length X cd fx fy sx sy ox oy xo yo : 0 <= cd -> 0 <= fx -> 0 <= fy -> 0 <= xo -> 0 <= yo ->
  Z.of_nat (length (rect_list X cd fx fy sx sy ox oy xo yo)) = xo * yo * (cd * fx * fy).
Proof.
  intros H1 H2 H3 H4 H5. unfold rect_list. rewrite (flat_map_length _ _ (Z.to_nat cd)) by (intros; apply block_length).
  rewrite (flat_map_length _ _ (Z.to_nat (fx * fy))).
  - rewrite cells_length, !zrange_length. rewrite !Nat2Z.inj_mul, !Z2Nat.id by lia. nia.
  - intros c _. rewrite map_length. rewrite <- (rect_pts_length (fst c * sx + ox) (snd c * sy + oy) fx fy) by assumption. lia.
Qed.
Lemma rect_list_range X Y cd fx fy sx sy ox oy xo yo : 0 < cd -> 0 <= sx -> 0 <= sy -> 0 <= ox -> 0 <= oy -> (xo - 1) * sx + ox + fx <= X -> (yo - 1) * sy + oy + fy <= Y ->
  in_range (cd * X * Y) (rect_list X cd fx fy sx sy ox oy xo yo).
Proof.
  intros H0 H1 H2 Ho1 Ho2 H3 H4 c Hc. replace (cd * X * Y) with (cd * (X * Y)) by lia. eapply blocks_range; [exact H0| |exact Hc].
  intros i Hi. apply in_flat_map in Hi as ([xc yc] & Hcell & Hi). apply in_map_iff in Hi as ([x y] & <- & Hp). unfold rect_pts in Hp.
  apply in_cells in Hcell as [Hx Hy]. apply in_cells in Hp as [Hpx Hpy]. apply in_zrange in Hx, Hy, Hpx, Hpy. unfold chan_index. cbn [fst snd] in *.
  assert (0 <= x < X) by nia. assert (0 <= y < Y) by nia. nia.
Qed.

(** The fields that contain channel (x, y) *)
Lemma rect_count X Y cd fx fy sx sy ox oy xo yo x y k : 0 < cd -> 0 <= k < cd -> 0 <= sx -> 0 <= sy -> 0 <= ox -> 0 <= oy -> (xo - 1) * sx + ox + fx <= X -> (yo - 1) * sy + oy + fy <= Y -> 0 <= x < X ->
  count_occ Z.eq_dec (rect_list X cd fx fy sx sy ox oy xo yo) ((y * X + x) * cd + k) =
  length (filter (fun c => (fst c * sx + ox <=? x) && (x <? fst c * sx + ox + fx) && (snd c * sy + oy <=? y) && (y <? snd c * sy + oy + fy)) (cells (zrange 0 xo) (zrange 0 yo))).
Proof.
  intros Hcd Hk H1 H2 Ho1 Ho2 H3 H4 Hx. unfold rect_list. rewrite count_blocks by exact Hcd.
  replace (((y * X + x) * cd + k) / cd) with (y * X + x) by (apply Z.div_unique with (r := k); lia).
  rewrite count_flat_map.
  - f_equal. apply filter_ext_in. intros [xc yc] Hcell. cbn [fst snd]. apply in_cells in Hcell as [Hcx Hcy]. apply in_zrange in Hcx, Hcy.
    destruct (in_dec Z.eq_dec (y * X + x) _) as [Hi|Hi].
    + apply in_map_iff in Hi as ([x' y'] & E & Hp). apply in_cells in Hp as [Hpx Hpy]. apply in_zrange in Hpx, Hpy. unfold chan_index in E. cbn [fst snd] in E.
      destruct (chan_index_inj X x' y' x y) as [-> ->]; [nia|lia|exact E|]. symmetry. rewrite !andb_true_iff, !Z.leb_le, !Z.ltb_lt. lia.
    + symmetry. apply not_true_iff_false. rewrite !andb_true_iff, !Z.leb_le, !Z.ltb_lt. intros H. apply Hi. apply in_map_iff. exists (x, y). split; [reflexivity|].
      apply in_cells. rewrite !in_zrange. lia.
  - intros [xc yc] Hcell. apply in_cells in Hcell as [Hcx Hcy]. apply in_zrange in Hcx, Hcy. cbn [fst snd].
    assert (NoDup (rect_pts (xc * sx + ox) (yc * sy + oy) fx fy)) as Hn by (apply cells_nodup; apply zrange_nodup).
    assert (forall p q, In p (rect_pts (xc * sx + ox) (yc * sy + oy) fx fy) -> In q (rect_pts (xc * sx + ox) (yc * sy + oy) fx fy) -> chan_index X p = chan_index X q -> p = q) as Hinj.
    { intros [a b] [a' b'] Ha Hb E. apply in_cells in Ha as [Ha1 Ha2], Hb as [Hb1 Hb2]. apply in_zrange in Ha1, Ha2, Hb1, Hb2. unfold chan_index in E. cbn [fst snd] in E.
      destruct (chan_index_inj X a b a' b') as [-> ->]; [nia|nia|exact E|reflexivity]. }
    revert Hn Hinj. generalize (rect_pts (xc * sx + ox) (yc * sy + oy) fx fy). induction 1 as [|p l Hp Hl IH]; intros Hinj; cbn; constructor.
    + intros H. apply in_map_iff in H as (q & E & Hq). apply Hp. rewrite <- (Hinj q p (or_intror Hq) (or_introl eq_refl) E). exact Hq.
    + apply IH. intros q r Hq Hr. apply Hinj; right; assumption.
Qed.

Lemma to_nat_mad a b c : 0 <= a -> 0 <= b -> 0 <= c -> Z.to_nat (a * b + c) = (Z.to_nat a * Z.to_nat b + Z.to_nat c)%nat.
Proof. intros. rewrite Z2Nat.inj_add, Z2Nat.inj_mul by nia. reflexivity. Qed.
Lemma mad_lt a b c n : 0 <= a < n -> 0 <= c < b -> a * b + c < n * b.
Proof. intros. nia. Qed.

(** Connection number of component [k] of point (dx, dy) of the field of output channel (xc, yc) *)
Lemma rect_nth X cd fx fy sx sy ox oy xo yo xc yc dx dy k : 0 <= xc < xo -> 0 <= yc < yo -> 0 <= dx < fx -> 0 <= dy < fy -> 0 <= k < cd ->
  nth (Z.to_nat ((((yc * xo + xc) * fy + dy) * fx + dx) * cd + k)) (rect_list X cd fx fy sx sy ox oy xo yo) 0 = ((yc * sy + oy + dy) * X + (xc * sx + ox + dx)) * cd + k.
Proof.
  intros Hx Hy Hdx Hdy Hk. unfold rect_list.
  pose proof (mad_lt yc xo xc yo Hy Hx) as N2. pose proof (mad_lt dy fx dx fy Hdy Hdx) as M2.
  assert (0 <= yc * xo + xc) as N1 by nia. assert (0 <= dy * fx + dx) as M1 by nia. assert (0 < fx * fy) as F by nia.
  pose proof (mad_lt (yc * xo + xc) (fx * fy) (dy * fx + dx) (yo * xo) (conj N1 N2) ltac:(lia)) as O2.
  assert (0 <= (yc * xo + xc) * (fx * fy)) as O1 by nia.
  assert (forall c, length (map (chan_index X) (rect_pts (fst c * sx + ox) (snd c * sy + oy) fx fy)) = Z.to_nat (fx * fy)) as Hlen.
  { intros c. rewrite map_length. rewrite <- (rect_pts_length (fst c * sx + ox) (snd c * sy + oy) fx fy) by lia. lia. }
  replace (Z.to_nat ((((yc * xo + xc) * fy + dy) * fx + dx) * cd + k))
    with ((Z.to_nat (yc * xo + xc) * Z.to_nat (fx * fy) + Z.to_nat (dy * fx + dx)) * Z.to_nat cd + Z.to_nat k)%nat.
  2:{ rewrite <- to_nat_mad by lia. rewrite <- to_nat_mad by lia. f_equal. ring. }
  rewrite (flat_map_nth _ (Z.to_nat cd) _ _ _ _ 0); [|intros; apply block_length| |lia].
  2:{ rewrite (flat_map_length _ _ (Z.to_nat (fx * fy))) by (intros; apply Hlen). rewrite cells_length, !zrange_length, !Z.sub_0_r.
      rewrite <- (Z2Nat.inj_mul yo xo) by lia. rewrite <- (Z2Nat.inj_mul (yo * xo)) by nia. rewrite <- to_nat_mad by lia. lia. }
  rewrite (flat_map_nth _ (Z.to_nat (fx * fy)) _ _ _ _ (0, 0)); [|intros; apply Hlen| |lia].
  2:{ rewrite cells_length, !zrange_length, !Z.sub_0_r. rewrite <- Z2Nat.inj_mul by lia. lia. }
  assert (forall xs ys i j, (i < length xs)%nat -> (j < length ys)%nat -> nth (j * length xs + i) (cells xs ys) (0, 0) = (nth i xs 0, nth j ys 0)) as Hcell.
  { intros xs ys i j Hi Hj. unfold cells. rewrite (flat_map_nth _ (length xs) _ _ _ _ 0); [|intros; apply map_length|exact Hj|exact Hi].
    rewrite (map_nth_in _ _ _ _ 0) by exact Hi. reflexivity. }
  assert (nth (Z.to_nat (yc * xo + xc)) (cells (zrange 0 xo) (zrange 0 yo)) (0, 0) = (xc, yc)) as ->.
  { replace (Z.to_nat (yc * xo + xc)) with (Z.to_nat yc * length (zrange 0 xo) + Z.to_nat xc)%nat by (rewrite zrange_length, Z.sub_0_r, to_nat_mad by lia; reflexivity).
    rewrite Hcell by (rewrite zrange_length; lia). rewrite !zrange_nth by lia. f_equal; lia. }
  cbn [fst snd]. rewrite (map_nth_in _ _ _ _ (0, 0)).
  2:{ assert (length (rect_pts (xc * sx + ox) (yc * sy + oy) fx fy) = Z.to_nat (fx * fy)) as -> by (rewrite <- (rect_pts_length (xc * sx + ox) (yc * sy + oy) fx fy) by lia; lia). lia. }
  assert (nth (Z.to_nat (dy * fx + dx)) (rect_pts (xc * sx + ox) (yc * sy + oy) fx fy) (0, 0) = (xc * sx + ox + dx, yc * sy + oy + dy)) as ->.
  { unfold rect_pts. replace (Z.to_nat (dy * fx + dx)) with (Z.to_nat dy * length (zrange (xc * sx + ox) (xc * sx + ox + fx)) + Z.to_nat dx)%nat
      by (rewrite zrange_length; replace (xc * sx + ox + fx - (xc * sx + ox)) with fx by lia; rewrite to_nat_mad by lia; reflexivity).
    rewrite Hcell by (rewrite zrange_length; lia). rewrite !zrange_nth by lia. f_equal; lia. }
  unfold chan_index, block. cbn [fst snd]. rewrite zrange_nth by lia. lia.
Qed.

(** Acceptance and result of the constructor, for positive parameters *)
Lemma rect_init_ok X Y fx fy sx sy cd ic : 0 < fx -> 0 < fy -> 0 < sx -> 0 < sy -> 0 < cd ->
  let xo := (X - fx) / sx + 1 in let yo := (Y - fy) / sy + 1 in
  rect_init X Y fx fy sx sy cd ic =
    if X <? fx then SErr SFieldTooLarge else if Y <? fy then SErr SFieldTooLarge else
    if negb ((X - fx) mod sx =? 0) && negb ic then SErr SNotCovered else if negb ((Y - fy) mod sy =? 0) && negb ic then SErr SNotCovered else
    SOk (mkB (cd * X * Y) (rect_list X cd fx fy sx sy 0 0 xo yo) (cd * fx * fy) cd, (xo, yo)).
Proof.
  intros Hfx Hfy Hsx Hsy Hcd xo yo. unfold rect_init, sguard. destruct (Z.ltb_spec X fx) as [|HX]; [reflexivity|]. destruct (Z.ltb_spec Y fy) as [|HY]; [reflexivity|].
  assert (forall n f sp, 0 < sp -> f <= n -> unused n f sp = SOk ((n - f) mod sp)) as Hu.
  { intros n f sp Hs Hf. unfold unused, pymod. destruct (Z.ltb_spec 0 (n - f)); [rewrite (proj2 (Z.eqb_neq sp 0)) by lia; reflexivity|].
    destruct (Z.ltb_spec (n - f) 0); [lia|]. replace (n - f) with 0 by lia. rewrite Z.mod_0_l by lia. reflexivity. }
  rewrite !Hu by lia. unfold pydiv. rewrite (proj2 (Z.eqb_neq sx 0)), (proj2 (Z.eqb_neq sy 0)) by lia. cbn [sbind].
  destruct (negb ((X - fx) mod sx =? 0) && negb ic); [reflexivity|]. destruct (negb ((Y - fy) mod sy =? 0) && negb ic); [reflexivity|].
  fold xo yo.
  assert (0 < xo /\ (xo - 1) * sx + 0 + fx <= X) as [Hx1 Hx2].
  { unfold xo. pose proof (Z.div_pos (X - fx) sx ltac:(lia) ltac:(lia)). pose proof (Z.mul_div_le (X - fx) sx ltac:(lia)). split; lia. }
  assert (0 < yo /\ (yo - 1) * sy + 0 + fy <= Y) as [Hy1 Hy2].
  { unfold yo. pose proof (Z.div_pos (Y - fy) sy ltac:(lia) ltac:(lia)). pose proof (Z.mul_div_le (Y - fy) sy ltac:(lia)). split; lia. }
  rewrite (rect_loop_ok _ _ _ _ _ sx sy 0 0) by (first [intros c; lia|lia]). cbn [sbind]. pose proof (rect_list_length X cd fx fy sx sy 0 0 xo yo ltac:(lia) ltac:(lia) ltac:(lia) ltac:(lia) ltac:(lia)) as L.
  rewrite buffer_exact by exact L. cbn [sbind]. rewrite (ch_init_ok _ _ _ _ (xo * yo) (X * Y)); [reflexivity| | |nia|lia|exact L|lia].
  - intros E. rewrite E in L. cbn in L. assert (0 < cd * fx) by nia. assert (0 < cd * fx * fy) by nia. assert (0 < xo * yo) by nia. nia.
  - intros c Hc. apply (rect_list_range X Y cd fx fy sx sy 0 0 xo yo) in Hc; lia.
Qed.
