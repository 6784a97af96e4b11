(** The double-cover switchboards: rectangular and rhombic fields. *)
From Coq Require Import List ZArith Bool Permutation Lia.
From Verif Require Import SwitchModel SwitchProofs SwitchGeom.
Import ListNotations.
Open Scope Z_scope.

Lemma unused_ok n f sp : 0 < sp -> f <= n -> unused n f sp = SOk ((n - f) mod sp).
Proof.
  intros Hs Hf. unfold unused, pymod. destruct (Z.ltb_spec 0 (n - f)); [rewrite (proj2 (Z.eqb_neq sp 0)) by lia; reflexivity|].
  destruct (Z.ltb_spec (n - f) 0); [lia|]. replace (n - f) with 0 by lia. rewrite Z.mod_0_l by lia. reflexivity.
Qed.

(** ** Double cover by rectangles *)
Definition drect_list (X cd sx sy xl yl : Z) : list Z :=
  rect_list X cd (2 * sx) (2 * sy) (2 * sx) (2 * sy) 0 0 xl yl ++ rect_list X cd (2 * sx) (2 * sy) (2 * sx) (2 * sy) sx sy (xl - 1) (yl - 1).
Lemma drect_init_ok X Y sx sy cd ic : 0 < sx -> 0 < sy -> 0 < cd ->
  let xl := X / (2 * sx) in let yl := Y / (2 * sy) in
  drect_init X Y (2 * sx) (2 * sy) cd ic =
    if X <? 2 * sx then SErr SFieldTooLarge else if Y <? 2 * sy then SErr SFieldTooLarge else
    if negb ((X - 2 * sx) mod sx =? 0) && negb ic then SErr SNotCovered else if sx <=? X - xl * (2 * sx) then SErr SSameRows else
    if negb ((Y - 2 * sy) mod sy =? 0) && negb ic then SErr SNotCovered else if sy <=? Y - yl * (2 * sy) then SErr SSameRows else
    SOk (mkB (cd * X * Y) (drect_list X cd sx sy xl yl) (cd * (2 * sx) * (2 * sy)) cd, (xl, yl)).
Proof.
  intros Hsx Hsy Hcd xl yl. unfold drect_init.
  assert (forall a, 2 * a mod 2 = 0 /\ 2 * a / 2 = a) as H2.
  { intros a. rewrite (Z.mul_comm 2 a), Z.mod_mul, Z.div_mul by lia. auto. }
  rewrite !(proj1 (H2 _)), !(proj2 (H2 _)). cbn [Z.eqb negb sguard]. unfold sguard.
  destruct (Z.ltb_spec X (2 * sx)) as [|HX]; [reflexivity|]. destruct (Z.ltb_spec Y (2 * sy)) as [|HY]; [reflexivity|].
  rewrite !unused_ok by lia. unfold pydiv. rewrite (proj2 (Z.eqb_neq (2 * sx) 0)), (proj2 (Z.eqb_neq (2 * sy) 0)) by lia. cbn [sbind]. fold xl yl.
  destruct (negb ((X - 2 * sx) mod sx =? 0) && negb ic); [reflexivity|]. destruct (Z.leb_spec sx (X - xl * (2 * sx))); [reflexivity|].
  destruct (negb ((Y - 2 * sy) mod sy =? 0) && negb ic); [reflexivity|]. destruct (Z.leb_spec sy (Y - yl * (2 * sy))); [reflexivity|].
  assert (0 < xl /\ xl * (2 * sx) <= X) as [Hx1 Hx2].
  { unfold xl. pose proof (Z.div_le_lower_bound X (2 * sx) 1 ltac:(lia) ltac:(lia)). pose proof (Z.mul_div_le X (2 * sx) ltac:(lia)). split; lia. }
  assert (0 < yl /\ yl * (2 * sy) <= Y) as [Hy1 Hy2].
  { unfold yl. pose proof (Z.div_le_lower_bound Y (2 * sy) 1 ltac:(lia) ltac:(lia)). pose proof (Z.mul_div_le Y (2 * sy) ltac:(lia)). split; lia. }
  rewrite (rect_loop_ok _ _ _ _ _ (2 * sx) (2 * sy) 0 0) by (first [intros c; lia|lia]). cbn [sbind].
  rewrite (rect_loop_ok _ _ _ _ _ (2 * sx) (2 * sy) sx sy) by (first [intros c; lia|lia]). cbn [sbind]. fold (drect_list X cd sx sy xl yl).
  assert (Z.of_nat (length (drect_list X cd sx sy xl yl)) = (xl * yl + (xl - 1) * (yl - 1)) * (cd * (2 * sx) * (2 * sy))) as L.
  { unfold drect_list. rewrite app_length, Nat2Z.inj_add, !rect_list_length by lia. ring. }
  rewrite buffer_exact by exact L. cbn [sbind].
  rewrite (ch_init_ok _ _ _ _ (xl * yl + (xl - 1) * (yl - 1)) (X * Y)); [reflexivity| | |nia|lia|exact L|lia].
  - intros E. rewrite E in L. change (Z.of_nat (length [])) with 0 in L. assert (0 < xl * yl + (xl - 1) * (yl - 1)) as P1 by nia. assert (0 < cd * (2 * sx) * (2 * sy)) as P2 by (repeat apply Z.mul_pos_pos; lia).
    pose proof (Z.mul_pos_pos _ _ P1 P2). lia.
  - intros c Hc. apply in_app_or in Hc as [Hc|Hc]; [apply (rect_list_range X Y) in Hc|apply (rect_list_range X Y) in Hc]; lia.
Qed.
Lemma drect_range X Y cd sx sy xl yl : 0 < sx -> 0 < sy -> 0 < cd -> xl * (2 * sx) <= X -> yl * (2 * sy) <= Y -> in_range (cd * X * Y) (drect_list X cd sx sy xl yl).
Proof. intros H1 H2 H3 H4 H5 c Hc. apply in_app_or in Hc as [Hc|Hc]; [apply (rect_list_range X Y) in Hc|apply (rect_list_range X Y) in Hc]; lia. Qed.

(** Cells of a tiling with step [w] and offset [o]: a point lies in exactly one cell, if within the tiled range. *)
Lemma tile_count X Y cd w h ox oy xo yo x y k : 0 < cd -> 0 <= k < cd -> 0 < w -> 0 < h -> 0 <= ox -> 0 <= oy -> 0 <= xo -> 0 <= yo ->
  xo * w + ox <= X -> yo * h + oy <= Y -> 0 <= x < X ->
  count_occ Z.eq_dec (rect_list X cd w h w h ox oy xo yo) ((y * X + x) * cd + k) =
  if (ox <=? x) && (x <? ox + xo * w) && (oy <=? y) && (y <? oy + yo * h) then 1%nat else 0%nat.
Proof.
  intros Hcd Hk Hw Hh Hox Hoy Hxo Hyo HX HY Hx. rewrite (rect_count X Y) by lia.
  destruct ((ox <=? x) && (x <? ox + xo * w) && (oy <=? y) && (y <? oy + yo * h)) eqn:E.
  - rewrite !andb_true_iff, !Z.leb_le, !Z.ltb_lt in E. change 1%nat with (length [((x - ox) / w, (y - oy) / h)]).
    apply filter_exact; [apply cells_nodup; apply zrange_nodup|repeat constructor; intros []|]. intros [xc yc]. rewrite in_cells, !in_zrange. cbn [fst snd In].
    rewrite !andb_true_iff, !Z.leb_le, !Z.ltb_lt. split.
    + intros [_ H]. left. f_equal; symmetry; [apply Z.div_unique with (r := x - ox - w * xc)|apply Z.div_unique with (r := y - oy - h * yc)]; lia.
    + intros [[= <- <-]|[]]. pose proof (Z.div_mod (x - ox) w ltac:(lia)). pose proof (Z.mod_pos_bound (x - ox) w Hw).
      pose proof (Z.div_mod (y - oy) h ltac:(lia)). pose proof (Z.mod_pos_bound (y - oy) h Hh).
      pose proof (Z.div_pos (x - ox) w ltac:(lia) Hw). pose proof (Z.div_pos (y - oy) h ltac:(lia) Hh).
      pose proof (Z.div_lt_upper_bound (x - ox) w xo Hw ltac:(lia)). pose proof (Z.div_lt_upper_bound (y - oy) h yo Hh ltac:(lia)). lia.
  - change 0%nat with (length (@nil (Z * Z))). apply filter_exact; [apply cells_nodup; apply zrange_nodup|constructor|]. intros [xc yc]. rewrite in_cells, !in_zrange. cbn [fst snd In].
    split; [|tauto]. intros [[H1 H2] H]. rewrite !andb_true_iff, !Z.leb_le, !Z.ltb_lt in H. rewrite <- not_true_iff_false, !andb_true_iff, !Z.leb_le, !Z.ltb_lt in E.
    apply E. assert (xc * w <= (xo - 1) * w) by nia. assert (yc * h <= (yo - 1) * h) by nia. assert (0 <= xc * w) by nia. assert (0 <= yc * h) by nia. lia.
Qed.

(** ** Rhombic fields *)
Ltac Zify.zify_post_hook ::= Z.to_euclidean_division_equations.

Lemma field_width_spec d iy : 0 < d -> 0 <= iy < 2 * d - 1 -> field_width d iy = if iy <=? d - 1 then iy + 1 else 2 * d - 1 - iy.
Proof.
  intros Hd Hi. unfold field_width. destruct (Z.leb_spec iy (d - 1)); [reflexivity|].
  replace (iy mod d) with (iy - d) by (apply Z.mod_unique with (q := 1); lia). lia.
Qed.

(** A lattice point in the plane: (2x, 2y) for point (x, y) of the long rows, (2x+1, 2y+1) for the short rows. *)
Definition lattice (X Y px py : Z) : Prop := 0 <= px <= 2 * X - 2 /\ 0 <= py <= 2 * Y - 2 /\ px mod 2 = py mod 2.
(** Its channel: the long rows come first *)
Definition plane_chan (X Y px py : Z) : Z := if py mod 2 =? 0 then py / 2 * X + px / 2 else py / 2 * (X - 1) + px / 2 + X * Y.
Lemma plane_chan_range X Y px py : lattice X Y px py -> 0 <= plane_chan X Y px py < 2 * X * Y - X - Y + 1.
Proof.
  intros (H1 & H2 & H3). unfold plane_chan. destruct (Z.eqb_spec (py mod 2) 0) as [E|E].
  - assert (0 <= py / 2 <= Y - 1) by lia. assert (0 <= px / 2 <= X - 1) by lia. nia.
  - assert (0 <= py / 2 <= Y - 2) by lia. assert (0 <= px / 2 <= X - 2) by lia. nia.
Qed.
Lemma plane_chan_inj X Y px py qx qy : lattice X Y px py -> lattice X Y qx qy -> plane_chan X Y px py = plane_chan X Y qx qy -> px = qx /\ py = qy.
Proof.
  intros (H1 & H2 & H3) (K1 & K2 & K3). unfold plane_chan. destruct (Z.eqb_spec (py mod 2) 0) as [E|E], (Z.eqb_spec (qy mod 2) 0) as [F|F]; intros H.
  - assert (px / 2 = qx / 2 /\ py / 2 = qy / 2) as [A B] by (apply (chan_index_inj X); lia). lia.
  - exfalso. assert (0 <= py / 2 <= Y - 1) by lia. assert (0 <= px / 2 <= X - 1) by lia. assert (0 <= qy / 2 <= Y - 2) by lia. assert (0 <= qx / 2 <= X - 2) by lia. nia.
  - exfalso. assert (0 <= py / 2 <= Y - 2) by lia. assert (0 <= px / 2 <= X - 2) by lia. assert (0 <= qy / 2 <= Y - 1) by lia. assert (0 <= qx / 2 <= X - 1) by lia. nia.
  - assert (px / 2 = qx / 2 /\ py / 2 = qy / 2) as [A B] by (apply (chan_index_inj (X - 1)); lia). lia.
Qed.
Lemma plane_chan_onto X Y c : 0 <= c < 2 * X * Y - X - Y + 1 -> 0 < X -> 0 < Y -> exists px py, lattice X Y px py /\ plane_chan X Y px py = c.
Proof.
  intros Hc HX HY. destruct (Z.lt_ge_cases c (X * Y)) as [H|H].
  - exists (2 * (c mod X)), (2 * (c / X)). pose proof (Z.mod_pos_bound c X HX) as M. pose proof (Z.div_mod c X ltac:(lia)) as D.
    assert (0 <= c / X) by (apply Z.div_pos; lia). assert (c / X < Y) by (apply Z.div_lt_upper_bound; lia).
    set (q := c / X) in *. set (r := c mod X) in *. clearbody q r. split; [unfold lattice; lia|]. unfold plane_chan.
    destruct (Z.eqb_spec (2 * q mod 2) 0) as [E|E]; [|lia]. replace (2 * q / 2) with q by lia. replace (2 * r / 2) with r by lia. lia.
  - assert (1 < X) as HX1 by nia. set (e := c - X * Y). assert (0 <= e < (X - 1) * (Y - 1)) as He by (unfold e; lia).
    exists (2 * (e mod (X - 1)) + 1), (2 * (e / (X - 1)) + 1). pose proof (Z.mod_pos_bound e (X - 1) ltac:(lia)) as M. pose proof (Z.div_mod e (X - 1) ltac:(lia)) as D.
    assert (0 <= e / (X - 1)) by (apply Z.div_pos; lia). assert (e / (X - 1) < Y - 1) by (apply Z.div_lt_upper_bound; lia).
    assert (c = e + X * Y) as Ec by (unfold e; lia). clearbody e. subst c. clear H Hc.
    set (q := e / (X - 1)) in *. set (r := e mod (X - 1)) in *. clearbody q r. split; [unfold lattice; lia|]. unfold plane_chan.
    destruct (Z.eqb_spec ((2 * q + 1) mod 2) 0) as [E|E]; [lia|]. replace ((2 * q + 1) / 2) with q by lia. replace ((2 * r + 1) / 2) with r by lia. lia.
Qed.

Section Rhomb.
  (** d = 2h; X = ha + 2h + (1 - s), Y = hb + 2h + s *)
  Variables X Y h a b s cd : Z.
  Hypothesis (Hh : 0 < h) (Ha : 0 <= a) (Hb : 0 <= b) (Hs : s = 0 \/ s = 1) (Hcd : 0 < cd)
             (HX : X = h * a + 2 * h + (1 - s)) (HY : Y = h * b + 2 * h + s).
  Notation d := (2 * h).

  Definition rchan (x y : Z) : Z := if y mod 2 =? 0 then y / 2 * X + (x + s) else y / 2 * (X - 1) + x + X * Y.
  Definition width (iy : Z) : Z := if iy <=? d - 1 then iy + 1 else 2 * d - 1 - iy.
  Definition x0 (xc : Z) : Z := (1 + xc) * h - s.
  Definition y0 (yc : Z) : Z := yc * d + s.
  Definition xs (xc iy : Z) : list Z := zrange (x0 xc - width iy / 2) (x0 xc + width iy / 2 + width iy mod 2).
  Definition rpts (xc yc : Z) : list (Z * Z) := flat_map (fun iy => map (fun x => (x, y0 yc + iy)) (xs xc iy)) (zrange 0 (2 * d - 1)).
  Definition rchans (c : Z * Z) : list Z := map (fun p => rchan (fst p) (snd p)) (rpts (fst c) (snd c)).

  Lemma width_bounds iy : 0 <= iy < 2 * d - 1 -> 1 <= width iy <= d /\ (width iy mod 2 = (iy + 1) mod 2) /\ (width iy = d -> iy = d - 1).
  Proof. intros H. unfold width. destruct (Z.leb_spec iy (d - 1)); lia. Qed.
  Lemma in_rpts xc yc x y : In (x, y) (rpts xc yc) <-> 0 <= y - y0 yc < 2 * d - 1 /\ x0 xc - width (y - y0 yc) / 2 <= x < x0 xc + width (y - y0 yc) / 2 + width (y - y0 yc) mod 2.
  Proof.
    unfold rpts. rewrite in_flat_map. split.
    - intros (iy & Hi & H). apply in_map_iff in H as (x' & [= <- <-] & Hx). apply in_zrange in Hi. unfold xs in Hx. apply in_zrange in Hx.
      replace (y0 yc + iy - y0 yc) with iy by lia. auto.
    - intros [H1 H2]. exists (y - y0 yc). split; [apply in_zrange; lia|]. apply in_map_iff. exists x. split; [f_equal; lia|]. unfold xs. apply in_zrange. exact H2.
  Qed.
  (** Plane coordinates of the point visited as (x, y) *)
  Definition plane_x (x y : Z) : Z := if y mod 2 =? 0 then 2 * (x + s) else 2 * x + 1.
  Lemma rchan_plane x y : rchan x y = plane_chan X Y (plane_x x y) y.
  Proof.
    unfold rchan, plane_chan, plane_x. destruct (y mod 2 =? 0).
    - replace (2 * (x + s) / 2) with (x + s) by lia. lia.
    - replace ((2 * x + 1) / 2) with x by lia. lia.
  Qed.
  Definition cx (xc : Z) : Z := (1 + xc) * d - s.
  Definition cy (yc : Z) : Z := (1 + yc) * d - (1 - s).

  Lemma rpts_bounds xc yc x y : 0 <= xc <= a -> 0 <= yc <= b -> In (x, y) (rpts xc yc) ->
    0 <= y <= 2 * Y - 2 /\ (y mod 2 = 0 -> 0 <= x + s < X) /\ (y mod 2 <> 0 -> 0 <= x < X - 1).
  Proof.
    intros Hx Hy H. apply in_rpts in H as [H1 H2]. destruct (width_bounds (y - y0 yc) H1) as (W1 & W2 & W3).
    assert (h <= (1 + xc) * h <= h * a + h) as B1 by nia. assert (0 <= yc * d <= 2 * h * b) as B2 by nia.
    unfold x0, y0 in *. set (A := (1 + xc) * h) in *. set (B := yc * d) in *. assert (B mod 2 = 0) as B3 by (unfold B; replace (yc * d) with (yc * h * 2) by ring; apply Z.mod_mul; lia).
    clearbody A B. set (w := width (y - (B + s))) in *. clearbody w. assert (h * a + 2 * h + (1 - s) = X) as HX' by lia. assert (h * b + 2 * h + s = Y) as HY' by lia.
    set (ha := h * a) in *. clearbody ha. replace (2 * h * b) with (2 * (h * b)) in B2 by ring. set (hb := h * b) in *. clearbody hb. clear HX HY.
    split; [lia|]. destruct Hs as [-> | ->]; split; intros; destruct (Z.eq_dec w d) as [Ew|Ew]; try (specialize (W3 Ew)); lia.
  Qed.
  Lemma rpts_lattice xc yc x y : 0 <= xc <= a -> 0 <= yc <= b -> In (x, y) (rpts xc yc) -> lattice X Y (plane_x x y) y.
  Proof.
    intros Hx Hy H. destruct (rpts_bounds xc yc x y Hx Hy H) as (H1 & H2 & H3). unfold lattice, plane_x. destruct (Z.eqb_spec (y mod 2) 0) as [E|E].
    - specialize (H2 E). split; [lia|]. split; [lia|]. lia.
    - specialize (H3 E). split; [lia|]. split; [lia|]. lia.
  Qed.
  (** The field is a square rotated by 45 degrees. *)
  Lemma in_rchans xc yc px py : 0 <= xc <= a -> 0 <= yc <= b -> lattice X Y px py ->
    (In (plane_chan X Y px py) (rchans (xc, yc)) <-> Z.abs (px - cx xc) + Z.abs (py - cy yc) <= d - 1).
  Proof.
    intros Hx Hy HL. unfold rchans. cbn [fst snd]. rewrite in_map_iff.
    assert (yc * d mod 2 = 0) as E2 by (replace (yc * d) with (yc * h * 2) by ring; apply Z.mod_mul; lia).
    assert (cx xc = 2 * x0 xc + s) as Ecx by (unfold cx, x0; destruct Hs; lia).
    split.
    - intros ([x y] & E & H). cbn [fst snd] in E. pose proof (rpts_lattice xc yc x y Hx Hy H) as HL'. rewrite rchan_plane in E.
      destruct (plane_chan_inj X Y _ _ _ _ HL' HL E) as [<- <-]. apply in_rpts in H as [H1 H2]. rewrite Ecx. unfold cy, y0 in *. replace ((1 + yc) * d) with (yc * d + d) by ring.
      set (B := yc * d) in *. clearbody B. set (xx := x0 xc) in *. clearbody xx. clear Ecx HL HL' E HX HY. unfold plane_x, width in *.
      destruct (Z.eqb_spec (y mod 2) 0), (Z.leb_spec (y - (B + s)) (d - 1)); destruct Hs as [-> | ->]; lia.
    - intros H. destruct HL as (L1 & L2 & L3). exists (if py mod 2 =? 0 then px / 2 - s else px / 2, py). cbn [fst snd]. split.
      + rewrite rchan_plane. f_equal. unfold plane_x. destruct (Z.eqb_spec (py mod 2) 0); lia.
      + apply in_rpts. rewrite Ecx in H. unfold cy, y0 in *. replace ((1 + yc) * d) with (yc * d + d) in H by ring.
        set (B := yc * d) in *. clearbody B. set (xx := x0 xc) in *. clearbody xx. clear Ecx L1 L2 HX HY. split; [lia|]. unfold width.
        destruct (Z.eqb_spec (py mod 2) 0), (Z.leb_spec (py - (B + s)) (d - 1)); destruct Hs as [-> | ->]; lia.
  Qed.

  Lemma rpts_nodup xc yc : NoDup (rpts xc yc).
  Proof.
    apply flat_map_nodup; [apply zrange_nodup| |].
    - intros iy _. apply FinFun.Injective_map_NoDup; [intros u v [= H]; exact H|apply zrange_nodup].
    - intros i j p _ _ Hi Hj. apply in_map_iff in Hi as (x1 & <- & _). apply in_map_iff in Hj as (x2 & [= _ H] & _). lia.
  Qed.
  Lemma rchans_nodup xc yc : 0 <= xc <= a -> 0 <= yc <= b -> NoDup (rchans (xc, yc)).
  Proof.
    intros Hx Hy. unfold rchans. cbn [fst snd]. pose proof (rpts_nodup xc yc) as Hn. pose proof (fun x y => rpts_lattice xc yc x y Hx Hy) as HL.
    revert Hn HL. generalize (rpts xc yc). induction 1 as [|[x y] l Hp Hl IH]; intros HL; cbn; constructor.
    - intros H. apply in_map_iff in H as ([x' y'] & E & Hq). cbn [fst snd] in E. apply Hp. rewrite !rchan_plane in E.
      destruct (plane_chan_inj X Y _ _ _ _ (HL x' y' (or_intror Hq)) (HL x y (or_introl eq_refl)) E) as [E1 ->].
      assert (x' = x) as -> by (revert E1; unfold plane_x; destruct (y mod 2 =? 0); lia). exact Hq.
    - apply IH. intros x' y' Hq. apply HL. right. exact Hq.
  Qed.
  Lemma rpts_length xc yc : Z.of_nat (length (rpts xc yc)) = d * d.
  Proof.
    assert (forall m, (Z.of_nat m <= 2 * d - 1) ->
      2 * Z.of_nat (length (flat_map (fun iy => map (fun x => (x, y0 yc + iy)) (xs xc iy)) (map (fun i => 0 + Z.of_nat i) (seq 0 m)))) =
      if Z.of_nat m <=? d then Z.of_nat m * (Z.of_nat m + 1) else d * (d + 1) + (Z.of_nat m - d) * (3 * d - 1 - Z.of_nat m)) as K.
    { induction m as [|m IH]; intros Hm.
      - change (Z.of_nat 0) with 0. destruct (Z.leb_spec 0 d); [reflexivity|lia].
      - specialize (IH ltac:(lia)). rewrite seq_S, map_app, flat_map_app, app_length, Nat2Z.inj_add. cbn [map flat_map].
        rewrite app_nil_r, map_length. rewrite Z.mul_add_distr_l, IH. clear IH. unfold xs. rewrite zrange_length.
        replace (0 + Z.of_nat (0 + m)) with (Z.of_nat m) by lia. replace (Z.of_nat (S m)) with (Z.of_nat m + 1) in * by lia.
        set (z := Z.of_nat m) in *. assert (0 <= z) as Hz by (unfold z; lia). clearbody z. destruct (width_bounds z ltac:(lia)) as (W1 & _).
        rewrite Z2Nat.id by lia.
        replace (x0 xc + width z / 2 + width z mod 2 - (x0 xc - width z / 2)) with (width z) by lia. unfold width.
        destruct (Z.leb_spec z d), (Z.leb_spec (z + 1) d), (Z.leb_spec z (d - 1)); try lia.
        + assert (z = d) as -> by lia. lia. }
    unfold rpts, zrange. specialize (K (Z.to_nat (2 * d - 1 - 0)) ltac:(lia)). replace (Z.of_nat (Z.to_nat (2 * d - 1 - 0))) with (2 * d - 1) in K by lia.
    destruct (Z.leb_spec (2 * d - 1) d); lia.
  Qed.

  Lemma rhomb_field_ok xc yc : 0 <= xc <= a -> 0 <= yc <= b -> rhomb_field X Y d cd s xc yc = SOk (flat_map (block cd) (rchans (xc, yc))).
  Proof.
    intros Hx Hy. unfold rhomb_field. replace ((1 + xc) * d / 2 - s) with (x0 xc) by (unfold x0; replace ((1 + xc) * d) with ((1 + xc) * h * 2) by ring; rewrite Z.div_mul; lia).
    fold (y0 yc). rewrite (for_ok _ _ (fun iy => flat_map (fun x => block cd (rchan x (y0 yc + iy))) (xs xc iy))).
    - f_equal. unfold rchans, rpts. cbn [fst snd]. rewrite flat_map_map, flat_map_flat_map. apply flat_map_ext'. intros iy _. rewrite flat_map_map. reflexivity.
    - intros iy Hi. pose proof Hi as Hi'. apply in_zrange in Hi. rewrite field_width_spec by lia. fold (width iy). fold (xs xc iy). apply for_ok. intros x Hxx.
      destruct (rpts_bounds xc yc x (y0 yc + iy) Hx Hy) as (B1 & B2 & B3).
      { unfold rpts. apply in_flat_map. exists iy. split; [exact Hi'|]. apply in_map_iff. exists x. auto. }
      unfold rhomb_conns, rchan, chan_conns. destruct (Z.eqb_spec ((y0 yc + iy) mod 2) 0) as [E|E].
      + specialize (B2 E). replace (if s =? 1 then x + 1 else x) with (x + s) by (destruct Hs as [-> | ->]; cbn; lia). rewrite image_to_index_ok by lia. reflexivity.
      + specialize (B3 E). rewrite image_to_index_ok by lia. cbn [sbind]. reflexivity.
  Qed.
  Definition rhomb_list : list Z := flat_map (block cd) (flat_map rchans (cells (zrange 0 (a + 1)) (zrange 0 (b + 1)))).
  Lemma rhomb_cell xc yc : In (xc, yc) (cells (zrange 0 (a + 1)) (zrange 0 (b + 1))) <-> 0 <= xc <= a /\ 0 <= yc <= b.
  Proof. rewrite in_cells, !in_zrange. lia. Qed.
  Lemma rhomb_loop_ok : for_ (zrange 0 (b + 1)) (fun yc => for_ (zrange 0 (a + 1)) (fun xc => rhomb_field X Y d cd s xc yc)) = SOk rhomb_list.
  Proof.
    rewrite (for_ok _ _ (fun yc => flat_map (fun xc => flat_map (block cd) (rchans (xc, yc))) (zrange 0 (a + 1)))).
    - f_equal. rewrite (cells_flat (fun xc yc => flat_map (block cd) (rchans (xc, yc)))). unfold rhomb_list. rewrite flat_map_flat_map.
      apply flat_map_ext'. intros [xc yc] _. reflexivity.
    - intros yc Hy. apply in_zrange in Hy. apply for_ok. intros xc Hx. apply in_zrange in Hx. apply rhomb_field_ok; lia.
  Qed.
  Lemma rchans_range : in_range (2 * X * Y - X - Y + 1) (flat_map rchans (cells (zrange 0 (a + 1)) (zrange 0 (b + 1)))).
  Proof.
    intros c Hc. apply in_flat_map in Hc as ([xc yc] & Hcell & Hc). apply rhomb_cell in Hcell as [Hx Hy]. unfold rchans in Hc. apply in_map_iff in Hc as ([x y] & <- & Hp).
    cbn [fst snd] in *. rewrite rchan_plane. apply plane_chan_range. apply (rpts_lattice xc yc); assumption.
  Qed.
  Lemma rhomb_list_length : Z.of_nat (length rhomb_list) = (a + 1) * (b + 1) * (cd * (d * d)).
  Proof.
    unfold rhomb_list. rewrite (flat_map_length _ _ (Z.to_nat cd)) by (intros; apply block_length).
    rewrite (flat_map_length _ _ (Z.to_nat (d * d))).
    - rewrite cells_length, !zrange_length. rewrite !Nat2Z.inj_mul, !Z2Nat.id by lia. ring.
    - intros [xc yc] _. unfold rchans. rewrite map_length. cbn [fst snd]. rewrite <- (rpts_length xc yc). lia.
  Qed.
  Lemma rhomb_range : in_range ((2 * X * Y - X - Y + 1) * cd) rhomb_list.
  Proof. intros c Hc. rewrite Z.mul_comm. eapply blocks_range; [exact Hcd|exact rchans_range|exact Hc]. Qed.

  (** How often a lattice point is covered *)
  Definition near (px py : Z) (c : Z * Z) : bool := Z.abs (px - cx (fst c)) + Z.abs (py - cy (snd c)) <=? d - 1.
  Lemma rhomb_count px py k : lattice X Y px py -> 0 <= k < cd ->
    count_occ Z.eq_dec rhomb_list (plane_chan X Y px py * cd + k) = length (filter (near px py) (cells (zrange 0 (a + 1)) (zrange 0 (b + 1)))).
  Proof.
    intros HL Hk. unfold rhomb_list. rewrite count_blocks by exact Hcd.
    replace ((plane_chan X Y px py * cd + k) / cd) with (plane_chan X Y px py) by (apply Z.div_unique with (r := k); lia).
    rewrite count_flat_map.
    - f_equal. apply filter_ext_in. intros [xc yc] Hcell. apply rhomb_cell in Hcell as [Hx Hy]. unfold near. cbn [fst snd].
      pose proof (in_rchans xc yc px py Hx Hy HL) as K. destruct (in_dec Z.eq_dec _ _) as [Hi|Hi].
      + symmetry. apply Z.leb_le. apply K. exact Hi.
      + symmetry. apply Z.leb_gt. apply Z.nle_gt. intros H. apply Hi, K. exact H.
    - intros [xc yc] Hcell. apply rhomb_cell in Hcell as [Hx Hy]. apply rchans_nodup; assumption.
  Qed.
  (** The two candidates *)
  Lemma near_two px py : px mod 2 = py mod 2 -> exists g1 g2, g1 <> g2 /\ forall c, near px py c = true <-> c = g1 \/ c = g2.
  Proof.
    intros Hpar. set (q := (px + py) / d). set (r := (py - px - 2 * s) / d).
    assert (forall xc yc, near px py (xc, yc) = true <-> (xc + yc + 2 = q \/ xc + yc + 2 = q + 1) /\ (yc - xc = r \/ yc - xc = r + 1)) as K.
    { intros xc yc. unfold near, cx, cy. cbn [fst snd]. rewrite Z.leb_le.
      assert (0 <= (px + py) - d * q < d) as Q1 by (unfold q; pose proof (Z.mod_pos_bound (px + py) d ltac:(lia)); pose proof (Z.div_mod (px + py) d ltac:(lia)); lia).
      assert (0 <= (py - px - 2 * s) - d * r < d) as R1 by (unfold r; pose proof (Z.mod_pos_bound (py - px - 2 * s) d ltac:(lia)); pose proof (Z.div_mod (py - px - 2 * s) d ltac:(lia)); lia).
      clearbody q r.
      assert (Z.abs (px - ((1 + xc) * d - s)) + Z.abs (py - ((1 + yc) * d - (1 - s))) <= d - 1 <->
              (d * (xc + yc + 2 - 1) <= px + py <= d * (xc + yc + 2 + 1) - 2) /\ (d * (yc - xc - 1) <= py - px - 2 * s <= d * (yc - xc + 1) - 2)) as ->.
      { clear Q1 R1 HX HY. set (P := d * xc). set (Q := d * yc). replace ((1 + xc) * d) with (d + P) by (unfold P; ring). replace ((1 + yc) * d) with (d + Q) by (unfold Q; ring).
        replace (d * (xc + yc + 2 - 1)) with (P + Q + d) by (unfold P, Q; ring). replace (d * (xc + yc + 2 + 1)) with (P + Q + 3 * d) by (unfold P, Q; ring).
        replace (d * (yc - xc - 1)) with (Q - P - d) by (unfold P, Q; ring). replace (d * (yc - xc + 1)) with (Q - P + d) by (unfold P, Q; ring). clearbody P Q. lia. }
      (* u = px + py is even *)
      assert (forall u m n, u mod 2 = 0 -> 0 <= u - d * n < d -> (d * (m - 1) <= u <= d * (m + 1) - 2 <-> m = n \/ m = n + 1)) as Hblock.
      { clear - Hh. intros u m n Hu Hn. split.
        - intros [H1 H2]. assert (d * (m - 1) < d * (n + 1)) as L1 by lia. assert (d * n < d * (m + 1)) as L2 by lia.
          apply Z.mul_lt_mono_pos_l in L1; [|lia]. apply Z.mul_lt_mono_pos_l in L2; [|lia]. lia.
        - assert (u <= d * n + d - 2) as Hu2.
          { assert (u mod 2 = 0 /\ (d * n) mod 2 = 0) as [U1 U2] by (split; [exact Hu|replace (d * n) with (h * n * 2) by ring; apply Z.mod_mul; lia]).
            set (N := d * n) in *. clearbody N. lia. }
          intros [-> | ->]; set (N := d * n) in *; [replace (d * (n - 1)) with (N - d) by (unfold N; ring); replace (d * (n + 1)) with (N + d) by (unfold N; ring)|
            replace (d * (n + 1 - 1)) with N by (unfold N; ring); replace (d * (n + 1 + 1)) with (N + 2 * d) by (unfold N; ring)]; clearbody N; lia. }
      rewrite (Hblock (px + py) (xc + yc + 2) q) by (try assumption; clear - Hpar; lia).
      rewrite (Hblock (py - px - 2 * s) (yc - xc) r) by (try assumption; clear - Hpar; lia). reflexivity. }
    clearbody q r. destruct (Z.eq_dec ((q - r) mod 2) 0) as [E|E].
    - exists ((q - r) / 2 - 1, (q + r) / 2 - 1), ((q - r) / 2 - 1, (q + r) / 2). split; [intros [= H]; lia|]. intros [xc yc]. rewrite K. clear K HX HY. split.
      + intros [H1 H2]. assert ((xc = (q - r) / 2 - 1 /\ yc = (q + r) / 2 - 1) \/ (xc = (q - r) / 2 - 1 /\ yc = (q + r) / 2)) as [[-> ->]|[-> ->]] by lia; auto.
      + intros [[= -> ->]|[= -> ->]]; lia.
    - exists ((q - r) / 2, (q + r) / 2 - 1 + 1 - 0), ((q - r) / 2 - 1, (q + r) / 2). split; [intros [= H]; lia|]. intros [xc yc]. rewrite K. clear K HX HY. split.
      + intros [H1 H2]. assert ((xc = (q - r) / 2 /\ yc = (q + r) / 2 - 1 + 1 - 0) \/ (xc = (q - r) / 2 - 1 /\ yc = (q + r) / 2)) as [[-> ->]|[-> ->]] by lia; auto.
      + intros [[= -> ->]|[= -> ->]]; lia.
  Qed.
  Lemma rhomb_at_most_two px py k : lattice X Y px py -> 0 <= k < cd -> (count_occ Z.eq_dec rhomb_list (plane_chan X Y px py * cd + k)%Z <= 2)%nat.
  Proof.
    intros HL Hk. rewrite rhomb_count by assumption. destruct (near_two px py (proj2 (proj2 HL))) as (g1 & g2 & Hg & K).
    change 2%nat with (length [g1; g2]). apply NoDup_incl_length; [apply NoDup_filter, cells_nodup; apply zrange_nodup|].
    intros c Hc. apply filter_In in Hc as [_ Hc]. apply K in Hc as [-> | ->]; cbn; auto.
  Qed.
  Lemma rhomb_twice px py k : lattice X Y px py -> 0 <= k < cd -> cx 0 <= px <= cx a -> cy 0 <= py <= cy b ->
    count_occ Z.eq_dec rhomb_list (plane_chan X Y px py * cd + k) = 2%nat.
  Proof.
    intros HL Hk Hpx Hpy. rewrite rhomb_count by assumption. destruct (near_two px py (proj2 (proj2 HL))) as (g1 & g2 & Hg & K).
    change 2%nat with (length [g1; g2]). apply filter_exact; [apply cells_nodup; apply zrange_nodup|repeat constructor; cbn; intuition congruence|].
    intros [xc yc]. rewrite K. cbn [In]. split; [intuition congruence|]. intros H.
    assert (near px py (xc, yc) = true) as Hn by (apply K; intuition congruence). split; [|intuition congruence].
    apply rhomb_cell. unfold near in Hn. cbn [fst snd] in Hn. apply Z.leb_le in Hn. unfold cx, cy in *.
    assert (Z.abs (px - ((1 + xc) * d - s)) <= d - 1) as A1 by lia. assert (Z.abs (py - ((1 + yc) * d - (1 - s))) <= d - 1) as A2 by lia. clear - Hh A1 A2 Hpx Hpy.
    assert (d * 0 < d * (xc + 1)) as L1 by lia. assert (d * xc < d * (a + 1)) as L2 by lia. assert (d * 0 < d * (yc + 1)) as L3 by lia. assert (d * yc < d * (b + 1)) as L4 by lia.
    apply Z.mul_lt_mono_pos_l in L1, L2, L3, L4; lia.
  Qed.
End Rhomb.

(** Acceptance and result of the constructor *)
Lemma rhomb_init_ok X Y d cd res : 0 < d -> 0 < cd -> rhomb_init X Y d cd = SOk res ->
  exists h a b s, d = 2 * h /\ 0 < h /\ 0 <= a /\ 0 <= b /\ s = (if X <? Y then 1 else 0) /\ X = h * a + 2 * h + (1 - s) /\ Y = h * b + 2 * h + s /\
    res = (mkB ((2 * X * Y - X - Y + 1) * cd) (rhomb_list X Y h a b s cd) (cd * (d * d)) cd, (a + 1, b + 1)).
Proof.
  intros Hd Hcd. unfold rhomb_init, sguard. destruct (Z.eqb_spec (d mod 2) 0) as [E|E]; [|discriminate]. cbn [negb].
  set (s := if X <? Y then 1 else 0). assert (s = 0 \/ s = 1) as Hs by (unfold s; destruct (X <? Y); auto).
  set (h := d / 2). assert (d = 2 * h) as Ed by (unfold h; lia). assert (0 < h) as Hh by lia. clearbody h. subst d.
  unfold pymod, pydiv. rewrite (proj2 (Z.eqb_neq h 0)), (proj2 (Z.eqb_neq (2 * h) 0)) by lia. cbn [sbind].
  destruct (Z.eqb_spec ((X - (1 - s) - 2 * h) mod h) 0) as [Mx|]; [|discriminate]. destruct (Z.ltb_spec (X - (1 - s) - 2 * h) 0); [discriminate|]. cbn [negb orb sbind].
  destruct (Z.eqb_spec ((Y - s - 2 * h) mod h) 0) as [My|]; [|discriminate]. destruct (Z.ltb_spec (Y - s - 2 * h) 0); [discriminate|]. cbn [negb orb sbind].
  set (a := (X - (1 - s) - 2 * h) / h). set (b := (Y - s - 2 * h) / h).
  assert (X - (1 - s) - 2 * h = h * a) as Ea by (unfold a; pose proof (Z.div_mod (X - (1 - s) - 2 * h) h ltac:(lia)); lia).
  assert (Y - s - 2 * h = h * b) as Eb by (unfold b; pose proof (Z.div_mod (Y - s - 2 * h) h ltac:(lia)); lia).
  assert (0 <= a) as Ha by (unfold a; apply Z.div_pos; lia). assert (0 <= b) as Hb by (unfold b; apply Z.div_pos; lia).
  clearbody a b. rewrite Ea, Eb. replace (2 * (h * a) / (2 * h)) with a by (replace (2 * (h * a)) with (a * (2 * h)) by ring; rewrite Z.div_mul; lia).
  replace (2 * (h * b) / (2 * h)) with b by (replace (2 * (h * b)) with (b * (2 * h)) by ring; rewrite Z.div_mul; lia).
  assert (X = h * a + 2 * h + (1 - s)) as HX by lia. assert (Y = h * b + 2 * h + s) as HY by lia.
  rewrite (rhomb_loop_ok X Y h a b s cd) by assumption. cbn [sbind].
  pose proof (rhomb_list_length X Y h a b s cd Hh Ha Hb Hcd) as L.
  rewrite buffer_exact by exact L. cbn [sbind].
  rewrite (ch_init_ok _ _ _ _ ((a + 1) * (b + 1)) (2 * X * Y - X - Y + 1)); [|..].
  - cbn [sbind]. intros [= <-]. exists h, a, b, s. repeat (split; [first [assumption|reflexivity]|]). reflexivity.
  - intros E0. rewrite E0 in L. change (Z.of_nat (length [])) with 0 in L. assert (0 < (a + 1) * (b + 1)) as P1 by nia.
    assert (0 < cd * (2 * h * (2 * h))) as P2 by (repeat apply Z.mul_pos_pos; lia). pose proof (Z.mul_pos_pos _ _ P1 P2). lia.
  - intros c Hc. apply (rhomb_range X Y h a b s cd) in Hc; try assumption. lia.
  - assert (0 < cd * (2 * h * (2 * h))) as P2 by (repeat apply Z.mul_pos_pos; lia). lia.
  - lia.
  - exact L.
  - reflexivity.
Qed.
