(** Properties of the switchboards (C19-C25, C86-C90). *)
From Coq Require Import List ZArith Bool Permutation Sorted Lia.
From Verif Require Import SwitchModel SwitchProofs SwitchGeom SwitchRhomb.
Import ListNotations.
Open Scope Z_scope.

(** ** C19: routing and inversion *)
Theorem C19_routing : forall (A : Type) n conns (row : list A), sw_init n conns = SOk conns -> (forall c, In c conns -> 0 <= c) -> Z.of_nat (length row) = n ->
  exists out, sw_execute conns row = SOk out /\ length out = length conns /\
    forall j d, (j < length conns)%nat -> nth j out d = nth (Z.to_nat (nth j conns 0)) row d.
Proof.
  intros A n conns row H Hp Hl. apply sw_init_ok in H as [Hne Hlt].
  assert (in_range (Z.of_nat (length row)) conns) as Hr by (intros c Hc; rewrite Hl; auto).
  destruct row as [|r0 row'].
  { destruct conns as [|c l]; [congruence|]. specialize (Hr c (or_introl eq_refl)). cbn in Hr. lia. }
  set (row := r0 :: row') in *. exists (map (fun i => nth (Z.to_nat i) row r0) conns). split; [apply take_ok; exact Hr|]. split; [apply map_length|].
  intros j d Hj. rewrite (map_nth_in _ _ _ _ 0) by exact Hj. apply nth_indep. assert (In (nth j conns 0) conns) as Hi by (apply nth_In; exact Hj). specialize (Hr _ Hi). lia.
Qed.
Theorem C19_invertible_iff : forall n conns, sw_init n conns = SOk conns -> (forall c, In c conns -> 0 <= c) ->
  (invertible n conns = true <-> Permutation conns (zrange 0 n)).
Proof.
  intros n conns H Hp. apply sw_init_ok in H as [Hne Hlt]. apply perm_iff; [intros c Hc; auto|].
  destruct conns as [|c l]; [congruence|]. specialize (Hlt c (or_introl eq_refl)). specialize (Hp c (or_introl eq_refl)). lia.
Qed.
Theorem C19_inverse : forall (A : Type) n conns sort (row : list A), sw_init n conns = SOk conns -> (forall c, In c conns -> 0 <= c) ->
  invertible n conns = true -> is_argsort sort conns -> Z.of_nat (length row) = n ->
  exists out back, sw_execute conns row = SOk out /\ sw_inverse n conns sort out = SOk row /\
    sw_inverse n conns sort row = SOk back /\ sw_execute conns back = SOk row.
Proof.
  intros A n conns sort row H Hp Hi Hs Hl. apply (C19_invertible_iff n conns H Hp) in Hi. apply sw_inverse_ok; try assumption. lia.
Qed.
Theorem C19_not_invertible : forall (A : Type) n conns sort (row : list A), invertible n conns = false -> sw_inverse n conns sort row = SErr SNotInvertible.
Proof. intros A n conns sort row H. unfold sw_inverse. rewrite H. reflexivity. Qed.
Example C19_example : let conns := [2; 0; 3; 1] in is_argsort [1; 3; 0; 2]%nat conns /\ sw_init 4 conns = SOk conns /\ invertible 4 conns = true /\
  sw_execute conns [10; 11; 12; 13] = SOk [12; 10; 13; 11] /\ sw_inverse 4 conns [1; 3; 0; 2]%nat [12; 10; 13; 11] = SOk [10; 11; 12; 13].
Proof.
  cbn zeta. split; [|vm_compute; auto]. split.
  - cbn. apply NoDup_Permutation; [repeat constructor; cbn; intuition congruence|repeat constructor; cbn; intuition congruence|]. intros x. cbn. intuition.
  - repeat constructor; cbn; lia.
Qed.

(** ** C86: negative connections are accepted *)
Theorem C86_negative_refuted : exists n conns sort, sw_init n conns = SOk conns /\ invertible n conns = true /\ is_argsort sort conns /\
  sw_execute conns [10; 11] = SOk [11; 10] /\ sw_inverse n conns sort [11; 10] = SOk [11; 10].
Proof.
  exists 2, [-1; 0], [0; 1]%nat. split; [reflexivity|]. split; [reflexivity|]. split; [|vm_compute; auto].
  split; [apply Permutation_refl|repeat constructor; cbn; lia].
Qed.
Theorem C86_execute_fails_refuted : exists n conns, sw_init n conns = SOk conns /\ sw_execute conns [10; 11] = SErr SIndex.
Proof. exists 2, [-3; 0]. vm_compute. auto. Qed.
(** What the check does guarantee. *)
Theorem C86_accepted : forall n conns, sw_init n conns = SOk conns <-> conns <> [] /\ forall c, In c conns -> c < n.
Proof. intros. apply sw_init_ok. Qed.
Example C86_example : sw_init 3 [0; 2; 2] = SOk [0; 2; 2] /\ sw_init 3 [0; 3] = SErr SExceeds /\ sw_init 3 [] = SErr SEmpty.
Proof. vm_compute. auto. Qed.

(** ** C20: mean inverse *)
(** For any addition that is commutative and associative; the sums are over the connected columns in any order, the order of the
    sort being free. *)
Theorem C20_mean_inverse : forall (A : Type) (zero : A) (add : A -> A -> A) (div : A -> Z -> A),
  (forall a b, add a b = add b a) -> (forall a b c, add a (add b c) = add (add a b) c) ->
  forall n conns sort x, sw_init n conns = SOk conns -> (forall c, In c conns -> 0 <= c) -> is_argsort sort conns -> length x = length conns ->
  exists y, mean_inverse zero add div n conns sort x = SOk y /\ Z.of_nat (length y) = n /\
    forall i, (i < length y)%nat ->
      let group := filter (fun j => nth j conns 0 =? Z.of_nat i) (seq 0 (length conns)) in
      nth i y zero = match group with [] => zero | _ => div (fold_right add zero (map (fun j => nth j x zero) group)) (Z.of_nat (length group)) end.
Proof.
  intros A zero add div Hc Ha n conns sort x H Hp Hs Hx. apply sw_init_ok in H as [Hne Hlt].
  assert (0 <= n) as Hn. { destruct conns as [|c l]; [congruence|]. specialize (Hlt c (or_introl eq_refl)). specialize (Hp c (or_introl eq_refl)). lia. }
  destruct (mean_inverse_ok zero add div Hc Ha n conns sort x) as (y & E & L & K); auto; [intros c Hin; auto|].
  exists y. split; [exact E|]. split; [lia|]. intros i Hi group. rewrite K by exact Hi. unfold mean_at.
  assert (length group = count_occ Z.eq_dec conns (Z.of_nat i)) as Hg.
  { unfold group. rewrite (filter_seq_length conns (fun c => c =? Z.of_nat i)). apply filter_eq_count. }
  rewrite <- Hg. fold group. destruct group; reflexivity.
Qed.
Example C20_example : mean_inverse 0 Z.add Z.div 4 [2; 0; 2; 3] [1; 0; 2; 3]%nat [10; 20; 30; 40] = SOk [20; 0; 20; 40] /\ is_argsort [1; 0; 2; 3]%nat [2; 0; 2; 3].
Proof.
  split; [reflexivity|]. split; [|repeat constructor; cbn; lia].
  cbn. apply NoDup_Permutation; [repeat constructor; cbn; intuition congruence|repeat constructor; cbn; intuition congruence|]. intros x. cbn. intuition.
Qed.

(** ** C21: rectangular fields *)
Theorem C21_rectangular : forall X Y fx fy sx sy cd ic b xo yo, 0 < fx -> 0 < fy -> 0 < sx -> 0 < sy -> 0 < cd ->
  rect_init X Y fx fy sx sy cd ic = SOk (b, (xo, yo)) ->
  b_in b = cd * X * Y /\ (forall c, In c (b_conns b) -> 0 <= c < b_in b) /\
  b_out_chan_dim b = cd * fx * fy /\ Z.of_nat (length (b_conns b)) = xo * yo * b_out_chan_dim b /\
  0 < xo /\ 0 < yo /\ (xo - 1) * sx + fx <= X < xo * sx + fx /\ (yo - 1) * sy + fy <= Y < yo * sy + fy /\
  forall xc yc dx dy k, 0 <= xc < xo -> 0 <= yc < yo -> 0 <= dx < fx -> 0 <= dy < fy -> 0 <= k < cd ->
    nth (Z.to_nat ((((yc * xo + xc) * fy + dy) * fx + dx) * cd + k)) (b_conns b) 0 = ((yc * sy + dy) * X + (xc * sx + dx)) * cd + k.
Proof.
  intros X Y fx fy sx sy cd ic b xo yo H1 H2 H3 H4 H5 H. rewrite rect_init_ok in H by assumption.
  destruct (Z.ltb_spec X fx); [discriminate|]. destruct (Z.ltb_spec Y fy); [discriminate|]. destruct (negb _ && negb ic) in H; [discriminate|]. destruct (negb _ && negb ic) in H; [discriminate|].
  injection H as <- Ex Ey. cbn [b_in b_conns b_out_chan_dim]. rewrite Ex, Ey.
  assert (0 < xo /\ (xo - 1) * sx + fx <= X < xo * sx + fx) as [X1 X2].
  { rewrite <- Ex. pose proof (Z.div_pos (X - fx) sx ltac:(lia) ltac:(lia)). pose proof (Z.mul_div_le (X - fx) sx ltac:(lia)). pose proof (Z.mul_succ_div_gt (X - fx) sx ltac:(lia)). lia. }
  assert (0 < yo /\ (yo - 1) * sy + fy <= Y < yo * sy + fy) as [Y1 Y2].
  { rewrite <- Ey. pose proof (Z.div_pos (Y - fy) sy ltac:(lia) ltac:(lia)). pose proof (Z.mul_div_le (Y - fy) sy ltac:(lia)). pose proof (Z.mul_succ_div_gt (Y - fy) sy ltac:(lia)). lia. }
  split; [reflexivity|]. split; [intros c Hc; apply (rect_list_range X Y) in Hc; lia|]. split; [reflexivity|]. split; [apply rect_list_length; lia|].
  split; [exact X1|]. split; [exact Y1|]. split; [exact X2|]. split; [exact Y2|].
  intros xc yc dx dy k Hx Hy Hdx Hdy Hk. rewrite rect_nth by assumption. ring.
Qed.
(** Which parameters are accepted; in particular no coordinate is ever outside the image. *)
Theorem C21_accepted : forall X Y fx fy sx sy cd ic, 0 < fx -> 0 < fy -> 0 < sx -> 0 < sy -> 0 < cd ->
  ((exists r, rect_init X Y fx fy sx sy cd ic = SOk r) <-> fx <= X /\ fy <= Y /\ (ic = true \/ ((X - fx) mod sx = 0 /\ (Y - fy) mod sy = 0))) /\
  (forall e, rect_init X Y fx fy sx sy cd ic = SErr e -> e = SFieldTooLarge \/ e = SNotCovered).
Proof.
  intros X Y fx fy sx sy cd ic H1 H2 H3 H4 H5. rewrite rect_init_ok by assumption.
  destruct (Z.ltb_spec X fx); [split; [split; [intros [r Hr0]; discriminate|lia]|intros e [= <-]; auto]|].
  destruct (Z.ltb_spec Y fy); [split; [split; [intros [r Hr0]; discriminate|lia]|intros e [= <-]; auto]|].
  destruct (Z.eqb_spec ((X - fx) mod sx) 0) as [E1|E1], (Z.eqb_spec ((Y - fy) mod sy) 0) as [E2|E2], ic; cbn [negb andb].
  all: split; [split; [|]|].
  all: try (intros e; discriminate). all: try (intros e [= <-]; auto; fail). all: try (intros [r Hr0]; discriminate).
  all: try (intros _; repeat split; try lia; auto; fail). all: try (intros _; eexists; reflexivity).
  all: intros (_ & _ & [?|[? ?]]); congruence.
Qed.
(** Cover: if fields are at least as wide as their spacing, every input is connected. *)
Theorem C21_cover : forall X Y fx fy sx sy cd b xy, 0 < sx <= fx -> 0 < sy <= fy -> 0 < cd ->
  rect_init X Y fx fy sx sy cd false = SOk (b, xy) -> forall c, 0 <= c < b_in b -> In c (b_conns b).
Proof.
  intros X Y fx fy sx sy cd b xy Hx Hy Hcd H c Hc. rewrite rect_init_ok in H by lia.
  destruct (Z.ltb_spec X fx) as [|HX]; [discriminate|]. destruct (Z.ltb_spec Y fy) as [|HY]; [discriminate|].
  destruct (Z.eqb_spec ((X - fx) mod sx) 0) as [Ex|]; [|discriminate]. destruct (Z.eqb_spec ((Y - fy) mod sy) 0) as [Ey|]; [|discriminate]. cbn [negb andb] in H.
  injection H as <- _. cbn [b_in b_conns] in *.
  assert (0 < X) by lia. set (ch := c / cd). assert (0 <= ch < X * Y) as Hch.
  { unfold ch. split; [apply Z.div_pos; lia|]. apply Z.div_lt_upper_bound; [lia|]. nia. }
  pose proof (Z.div_mod ch X ltac:(lia)) as D. pose proof (Z.mod_pos_bound ch X ltac:(lia)) as M. set (y := ch / X) in *. set (x := ch mod X) in *.
  assert (0 <= y < Y) as Hyr by nia. pose proof (Z.div_mod c cd ltac:(lia)) as Dc. pose proof (Z.mod_pos_bound c cd Hcd) as Mc. fold ch in Dc.
  set (k := c mod cd) in *. clearbody k x y ch.
  assert (c = (y * X + x) * cd + k) as -> by nia.
  set (xo := (X - fx) / sx + 1). set (yo := (Y - fy) / sy + 1).
  assert ((xo - 1) * sx + fx = X /\ 0 < xo) as [Xo1 Xo2] by (unfold xo; pose proof (Z.div_mod (X - fx) sx ltac:(lia)); pose proof (Z.div_pos (X - fx) sx ltac:(lia) ltac:(lia)); lia).
  assert ((yo - 1) * sy + fy = Y /\ 0 < yo) as [Yo1 Yo2] by (unfold yo; pose proof (Z.div_mod (Y - fy) sy ltac:(lia)); pose proof (Z.div_pos (Y - fy) sy ltac:(lia) ltac:(lia)); lia).
  clearbody xo yo.
  assert (forall n f s o z, 0 < s <= f -> (o - 1) * s + f = n -> 0 < o -> 0 <= z < n -> exists q, 0 <= q < o /\ q * s + 0 <= z < q * s + 0 + f) as K.
  { clear. intros n f s o z Hs Hn Ho Hz. destruct (Z.lt_ge_cases (z / s) o) as [H|H].
    - exists (z / s). pose proof (Z.div_mod z s ltac:(lia)). pose proof (Z.mod_pos_bound z s ltac:(lia)). pose proof (Z.div_pos z s ltac:(lia) ltac:(lia)). lia.
    - exists (o - 1). pose proof (Z.mul_div_le z s ltac:(lia)). assert (o * s <= z / s * s) by nia. lia. }
  destruct (K X fx sx xo x) as (xc & Hxc & Hxr); auto. destruct (K Y fy sy yo y) as (yc & Hyc & Hyr'); auto.
  apply (count_occ_In Z.eq_dec). rewrite (rect_count X Y) by lia.
  assert (In (xc, yc) (filter (fun c => (fst c * sx + 0 <=? x) && (x <? fst c * sx + 0 + fx) && (snd c * sy + 0 <=? y) && (y <? snd c * sy + 0 + fy)) (cells (zrange 0 xo) (zrange 0 yo)))) as Hin.
  { apply filter_In. split; [apply in_cells; rewrite !in_zrange; lia|]. cbn [fst snd]. rewrite !andb_true_iff, !Z.leb_le, !Z.ltb_lt. lia. }
  destruct (filter _ _); [destruct Hin|cbn; lia].
Qed.
Example C21_example : exists b, rect_init 5 3 3 1 2 1 2 false = SOk (b, (2, 3)) /\ b_in b = 30 /\ firstn 12 (b_conns b) = [0; 1; 2; 3; 4; 5; 4; 5; 6; 7; 8; 9].
Proof. eexists. vm_compute. auto. Qed.

(** C87: with ignore_cover off the constructor is to reject fields that do not cover the input; it does not if the spacing is
    larger than the fields. *)
Theorem C87_cover_refuted : exists X Y fx fy sx sy cd b xy c, 0 < fx /\ 0 < fy /\ 0 < sx /\ 0 < sy /\ 0 < cd /\
  rect_init X Y fx fy sx sy cd false = SOk (b, xy) /\ 0 <= c < b_in b /\ ~ In c (b_conns b).
Proof. exists 3, 1, 1, 1, 2, 1, 1. do 2 eexists. exists 1. repeat (split; [lia|]). split; [vm_compute; reflexivity|]. cbn. split; [lia|]. intuition lia. Qed.
(** C89: negative spacings are accepted and give a board whose single output channel is no field at all. *)
Theorem C89_negative_spacing_refuted : exists X Y fx fy sx sy b, rect_init X Y fx fy sx sy 1 false = SOk (b, (-1, -1)) /\ b_conns b = [0] /\ b_in b = 9.
Proof. exists 3, 3, 1, 1, (-1), (-1). eexists. vm_compute. auto. Qed.

(** ** C22: double cover by rectangles *)
Theorem C22_double_rect : forall X Y fx fy cd b xl yl, 0 < fx -> 0 < fy -> 0 < cd -> drect_init X Y fx fy cd false = SOk (b, (xl, yl)) ->
  X = xl * fx /\ Y = yl * fy /\ fx mod 2 = 0 /\ fy mod 2 = 0 /\
  b_in b = cd * X * Y /\ (forall c, In c (b_conns b) -> 0 <= c < b_in b) /\
  forall x y k, 0 <= x < X -> 0 <= y < Y -> 0 <= k < cd ->
    count_occ Z.eq_dec (b_conns b) ((y * X + x) * cd + k) =
    if (fx / 2 <=? x) && (x <? X - fx / 2) && (fy / 2 <=? y) && (y <? Y - fy / 2) then 2%nat else 1%nat.
Proof.
  intros X Y fx fy cd b xl yl Hfx Hfy Hcd H.
  destruct (Z.eqb_spec (fx mod 2) 0) as [Ex|Ex]; [|unfold drect_init, sguard in H; rewrite (proj2 (Z.eqb_neq _ _) Ex) in H; discriminate].
  destruct (Z.eqb_spec (fy mod 2) 0) as [Ey|Ey]; [|unfold drect_init, sguard in H; rewrite Ex, (proj2 (Z.eqb_neq _ _) Ey) in H; discriminate].
  set (sx := fx / 2) in *. set (sy := fy / 2) in *. assert (fx = 2 * sx) as Fx by (unfold sx; lia). assert (fy = 2 * sy) as Fy by (unfold sy; lia).
  clearbody sx sy. subst fx fy. rewrite drect_init_ok in H by lia.
  destruct (Z.ltb_spec X (2 * sx)); [discriminate|]. destruct (Z.ltb_spec Y (2 * sy)); [discriminate|].
  destruct (Z.eqb_spec ((X - 2 * sx) mod sx) 0) as [Mx|]; [|discriminate]. cbn [negb andb] in H. destruct (Z.leb_spec sx (X - X / (2 * sx) * (2 * sx))) as [|Rx]; [discriminate|].
  destruct (Z.eqb_spec ((Y - 2 * sy) mod sy) 0) as [My|]; [|discriminate]. cbn [negb andb] in H. destruct (Z.leb_spec sy (Y - Y / (2 * sy) * (2 * sy))) as [|Ry]; [discriminate|].
  pose proof (f_equal (fun r => match r with SOk (_, (l, _)) => l | _ => 0 end) H) as Exl. pose proof (f_equal (fun r => match r with SOk (_, (_, l)) => l | _ => 0 end) H) as Eyl.
  cbv beta iota in Exl, Eyl. rewrite Exl in *. rewrite Eyl in *. injection H as <-.
  assert (forall n s l, 0 < s -> (n - 2 * s) mod s = 0 -> n - l * (2 * s) < s -> n / (2 * s) = l -> n = l * (2 * s)) as K.
  { clear. intros n s l Hs Hm Hr Hl. pose proof (Z.mul_div_le n (2 * s) ltac:(lia)) as L. rewrite Hl in L.
    pose proof (Z.div_mod (n - 2 * s) s ltac:(lia)) as D. rewrite Hm in D. set (q := (n - 2 * s) / s) in *. clearbody q. clear Hl Hm.
    assert (n = s * (q + 2)) by lia. subst n. assert (s * (q + 2 - 2 * l) < s * 1) as L1 by lia. assert (s * (-1) < s * (q + 2 - 2 * l)) as L2 by lia.
    apply Z.mul_lt_mono_pos_l in L1, L2; try lia. assert (q = 2 * l - 2) by lia. subst q. ring. }
  pose proof (K X sx xl ltac:(lia) Mx Rx Exl) as EX. pose proof (K Y sy yl ltac:(lia) My Ry Eyl) as EY.
  assert (1 <= xl) as Hxl by (rewrite <- Exl; apply Z.div_le_lower_bound; lia). assert (1 <= yl) as Hyl by (rewrite <- Eyl; apply Z.div_le_lower_bound; lia).
  cbn [b_in b_conns]. split; [exact EX|]. split; [exact EY|]. split; [lia|]. split; [lia|]. split; [reflexivity|].
  clear Mx My Rx Ry Exl Eyl K Ex Ey. split; [apply drect_range; lia|].
  intros x y k Hx Hy Hk. unfold drect_list. rewrite count_occ_app. rewrite !(tile_count X Y) by lia.
  assert ((0 <=? x) && (x <? 0 + xl * (2 * sx)) && (0 <=? y) && (y <? 0 + yl * (2 * sy)) = true) as ->.
  { rewrite !andb_true_iff, !Z.leb_le, !Z.ltb_lt. lia. }
  replace (sx + (xl - 1) * (2 * sx)) with (X - sx) by lia. replace (sy + (yl - 1) * (2 * sy)) with (Y - sy) by lia.
  destruct (_ && _); reflexivity.
Qed.
Example C22_example : exists b, drect_init 6 4 2 2 1 false = SOk (b, (3, 2)) /\ count_occ Z.eq_dec (b_conns b) 8 = 2%nat /\ count_occ Z.eq_dec (b_conns b) 6 = 1%nat.
Proof. eexists. vm_compute. auto. Qed.

(** ** C23, C88: rhombic fields *)
(** A lattice point of the plane has coordinates (2x, 2y) for entry (x, y) of the long rows and (2x+1, 2y+1) for the short rows;
    [plane_chan] is its input channel (SwitchRhomb.v).  Output channel (xc, yc) gets the points at city-block distance at most
    d - 1 from its centre. *)
Theorem C23_rhombic : forall X Y d cd b xo yo, 0 < d -> 0 < cd -> rhomb_init X Y d cd = SOk (b, (xo, yo)) ->
  let s := if X <? Y then 1 else 0 in
  b_in b = (2 * X * Y - X - Y + 1) * cd /\ (forall c, In c (b_conns b) -> 0 <= c < b_in b) /\
  Z.of_nat (length (b_conns b)) = xo * yo * (cd * (d * d)) /\ 0 < xo /\ 0 < yo /\
  forall xc yc px py k, 0 <= xc < xo -> 0 <= yc < yo -> lattice X Y px py -> 0 <= k < cd ->
    (In (plane_chan X Y px py * cd + k) (get_out_channel_input b (yc * xo + xc)) <->
     Z.abs (px - ((1 + xc) * d - s)) + Z.abs (py - ((1 + yc) * d - (1 - s))) <= d - 1).
Proof.
  intros X Y d cd b xo yo Hd Hcd H s. destruct (rhomb_init_ok X Y d cd _ Hd Hcd H) as (h & a & bb & s' & Ed & Hh & Ha & Hb & Es & HX & HY & E).
  pose proof (f_equal fst E) as E1. pose proof (f_equal (fun p => fst (snd p)) E) as E2. pose proof (f_equal (fun p => snd (snd p)) E) as E3. cbn [fst snd] in E1, E2, E3. clear E. subst b xo yo d. assert (s' = 0 \/ s' = 1) as Hs by (rewrite Es; destruct (X <? Y); auto). fold s in Es. rewrite <- Es. clearbody s. clear Es s H. cbn [b_in b_conns].
  split; [reflexivity|]. split; [intros c Hc; apply rhomb_range in Hc; auto|]. split; [apply rhomb_list_length; auto|]. split; [lia|]. split; [lia|].
  intros xc yc px py k Hx Hy HL Hk.
  (* the slice of the output channel is the field *)
  assert (get_out_channel_input (mkB ((2 * X * Y - X - Y + 1) * cd) (rhomb_list X Y h a bb s' cd) (cd * (2 * h * (2 * h))) cd) (yc * (a + 1) + xc) =
          flat_map (block cd) (rchans X Y h s' (xc, yc))) as ->.
  { unfold get_out_channel_input, zslice. cbn [b_conns b_out_chan_dim]. set (w := cd * (2 * h * (2 * h))).
    assert (0 < w) as Hw by (unfold w; repeat apply Z.mul_pos_pos; lia).
    pose proof (rhomb_list_length X Y h a bb s' cd Hh Ha Hb Hcd) as L. fold w in L. rewrite L. set (m := yc * (a + 1) + xc).
    assert (0 <= m) as Hm by (unfold m; nia). assert (m < (a + 1) * (bb + 1)) as Hm2 by (unfold m; nia).
    assert (0 <= m * w) as M1 by (apply Z.mul_nonneg_nonneg; lia). assert (m * w + w <= (a + 1) * (bb + 1) * w) as M2 by nia.
    destruct (Z.ltb_spec (m * w) 0); [lia|]. destruct (Z.ltb_spec (m * w + w) 0); [lia|]. rewrite !Z.min_l by lia. replace (m * w + w - m * w) with w by lia.
    unfold rhomb_list. rewrite flat_map_flat_map.
    assert (forall (f : Z * Z -> list Z) (n : nat) l i, (forall c, In c l -> length (f c) = n) -> (i < length l)%nat -> firstn n (skipn (i * n) (flat_map f l)) = f (nth i l (0, 0))) as K.
    { clear. intros f n l. induction l as [|c l IH]; intros i Hl Hi; [cbn in Hi; lia|]. cbn [flat_map]. pose proof (Hl c (or_introl eq_refl)) as Hc. destruct i as [|i].
      - cbn [Nat.mul skipn nth]. rewrite <- Hc, firstn_app, firstn_all, Nat.sub_diag. cbn. apply app_nil_r.
      - cbn [nth]. replace (S i * n)%nat with (length (f c) + i * n)%nat by lia. rewrite skipn_app, skipn_all2 by lia.
        replace (length (f c) + i * n - length (f c))%nat with (i * n)%nat by lia. cbn [app]. apply IH; [intros c' H'; apply Hl; right; exact H'|cbn in Hi; lia]. }
    replace (Z.to_nat (m * w)) with (Z.to_nat m * Z.to_nat w)%nat by (rewrite Z2Nat.inj_mul; lia).
    rewrite K.
    - f_equal. unfold m, cells. rewrite to_nat_mad by lia. replace (Z.to_nat (a + 1)) with (length (zrange 0 (a + 1))) by (rewrite zrange_length; f_equal; lia).
      rewrite (flat_map_nth _ (length (zrange 0 (a + 1))) _ _ _ _ 0); [|intros; apply map_length|rewrite zrange_length; lia|rewrite zrange_length; lia].
      rewrite (map_nth_in _ _ _ _ 0) by (rewrite zrange_length; lia). rewrite !zrange_nth by lia. f_equal. f_equal; lia.
    - intros [xc' yc'] _. rewrite (flat_map_length _ _ (Z.to_nat cd)) by (intros; apply block_length). unfold rchans. rewrite map_length. cbn [fst snd].
      pose proof (rpts_length h s' Hh xc' yc') as Lr. unfold w. rewrite Z2Nat.inj_mul by nia. rewrite <- Lr. lia.
    - rewrite cells_length, !zrange_length, !Z.sub_0_r. rewrite <- Z2Nat.inj_mul by lia. lia. }
  rewrite in_flat_map. assert ((exists i, In i (rchans X Y h s' (xc, yc)) /\ In (plane_chan X Y px py * cd + k) (block cd i)) <-> In (plane_chan X Y px py) (rchans X Y h s' (xc, yc))) as ->.
  { assert ((plane_chan X Y px py * cd + k) / cd = plane_chan X Y px py) as Ediv by (symmetry; apply Z.div_unique with (r := k); lia).
    split; [intros (i & Hi & Hb')|intros Hi; exists (plane_chan X Y px py); split; [exact Hi|]]; [apply in_block in Hb'; [|exact Hcd]; rewrite Ediv in Hb'; subst i; exact Hi|].
    apply in_block; [exact Hcd|exact Ediv]. }
  rewrite (in_rchans X Y h a bb s') by (first [assumption|lia]). unfold cx, cy. replace (2 * h * (1 + xc)) with ((1 + xc) * (2 * h)) by ring. tauto.
Qed.
(** The construction never leaves the image: the only errors are the documented ones. *)
Theorem C23_no_outside : forall X Y d cd e, 0 < d -> 0 < cd -> rhomb_init X Y d cd = SErr e -> e = SOdd \/ e = SIncompatible.
Proof.
  intros X Y d cd e Hd Hcd H. destruct (Z.eqb_spec (d mod 2) 0) as [E|E]; [|unfold rhomb_init, sguard in H; rewrite (proj2 (Z.eqb_neq _ _) E) in H; injection H as <-; auto].
  unfold rhomb_init in H. rewrite E in H. cbn [negb Z.eqb sguard] in H. unfold sguard in H.
  set (s := if X <? Y then 1 else 0) in *. assert (s = 0 \/ s = 1) as Hs by (unfold s; destruct (X <? Y); auto).
  set (h := d / 2) in *. assert (d = 2 * h) as Ed by (unfold h; lia). assert (0 < h) as Hh by lia. clearbody h s. subst d. right.
  unfold pymod, pydiv in H. rewrite (proj2 (Z.eqb_neq h 0)), (proj2 (Z.eqb_neq (2 * h) 0)) in H by lia. cbn [sbind] in H.
  destruct (Z.eqb_spec ((X - (1 - s) - 2 * h) mod h) 0) as [Mx|]; [|injection H as <-; reflexivity]. destruct (Z.ltb_spec (X - (1 - s) - 2 * h) 0); [injection H as <-; reflexivity|].
  destruct (Z.eqb_spec ((Y - s - 2 * h) mod h) 0) as [My|]; [|injection H as <-; reflexivity]. destruct (Z.ltb_spec (Y - s - 2 * h) 0); [injection H as <-; reflexivity|].
  exfalso. cbn [negb orb] in H.
  set (a := (X - (1 - s) - 2 * h) / h). set (b := (Y - s - 2 * h) / h).
  assert (X - (1 - s) - 2 * h = h * a) as Ea by (unfold a; pose proof (Z.div_mod (X - (1 - s) - 2 * h) h ltac:(lia)); lia).
  assert (Y - s - 2 * h = h * b) as Eb by (unfold b; pose proof (Z.div_mod (Y - s - 2 * h) h ltac:(lia)); lia).
  assert (0 <= a) as Ha by (unfold a; apply Z.div_pos; lia). assert (0 <= b) as Hb by (unfold b; apply Z.div_pos; lia).
  clearbody a b. rewrite Ea, Eb in H. replace (2 * (h * a) / (2 * h)) with a in H by (replace (2 * (h * a)) with (a * (2 * h)) by ring; rewrite Z.div_mul; lia).
  replace (2 * (h * b) / (2 * h)) with b in H by (replace (2 * (h * b)) with (b * (2 * h)) by ring; rewrite Z.div_mul; lia).
  assert (X = h * a + 2 * h + (1 - s)) as HX by lia. assert (Y = h * b + 2 * h + s) as HY by lia.
  rewrite (rhomb_loop_ok X Y h a b s cd) in H by assumption. cbn [sbind] in H.
  pose proof (rhomb_list_length X Y h a b s cd Hh Ha Hb Hcd) as L.
  rewrite buffer_exact in H by exact L. cbn [sbind] in H.
  rewrite (ch_init_ok _ _ _ _ ((a + 1) * (b + 1)) (2 * X * Y - X - Y + 1)) in H; [discriminate|..].
  - intros E0. rewrite E0 in L. change (Z.of_nat (length [])) with 0 in L. assert (0 < (a + 1) * (b + 1)) as P1 by nia.
    assert (0 < cd * (2 * h * (2 * h))) as P2 by (repeat apply Z.mul_pos_pos; lia). pose proof (Z.mul_pos_pos _ _ P1 P2). lia.
  - intros c Hc. apply (rhomb_range X Y h a b s cd) in Hc; try assumption. lia.
  - assert (0 < cd * (2 * h * (2 * h))) as P2 by (repeat apply Z.mul_pos_pos; lia). lia.
  - lia.
  - exact L.
  - reflexivity.
Qed.
Theorem C88_rhombic_double_cover : forall X Y d cd b xo yo, 0 < d -> 0 < cd -> rhomb_init X Y d cd = SOk (b, (xo, yo)) ->
  let s := if X <? Y then 1 else 0 in
  (forall c, (count_occ Z.eq_dec (b_conns b) c <= 2)%nat) /\
  forall px py k, lattice X Y px py -> 0 <= k < cd -> d - s <= px <= xo * d - s -> d - (1 - s) <= py <= yo * d - (1 - s) ->
    count_occ Z.eq_dec (b_conns b) (plane_chan X Y px py * cd + k) = 2%nat.
Proof.
  intros X Y d cd b xo yo Hd Hcd H s. destruct (rhomb_init_ok X Y d cd _ Hd Hcd H) as (h & a & bb & s' & Ed & Hh & Ha & Hb & Es & HX & HY & E).
  pose proof (f_equal fst E) as E1. pose proof (f_equal (fun p => fst (snd p)) E) as E2. pose proof (f_equal (fun p => snd (snd p)) E) as E3. cbn [fst snd] in E1, E2, E3. clear E. subst b xo yo d. assert (s' = 0 \/ s' = 1) as Hs by (rewrite Es; destruct (X <? Y); auto). fold s in Es. rewrite <- Es. clearbody s. clear Es s H. cbn [b_conns].
  split.
  - intros c. destruct (Z.lt_ge_cases c 0) as [Hneg|Hnn]; [|destruct (Z.lt_ge_cases c ((2 * X * Y - X - Y + 1) * cd)) as [Hlt|Hge]].
    + rewrite (proj1 (count_occ_not_In Z.eq_dec _ _)); [lia|]. intros Hi. apply rhomb_range in Hi; auto. lia.
    + destruct (plane_chan_onto X Y (c / cd)) as (px & py & HL & Ep).
      * split; [apply Z.div_pos; lia|]. apply Z.div_lt_upper_bound; lia.
      * nia.
      * nia.
      * replace c with (plane_chan X Y px py * cd + c mod cd); [apply rhomb_at_most_two; auto; apply Z.mod_pos_bound; lia|].
        rewrite Ep. pose proof (Z.div_mod c cd ltac:(lia)). lia.
    + rewrite (proj1 (count_occ_not_In Z.eq_dec _ _)); [lia|]. intros Hi. apply rhomb_range in Hi; auto. lia.
  - intros px py k HL Hk Hpx Hpy. apply rhomb_twice; auto; unfold cx, cy; lia.
Qed.
Example C23_example : exists b, rhomb_init 2 4 2 1 = SOk (b, (1, 2)) /\ b_conns b = [8; 2; 3; 9; 9; 4; 5; 10] /\ b_in b = 11 /\ lattice 2 4 1 3 /\ plane_chan 2 4 1 3 = 9.
Proof. eexists. split; [vm_compute; reflexivity|]. split; [reflexivity|]. split; [reflexivity|]. split; [repeat split; cbn; lia|reflexivity]. Qed.
Example C88_example : exists b, rhomb_init 5 4 2 1 = SOk (b, (3, 3)) /\ lattice 5 4 3 3 /\ plane_chan 5 4 3 3 = 25 /\ count_occ Z.eq_dec (b_conns b) 25 = 2%nat.
Proof. eexists. split; [vm_compute; reflexivity|]. split; [repeat split; cbn; lia|]. vm_compute. auto. Qed.

(** ** C24: coordinate translation *)
Theorem C24_coordinates : forall X Y,
  (forall x y, 0 <= x < X -> 0 <= y < Y -> exists i, image_to_index X Y x y = SOk i /\ array_to_index X Y y x = SOk i /\ 0 <= i < X * Y /\
     index_to_image X Y i = SOk (x, y) /\ index_to_array X Y i = SOk (y, x)) /\
  (forall x y, ~ (0 <= x < X /\ 0 <= y < Y) -> image_to_index X Y x y = SErr SOutside /\ array_to_index X Y y x = SErr SOutside) /\
  (forall i, 0 < X -> 0 < Y -> 0 <= i < X * Y -> exists x y, index_to_image X Y i = SOk (x, y) /\ index_to_array X Y i = SOk (y, x) /\ image_to_index X Y x y = SOk i) /\
  (forall i, ~ (0 <= i < X * Y) -> index_to_image X Y i = SErr SOutside /\ index_to_array X Y i = SErr SOutside).
Proof.
  intros X Y. assert (forall a n, ~ (0 <= a < n) -> inside a n = false) as Hout.
  { intros a n H. unfold inside. destruct (Z.leb_spec 0 a), (Z.ltb_spec a n); cbn; auto; lia. }
  split; [|split; [|split]].
  - intros x y Hx Hy. assert (0 <= y * X + x < X * Y) as Hr by nia. exists (y * X + x).
    unfold array_to_index, index_to_image, index_to_array. rewrite image_to_index_ok by assumption. rewrite !inside_true by assumption.
    rewrite (proj2 (Z.leb_le 0 _)), (proj2 (Z.leb_le _ (X * Y - 1))) by lia. cbn [negb andb sguard].
    assert ((y * X + x) / X = y) as E1 by (symmetry; apply Z.div_unique with (r := x); lia). assert ((y * X + x) mod X = x) as E2 by (symmetry; apply Z.mod_unique with (q := y); lia).
    rewrite E1, E2. auto.
  - intros x y H. unfold image_to_index, array_to_index. destruct (inside x X) eqn:Ex, (inside y Y) eqn:Ey; cbn; auto. exfalso. apply H.
    unfold inside in *. rewrite !andb_true_iff, Z.leb_le, Z.ltb_lt in *. lia.
  - intros i HX HY Hi. unfold index_to_image, index_to_array. rewrite (proj2 (Z.leb_le 0 i)), (proj2 (Z.leb_le i (X * Y - 1))) by lia. cbn [negb andb sguard].
    exists (i mod X), (i / X). split; [reflexivity|]. split; [reflexivity|]. rewrite image_to_index_ok.
    + f_equal. pose proof (Z.div_mod i X ltac:(lia)). lia.
    + apply Z.mod_pos_bound. exact HX.
    + split; [apply Z.div_pos; lia|]. apply Z.div_lt_upper_bound; lia.
  - intros i H. unfold index_to_image, index_to_array. destruct (Z.leb_spec 0 i), (Z.leb_spec i (X * Y - 1)); cbn; auto. lia.
Qed.
Example C24_example : image_to_index 3 2 2 1 = SOk 5 /\ index_to_image 3 2 5 = SOk (2, 1) /\ image_to_index 3 2 3 0 = SErr SOutside.
Proof. vm_compute. auto. Qed.

(** ** C25: channels *)
Lemma ch_init_inv n conns ocd icd b : ch_init n conns ocd icd = SOk b -> 0 < ocd -> 0 < icd ->
  b = mkB n conns ocd icd /\ conns <> [] /\ (forall c, In c conns -> c < n) /\ Z.of_nat (length conns) mod ocd = 0 /\ n mod icd = 0.
Proof.
  intros H Ho Hi. unfold ch_init in H. destruct (sw_init n conns) as [c'|] eqn:E; [|discriminate].
  assert (c' = conns) as -> by (unfold sw_init, sguard in E; destruct (length conns =? 0)%nat, (n <=? zmax conns); congruence).
  apply sw_init_ok in E as [E1 E2]. cbn [sbind] in H. unfold pymod, sguard in H. rewrite (proj2 (Z.eqb_neq ocd 0)), (proj2 (Z.eqb_neq icd 0)) in H by lia. cbn [sbind] in H.
  destruct (Z.eqb_spec (Z.of_nat (length conns) mod ocd) 0); [|discriminate]. destruct (Z.eqb_spec (n mod icd) 0); [|discriminate]. injection H as <-. auto.
Qed.
Lemma channel_slice n conns ocd icd b c : ch_init n conns ocd icd = SOk b -> 0 < ocd -> 0 < icd -> 0 <= c < output_channels b ->
  get_out_channel_input b c = firstn (Z.to_nat ocd) (skipn (Z.to_nat (c * ocd)) conns) /\ 0 <= c * ocd /\ c * ocd + ocd <= Z.of_nat (length conns).
Proof.
  intros H Ho Hi Hc. destruct (ch_init_inv _ _ _ _ _ H Ho Hi) as (-> & Hne & Hlt & M1 & M2). unfold output_channels, get_out_channel_input, zslice in *. cbn [b_conns b_out_chan_dim] in *.
  pose proof (Z.div_mod (Z.of_nat (length conns)) ocd ltac:(lia)) as D. rewrite M1 in D. set (m := Z.of_nat (length conns) / ocd) in *. clearbody m.
  assert (0 <= c * ocd) by nia. assert (c * ocd + ocd <= Z.of_nat (length conns)) by nia.
  destruct (Z.ltb_spec (c * ocd) 0); [lia|]. destruct (Z.ltb_spec (c * ocd + ocd) 0); [lia|]. rewrite !Z.min_l by lia. replace (c * ocd + ocd - c * ocd) with ocd by lia. auto.
Qed.
Theorem C25_channel_input : forall n conns ocd icd b c, ch_init n conns ocd icd = SOk b -> 0 < ocd -> 0 < icd -> 0 <= c < output_channels b ->
  Z.of_nat (length (get_out_channel_input b c)) = ocd /\
  forall j, 0 <= j < ocd -> nth (Z.to_nat j) (get_out_channel_input b c) 0 = nth (Z.to_nat (c * ocd + j)) conns 0.
Proof.
  intros n conns ocd icd b c H Ho Hi Hc. destruct (channel_slice _ _ _ _ _ _ H Ho Hi Hc) as (-> & L1 & L2). split.
  - rewrite firstn_length_le; [lia|]. rewrite skipn_length. lia.
  - intros j Hj.
    assert (forall (l : list Z) a m j, (j < m)%nat -> nth j (firstn m (skipn a l)) 0 = nth (a + j) l 0) as K.
    { clear. intros l a m. revert l a. induction m as [|m IH]; intros l a j Hj; [lia|]. destruct (skipn a l) as [|x r] eqn:E.
      - cbn. assert (length l <= a)%nat by (apply (f_equal (@length Z)) in E; rewrite skipn_length in E; cbn in E; lia). rewrite nth_overflow by lia. destruct j; reflexivity.
      - assert (nth a l 0 = x /\ skipn (S a) l = r) as [E1 E2].
        { clear - E. revert l E. induction a as [|a IHa]; intros [|y l] E; cbn in E; try discriminate; [injection E as -> ->; auto|]. destruct (IHa l E) as [E1 E2]. auto. }
        destruct j as [|j]; cbn [firstn nth]; [rewrite Nat.add_0_r; auto|]. rewrite <- E2. rewrite IH by lia. f_equal. lia. }
    rewrite K by lia. f_equal. lia.
Qed.
(** get_out_channel_node(c) executes like the c-th channel of the switchboard. *)
Theorem C25_channel_node : forall (A : Type) n conns ocd icd b c (row : list A), ch_init n conns ocd icd = SOk b -> 0 < ocd -> 0 < icd ->
  (forall i, In i conns -> 0 <= i) -> Z.of_nat (length row) = n -> 0 <= c < output_channels b ->
  exists node out, get_out_channel_node b c = SOk node /\ sw_execute conns row = SOk out /\
    sw_execute node row = SOk (firstn (Z.to_nat ocd) (skipn (Z.to_nat (c * ocd)) out)).
Proof.
  intros A n conns ocd icd b c row H Ho Hi Hp Hl Hc. destruct (channel_slice _ _ _ _ _ _ H Ho Hi Hc) as (E & L1 & L2).
  destruct (ch_init_inv _ _ _ _ _ H Ho Hi) as (Eb & Hne & Hlt & M1 & M2).
  assert (in_range n conns) as Hr by (intros i Hin; auto).
  destruct row as [|r0 row']. { destruct conns as [|i l]; [congruence|]. specialize (Hr i (or_introl eq_refl)). cbn in Hl. lia. }
  set (row := r0 :: row') in *. exists (get_out_channel_input b c), (map (fun i => nth (Z.to_nat i) row r0) conns).
  assert (forall i, In i (get_out_channel_input b c) -> In i conns) as Hsub.
  { intros i Hin. rewrite E in Hin. rewrite <- (firstn_skipn (Z.to_nat (c * ocd)) conns), <- (firstn_skipn (Z.to_nat ocd) (skipn (Z.to_nat (c * ocd)) conns)). rewrite !in_app_iff. auto. }
  split; [|split].
  - unfold get_out_channel_node. rewrite Eb. cbn [b_in]. rewrite <- Eb. apply sw_init_ok. split.
    + rewrite E. intros E0. apply (f_equal (@length Z)) in E0. rewrite firstn_length_le in E0 by (rewrite skipn_length; lia). cbn in E0. lia.
    + intros i Hin. apply Hlt, Hsub, Hin.
  - apply take_ok. rewrite Hl. exact Hr.
  - unfold sw_execute. rewrite (take_ok row _ r0) by (intros i Hin; rewrite Hl; apply Hr, Hsub, Hin). rewrite E, skipn_map, firstn_map. reflexivity.
Qed.
Theorem C25_input_channels : forall n conns ocd icd b channels, ch_init n conns ocd icd = SOk b -> 0 < ocd -> 0 < icd ->
  (forall i, In i conns -> 0 <= i) -> (forall c, In c channels -> 0 <= c < output_channels b) ->
  exists l, get_out_channels_input_channels b channels = SOk l /\ StronglySorted lt l /\
    forall ch, In ch l <-> exists c i, In c channels /\ In i (get_out_channel_input b c) /\ i / icd = Z.of_nat ch.
Proof.
  intros n conns ocd icd b channels H Ho Hi Hp Hch. destruct (ch_init_inv _ _ _ _ _ H Ho Hi) as (Eb & Hne & Hlt & M1 & M2).
  assert (in_range n conns) as Hr by (intros i Hin; auto).
  assert (forall cs, (forall c, In c cs -> 0 <= c < output_channels b) -> rows_of b cs = SOk (flat_map (get_out_channel_input b) cs)) as Hrows.
  { induction cs as [|c cs IH]; intros Hcs; cbn [rows_of flat_map]; [reflexivity|]. pose proof (Hcs c (or_introl eq_refl)) as Hc.
    rewrite np_index_pos by lia. rewrite IH by (intros c' H'; apply Hcs; right; exact H'). cbn [sbind]. f_equal. f_equal.
    destruct (channel_slice _ _ _ _ _ _ H Ho Hi Hc) as (-> & L1 & L2). unfold np_rows. rewrite Eb. cbn [b_conns b_out_chan_dim]. rewrite Z2Nat.inj_mul by lia. reflexivity. }
  unfold get_out_channels_input_channels. rewrite (Hrows channels Hch). cbn [sbind]. set (inputs := flat_map (get_out_channel_input b) channels).
  assert (forall i, In i inputs <-> exists c, In c channels /\ In i (get_out_channel_input b c)) as Hin by (intros i; apply in_flat_map).
  assert (in_range n inputs) as Hri.
  { intros i Hii. apply Hin in Hii as (c & Hc & Hii). destruct (channel_slice _ _ _ _ _ _ H Ho Hi (Hch c Hc)) as (E & _). rewrite E in Hii. apply Hr.
    rewrite <- (firstn_skipn (Z.to_nat (c * ocd)) conns), <- (firstn_skipn (Z.to_nat ocd) (skipn (Z.to_nat (c * ocd)) conns)). rewrite !in_app_iff. auto. }
  assert (0 <= n) as Hn by (destruct conns as [|i l]; [congruence|]; specialize (Hr i (or_introl eq_refl)); lia).
  rewrite Eb. unfold input_channels. cbn [b_in b_in_chan_dim]. rewrite <- Eb.
  assert (existsb (fun c => match np_index (Z.to_nat n) c with None => true | Some _ => false end) inputs = false) as ->.
  { apply not_true_iff_false. intros E. apply existsb_exists in E as (i & Hii & E). specialize (Hri i Hii). rewrite np_index_pos in E by lia. discriminate. }
  eexists. split; [reflexivity|]. split.
  - assert (forall f m a, StronglySorted lt (filter f (seq a m))) as K.
    { clear. intros f m. induction m as [|m IH]; intros a; cbn; [constructor|]. destruct (f a); [|apply IH]. constructor; [apply IH|].
      apply Forall_forall. intros x Hx. apply filter_In in Hx as [Hx _]. apply in_seq in Hx. lia. }
    apply K.
  - intros ch. rewrite filter_In, in_seq, existsb_exists.
    assert (forall k, covered_at (Z.to_nat n) inputs k = true <-> In (Z.of_nat k) inputs) as Hcov.
    { intros k. unfold covered_at. rewrite existsb_exists. split.
      - intros (i & Hii & E). pose proof (Hri i Hii). rewrite np_index_pos in E by lia. apply Nat.eqb_eq in E. subst k. rewrite Z2Nat.id by lia. exact Hii.
      - intros Hk. exists (Z.of_nat k). split; [exact Hk|]. pose proof (Hri _ Hk). rewrite np_index_pos by lia. apply Nat.eqb_eq. lia. }
    split.
    + intros (_ & k & Hk & Hc). apply in_seq in Hk. apply Hcov in Hc. apply Hin in Hc as (c & Hcc & Hii). exists c, (Z.of_nat k). split; [exact Hcc|]. split; [exact Hii|].
      symmetry. apply Z.div_unique with (r := Z.of_nat k - icd * Z.of_nat ch); nia.
    + intros (c & i & Hcc & Hii & Ed). assert (In i inputs) as Hi' by (apply Hin; eauto). pose proof (Hri i Hi') as Hri'.
      pose proof (Z.div_mod i icd ltac:(lia)) as D. pose proof (Z.mod_pos_bound i icd Hi) as M. rewrite Ed in D.
      pose proof (Z.div_mod n icd ltac:(lia)) as Dn. rewrite M2 in Dn. split.
      * split; [lia|]. set (m := n / icd) in *. clearbody m. nia.
      * exists (Z.to_nat i). split; [apply in_seq; nia|]. apply Hcov. rewrite Z2Nat.id by lia. exact Hi'.
Qed.
Example C25_example : exists b, ch_init 6 [0; 1; 4; 5; 2; 3; 0; 1] 4 2 = SOk b /\ output_channels b = 2 /\ get_out_channel_input b 1 = [2; 3; 0; 1] /\
  get_out_channels_input_channels b [1] = SOk [0; 1]%nat /\ get_out_channels_input_channels b [1; 0] = SOk [0; 1; 2]%nat.
Proof. eexists. vm_compute. auto. Qed.
(** C90: negative channel indices count from the end in one method but not in the other. *)
Theorem C90_negative_channel_refuted : exists b, ch_init 4 [0; 1; 2; 3] 2 1 = SOk b /\ get_out_channel_input b (-2) = [0; 1] /\
  get_out_channel_input b (-1) = [] /\ get_out_channels_input_channels b [-1] = SOk [2; 3]%nat.
Proof. eexists. vm_compute. auto. Qed.
