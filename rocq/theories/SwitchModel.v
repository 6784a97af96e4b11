(** Model of mdp/hinet/switchboard.py.

    Numbers are mathematical integers: the [int32] of the connection arrays is taken as unbounded.  A row of data is a list; [_execute]
    and [_inverse] act on every row of a matrix in the same way (x[:, connections]), so rows are modelled.  The dtype is not modelled.
    numx.argsort with equal keys is unspecified (quicksort), so it is a parameter restricted by [is_argsort] in the theorems. *)
From Coq Require Import List ZArith Bool Permutation Sorted.
Import ListNotations.
Open Scope Z_scope.

Inductive serr := SEmpty | SExceeds | SNotMultiple | SFieldTooLarge | SNotCovered | SOdd | SSameRows | SIncompatible
  | SNotInvertible | SOutside | SZeroDivision | SValue | SIndex.
Inductive sres (A : Type) := SOk (a : A) | SErr (e : serr).
Arguments SOk {A} _.
Arguments SErr {A} _.
Definition sbind {A B} (r : sres A) (f : A -> sres B) : sres B := match r with SOk a => f a | SErr e => SErr e end.
(** if b: raise e *)
Definition sguard {B} (b : bool) (e : serr) (k : sres B) : sres B := if b then SErr e else k.

Notation "'let!' x := r 'in' k" := (sbind r (fun x => k)) (at level 200, x name, r at level 100, k at level 200).
Notation "'raise!' e 'when' b 'in' k" := (sguard b e k) (at level 200, e at level 0, b at level 100, k at level 200).

(** Python [range(a, b)] *)
Definition zrange (a b : Z) : list Z := map (fun i => a + Z.of_nat i) (seq 0 (Z.to_nat (b - a))).
(** A for-loop whose body appends to a list, or raises *)
Fixpoint for_ {A} (l : list A) (f : A -> sres (list Z)) : sres (list Z) :=
  match l with
  | [] => SOk []
  | a :: l => sbind (f a) (fun r => sbind (for_ l f) (fun r' => SOk (r ++ r')))
  end.

(** ** Switchboard :25-94 *)
(** numx.nanmax of a non-empty list *)
Definition zmax (l : list Z) : Z := match l with [] => 0 | a :: l => fold_left Z.max l a end.
(** Switchboard.__init__ :51-58, the checks *)
Definition sw_init (n : Z) (conns : list Z) : sres (list Z) :=
  sguard (length conns =? 0)%nat SEmpty (sguard (n <=? zmax conns) SExceeds (SOk conns)).
(** :64-69: the condition for storing inverse_connections; is_invertible :78-82 *)
Definition invertible (n : Z) (conns : list Z) : bool :=
  (n =? Z.of_nat (length conns)) && (Z.of_nat (length (nodup Z.eq_dec conns)) =? n).
(** A result of numx.argsort *)
Definition is_argsort (p : list nat) (key : list Z) : Prop :=
  Permutation p (seq 0 (length key)) /\ StronglySorted (fun i j => nth i key 0 <= nth j key 0) p.
(** numpy indexing of an axis of length [n]: negative indices count from the end *)
Definition np_index (n : nat) (i : Z) : option nat :=
  if (0 <=? i) && (i <? Z.of_nat n) then Some (Z.to_nat i)
  else if (- Z.of_nat n <=? i) && (i <? 0) then Some (Z.to_nat (i + Z.of_nat n)) else None.
Fixpoint take_ {A} (row : list A) (idx : list Z) : sres (list A) :=
  match idx with
  | [] => SOk []
  | i :: idx =>
      match np_index (length row) i with
      | None => SErr SIndex
      | Some k => match nth_error row k with None => SErr SIndex | Some a => sbind (take_ row idx) (fun r => SOk (a :: r)) end
      end
  end.
(** _execute :71-72 on one row *)
Definition sw_execute {A} (conns : list Z) (row : list A) : sres (list A) := take_ row conns.
(** _inverse :84-88 on one row; [sort] is the argsort of the connections *)
Definition sw_inverse {A} (n : Z) (conns : list Z) (sort : list nat) (row : list A) : sres (list A) :=
  sguard (negb (invertible n conns)) SNotInvertible (take_ row (map Z.of_nat sort)).

(** ** MeanInverseSwitchboard._inverse :106-123 on one row *)
Section Mean.
  Context {A : Type}.
  Variables (zero : A) (add : A -> A -> A) (div : A -> Z -> A).
  (** numx.bincount: ValueError for negative entries; length is the maximum + 1 *)
  Definition bincount (conns : list Z) : sres (list Z) :=
    sguard (existsb (fun c => c <? 0) conns) SValue
      (SOk (map (fun i => Z.of_nat (count_occ Z.eq_dec conns (Z.of_nat i))) (seq 0 (Z.to_nat (zmax conns + 1))))).
  Definition np_sum (l : list A) : A := fold_right add zero l.
  Definition set_at (y : list A) (i : nat) (a : A) : list A := firstn i y ++ match skipn i y with [] => [] | _ :: r => a :: r end.
  (** the while loop :113-122; [counts] is what is left of n_y_cons, [i_y] and [i_x] the counters; the index error at the end of
      [counts] is IndexError *)
  Fixpoint mean_loop (x : list A) (out : Z) (y_cons : list Z) (counts : list Z) (i_y : nat) (i_x : Z) (y : list A) : sres (list A) :=
    match counts with
    | [] => SErr SIndex
    | n :: counts =>
        if 0 <? n then
          sbind (take_ x (firstn (Z.to_nat n) (skipn (Z.to_nat i_x) y_cons))) (fun vals =>
            let y := set_at y i_y (div (np_sum vals) n) in
            if out <=? i_x + n then SOk y else mean_loop x out y_cons counts (S i_y) (i_x + n) y)
        else mean_loop x out y_cons counts (S i_y) i_x y
    end.
  Definition mean_inverse (n : Z) (conns : list Z) (sort : list nat) (x : list A) : sres (list A) :=
    sbind (bincount conns) (fun counts =>
      mean_loop x (Z.of_nat (length conns)) (map Z.of_nat sort) counts 0 0 (repeat zero (Z.to_nat n))).
End Mean.

(** ** ChannelSwitchboard :130-205 *)
Record board := mkB { b_in : Z; b_conns : list Z; b_out_chan_dim : Z; b_in_chan_dim : Z }.
(** Python [a % b], [a // b] with ZeroDivisionError *)
Definition pymod (a b : Z) : sres Z := if b =? 0 then SErr SZeroDivision else SOk (a mod b).
Definition pydiv (a b : Z) : sres Z := if b =? 0 then SErr SZeroDivision else SOk (a / b).
(** ChannelSwitchboard.__init__ :141-168 *)
Definition ch_init (n : Z) (conns : list Z) (ocd icd : Z) : sres board :=
  let! conns := sw_init n conns in
  let! m := pymod (Z.of_nat (length conns)) ocd in
  raise! SNotMultiple when negb (m =? 0) in
  let! m := pymod n icd in
  raise! SNotMultiple when negb (m =? 0) in
  SOk (mkB n conns ocd icd).
(** output_channels, input_channels :167-168 *)
Definition output_channels (b : board) : Z := Z.of_nat (length (b_conns b)) / b_out_chan_dim b.
Definition input_channels (b : board) : Z := b_in b / b_in_chan_dim b.
(** Python slice [l[i:j]] with 0 <= j - i: negative bounds count from the end *)
Definition zslice {A} (l : list A) (i j : Z) : list A :=
  let n := Z.of_nat (length l) in
  let fix_ i := if i <? 0 then Z.max 0 (i + n) else Z.min i n in
  firstn (Z.to_nat (fix_ j - fix_ i)) (skipn (Z.to_nat (fix_ i)) l).
(** get_out_channel_input :170-176 *)
Definition get_out_channel_input (b : board) (channel : Z) : list Z :=
  zslice (b_conns b) (channel * b_out_chan_dim b) (channel * b_out_chan_dim b + b_out_chan_dim b).
(** get_out_channel_node :178-184 *)
Definition get_out_channel_node (b : board) (channel : Z) : sres (list Z) := sw_init (b_in b) (get_out_channel_input b channel).
(** get_out_channels_input_channels :186-205, for a list of channels: [covered] marks the connected inputs, an input channel is
    returned if one of its components is marked *)
Definition np_rows (l : list Z) (w : nat) (k : nat) : list Z := firstn w (skipn (k * w) l).
Fixpoint rows_of (b : board) (channels : list Z) : sres (list Z) :=
  match channels with
  | [] => SOk []
  | c :: cs =>
      match np_index (Z.to_nat (output_channels b)) c with
      | None => SErr SIndex
      | Some k => sbind (rows_of b cs) (fun r => SOk (np_rows (b_conns b) (Z.to_nat (b_out_chan_dim b)) k ++ r))
      end
  end.
Definition covered_at (n : nat) (inputs : list Z) (i : nat) : bool :=
  existsb (fun c => match np_index n c with Some k => Nat.eqb k i | None => false end) inputs.
Definition get_out_channels_input_channels (b : board) (channels : list Z) : sres (list nat) :=
  sbind (rows_of b channels) (fun inputs =>
    let n := Z.to_nat (b_in b) in
    if existsb (fun c => match np_index n c with None => true | Some _ => false end) inputs then SErr SIndex else
    SOk (filter (fun ch => existsb (covered_at n inputs) (seq (ch * Z.to_nat (b_in_chan_dim b)) (Z.to_nat (b_in_chan_dim b))))
                (seq 0 (Z.to_nat (input_channels b))))).

(** ** CoordinateTranslator :638-690 *)
Definition inside (a n : Z) : bool := (0 <=? a) && (a <? n).
(** image_to_index :662-667; array_to_index(row, col) :672-678 is the same with the arguments swapped *)
Definition image_to_index (X Y x y : Z) : sres Z :=
  sguard (negb (inside x X)) SOutside (sguard (negb (inside y Y)) SOutside (SOk (y * X + x))).
Definition array_to_index (X Y row col : Z) : sres Z :=
  sguard (negb (inside row Y)) SOutside (sguard (negb (inside col X)) SOutside (SOk (row * X + col))).
(** index_to_array :680-684, index_to_image :686-690 *)
Definition index_to_array (X Y i : Z) : sres (Z * Z) := sguard (negb ((0 <=? i) && (i <=? X * Y - 1))) SOutside (SOk (i / X, i mod X)).
Definition index_to_image (X Y i : Z) : sres (Z * Z) := sguard (negb ((0 <=? i) && (i <=? X * Y - 1))) SOutside (SOk (i mod X, i / X)).

(** The array [numx.zeros(n)] filled from the start with [l] by slice assignments: ValueError for a negative size, or when a slice
    reaches over the end; what is not filled stays 0. *)
Definition buffer (n : Z) (l : list Z) : sres (list Z) :=
  sguard (n <? 0) SValue (sguard (n <? Z.of_nat (length l)) SValue (SOk (l ++ repeat 0 (Z.to_nat n - length l)))).
(** [range(first_in_con, first_in_con + in_channel_dim)] for the channel at [x], [y] *)
Definition chan_conns (X Y cd x y : Z) : sres (list Z) := sbind (image_to_index X Y x y) (fun i => SOk (zrange (i * cd) (i * cd + cd))).
(** The two inner loops over a field starting at [x0], [y0]; e.g. :314-327 *)
Definition field_loop (X Y cd x0 y0 fx fy : Z) : sres (list Z) :=
  for_ (zrange y0 (y0 + fy)) (fun y => for_ (zrange x0 (x0 + fx)) (fun x => chan_conns X Y cd x y)).
(** x_unused_channels :280-284, 422-426 *)
Definition unused (n f sp : Z) : sres Z := if 0 <? n - f then pymod (n - f) sp else if n - f <? 0 then SOk n else SOk 0.

(** ** Rectangular2dSwitchboard.__init__ :242-333 (positive in_channel_dim); returns the board and out_channels_xy *)
Definition rect_init (X Y fx fy sx sy cd : Z) (ignore_cover : bool) : sres (board * (Z * Z)) :=
  raise! SFieldTooLarge when X <? fx in
  raise! SFieldTooLarge when Y <? fy in
  let! qx := pydiv (X - fx) sx in
  let! ux := unused X fx sx in
  let! qy := pydiv (Y - fy) sy in
  let! uy := unused Y fy sy in
  raise! SNotCovered when negb (ux =? 0) && negb ignore_cover in
  raise! SNotCovered when negb (uy =? 0) && negb ignore_cover in
  let xo := qx + 1 in let yo := qy + 1 in
  let ocd := cd * fx * fy in
  let! l := for_ (zrange 0 yo) (fun yc => for_ (zrange 0 xo) (fun xc => field_loop X Y cd (xc * sx) (yc * sy) fx fy)) in
  let! conns := buffer (xo * yo * ocd) l in
  let! b := ch_init (cd * X * Y) conns ocd cd in
  SOk (b, (xo, yo)).

(** ** DoubleRect2dSwitchboard.__init__ :381-503; returns the board and long_out_channels_xy *)
Definition drect_init (X Y fx fy cd : Z) (ignore_cover : bool) : sres (board * (Z * Z)) :=
  raise! SOdd when negb (fx mod 2 =? 0) in
  raise! SOdd when negb (fy mod 2 =? 0) in
  let sx := fx / 2 in let sy := fy / 2 in
  raise! SFieldTooLarge when X <? fx in
  raise! SFieldTooLarge when Y <? fy in
  let! xl := pydiv X fx in
  let! ux := unused X fx sx in
  raise! SNotCovered when negb (ux =? 0) && negb ignore_cover in
  raise! SSameRows when fx / 2 <=? X - xl * fx in
  let! yl := pydiv Y fy in
  let! uy := unused Y fy sy in
  raise! SNotCovered when negb (uy =? 0) && negb ignore_cover in
  raise! SSameRows when fy / 2 <=? Y - yl * fy in
  let ocd := cd * fx * fy in
  let! ex := pydiv X (2 * sx) in
  let! ey := pydiv Y (2 * sy) in
  let! l1 := for_ (zrange 0 ey) (fun yc => for_ (zrange 0 ex) (fun xc => field_loop X Y cd (xc * (2 * sx)) (yc * (2 * sy)) fx fy)) in
  let! l2 := for_ (zrange 0 (ey - 1)) (fun yc => for_ (zrange 0 (ex - 1)) (fun xc =>
               field_loop X Y cd (xc * (2 * sx) + sx) (yc * (2 * sy) + sy) fx fy)) in
  let! conns := buffer ((xl * yl + (xl - 1) * (yl - 1)) * ocd) (l1 ++ l2) in
  let! b := ch_init (cd * X * Y) conns ocd cd in
  SOk (b, (xl, yl)).

(** ** DoubleRhomb2dSwitchboard.__init__ :534-633; returns the board and out_channels_xy *)
(** field_width :601-606 *)
Definition field_width (d iy : Z) : Z := if iy <=? d - 1 then iy + 1 else d - 1 - iy mod d.
(** first_in_con and the assignment :610-628 *)
Definition rhomb_conns (X Y cd s x y : Z) : sres (list Z) :=
  if y mod 2 =? 0 then chan_conns X Y cd (if s =? 1 then x + 1 else x) (y / 2)
  else let! i := image_to_index (X - 1) (Y - 1) x (y / 2) in SOk (zrange ((i + X * Y) * cd) ((i + X * Y) * cd + cd)).
(** the field of output channel [xc], [yc] :592-628 *)
Definition rhomb_field (X Y d cd s xc yc : Z) : sres (list Z) :=
  let x0 := (1 + xc) * d / 2 - s in let y0 := yc * d + s in
  for_ (zrange 0 (2 * d - 1)) (fun iy =>
    let fw := field_width d iy in
    for_ (zrange (x0 - fw / 2) (x0 + fw / 2 + fw mod 2)) (fun x => rhomb_conns X Y cd s x (y0 + iy))).
Definition rhomb_init (X Y d cd : Z) : sres (board * (Z * Z)) :=
  let s := if X <? Y then 1 else 0 in
  raise! SOdd when negb (d mod 2 =? 0) in
  let xr := X - (1 - s) - d in let yr := Y - s - d in
  let! mx := pymod xr (d / 2) in
  raise! SIncompatible when negb (mx =? 0) || (xr <? 0) in
  let! my := pymod yr (d / 2) in
  raise! SIncompatible when negb (my =? 0) || (yr <? 0) in
  let n := (2 * X * Y - X - Y + 1) * cd in
  let ocd := cd * (d * d) in
  let! qx := pydiv (2 * xr) d in
  let! qy := pydiv (2 * yr) d in
  let xo := qx + 1 in let yo := qy + 1 in
  let! l := for_ (zrange 0 yo) (fun yc => for_ (zrange 0 xo) (fun xc => rhomb_field X Y d cd s xc yc)) in
  let! conns := buffer (xo * yo * ocd) l in
  let! b := ch_init n conns ocd cd in
  SOk (b, (xo, yo)).
