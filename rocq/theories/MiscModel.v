(** Model of nodes of mdp/nodes/misc_nodes.py: hit parade, time frames, time delay, sliding window, cutoff, adaptive cutoff, eta values.

    Shapes of blocks and dtypes are not modelled.  A data array is the list of its rows.  An array whose columns are cut into
    [time_frames] blocks of input_dim columns is a list of rows, each the list of its blocks. *)
From Coq Require Import List Arith ZArith QArith Qcanon Bool.
From Verif Require Import CovModel.
Import ListNotations.

(** ** OneDimensionalHitParade :38-149, the part for the maxima; the minima are the maxima of the negated signal.
    Values are integers (only their order matters); [lo] is the smallest number of the dtype *)
Local Open Scope Z_scope.
Record hits := mkH { h_M : list Z; h_iM : list Z; h_lM : nat }.
Definition hit_init (n : nat) (lo : Z) : hits := mkH (repeat lo n) (repeat 0 n) 0.
(** M.argmin(): position of the first smallest element *)
Fixpoint argmin_from (best : Z) (besti i : nat) (l : list Z) : nat :=
  match l with [] => besti | a :: r => if a <? best then argmin_from a i (S i) r else argmin_from best besti (S i) r end.
Definition argmin (l : list Z) : nat := match l with [] => 0%nat | a :: r => argmin_from a 0 1 r end.
Fixpoint set {A} (k : nat) (v : A) (l : list A) : list A := match l with [] => [] | a :: r => match k with O => v :: r | S k => a :: set k v r end end.
(** one pass of the loop of update :99-109 *)
Definition hit_step (d : Z) (h : hits) (p : Z * Z) : hits :=
  let '(x, ix) := p in
  let M := h_M h in let iM := h_iM h in let lM := h_lM h in
  let k1 := argmin M in
  if nth k1 M 0 <? x then
    if (ix - nth lM iM 0 <=? d) && (nth lM M 0 <? x) then mkH (set lM x M) (set lM ix iM) lM
    else if d <? ix - nth lM iM 0 then mkH (set k1 x M) (set k1 ix iM) k1
    else h
  else h.
Definition hit_update (d : Z) (h : hits) (xs : list (Z * Z)) : hits := fold_left (hit_step d) xs h.
(** HitParadeNode._train :205-217, one channel: the indices go on over the chunks *)
Definition arange (a : nat) (l : list Z) : list (Z * Z) := combine l (map Z.of_nat (seq a (length l))).
Definition hit_train (d : Z) (s : hits * nat) (x : list Z) : hits * nat := let (h, tlen) := s in (hit_update d h (arange tlen x), (tlen + length x)%nat).

(** ** Time frames and delays; [A] is the type of a row of the input, [z] the row of zeros *)
Section Frames.
  Context {A : Type} (z : A).
  Local Open Scope nat_scope.
  (** x[a:b] for 0 <= a, 0 <= b *)
  Definition slice (a b : nat) (l : list A) : list A := firstn (b - a) (skipn a l).
  (** x[:b] for any integer b *)
  Definition upto (b : Z) (l : list A) : list A := if (b <? 0)%Z then firstn (length l - Z.to_nat (- b)) l else firstn (Z.to_nat b) l.
  (** numpy's assignment of an array of [length src] rows to [k] rows: None is ValueError; one row is broadcast *)
  Definition fit (k : nat) (src : list A) : option (list A) :=
    if length src =? k then Some src else match src with [a] => Some (repeat a k) | _ => None end.
  (** an array given by its block columns as list of rows *)
  Definition of_blocks (rows : nat) (blocks : list (list A)) : list (list A) := map (fun t => map (fun b => nth t b z) blocks) (seq 0 rows).
  Fixpoint all_some {B} (l : list (option B)) : option (list B) :=
    match l with [] => Some [] | Some b :: r => match all_some r with Some bs => Some (b :: bs) | None => None end | None :: _ => None end.
  (** TimeFramesNode._execute :329-337; None: ValueError (also for a negative number of rows in zeros()) *)
  Definition frames_execute (frames gap : nat) (x : list A) : option (list (list A)) :=
    let tf := (Z.of_nat (length x) - (Z.of_nat frames - 1) * Z.of_nat gap)%Z in
    if (tf <? 0)%Z then None else
    let tf := Z.to_nat tf in
    match all_some (map (fun f => fit tf (slice (gap * f) (gap * f + tf) x)) (seq 0 frames)) with
    | Some blocks => Some (of_blocks tf blocks)
    | None => None
    end.
  (** x[row : row+length src] = src; None: ValueError if that goes beyond the end (and more than one row) *)
  Definition assign (row n : nat) (src x : list A) : option (list A) :=
    match fit (Nat.min n (length x - row)) src with
    | Some s => Some (firstn row x ++ s ++ skipn (row + length s) x)
    | None => None
    end.
  (** y[-b:] *)
  Definition last_rows {B} (b : nat) (y : list B) : list B := if b =? 0 then y else skipn (length y - b) y.
  (** range(a, b, step) *)
  Fixpoint range_n (fuel a b step : nat) : list nat := match fuel with O => [] | S fuel => if a <? b then a :: range_n fuel (a + step) b step else [] end.
  Fixpoint pinv_loop (y : list (list A)) (bsz : nat) (rows : list nat) (count : nat) (x : list A) : option (list A) :=
    match rows with
    | [] => Some x
    | row :: rows => match assign row bsz (map (fun r => nth count r z) (last_rows bsz y)) x with
                     | Some x => pinv_loop y bsz rows (S count) x
                     | None => None
                     end
    end.
  (** pseudo_inverse :339-382; None: ValueError (range with step 0, or assignment) *)
  Definition pseudo_inverse (frames gap : nat) (y : list (list A)) : option (list A) :=
    if gap =? 0 then None else
    let e := length y in
    let rows := e + (frames - 1) * gap in
    let x := map (fun r => nth 0 r z) y ++ repeat z (rows - e) in
    let bsz := Nat.min gap e in
    pinv_loop y bsz (range_n rows (Nat.max e gap) rows gap) 1 x.

  (** TimeDelayNode._execute :428-439: y[gap*frame:, block] = x[:rows-gap*frame] *)
  Definition delay_block (rows gap frame : nat) (x : list A) : option (list A) :=
    match fit (rows - gap * frame) (upto (Z.of_nat rows - Z.of_nat (gap * frame))%Z x) with
    | Some s => Some (repeat z (Nat.min rows (gap * frame)) ++ s)
    | None => None
    end.
  Definition delay_execute (frames gap : nat) (x : list A) : option (list (list A)) :=
    match all_some (map (fun f => delay_block (length x) gap f x) (seq 0 frames)) with
    | Some blocks => Some (of_blocks (length x) blocks)
    | None => None
    end.

  (** TimeDelaySlidingWindowNode :448-521: the window (rows of blocks), cur_idx, slide *)
  Record window := mkW { w_wnd : list (list A); w_cur : nat; w_slide : bool }.
  Definition window_init (frames gap : nat) : window := mkW (repeat (repeat z frames) (gap + 1)) 0 false.
  Definition wset {B} (k : nat) (v : B) (l : list B) : list B := firstn k l ++ v :: skipn (S k) l.
  Definition window_execute (frames gap : nat) (w : window) (x : A) : window * list A :=
    let rows := length (w_wnd w) in
    (* sliding_wnd[:-1] = sliding_wnd[1:] *)
    let wnd := if w_slide w then tl (w_wnd w) ++ [last (w_wnd w) []] else w_wnd w in
    let new_row := if gap <=? w_cur w then x :: removelast (nth (w_cur w - gap) wnd []) else x :: repeat z (frames - 1) in
    let wnd := wset (w_cur w) new_row wnd in
    (if w_cur w <? rows - 1 then mkW wnd (S (w_cur w)) (w_slide w) else mkW wnd (w_cur w) true, new_row).
  Fixpoint window_run (frames gap : nat) (w : window) (xs : list A) : list (list A) :=
    match xs with [] => [] | x :: xs => let (w, r) := window_execute frames gap w x in r :: window_run frames gap w xs end.
End Frames.

(** ** CutoffNode._execute :771-775, one value *)
Definition cutoff (lo hi : option Z) (x : Z) : Z :=
  let x := match lo with Some l => if l <=? x then x else l | None => x end in
  match hi with Some h => if x <=? h then x else h | None => x end.

(** ** AdaptiveCutoffNode._stop_training :983-995, one channel; fractions are rationals, 0 counts as None; int() truncates *)
Fixpoint insert (a : Z) (l : list Z) : list Z := match l with [] => [a] | b :: r => if a <=? b then a :: l else b :: insert a r end.
Definition sort (l : list Z) : list Z := fold_right insert [] l.
Definition lower_index (f : Q) (n : nat) : nat := Z.to_nat (Qnum (f * inject_Z (Z.of_nat n)) / Zpos (Qden (f * inject_Z (Z.of_nat n)))).
Definition upper_index (f : Q) (n : nat) : nat :=
  let q := (inject_Z (Z.of_nat n) - f * inject_Z (Z.of_nat n))%Q in Z.to_nat (Qnum q / Zpos (Qden q)).
(** None: IndexError *)
Definition lower_bound (f : Q) (data : list Z) : option Z := nth_error (sort data) (lower_index f (length data)).
Definition upper_bound (f : Q) (data : list Z) : option Z := nth_error (sort data) (upper_index f (length data)).

(** ** EtaComputerNode :523-636, one channel, exact arithmetic: sums over all but the last point of each chunk *)
Local Open Scope Qc_scope.
Record eta := mkE { e_mean : Qc; e_var : Qc; e_tlen : nat; e_diff2 : Qc }.
Definition eta_init : eta := mkE 0 0 0 0.
Definition timediff (x : list Qc) : list Qc := map (fun p => fst p - snd p) (combine (tl x) (removelast x)).
Definition eta_train (s : eta) (x : list Qc) : eta :=
  let r := removelast x in
  mkE (e_mean s + qsum r) (e_var s + qsum (map (fun v => v * v) r)) (e_tlen s + length r) (e_diff2 s + qsum (map (fun v => v * v) (timediff x))).
(** (variance, delta) of _stop_training *)
Definition eta_stop (s : eta) : Qc * Qc :=
  let n := qn (e_tlen s) in
  let var := (e_var s - e_mean s * e_mean s / n) / (n - 1) in (var, e_diff2 s / n / var).
