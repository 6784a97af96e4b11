(** Model of mdp/utils/covariance.py and of cov2, rotate, permute, mult_diag of mdp/utils/routines.py, in exact rational arithmetic.

    A row is a function from column indices to rationals, a chunk a list of rows, a matrix a function of two indices.  Shapes, dtypes, casts and
    the round-off warning are not modelled; in-place operations are modelled by the new value.  [None] is the value None of the accumulators. *)
From Coq Require Import List Arith QArith Qcanon Bool.
Import ListNotations.
Open Scope Qc_scope.

Definition row := nat -> Qc.
Definition mat := nat -> nat -> Qc.
Definition zero_row : row := fun _ => 0.
Definition zero_mat : mat := fun _ _ => 0.
Fixpoint qsum (l : list Qc) : Qc := match l with [] => 0 | a :: r => a + qsum r end.
Fixpoint qn (n : nat) : Qc := match n with O => 0 | S n => 1 + qn n end.
(** x.sum(axis=0) *)
Definition colsum (xs : list row) : row := fun i => qsum (map (fun x : row => x i) xs).
(** mult(x.T, y) *)
Definition tmult (xs ys : list row) : mat := fun i j => qsum (map (fun p : row * row => fst p i * snd p j) (combine xs ys)).
Definition outer (a b : row) : mat := fun i j => a i * b j.

(** ** CovarianceMatrix :27-140: _cov_mtx and _avg (None before the first update), _tlen *)
Record cov := mkCov { c_acc : option (mat * row); c_tlen : nat }.
Definition cov_init : cov := mkCov None 0.
Definition cov_update (s : cov) (x : list row) : cov :=
  let (m, a) := match c_acc s with Some p => p | None => (zero_mat, zero_row) end in
  mkCov (Some (fun i j => m i j + tmult x x i j, fun i => a i + colsum x i)) (c_tlen s + length x).
(** fix :99-140; without any update TypeError (None) *)
Definition cov_fix (bias center : bool) (s : cov) : cov * option (mat * row * nat) :=
  match c_acc s with
  | None => (s, None)
  | Some (m, a) =>
      let n := qn (c_tlen s) in
      let d := if bias then n else n - 1 in
      let m1 : mat := fun i j => m i j / d in
      let m2 : mat := if center then (fun i j => m1 i j - outer a a i j / (n * d)) else m1 in
      (mkCov None 0, Some (m2, fun i => a i / n, c_tlen s))
  end.

(** ** DelayCovarianceMatrix :342-468, delay dt >= 0 *)
Record dcov := mkD { d_acc : option (mat * row * row); d_tlen : nat }.
Definition dcov_init : dcov := mkD None 0.
(** update :399-421; the second component is false if MDPException is raised (block too short), after _init_internals *)
Definition dcov_update (dt : nat) (s : dcov) (x : list row) : dcov * bool :=
  let '(m, a, b) := match d_acc s with Some p => p | None => (zero_mat, zero_row, zero_row) end in
  let tlen := length x in
  if (tlen <? dt + 1)%nat then (mkD (Some (m, a, b)) (d_tlen s), false)
  else (mkD (Some (fun i j => m i j + tmult (firstn (tlen - dt) x) (skipn dt x) i j,
                   fun i => a i + (colsum x i - colsum (skipn (tlen - dt) x) i),
                   fun i => b i + (colsum x i - colsum (firstn dt x) i)))
            (d_tlen s + (tlen - dt))%nat, true).
(** matrix product of k columns/rows, mdp.utils.mult *)
Definition mmult (k : nat) (a b : mat) : mat := fun i j => qsum (map (fun l => a i l * b l j) (seq 0 k)).
(** fix :423-468; A: optional transformation matrix, k: input dimension *)
Definition dcov_fix (bias : bool) (A : option (nat * mat)) (s : dcov) : dcov * option (mat * row * row * nat) :=
  match d_acc s with
  | None => (s, None)
  | Some (m, a, b) =>
      let n := qn (d_tlen s) in
      let m1 : mat := fun i j => (m i j - outer a b i j / n) / (if bias then n else n - 1) in
      let m2 := match A with None => m1 | Some (k, A) => mmult k A (mmult k m1 (fun i j => A j i)) end in
      (mkD None 0, Some (m2, fun i => a i / n, fun i => b i / n, d_tlen s))
  end.

(** ** CrossCovarianceMatrix :547-614 *)
Record xcov := mkX { x_acc : option (mat * row * row); x_tlen : nat }.
Definition xcov_init : xcov := mkX None 0.
(** update :563-580; false: MDPException, nothing changed *)
Definition xcov_update (s : xcov) (x y : list row) : xcov * bool :=
  if (length x =? length y)%nat then
    let '(m, a, b) := match x_acc s with Some p => p | None => (zero_mat, zero_row, zero_row) end in
    (mkX (Some (fun i j => m i j + tmult x y i j, fun i => a i + colsum x i, fun i => b i + colsum y i)) (x_tlen s + length x), true)
  else (s, false).
Definition xcov_fix (bias : bool) (s : xcov) : xcov * option (mat * row * row * nat) :=
  match x_acc s with
  | None => (s, None)
  | Some (m, a, b) =>
      let n := qn (x_tlen s) in
      let d := if bias then n else n - 1 in
      (mkX None 0, Some (fun i j => m i j / d - outer a b i j / (n * d), fun i => a i / n, fun i => b i / n, x_tlen s))
  end.

(** ** VartimeCovarianceMatrix :143-339 *)
Inductive delta := DNone | DConst (q : Qc) | DArr (l : list Qc).
Record vcov := mkV { v_acc : option (mat * row); v_tlen : Qc; v_chunks : nat; v_last : row }.
Definition vcov_init : vcov := mkV None 0 0 zero_row.
Inductive vres := VOk | VRaise.
(** weighted sums over a list of rows with weights; sqrt(dt)*sqrt(dt) is taken as dt (dt >= 0) *)
Definition wsum2 (ws : list Qc) (xs : list row) : mat := fun i j => qsum (map (fun p : Qc * row => fst p * (snd p i * snd p j)) (combine ws xs)).
Definition wsum (ws : list Qc) (xs : list row) : row := fun i => qsum (map (fun p : Qc * row => fst p * snd p i) (combine ws xs)).
(** dt[-n+1:]: the last n-1 elements; for n = 1 this is dt[0:], all of dt *)
Definition dt_tail (n : nat) (l : list Qc) : list Qc := match n with 1%nat => l | _ => skipn (length l - (n - 1)) l end.
(** one contribution of the trapezoid rule *)
Definition addgap (m : mat) (a : row) (p q : row) (dt : Qc) : mat * row :=
  (fun i j => m i j + (outer p p i j + outer q q i j) * dt / qn 2, fun i => a i + (p i + q i) * dt / qn 2).
(** the gap between chunks :243-260 *)
Definition vcov_gap (s : vcov) (m : mat) (a : row) (x : list row) (dt : delta) (time_dep : bool) : mat * row * Qc :=
  let x0 := hd zero_row x in
  if (0 <? v_chunks s)%nat then
    match dt with
    | DArr l => if (length l =? length x)%nat then (addgap m a (v_last s) x0 (hd 0 l), v_tlen s + hd 0 l) else (m, a, v_tlen s)
    | DConst q => if time_dep then (addgap m a (v_last s) x0 q, v_tlen s + q) else (m, a, v_tlen s)
    | DNone => if time_dep then (addgap m a (v_last s) x0 1, v_tlen s + 1) else (m, a, v_tlen s)
    end
  else (m, a, v_tlen s).
(** update :175-294, for chunks with at least one row *)
Definition vcov_update (s : vcov) (x : list row) (dt : delta) (time_dep : bool) : vcov * vres :=
  let n := length x in
  let bad := match dt with
             | DArr l => (time_dep && (0 <? v_chunks s)%nat && (n - 1 =? length l)%nat) || (negb (length l =? n)%nat && negb (length l =? n - 1)%nat)
             | DConst q => if Qclt_le_dec 0 q then false else true
             | DNone => false
             end in
  if bad then (s, VRaise) else
  let (m, a) := match v_acc s with Some p => p | None => (zero_mat, zero_row) end in
  let '(m, a, t) := vcov_gap s m a x dt time_dep in
  let ws := match dt with DNone => repeat 1 (n - 1) | DConst q => repeat q (n - 1) | DArr l => dt_tail n l end in
  let m' : mat := fun i j => m i j + wsum2 ws (tl x) i j / qn 2 + wsum2 ws (firstn (n - 1) x) i j / qn 2 in
  let a' : row := fun i => a i + wsum ws (firstn (n - 1) x) i / qn 2 + wsum ws (tl x) i / qn 2 in
  (mkV (Some (m', a')) (t + qsum ws) (S (v_chunks s)) (last x zero_row), VOk).
(** fix :296-339: tchunk and xlast are not reset *)
Definition vcov_fix (center : bool) (s : vcov) : vcov * option (mat * row * Qc) :=
  match v_acc s with
  | None => (s, None)
  | Some (m, a) =>
      let t := v_tlen s in
      let m1 : mat := fun i j => m i j / t in
      (mkV None 0 (v_chunks s) (v_last s),
       Some (if center then (fun i j => m1 i j - outer a a i j / (t * t)) else m1, fun i => a i / t, t))
  end.

(** ** routines.cov2 :213-221 *)
Definition cov2 (xs ys : list row) : mat :=
  let n := qn (length xs) in
  fun i j => tmult xs ys i j / (n - 1) - outer (fun i => colsum xs i / n) (fun j => colsum ys j / n) i j.

(** ** Textbook definitions *)
Definition mean (xs : list row) : row := fun i => qsum (map (fun x : row => x i) xs) / qn (length xs).
(** sum of products of deviations of the pairs of two signals *)
Definition codev (ps : list (row * row)) : mat := fun i j =>
  let mx := mean (map fst ps) in let my := mean (map snd ps) in qsum (map (fun p : row * row => (fst p i - mx i) * (snd p j - my j)) ps).
(** second moments about zero *)
Definition moment (ps : list (row * row)) : mat := fun i j => qsum (map (fun p : row * row => fst p i * snd p j) ps).
Definition norm (bias : bool) (n : nat) : Qc := if bias then qn n else qn n - 1.
Definition self_pairs (xs : list row) : list (row * row) := map (fun x => (x, x)) xs.
(** all pairs (x(t), x(t+dt)) of a chunk *)
Definition lag_pairs (dt : nat) (xs : list row) : list (row * row) := combine xs (skipn dt xs).

(** ** MultipleCovarianceMatrices :471-544 and routines.rotate, permute, mult_diag; entries from any commutative ring *)
Section Rot.
  Variables (F : Type) (zero one : F) (add mul sub : F -> F -> F) (opp : F -> F).
  Definition fmat := nat -> nat -> F.
  Definition set_col (m : fmat) (i : nat) (v : nat -> F) : fmat := fun a b => if (b =? i)%nat then v a else m a b.
  Definition set_row (m : fmat) (i : nat) (v : nat -> F) : fmat := fun a b => if (a =? i)%nat then v b else m a b.
  (** rotate, routines.py:99-119: col_i is a copy, col_j a view *)
  Definition rot_cols (c s : F) (i j : nat) (m : fmat) : fmat :=
    let col_i := fun a => m a i in
    let m1 := set_col m i (fun a => sub (mul c (col_i a)) (mul s (m a j))) in
    set_col m1 j (fun a => add (mul s (col_i a)) (mul c (m1 a j))).
  Definition rot_rows (c s : F) (i j : nat) (m : fmat) : fmat :=
    let row_i := fun b => m i b in
    let m1 := set_row m i (fun b => sub (mul c (row_i b)) (mul s (m j b))) in
    set_row m1 j (fun b => add (mul s (row_i b)) (mul c (m1 j b))).
  (** MultipleCovarianceMatrices.rotate :504-522, one of the matrices *)
  Definition cov_rotate (c s : F) (i j : nat) (m : fmat) : fmat := rot_rows c s i j (rot_cols c s i j m).
  (** permute: x[j] on the right hand side is a view, x[i] + 0 a copy *)
  Definition swap_rows (i j : nat) (m : fmat) : fmat :=
    let row_i := fun b => m i b in let m1 := set_row m i (fun b => m j b) in set_row m1 j row_i.
  Definition swap_cols (i j : nat) (m : fmat) : fmat :=
    let col_i := fun a => m a i in let m1 := set_col m i (fun a => m a j) in set_col m1 j col_i.
  (** MultipleCovarianceMatrices.permute :524-531 *)
  Definition cov_permute (i j : nat) (m : fmat) : fmat := swap_cols i j (swap_rows i j m).
  (** symmetrize :487-492; [half] is 0.5 *)
  Definition symmetrize (half : F) (m : fmat) : fmat := fun a b => mul half (add (m a b) (m b a)).
  Definition fsum (l : list F) : F := fold_right add zero l.
  Definition fmult (d : nat) (x y : fmat) : fmat := fun a b => fsum (map (fun k => mul (x a k) (y k b)) (seq 0 d)).
  Definition ftrans (x : fmat) : fmat := fun a b => x b a.
  (** transform :533-540 *)
  Definition cov_transform (d : nat) (t m : fmat) : fmat := fmult d (fmult d (ftrans t) m) t.
  (** mult_diag, routines.py:241-256 *)
  Definition mult_diag (left : bool) (d : nat -> F) (m : fmat) : fmat :=
    if left then ftrans (fun a b => mul (d b) (ftrans m a b)) else (fun a b => mul (d b) (m a b)).
  Definition diag (d : nat -> F) : fmat := fun a b => if (a =? b)%nat then d a else zero.
  (** the rotation matrix *)
  Definition givens (c s : F) (i j : nat) : fmat := fun a b =>
    if (a =? i)%nat then (if (b =? i)%nat then c else if (b =? j)%nat then opp s else zero)
    else if (a =? j)%nat then (if (b =? i)%nat then s else if (b =? j)%nat then c else zero)
    else if (a =? b)%nat then one else zero.
  Definition transp (i j a : nat) : nat := if (a =? i)%nat then j else if (a =? j)%nat then i else a.
  (** weight :494-502: a number has no len; a list or tuple has no attribute dtype (refcast) *)
  Inductive weights := WArray (l : list F) | WList (l : list F) | WNumber (w : F).
  Definition cov_weight (w : weights) (ms : list fmat) : option (list fmat) :=
    match w with
    | WArray l => if (length l =? length ms)%nat then Some (map (fun p => fun a b => mul (snd p a b) (fst p)) (combine l ms)) else None
    | _ => None
    end.
End Rot.
