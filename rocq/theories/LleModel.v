(** Model of LLENode and HLLENode (mdp/nodes/lle_nodes.py), with exact real arithmetic.

    A matrix is a function of row and column, as in ICAModel.v.  numpy's argsort, linalg.solve, linalg.qr, the singular values and symeig are parameters; what is
    assumed about them is stated with the theorems.  dtypes, the printed messages, warnings and the bookkeeping of Node and Cumulator are not modelled; the branch
    svd=True finds the same null space with nongeneral_svd and is not modelled. *)
From Coq Require Import Reals List Arith ZArith Bool.
From Verif Require Import CovModel ICAModel.
Import ListNotations.
Open Scope R_scope.

(** TrainingException, IndexError, ValueError, numpy's LinAlgError; LNan: a division by zero, numpy goes on with nan *)
Inductive lexn := LTraining | LIndex | LValue | LLinAlg | LNan.
Definition rvec := nat -> R.

(** ** LLENode *)
Section Lle.
  Variable d : nat.                                        (* input_dim *)
  Variable argsort : nat -> rvec -> list nat.              (* of the first entries of a vector *)
  Variable sig2 : nat -> rmat -> list R.                   (* svd(a, compute_uv=0)**2 of a matrix with so many rows and d columns, descending *)
  Variable solve : nat -> rmat -> option rvec.             (* numx_linalg.solve(q, numx.ones(k)); None: LinAlgError *)

  (** ((M - x)**2).sum(1) :155-156, :244-245, :299-300 *)
  Definition dist2 (m : rmat) (x : rvec) : rvec := fun t => rsum d (fun a => (m t a - x a) * (m t a - x a)).
  (** the neighbours: numx.argsort(...)[1:k+1] :156, :245, :480; in _execute numx.argsort(...)[:k] :300 *)
  Definition nbrs_train (n k : nat) (m : rmat) (row : nat) : list nat := firstn k (skipn 1 (argsort n (dist2 m (m row)))).
  Definition nbrs_exec (n k : nat) (m : rmat) (x : rvec) : list nat := firstn k (argsort n (dist2 m x)).
  (** M_Mi = (M-M[row])[nbrs] :157 and Q = mult(M_Mi, M_Mi.T) :159; the same in :246-248, :301-304 *)
  Definition diffs (m : rmat) (x : rvec) (l : list nat) : rmat := fun i a => m (nth i l 0%nat) a - x a.
  Definition gram (m : rmat) (x : rvec) (l : list nat) : rmat := fun i j => rsum d (fun a => diffs m x l i a * diffs m x l j a).
  Definition trace (k : nat) (q : rmat) : R := rsum k (fun i => q i i).
  Definition add_diag (c : R) (q : rmat) : rmat := fun i j => if (i =? j)%nat then q i j + c else q i j.
  (** numx.sum(sig2[output_dim:]) :175, :307 *)
  Definition unused (k od : nat) (a : rmat) : R := fold_right Rplus 0 (skipn od (sig2 k a)).
  (** the correction in training :167-182; [r] is None for auto_reg *)
  Definition reg_train (k od : nat) (r : option R) (m : rmat) (x : rvec) (l : list nat) : rmat :=
    let q := gram m x l in match r with None => add_diag (unused k od (diffs m x l)) q | Some r => add_diag (r * trace k q) q end.
  (** in _execute :303-310: with r = None the correction is added twice ("if r is not None" is true by then), and [r] keeps it for the rows which follow *)
  Definition reg_exec (k od : nat) (r : option R) (m : rmat) (x : rvec) (l : list nat) : rmat :=
    let q := gram m x l in
    match r with None => if (od <? k)%nat then let c := unused k od (diffs m x l) in add_diag c (add_diag c q) else q | Some r => add_diag r q end.
  Definition next_r (k od : nat) (r : option R) (m : rmat) (x : rvec) (l : list nat) : option R :=
    match r with None => if (od <? k)%nat then Some (unused k od (diffs m x l)) else None | Some r => Some r end.
  (** :187-188, :313-314 *)
  Definition weights_of (k : nat) (q : rmat) : rvec + lexn :=
    match solve k q with None => inr LLinAlg | Some w => let s := rsum k w in if Req_EM_T s 0 then inr LNan else inl (fun i => w i / s) end.
  (** W[nbrs, row] = w :191, W[row, nbrs] = w :315: a vector of zeros with these entries *)
  Fixpoint scatter (l : list nat) (w : rvec) (j : nat) : R := match l with [] => 0 | n :: l => if (n =? j)%nat then w 0%nat else scatter l (fun i => w (S i)) j end.
  (** a row of the loop :147-191; the diagonal indices 0, ..., k-1 :115 *)
  Definition train_row (n k od : nat) (r : option R) (m : rmat) (row : nat) : rvec + lexn :=
    let l := nbrs_train n k m row in
    if (length l <? k)%nat then inr LIndex else match weights_of k (reg_train k od r m (m row) l) with inr e => inr e | inl w => inl (scatter l w) end.
  Fixpoint seq_rows {A} (f : nat -> A + lexn) (rows : list nat) : list A + lexn :=
    match rows with [] => inl [] | i :: rows => match f i with inr e => inr e | inl a => match seq_rows f rows with inr e => inr e | inl l => inl (a :: l) end end end.
  (** :98-198: the weight matrix; [cols]: its columns *)
  Definition train (n k od : nat) (r : option R) (m : rmat) : list rvec + lexn := if (n <? k)%nat then inr LTraining else seq_rows (train_row n k od r m) (seq 0 n).
  Definition wmat (cols : list rvec) : rmat := fun j row => nth row cols (fun _ => 0) j.
  (** W[W_diag_idx, W_diag_idx] -= 1., WW = mult(W, W.T), WW[...] += 0.1 :202-216 *)
  Definition minus_eye (w : rmat) : rmat := fun i j => w i j - eye i j.
  Definition cost (n : nat) (w : rmat) : rmat := mult n (minus_eye w) (transp (minus_eye w)).
  Definition shifted (n : nat) (w : rmat) : rmat := add_diag (1/10) (cost n w).
  (** symeig(WW, range=(2, output_dim+1)) :217: the eigenvectors [u] but the first *)
  Definition projection (u : rmat) : rmat := fun t b => u t (S b).
  (** _execute :284-318, one row; [tp] is training_projection *)
  Definition execute_row (n k od : nat) (r : option R) (m tp : rmat) (x : rvec) : rvec + lexn :=
    let l := nbrs_exec n k m x in
    match weights_of k (reg_exec k od r m x l) with inr e => inr e | inl w => inl (fun b => rsum n (fun j => scatter l w j * tp j b)) end.

  (** the loop over the rows :297-315 *)
  Fixpoint execute (n k od : nat) (r : option R) (m tp : rmat) (xs : list rvec) : list rvec + lexn :=
    match xs with
    | [] => inl []
    | x :: xs =>
        match execute_row n k od r m tp x with
        | inr e => inr e
        | inl y => match execute n k od (next_r k od r m x (nbrs_exec n k m x)) m tp xs with inr e => inr e | inl ys => inl (y :: ys) end
        end
    end.

  (** ** _adjust_output_dim :221-282 *)
  (** S = sig2.cumsum(); S[j] is [cum s (j+1)] *)
  Definition cum (s : list R) (n : nat) : R := fold_right Rplus 0 (firstn n s).
  (** S.searchsorted(v): the first j with v <= S[j] *)
  Fixpoint searchsorted (s : list R) (acc v : R) : nat := match s with [] => O | x :: s => if Rle_dec v (acc + x) then O else S (searchsorted s (acc + x) v) end.
  (** :265-272; the normalized variances are [s] *)
  Definition m_est (s : list R) (v : R) : R + lexn :=
    let j := searchsorted s 0 v in
    match nth_error s j with
    | None => inr LIndex
    | Some x => inl (if (0 <? j)%nat then INR j + (v - cum s j) / x else v / x)
    end.
  (** a row :240-272; too few neighbours: ValueError :248-249, but numpy broadcasts a single one *)
  Definition adjust_row (n k : nat) (v : R) (m : rmat) (row : nat) : R + lexn :=
    let l := nbrs_train n k m row in
    if (length l <? k)%nat && negb (length l =? 1)%nat then inr LValue else
    let s := sig2 (length l) (diffs m (m row) l) in let t := fold_right Rplus 0 s in
    if Req_EM_T t 0 then inr LNan else m_est (map (fun x => x / t) s) v.
  (** int(ceil(median(m_est_array))) :274-275 *)
  Definition ceil (x : R) : Z := (1 - up (- x))%Z.
  Definition adjust (median : list R -> R) (n k : nat) (v : R) (m : rmat) : Z + lexn :=
    match seq_rows (adjust_row n k v m) (seq 0 n) with inr e => inr e | inl l => inl (ceil (median l)) end.
End Lle.

(** ** HLLENode :348-579 *)
(** _mgs :334-346 for the columns of a; None: division by zero *)
Definition vdot (m : nat) (u v : rvec) : R := rsum m (fun t => u t * v t).
Fixpoint mgs_ (fuel m : nat) (cols : list rvec) : option (list rvec) :=
  match fuel, cols with
  | S fuel, v :: rest =>
      let r := sqrt (vdot m v v) in
      if Req_EM_T r 0 then None else
      let q := fun t => v t / r in
      match mgs_ fuel m (map (fun u t => u t - vdot m q u * q t) rest) with None => None | Some l => Some (q :: l) end
  | _, _ => Some []
  end.
Definition mgs (m : nat) (cols : list rvec) : option (list rvec) := mgs_ (length cols) m cols.
(** the columns of Yi.T :499-505: ones, the coordinates, and their products; [nb] has d_out rows *)
Definition pairs_le (d : nat) : list (nat * nat) := flat_map (fun i => map (fun j => (i, j)) (seq i (d - i))) (seq 0 d).
Definition hessian_cols (dout : nat) (nb : rmat) : list rvec :=
  (fun _ => 1) :: map (fun i t => nb i t) (seq 0 dout) ++ map (fun p t => nb (fst p) t * nb (snd p) t) (pairs_le dout).
(** w / S for a column w of the orthogonal factor, S = w.sum() :519-525 *)
Definition hessian_weight (k : nat) (w : rvec) : rvec := let s := rsum k w in let s := if Rlt_dec (Rabs s) (1/10000) then 1 else s in fun t => w t / s.
(** Y = U*sqrt(N); C = sqrtm(mult(Y.T, Y)); training_projection = mult(Y, C) :545, :552, :578-579.  sqrtm (mdp/utils/routines.py:314-317) with the eigenvalues [dv]
    and eigenvectors [v] of symeig *)
Definition hl_y (n : nat) (u : rmat) : rmat := fun t b => u t b * sqrt (INR n).
Definition hl_gram (n : nat) (u : rmat) : rmat := mult n (transp (hl_y n u)) (hl_y n u).
Definition sqrtm_of (dout : nat) (dv : rvec) (v : rmat) : rmat := mult dout v (fun i j => sqrt (dv i) * v j i).
Definition hl_projection (n dout : nat) (u : rmat) (dv : rvec) (v : rmat) : rmat := mult dout (hl_y n u) (sqrtm_of dout dv v).
