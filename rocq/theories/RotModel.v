(** Model of random_rot, mdp/utils/routines.py:178-203, over a real closed field (exact arithmetic). [x n i] is the entry i of the vector drawn in the step n of the loop;
    the dimension is [m.+1]. The cast of the draws to the dtype is not modelled: the draws are arbitrary. A division by zero (nan in numpy) is 0 here, the theorems exclude it. *)
From mathcomp Require Import all_ssreflect all_algebra.

Import GRing.Theory Num.Theory.
Local Open Scope ring_scope.

Section Rot.
Variables (R : rcfType) (m : nat) (x : nat -> nat -> R).
Definition dim : nat := m.+1.
(** D[n-1] = sign(x[0]) :191 *)
Definition sgn (n : nat) : R := Num.sg (x n 0).
(** x[0] -= D[n-1]*sqrt((x*x).sum()) :192; x has dim-n+1 entries *)
Definition norm_ (n : nat) : R := Num.sqrt (\sum_(i < dim - n + 1) x n i * x n i).
Definition hv (n i : nat) : R := if i == 0%N then x n 0 - sgn n * norm_ n else x n i.
(** (x*x).sum() afterwards :195 *)
Definition hh (n : nat) : R := \sum_(i < dim - n + 1) hv n i * hv n i.
(** eye(dim) with the block [n-1:, n-1:] replaced by Hx :194-197 *)
Definition mat (n : nat) : 'M[R]_dim :=
  \matrix_(i, j) if (n - 1 <= i)%N && (n - 1 <= j)%N then (i == j)%:R - 2%:R * (hv n (i - (n - 1)) * hv n (j - (n - 1))) / hh n else (i == j)%:R.
(** the loop :189-198 *)
Definition house : 'M[R]_dim := foldl (fun H n => H *m mat n) 1%:M (iota 1 m).
(** D[-1] = (-1)**(1-dim%2)*D.prod() :200, D[-1] being 1 before *)
Definition dvec (i : nat) : R := if i == m then (-1) ^+ (1 - dim %% 2) * \prod_(k < m) sgn k.+1 else sgn i.+1.
(** H = (D*H.T).T :202 *)
Definition random_rot : 'M[R]_dim := \matrix_(i, j) (dvec i * house i j).
End Rot.
