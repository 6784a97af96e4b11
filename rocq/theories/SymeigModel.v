(** Model of mdp/utils/_symeig.py (_symeig_fake with a second matrix) and mdp/utils/symeig_semidefinite.py (the methods pca and svd and the detection of
    blank inputs).

    Exact arithmetic over an ordered field; the matrices are functions of two indices below a dimension, a matrix of eigenvectors is the list of its columns.
    eigh, svd and sqrt are parameters.  The arguments eigenvectors, turbo, type and overwrite, dtypes and imaginary parts are not modelled, nor are the
    methods reg and ldl. *)
From Coq Require Import List Arith ZArith Bool.
From Verif Require Import OField LinAlg PCAModel.
Import ListNotations.
Open Scope nat_scope.

(** what a solver does: the new value of dfc_out.rank_deficit (None: not assigned), eigenvalues and eigenvectors; SymeigException; IndexError *)
Inductive solres (K V : Type) := SolOk (deficit : option nat) (d : list K) (u : list V) | SolSymeig | SolIndex.
Arguments SolOk {K V}. Arguments SolSymeig {K V}. Arguments SolIndex {K V}.

Section Symeig.
  Context {K : ofield}.
  Notation vec := (vec (K := K)). Notation mtx := (mtx (K := K)).
  (** all eigenvalues in ascending order with their eigenvectors; None: LinAlgError *)
  Variable eigh : option (Z * Z) -> nat -> mtx -> option (list K * list vec).
  (** the singular values in descending order and the columns of U *)
  Variable svd_ : nat -> mtx -> list K * list vec.
  Variable sqrt_ : K -> K.
  Variable thr : K.                       (* rank_threshold *)

  Definition nthv (k : nat) (V : list vec) : vec := nth k V vzero.
  (** the columns of ev / sqrt(eg) *)
  Definition rescale (eg : list K) (ev : list vec) : list vec := map (fun p : vec * K => scale (fst p) (sqrt_ (snd p))) (combine ev eg).
  (** S^T A S *)
  Definition congr (n : nat) (A : mtx) (S : list vec) : mtx := fun k l => quad n A (nthv k S) (nthv l S).
  (** S e for every column e of E *)
  Definition mulcols (S E : list vec) : list vec := map (fun e => comb S e) E.
  (** _symeig_fake (mdp/utils/_symeig.py:79-176) with B given *)
  Definition symeig_fake (rng : option (Z * Z)) (n : nat) (A B : mtx) : solres K vec :=
    match eigh None n B with
    | None => SolSymeig
    | Some (wB, ZB) =>
        if existsb (fun a => fltb a f0) wB then SolSymeig
        else
          let ZB := rescale wB ZB in
          match eigh None n (congr n A ZB) with
          | None => SolSymeig
          | Some (w, ZA) => SolOk None (eig_range n rng w) (eig_range n rng (mulcols ZB ZA))
          end
    end.
  Definition fabs (a : K) : K := if fltb a f0 then (- a)%of else a.
  (** _find_blank_data_idx (mdp/utils/symeig_semidefinite.py:133-156) *)
  Definition find_blank (n : nat) (B : mtx) : option (list nat) :=
    match filter (fun j => fltb (fabs (B 0 j)) thr) (seq 0 n) with
    | [] => None
    | z => match filter (fun j => fltb (fsum (map (fun i => fabs (B i j)) z) / fn (length z))%of thr) (seq 0 n) with
           | [] => None
           | z => Some (filter (fun j => negb (existsb (Nat.eqb j) z)) (seq 0 n))
           end
    end.
  (** B[idx, :][:, idx] *)
  Definition pick (idx : list nat) (B : mtx) : mtx := fun i j => B (nth i idx 0) (nth j idx 0).
  (** the row of a vector over idx in a zero vector of the original size *)
  Fixpoint pos (i : nat) (idx : list nat) : option nat :=
    match idx with [] => None | a :: r => if i =? a then Some 0 else option_map S (pos i r) end.
  Definition restore (idx : list nat) (u : vec) : vec := fun i => match pos i idx with Some p => u p | None => f0 end.
  (** symeig_semidefinite_pca after the blank inputs are removed (mdp/utils/symeig_semidefinite.py:311-380) *)
  Definition leading (eg : list K) : nat := searchsorted eg thr.
  Definition pca_core (rng : option (Z * Z)) (n : nat) (A B : mtx) : solres K vec :=
    match eigh None n B with
    | None => SolSymeig
    | Some (eg, ev) =>
        let off := leading eg in
        if length eg <=? off then SolIndex
        else
          let S := rescale (skipn off eg) (skipn off ev) in
          match eigh rng (length S) (congr n A S) with
          | None => SolSymeig
          | Some (d, e) => SolOk (Some off) (eig_range (length S) rng d) (mulcols S (eig_range (length S) rng e))
          end
    end.
  (** symeig_semidefinite_svd after the blank inputs are removed (mdp/utils/symeig_semidefinite.py:383-456) *)
  Definition svd_core (rng : option (Z * Z)) (n : nat) (A B : mtx) : solres K vec :=
    let (s, U) := svd_ n B in
    let off := searchsorted (rev s) thr in
    if length s <=? off then SolIndex
    else
      let keep := length s - off in
      let X1 := rescale (firstn keep s) (firstn keep U) in
      let (_, X2) := svd_ (length X1) (congr n A X1) in
      let E := rev (mulcols X1 X2) in
      let e := map (fun u => quad n A u u) E in
      SolOk (if 0 <? off then Some off else None) (svd_range rng e) (svd_range rng E).
  (** the treatment of blank inputs common to both; old: the value of dfc_out.rank_deficit before the call *)
  Definition semidefinite (core : nat -> mtx -> mtx -> solres K vec) (old : nat) (n : nat) (A B : mtx) : solres K vec :=
    match find_blank n B with
    | None => core n A B
    | Some idx =>
        match core (length idx) (pick idx A) (pick idx B) with
        | SolOk dfc d u => SolOk (Some (match dfc with Some k => k | None => old end + (n - length idx))) d (map (restore idx) u)
        | r => r
        end
    end.
  Definition symeig_pca (rng : option (Z * Z)) := semidefinite (pca_core rng).
  Definition symeig_svd (rng : option (Z * Z)) := semidefinite (svd_core rng).
End Symeig.
