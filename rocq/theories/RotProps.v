(** Properties of random_rot *)
From mathcomp Require Import all_ssreflect all_algebra.
From Verif Require Import RotModel.
Import GRing.Theory Num.Theory.
Local Open Scope ring_scope.

(** det (1 + u v) = 1 + v u *)
Lemma det_rank1 (R : rcfType) k (u : 'cV[R]_k) (v : 'rV[R]_k) : \det (1%:M + u *m v) = 1 + (v *m u) 0 0.
Proof.
have E : block_mx 1%:M 0 v 1%:M *m block_mx (1%:M + u *m v) u 0 (1%:M : 'M_1) *m block_mx 1%:M 0 (- v) 1%:M = block_mx 1%:M u 0 (1%:M + v *m u).
  rewrite !mulmx_block !mul1mx !mul0mx !mulmx0 !mulmx1 !addr0 ?add0r !mulmxN !mulmxDr !mulmx1 ?mulmxDl ?mul1mx.
  congr block_mx.
  - by rewrite addrK.
  - by rewrite mulmxA [v *m u *m v + v]addrC subrr.
  - by rewrite addrC.
have D := congr1 (fun M => \det M) E. move: D; rewrite !det_mulmx !det_lblock !det_ublock !det1 !mulr1 !mul1r => ->.
by rewrite det_mx11 !mxE.
Qed.

Section Rot.
Variables (R : rcfType) (m : nat) (x : nat -> nat -> R).
Notation dim := (dim m). Notation hv := (hv R m x). Notation hh := (hh R m x). Notation mat := (mat R m x). Notation sgn := (sgn R x). Notation dvec := (dvec R m x). Notation house := (house R m x). Notation random_rot := (random_rot R m x).
(** the vector of the Householder transformation in the whole space *)
Definition hu (n : nat) : 'cV[R]_dim := \col_i (if (n - 1 <= i)%N then hv n (i - (n - 1)) else 0).
Lemma matE n : mat n = 1%:M + (- (2%:R / hh n)) *: (hu n *m (hu n)^T).
Proof.
apply/matrixP => i j. rewrite !mxE big_ord1 !mxE. case: (n - 1 <= i)%N; case: (n - 1 <= j)%N => /=; rewrite ?mul0r ?mulr0 ?addr0 //.
by rewrite mulNr mulrAC.
Qed.
Lemma huE n : (0 < n <= dim)%N -> ((hu n)^T *m hu n) 0 0 = hh n.
Proof.
move=> /andP [n0 nd]. rewrite !mxE /RotModel.hh.
rewrite (eq_bigr (fun i : 'I_dim => (fun k : nat => if (n - 1 <= k)%N then hv n (k - (n - 1)) * hv n (k - (n - 1)) else 0) i)); last by move=> i _; rewrite !mxE; case: ifP => // _; rewrite mulr0.
rewrite -(big_mkord xpredT (fun k : nat => if (n - 1 <= k)%N then hv n (k - (n - 1)) * hv n (k - (n - 1)) else 0)).
have le1 : (n - 1 <= dim)%N by rewrite (leq_trans _ nd) // leq_subr.
rewrite (big_cat_nat _ _ _ (leq0n _) le1) /= big_nat big1 ?add0r; last by move=> i /andP [_ H]; rewrite leqNgt H.
rewrite -{1}[(n - 1)%N]add0n big_addn big_mkord. have -> : (dim - (n - 1) = dim - n + 1)%N by rewrite subnBA // !addn1 subSn.
by apply: eq_bigr => i _; rewrite leq_addl addnK.
Qed.
Definition good (n : nat) : Prop := exists i, (0 < i < dim - n + 1)%N && (x n i != 0).
Lemma hh_neq0 n : good n -> hh n != 0.
Proof.
case=> i /andP [/andP [i0 il] xi]. apply/negP => /eqP E. have Q : forall k : 'I_(dim - n + 1), xpredT k -> hv n k * hv n k = 0 by apply: psumr_eq0P => // k _; rewrite -expr2 sqr_ge0.
have := Q (Ordinal il) isT. rewrite /RotModel.hv /= -[i == 0%N]negbK -lt0n i0 /= => /eqP. by rewrite mulf_eq0 orbb (negbTE xi).
Qed.
Lemma mat_orth n : (0 < n <= dim)%N -> good n -> mat n *m (mat n)^T = 1%:M /\ \det (mat n) = -1.
Proof.
move=> nd g. have h0 := hh_neq0 n g. have uu := huE n nd.
have P2 : hu n *m (hu n)^T *m (hu n *m (hu n)^T) = hh n *: (hu n *m (hu n)^T).
  by rewrite mulmxA -[hu n *m _ *m hu n]mulmxA [(hu n)^T *m hu n]mx11_scalar uu mul_mx_scalar -scalemxAl.
split.
- rewrite matE linearD /= trmx1 linearZ /= trmx_mul trmxK mulmxDl !mulmxDr !mul1mx !mulmx1 -scalemxAl -scalemxAr P2 !scalerA -addrA -!scalerDl.
  suff -> : - (2%:R / hh n) + (- (2%:R / hh n) + - (2%:R / hh n) * - (2%:R / hh n) * hh n) = 0 by rewrite scale0r addr0.
  by rewrite mulrNN -mulrA divfK // mulr_natr mulr2n addKr addNr.
- rewrite matE scalemxAl det_rank1 -scalemxAr mxE uu mulNr divfK //. by rewrite -opprB -[1]/(1%:R) -natrB.
Qed.

Lemma fold_orth s : (forall n, n \in s -> (0 < n <= dim)%N /\ good n) -> forall A : 'M[R]_dim, A *m A^T = 1%:M ->
  foldl (fun H n => H *m mat n) A s *m (foldl (fun H n => H *m mat n) A s)^T = 1%:M /\ \det (foldl (fun H n => H *m mat n) A s) = \det A * (-1) ^+ size s.
Proof.
elim: s => [|n s IH] H A AA /=; first by rewrite expr0 mulr1.
have [nd g] := H n (mem_head _ _). have [o d] := mat_orth n nd g.
have AA' : (A *m mat n) *m (A *m mat n)^T = 1%:M by rewrite trmx_mul mulmxA -[A *m mat n *m _]mulmxA o mulmx1.
have H' : forall k, k \in s -> (0 < k <= dim)%N /\ good k by move=> k ks; apply: H; rewrite in_cons ks orbT.
have [-> ->] := IH H' _ AA'. by rewrite det_mulmx d exprS mulrA.
Qed.
Lemma house_orth : (forall n, (0 < n <= m)%N -> good n) -> house *m house^T = 1%:M /\ \det house = (-1) ^+ m.
Proof.
move=> G. have H : forall n, n \in iota 1 m -> (0 < n <= dim)%N /\ good n.
  move=> n; rewrite mem_iota add1n => /andP [n0 nm]. split; [by rewrite n0 ltnW|by apply: G; rewrite n0 -ltnS].
have [-> ->] := fold_orth (iota 1 m) H 1%:M (etrans (mul1mx _) (trmx1 _ _)). by rewrite det1 mul1r size_iota.
Qed.
Lemma rotE : random_rot = diag_mx (\row_i dvec i) *m house.
Proof. apply/matrixP => i j. by rewrite mul_diag_mx !mxE. Qed.
(** ** C495: a rotation: orthogonal, with determinant 1, if no first entry and no rest of a drawn vector is zero *)
Hypothesis first : forall n, (0 < n <= m)%N -> x n 0 != 0.
Hypothesis rest : forall n, (0 < n <= m)%N -> exists i, (0 < i < dim - n + 1)%N && (x n i != 0).
Lemma sgn2 k : (k < m)%N -> sgn k.+1 * sgn k.+1 = 1.
Proof. move=> km. by rewrite -expr2 /RotModel.sgn sqr_sg first. Qed.
Lemma prod2 : (\prod_(k < m) sgn k.+1) * (\prod_(k < m) sgn k.+1) = 1.
Proof. rewrite -big_split /= big1 // => k _. by rewrite sgn2. Qed.
Lemma dvec2 (i : 'I_dim) : dvec i * dvec i = 1.
Proof.
rewrite /RotModel.dvec. case: ifP => [_|ne]; last by apply: sgn2; rewrite ltn_neqAle ne /= -ltnS ltn_ord.
by rewrite mulrACA prod2 mulr1 -expr2 sqrr_sign.
Qed.
Theorem C495_orthogonal : random_rot *m random_rot^T = 1%:M /\ random_rot^T *m random_rot = 1%:M.
Proof.
suff E : random_rot *m random_rot^T = 1%:M by split => //; exact: mulmx1C.
have [o _] := house_orth rest. rewrite rotE trmx_mul mulmxA -[_ *m house *m _]mulmxA o mulmx1 tr_diag_mx mulmx_diag. apply/matrixP => i j. rewrite !mxE.
by case: (i == j); rewrite ?mulr1n ?mulr0n // dvec2.
Qed.
Theorem C495_det : \det random_rot = 1.
Proof.
have [_ d] := house_orth rest. rewrite rotE det_mulmx d det_diag big_ord_recr /= (eq_bigr (fun k : 'I_m => sgn k.+1)); last first.
  by move=> k _; rewrite mxE /RotModel.dvec /= ltn_eqF.
rewrite mxE /RotModel.dvec /= eqxx mulrCA prod2 mulr1 /RotModel.dim modn2 /=.
rewrite -signr_odd -[(-1) ^+ m]signr_odd. by case: (odd m); rewrite /= ?expr0 ?expr1 ?mulr1 ?mulrNN ?mulr1.
Qed.
End Rot.

(** "for every draw": a first entry 0 gives a zero row *)
Definition draw0 (R : rcfType) (n i : nat) : R := if i == 0%N then 0 else 1.
Theorem C496_refuted (R : rcfType) : exists x : nat -> nat -> R, (forall n, (0 < n <= 1)%N -> exists i, (0 < i < dim 1 - n + 1)%N && (x n i != 0)) /\ (forall j, random_rot R 1 x 0 j = 0) /\ \det (random_rot R 1 x) = 0.
Proof.
exists (draw0 R). have z : forall j, random_rot R 1 (draw0 R) 0 j = 0 by move=> j; rewrite mxE /dvec /= /sgn /draw0 /= sgr0 mul0r.
split; [|split => //].
- move=> n /andP [n0 n1]. exists 1%N. have -> : n = 1%N by apply/eqP; rewrite eqn_leq n1 n0. by rewrite /draw0 /= oner_neq0.
- rewrite (expand_det_row _ 0) big1 // => j _. by rewrite z mul0r.
Qed.
(** a vector of which only the first entry is not 0 gives a division by zero *)
Definition draw1 (R : rcfType) (n i : nat) : R := if i == 0%N then 1 else 0.
Theorem C496_division (R : rcfType) m n : (0 < n <= m)%N -> hh R m (draw1 R) n = 0 /\ draw1 R n 0 != 0.
Proof.
move=> nm. split; last exact: oner_neq0. rewrite /hh big1 // => i _. rewrite /hv /draw1. case i0: (nat_of_ord i == 0%N); last by rewrite mulr0.
rewrite /sgn /norm_ /draw1 /= sgr1 mul1r addn1 big_ord_recl /= mulr1 big1 ?addr0 ?sqrtr1 ?subrr ?mulr0 //.
Qed.
(** the vector (3, 4) gives the rotation with the first row (3/5, 4/5) *)
Definition draw34 (R : rcfType) (n i : nat) : R := if i == 0%N then 3%:R else 4%:R.
Example ex_C495 (R : rcfType) : random_rot R 1 (draw34 R) 0 0 = 3%:R / 5%:R /\ random_rot R 1 (draw34 R) 0 1 = 4%:R / 5%:R.
Proof.
have nz k : (k.+1)%:R != 0 :> R by rewrite pnatr_eq0.
have C20 (a b : R) : a * 20%:R = b * 20%:R -> a = b by move=> E; exact: (mulIf (nz 19%N) E).
have nn : norm_ R 1 (draw34 R) 1 = 5%:R.
  rewrite /norm_ /dim /= !big_ord_recl big_ord0 /draw34 /= addr0 -!natrM -natrD. have -> : (3 * 3 + 4 * 4 = 5 * 5)%N by []. by rewrite natrM -expr2 sqrtr_sqr normr_nat.
have s1 : sgn R (draw34 R) 1 = 1 by rewrite /sgn /draw34 /= gtr0_sg // ltr0n.
have v0 : hv R 1 (draw34 R) 1 0 = - 2%:R by rewrite /hv /= nn s1 mul1r /draw34 /= -opprB -natrB.
have v1 : hv R 1 (draw34 R) 1 1 = 4%:R by [].
have hE : hh R 1 (draw34 R) 1 = 20%:R by rewrite /hh /dim /= !big_ord_recl big_ord0 /= v0 v1 addr0 mulrNN -!natrM -natrD.
have d0 : dvec R 1 (draw34 R) 0 = 1 by rewrite /dvec /= s1.
split; rewrite mxE d0 mul1r /house /= mul1mx mxE /= ?subnn ?subn0 hE ?v0 ?v1.
- apply: C20. rewrite mulrBl divfK // mulrNN mul1r -!natrM -natrB //. have -> : (20 = 5 * 4)%N by []. by rewrite [(5 * 4)%:R]natrM mulrA divfK // -natrM.
- apply: C20. rewrite mulrBl divfK // mul0r sub0r !mulNr mulrN opprK -!natrM. have -> : (20 = 5 * 4)%N by []. by rewrite [(5 * 4)%:R]natrM mulrA divfK // -natrM.
Qed.
