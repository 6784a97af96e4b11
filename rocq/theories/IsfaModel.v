(** Model of ISFANode (mdp/nodes/isfa_nodes.py) and TDSEPNode (mdp/nodes/ica_nodes.py:1024-1111), with exact real arithmetic.

    A matrix is a function of row and column, the time delayed covariance matrices are a function of the number of the lag.  The estimation of the covariance matrices and the
    whitening are those of CovModel.v and PCAModel.v: the model starts with the matrices after _fix_covs.  dtypes, the printed messages and the parameter complete
    (contrast on a grid, for tests) are not modelled.  numpy's arctan2, cos, sin are the real functions.
    Random choices (numx_rand.shuffle of the rotation axes, random_rot and permutation of the perturbations) are arguments. *)
From Coq Require Import Reals List Arith ZArith Bool.
From Verif Require Import CovModel ICAModel.
Import ListNotations.
Open Scope R_scope.

Inductive iexn := INodeExc | ITypeErr | IIndexErr | IAttrErr | IUnbound.

(** ** The constructor isfa_nodes.py:177-258 *)
(** an argument lags: an integer, a list or tuple, an array of integers or other numbers, something else *)
Inductive lagarg := LInt (n : Z) | LSeq (l : list Z) | LArr (int : bool) (l : list Z) | LOther.
(** icaweights and sfaweights: None, a number (which has no len), a list or array *)
Inductive warg := WNone | WNum (r : R) | WSeq (l : list R).
(** :177-192 *)
Definition lags_of (a : lagarg) : list Z + iexn :=
  match a with
  | LInt n => inl (map (fun k => Z.of_nat k + 1)%Z (seq 0 (Z.to_nat n)))
  | LSeq l => inl l
  | LArr true l => inl l
  | LArr false _ | LOther => inr INodeExc
  end.
(** :194-213; the message with %d is formatted with strings, which raises TypeError before the NodeException is raised.  [dflt]: the weights for None *)
Definition weights_of (dflt : list R + iexn) (w : warg) (n : nat) : list R + iexn :=
  match w with
  | WNone => dflt
  | WNum _ => inr ITypeErr
  | WSeq l => if (length l =? n)%nat then inl l else inr ITypeErr
  end.
(** [0]*len(lags) with a first element 1 *)
Definition sfa_default (n : nat) : list R + iexn := match n with O => inr IIndexErr | S n => inl (1 :: repeat 0 n) end.
Definition weights (lags : list Z) (ica sfa : warg) : (list R * list R) + iexn :=
  match weights_of (inl (repeat 1 (length lags))) ica (length lags) with
  | inr e => inr e
  | inl iw => match weights_of (sfa_default (length lags)) sfa (length lags) with inr e => inr e | inl sw => inl (iw, sw) end
  end.
(** :221-231: the output_dim of the WhiteningNode (None: no such node, or no number given) and that of the node; _set_input_dim :276-281 *)
Record idims := mkID { id_white : option nat; id_out : option nat }.
Definition isfa_dims (whitened : bool) (white_comp output_dim : option nat) : idims :=
  if whitened then mkID None output_dim
  else match output_dim with
       | Some o => mkID (Some o) (Some o)
       | None => mkID white_comp white_comp
       end.
Definition effective_dim (d : idims) (n : nat) : nat := match id_white d with Some k => k | None => n end.
(** the keyword arguments of the WhiteningNode :223-224, :229-231; [P]: dictionaries *)
Definition isfa_white_parm {P : Type} (empty : P) (white_parm : option P) : P := match white_parm with Some p => p | None => empty end.
(** TDSEPNode.__init__ ica_nodes.py:1094-1104: white_parm = None whatever was given *)
Definition tdsep_white_parm {P : Type} (empty : P) (white_parm : option P) : P := isfa_white_parm empty None.

(** ** The contrast *)
Section Isfa.
  Variables (D od T : nat).                 (* _effective_input_dim, output_dim, number of lags *)
  Variables (iw sw : nat -> R) (bica bsfa : R).
  Definition covs := nat -> rmat.
  (** _triu(m, 1).ravel().sum() for the squares of the first output_dim rows and columns *)
  Definition triu (c : rmat) : R := rsum od (fun a => rsum od (fun b => if (a <? b)%nat then c a b * c a b else 0)).
  Definition diag2 (c : rmat) : R := rsum od (fun a => c a a * c a a).
  (** _get_contrast :518-535 *)
  Definition sfa_part (cv : covs) : R := rsum T (fun t => bsfa * sw t * diag2 (cv t)).
  Definition ica_part (cv : covs) : R := rsum T (fun t => bica * iw t * (2 * triu (cv t))).
  Definition contrast_ (cv : covs) : R := sfa_part cv + ica_part cv.

  (** _givens_angle_case1 :451-515 *)
  Section Case1.
    Variables (m n : nat) (cv : covs).
    Let Cmm t := cv t m m. Let Cmn t := cv t m n. Let Cnn t := cv t n n.
    Definition d0_1 := rsum T (fun t => sw t * (Cmm t * Cmm t + Cnn t * Cnn t)).
    Definition d1_1 := 4 * rsum T (fun t => sw t * (Cmm t * Cmn t - Cmn t * Cnn t)).
    Definition d2_1 := 2 * rsum T (fun t => sw t * (2 * Cmn t * Cmn t + Cmm t * Cnn t)).
    Definition e0_1 := 2 * rsum T (fun t => iw t * Cmn t * Cmn t).
    Definition e1_1 := 4 * rsum T (fun t => iw t * (Cmn t * Cnn t - Cmm t * Cmn t)).
    Definition e2_1 := rsum T (fun t => iw t * ((Cmm t - Cnn t) * (Cmm t - Cnn t) - 2 * Cmn t * Cmn t)).
    Definition s24_1 := / 4 * (bsfa * d1_1 + bica * e1_1).
    Definition c24_1 := / 4 * (bsfa * (d0_1 - d2_1) + bica * (e0_1 - e2_1)).
    Definition phi4 := atan2 s24_1 c24_1.
    Definition min_1 : R := if Rle_dec 0 phi4 then - / 4 * (phi4 - PI) else - / 4 * (phi4 + PI).
    Definition dc_1 := rsum T (fun t => (diag2 (cv t) - Cnn t * Cnn t - Cmm t * Cmm t) * sw t).
    Definition ec_1 := 2 * rsum T (fun t => iw t * (triu (cv t) - Cmn t * Cmn t)).
    Definition a20_1 := / 4 * (bsfa * (4 * dc_1 + d2_1 + 3 * d0_1) + bica * (4 * ec_1 + e2_1 + 3 * e0_1)).
    Definition curve_1 (phi : R) : R := a20_1 + c24_1 * cos (- 4 * phi) + s24_1 * sin (- 4 * phi).
    Definition givens_1 : R * R := (min_1, curve_1 min_1).
  End Case1.

  (** numx.linspace(left, right, 103)[k] *)
  Definition grid (left right : R) (k : nat) : R := left + INR k * ((right - left) / 102).
  (** argmin of f 0, ..., f n: the first minimum *)
  Fixpoint argmin (f : nat -> R) (n : nat) : nat := match n with O => O | S k => let b := argmin f k in if Rlt_dec (f (S k)) (f b) then S k else b end.
  Definition SQRT_EPS_D : R := / 2 ^ 26.
  (** _givens_angle_case2 :357-448 *)
  Section Case2.
    Variables (m n : nat) (cv : covs).
    Let Cmm t := cv t m m. Let Cmn t := cv t m n. Let Cnn t := cv t n n.
    Definition d0_2 := rsum T (fun t => sw t * Cmm t * Cmm t).
    Definition d1_2 := 4 * rsum T (fun t => sw t * Cmn t * Cmm t).
    Definition d2_2 := 2 * rsum T (fun t => sw t * (2 * Cmn t * Cmn t + Cmm t * Cnn t)).
    Definition d3_2 := 4 * rsum T (fun t => sw t * Cmn t * Cnn t).
    Definition d4_2 := rsum T (fun t => sw t * Cnn t * Cnn t).
    Definition e0_2 := 2 * rsum T (fun t => iw t * (rsum od (fun k => cv t k m * cv t k m) - Cmm t * Cmm t)).
    Definition e1_2 := 4 * rsum T (fun t => iw t * (rsum od (fun k => cv t k m * cv t k n) - Cmm t * Cmn t)).
    Definition e2_2 := 2 * rsum T (fun t => iw t * (rsum od (fun k => cv t k n * cv t k n) - Cmn t * Cmn t)).
    Definition s22 := / 4 * bsfa * (d1_2 + d3_2) + / 2 * bica * e1_2.
    Definition c22 := / 2 * bsfa * (d0_2 - d4_2) + / 2 * bica * (e0_2 - e2_2).
    Definition s24_2 := / 8 * bsfa * (d1_2 - d3_2).
    Definition c24_2 := / 8 * bsfa * (d0_2 - d2_2 + d4_2).
    Definition wave (phi : R) : R := c22 * cos (- 2 * phi) + s22 * sin (- 2 * phi) + c24_2 * cos (- 4 * phi) + s24_2 * sin (- 4 * phi).
    (** the two passes over the grid :400-409; left, right and phi[minidx] *)
    Definition pass (lr : R * R) : R * R * R :=
      let (l, r) := lr in
      let i := argmin (fun k => wave (grid l r k)) 102 in
      (grid l r (i - 1), grid l r (Nat.min (i + 1) 102), grid l r i).
    Definition der (phi : R) : R := 2 * c22 * sin (- 2 * phi) - 2 * s22 * cos (- 2 * phi) + 4 * c24_2 * sin (- 4 * phi) - 4 * s24_2 * cos (- 4 * phi).
    Definition min_2 : R :=
      let '(l, r, _) := pass (- PI / 2 - PI / 101, PI / 2 + PI / 101) in
      let '(l, r, p) := pass (l, r) in
      if Rlt_dec (Rabs (der l - der r)) SQRT_EPS_D then p else r - der r * (r - l) / (der r - der l).
    Definition dc_2 := rsum T (fun t => (diag2 (cv t) - Cmm t * Cmm t) * sw t).
    Definition ec_2 := 2 * rsum T (fun t => lsum (fun ij : nat * nat => cv t (fst ij) (snd ij) * cv t (fst ij) (snd ij))
                                                 (filter (fun ij : nat * nat => negb (fst ij =? m)%nat && negb (snd ij =? m)%nat) (pairs od)) * iw t).
    Definition a20_2 := / 8 * bsfa * (3 * d0_2 + d2_2 + 3 * d4_2 + 8 * dc_2) + / 2 * bica * (e0_2 + e2_2 + 2 * ec_2).
    Definition curve_2 (phi : R) : R := a20_2 + wave phi.
    Definition givens_2 : R * R := (min_2, curve_2 min_2).
  End Case2.
  (** _givens_angle :344-354 *)
  Definition givens (i j : nat) (cv : covs) : R * R := if (j <? od)%nat then givens_1 i j cv else givens_2 i j cv.

  (** ** _do_sweep :701-745 *)
  (** MultipleCovarianceMatrices.rotate and transform (mdp/utils/covariance.py:504-545) *)
  Definition rot_covs (phi : R) (i j : nat) (cv : covs) : covs := fun t => cov_rotate R Rplus Rmult Rminus (cos phi) (sin phi) i j (cv t).
  Definition transform (q : rmat) (cv : covs) : covs := fun t => mult D (mult D (transp q) (cv t)) q.
  (** the relative improvement: a number, or infinity (numpy's quotient by zero); None: negative.  prev = contrast = 0 does not happen *)
  Inductive ext := Fin (r : R) | Inf.
  Definition reldiff (prev c : R) : option ext :=
    if Req_EM_T prev 0 then if Rlt_dec prev c then None else Some Inf
    else let r := (prev - c) / Rabs prev in if Rlt_dec r 0 then None else Some (Fin r).
  Definition emax (a b : ext) : ext := match a, b with Fin x, Fin y => Fin (Rmax x y) | _, _ => Inf end.
  Definition elt (a : ext) (r : R) : bool := match a with Fin x => if Rlt_dec x r then true else false | Inf => false end.
  (** [last] is the variable contrast; None as a result: UnboundLocalError *)
  Fixpoint sweep (l : list (nat * nat)) (mi : ext) (cv : covs) (q : rmat) (prev : R) (last : option R) : option (ext * covs * rmat * R) :=
    match l with
    | [] => match last with Some c => Some (mi, cv, q, c) | None => None end
    | (i, j) :: l =>
        let (angle, c) := givens i j cv in
        if Req_EM_T c 0 then Some (Fin (-1), cv, q, c)
        else match reldiff prev c with
             | None => sweep l mi cv q prev (Some c)
             | Some r => sweep l (emax mi r) (rot_covs angle i j cv) (rotate angle i j q) c (Some c)
             end
    end.
  Definition do_sweep (l : list (nat * nat)) (cv : covs) (q : rmat) (prev : R) := sweep l (Fin (-1)) cv q prev None.
  (** self.rot_axis :789-790 *)
  Definition rot_axis : list (nat * nat) := flat_map (fun i => map (fun j => (i, j)) (seq (i + 1) (D - (i + 1)))) (seq 0 od).

  (** ** _optimize :572-699 *)
  Variable order : nat -> list (nat * nat).           (* self.rot_axis after the shuffle of the sweep *)
  Variable rnd_rot : nat -> rmat.                     (* random_rot(psize) in the sweep *)
  Variable rnd_row : nat -> nat -> nat.               (* numx_rand.permutation(psize) in the sweep *)
  Variables (eps : R) (max_iter : nat).
  (** _get_rnd_permutation :336-342 *)
  Definition rnd_perm (k : nat) : rmat := fun a b => if (a =? rnd_row k b)%nat then 1 else 0.
  (** PRT :654-667 *)
  Definition prt (k : nat) : rmat := fun a b =>
    if (od <=? a)%nat && (od <=? b)%nat then mult (D - od) (rnd_rot k) (rnd_perm k) (a - od)%nat (b - od)%nat else eye a b.
  Record ost := mkO { o_cv : covs; o_q : rmat; o_con : R; o_pert : Z; o_part : nat }.
  (** what a sweep leads to: (max_increase, contrast) and the counters give whether sweeping goes on, perturbed and part_sweep :630-651 *)
  Definition decide (mi : ext) (con : R) (pert : Z) (part sw : nat) : bool * Z * nat :=
    let '(going, pert) := if elt mi 0 || (if Req_EM_T con 0 then true else false) then (false, if (pert =? 0)%Z then (-1)%Z else (- pert)%Z) else (true, pert) in
    if elt mi eps && negb (elt mi 0)
    then if (pert =? 0)%Z then (going, 1%Z, sw)
         else if (1 <=? pert)%Z && (part =? sw - 1)%nat then (false, pert, sw)
         else if (pert <? 0)%Z then (false, pert, sw)
         else (going, pert, sw)
    else (going, pert, part).
  (** the loop :622-681: [k] sweeps done; inr: an exception; None: more than [fuel] sweeps *)
  Fixpoint loop (fuel k : nat) (s : ost) : option ((covs * rmat * nat) + iexn) :=
    match fuel with
    | O => None
    | S fuel =>
        let k := S k in
        match do_sweep (order k) (o_cv s) (o_q s) (o_con s) with
        | None => Some (inr IUnbound)
        | Some (mi, cv, q, con) =>
            let '(going, pert, part) := decide mi con (o_pert s) (o_part s) k in
            let '(cv, q, pert) := if (1 <=? pert)%Z && going then (transform (prt k) cv, mult D q (prt k), (pert + 1)%Z) else (cv, q, pert) in
            if (k =? max_iter)%nat then Some (inr INodeExc)
            else if going then loop fuel k (mkO cv q con pert part) else Some (inl (cv, q, k))
        end
    end.
  Definition start (cv : covs) : ost := mkO cv eye (contrast_ cv) (if (D =? od)%nat then (-1)%Z else 0%Z) 0.
  Definition optimize (fuel : nat) (cv : covs) := loop fuel 0 (start cv).

  (** ** _stop_training :747-826, after _fix_covs *)
  (** the argument covs: None (the matrices [own] learned by the node), a MultipleCovarianceMatrices, or a list of DelayCovarianceMatrix *)
  Inductive covarg := ANone | AMulti (cv : covs) | AList.
  (** after training: RP, RPC, self.covs (which is the object given as covs, changed in place), initial and final contrast *)
  Record trained := mkT { t_rp : rmat; t_rpc : rmat; t_covs : covs; t_init : R; t_final : R }.
  (** [argsort d]: d.argsort(), the indices in the order of increasing values *)
  Variable argsort : (nat -> R) -> nat -> nat.
  Definition stop_training (fuel : nat) (own : covs) (rp : option rmat) (a : covarg) : option (trained + iexn) :=
    match (match a with ANone => Some own | AMulti c => Some c | AList => None end) with
    | None => Some (inr IAttrErr)
    | Some cv =>
        let rp0 := match rp with None => eye | Some r => r end in
        let cv := match rp with None => cv | Some r => transform r cv end in
        match optimize fuel cv with
        | None => None
        | Some (inr e) => Some (inr e)
        | Some (inl (cvf, q, _)) =>
            let rpc := mult D rp0 q in
            let cv' := transform q cv in
            let idx := fun b => argsort (fun a => cv' 0%nat a a) (od - 1 - b)%nat in
            Some (inl (mkT (fun a b => rpc a (idx b)) rpc cv' (contrast_ cv) (contrast_ cvf)))
        end
    end.
End Isfa.
(** _adjust_ica_sfa_coeff :537-550: (bica, bsfa) *)
Definition adjust (od : nat) (sfa ica : R) : R * R :=
  if (1 <? od)%nat then (ica / (INR od * (INR od - 1)), - sfa / INR od) else (0, - sfa).
(** _execute and _inverse :290-303 for whitened data *)
Definition isfa_execute (D : nat) (rp x : rmat) : rmat := mult D x rp.
Definition isfa_inverse (od : nat) (rp y : rmat) : rmat := mult od y (transp rp).
(** TDSEPNode._stop_training ica_nodes.py:1106-1111: filters and convergence; final_contrast is a dictionary (SFA, ICA, TOT) *)
Inductive conv_attr := CNumber (r : R) | CDict (sfa ica tot : R).
Definition tdsep_convergence (sfa ica : R) : conv_attr := CDict sfa ica (sfa + ica).
