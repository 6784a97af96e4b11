(** Model of ProjectMatrixMixin, ICANode and CuBICANode of mdp/nodes/ica_nodes.py and of JADENode of mdp/nodes/jade.py, with exact real arithmetic.

    A matrix is a function of row and column; the numbers of rows and columns are passed along.  dtypes, the printed messages and the bookkeeping of Node
    (train, Cumulator) are not modelled; matrix products, rotate and the eigenvalue decomposition behind WhiteningNode are those of CovModel.v and PCAModel.v.
    numpy's arctan2, cos, sin, sqrt are the real functions; arctan2(0, 0) = 0. *)
From Coq Require Import Reals List Arith ZArith Bool.
From Verif Require Import CovModel.
Import ListNotations.
Open Scope R_scope.

Definition rmat := fmat R.
Definition rsum (n : nat) (f : nat -> R) : R := fsum R 0 Rplus (map f (seq 0 n)).
Definition mult (d : nat) (a b : rmat) : rmat := fmult R 0 Rplus Rmult d a b.
Definition transp (a : rmat) : rmat := ftrans R a.
Definition eye : rmat := fun a b => if (a =? b)%nat then 1 else 0.
(** utils.rotate (mdp/utils/routines.py:98-118), units='radians' *)
Definition rotate (phi : R) (i j : nat) (m : rmat) : rmat := rot_cols R Rplus Rmult Rminus (cos phi) (sin phi) i j m.
Definition Rltb (a b : R) : bool := if Rlt_dec a b then true else false.
Definition Rleb (a b : R) : bool := if Rle_dec a b then true else false.
(** numpy.arctan2(y, x) *)
Definition atan2 (y x : R) : R :=
  if Rlt_dec 0 x then atan (y / x)
  else if Rlt_dec x 0 then (if Rle_dec 0 y then atan (y / x) + PI else atan (y / x) - PI)
  else if Rlt_dec 0 y then PI / 2 else if Rlt_dec y 0 then - (PI / 2) else 0.
(** the pairs of [for i in range(comp - 1): for j in range(i+1, comp)] *)
Definition pairs (comp : nat) : list (nat * nat) := flat_map (fun i => map (fun j => (i, j)) (seq (i + 1) (comp - (i + 1)))) (seq 0 (comp - 1)).

(** ** CuBICANode.core (mdp/nodes/ica_nodes.py:244-345) *)
Section CuBICA.
  Variables (tlen comp : nat).
  (** old_div(mult(a, b), tlen) *)
  Definition mom (f : nat -> R) : R := rsum tlen f / INR tlen.
  (** the cumulants :289-303 *)
  Definition C111 (x : rmat) (i j : nat) : R := mom (fun t => x t i * x t i * x t i).
  Definition C112 (x : rmat) (i j : nat) : R := mom (fun t => x t i * x t i * x t j).
  Definition C122 (x : rmat) (i j : nat) : R := mom (fun t => x t j * x t j * x t i).
  Definition C222 (x : rmat) (i j : nat) : R := mom (fun t => x t j * x t j * x t j).
  Definition C1111 (x : rmat) (i j : nat) : R := mom (fun t => (x t i * x t i) * (x t i * x t i)) - 3.
  Definition C1112 (x : rmat) (i j : nat) : R := mom (fun t => x t i * x t i * x t i * x t j).
  Definition C1122 (x : rmat) (i j : nat) : R := mom (fun t => (x t i * x t i) * (x t j * x t j)) - 1.
  Definition C1222 (x : rmat) (i j : nat) : R := mom (fun t => x t j * x t j * x t j * x t i).
  Definition C2222 (x : rmat) (i j : nat) : R := mom (fun t => (x t j * x t j) * (x t j * x t j)) - 3.
  (** :305-317 *)
  Definition c_34 (x : rmat) (i j : nat) : R := let C111 := C111 x i j in let C112 := C112 x i j in let C122 := C122 x i j in let C222 := C222 x i j in
    / 16 * ((C111 * C111 + C222 * C222) - 3 * (C112 * C112 + C122 * C122) - 2 * (C111 * C122 + C112 * C222)).
  Definition s_34 (x : rmat) (i j : nat) : R := / 4 * (C111 x i j * C112 x i j - C122 x i j * C222 x i j).
  Definition c_44 (x : rmat) (i j : nat) : R :=
    let C1111 := C1111 x i j in let C1112 := C1112 x i j in let C1122 := C1122 x i j in let C1222 := C1222 x i j in let C2222 := C2222 x i j in
    / 384 * (7 * (C1111 * C1111 + C2222 * C2222) - 16 * (C1112 * C1112 + C1222 * C1222) - 12 * (C1111 * C1122 + C1122 * C2222)
             - 36 * (C1122 * C1122) - 32 * (C1112 * C1222) - 2 * (C1111 * C2222)).
  Definition s_44 (x : rmat) (i j : nat) : R :=
    let C1111 := C1111 x i j in let C1112 := C1112 x i j in let C1122 := C1122 x i j in let C1222 := C1222 x i j in let C2222 := C2222 x i j in
    / 96 * (7 * (C1111 * C1112 - C1222 * C2222) + 6 * (C1112 * C1122 - C1122 * C1222) + (C1111 * C1222 - C1112 * C2222)).
  (** :320 *)
  Definition phi_max (x : rmat) (i j : nat) : R := - (1 / 4) * atan2 (s_34 x i j + s_44 x i j) (c_34 x i j + c_44 x i j).
  (** one pair :327-333; the state is (x, Qt, maxangle) *)
  Definition cub_step (st : rmat * rmat * R) (ij : nat * nat) : rmat * rmat * R :=
    let '(x, q, mx) := st in let (i, j) := ij in
    let phi := phi_max x i j in
    (rotate phi i j x, rotate phi i j q, Rmax mx (Rabs phi)).
  Definition cub_sweep (st : rmat * rmat) : rmat * rmat * R := fold_left cub_step (pairs comp) (fst st, snd st, 0).
  (** the number of sweeps, int(1+round(numx.sqrt(comp))) :282 *)
  Definition num_sweeps : nat := let s := Nat.sqrt comp in (1 + (if (comp <=? s * s + s)%nat then s else S s))%nat.
  (** the sweeps :285-339: [k] sweeps done, [todo] left; the result is (x, Qt, self.maxangle without the first element, self.iter) *)
  Fixpoint cub_sweeps (limit : R) (todo k : nat) (x q : rmat) : rmat * rmat * list R * nat :=
    let '(x1, q1, mx) := cub_sweep (x, q) in
    if Rleb mx limit then (x1, q1, [mx], k)
    else match todo with
         | O => (x1, q1, [mx], k)
         | S todo => let '(x2, q2, l, k2) := cub_sweeps limit todo (S k) x1 q1 in (x2, q2, mx :: l, k2)
         end.
  Record cub := mkCub { cub_x : rmat; cub_filters : rmat; cub_maxangle : list R; cub_iter : nat; cub_ret : R }.
  Definition cub_core (limit : R) (data : rmat) : cub :=
    let '(x, q, l, k) := cub_sweeps limit (num_sweeps - 1) 0 data eye in mkCub x q (- 2 * PI :: l) k (last l 0).
End CuBICA.

(** ** JADENode.core (mdp/nodes/jade.py:92-264) *)
Section JADE.
  Variables (tlen m : nat).
  (** mult(Xijm*X.T, X)/T *)
  Definition emat (x : rmat) (i j : nat) : rmat := fun a b => rsum tlen (fun t => x t i * x t j * x t a * x t b) / INR tlen.
  Definition outer (u v : nat -> R) : rmat := fun a b => u a * v b.
  (** the cumulant matrices :131-146, in the order of the columns of CM *)
  Definition cm_diag (x : rmat) (i : nat) : rmat := fun a b => emat x i i a b - eye a b - 2 * outer (fun k => eye k i) (fun k => eye k i) a b.
  Definition cm_off (x : rmat) (i j : nat) : rmat := fun a b =>
    sqrt 2 * emat x i j a b - outer (fun k => eye k i) (fun k => eye k j) a b - outer (fun k => eye k j) (fun k => eye k i) a b.
  Definition cms (x : rmat) : list rmat := flat_map (fun i => cm_diag x i :: map (fun j => cm_off x i j) (seq 0 i)) (seq 0 m).
  (** On and the sum of all squares :156-164 (Off is the array of the sums of the columns of CM*CM minus On) *)
  Definition lsum {A : Type} (f : A -> R) (l : list A) : R := fsum R 0 Rplus (map f l).
  Definition on_ (l : list rmat) : R := lsum (fun c : rmat => rsum m (fun a => c a a * c a a)) l.
  Definition total (l : list rmat) : R := lsum (fun c : rmat => rsum m (fun a => rsum m (fun b => c a b * c a b))) l.
  (** :204-210 *)
  Definition ton (l : list rmat) (p q : nat) : R :=
    lsum (fun c : rmat => (c p p - c q q) * (c p p - c q q)) l - lsum (fun c : rmat => (c p q + c q p) * (c p q + c q p)) l.
  Definition toff (l : list rmat) (p q : nat) : R :=
    lsum (fun c : rmat => (c p p - c q q) * (c p q + c q p)) l + lsum (fun c : rmat => (c p q + c q p) * (c p p - c q q)) l.
  Definition theta_ (l : list rmat) (p q : nat) : R :=
    let ton := ton l p q in let toff := toff l p q in 1 / 2 * atan2 toff (ton + sqrt (ton * ton + toff * toff)).
  Definition gain (l : list rmat) (p q : nat) : R :=
    let ton := ton l p q in let toff := toff l p q in (sqrt (ton * ton + toff * toff) - ton) / 4.
  (** V[:, pair] = mult(V[:, pair], G), G = [[c, -s], [s, c]] :218-220 *)
  Definition g_cols (c s : R) (p q : nat) (v : rmat) : rmat := fun a b =>
    if (b =? p)%nat then c * v a p + s * v a q else if (b =? q)%nat then - s * v a p + c * v a q else v a b.
  (** CM[pair, :] = mult(G.T, CM[pair, :]) :221 *)
  Definition g_rows (c s : R) (p q : nat) (v : rmat) : rmat := fun a b =>
    if (a =? p)%nat then c * v p b + s * v q b else if (a =? q)%nat then - s * v p b + c * v q b else v a b.
  (** one of the matrices of CM :221-226; Ip and Iq are the columns p and q of every matrix *)
  Definition g_both (c s : R) (p q : nat) (v : rmat) : rmat := g_cols c s p q (g_rows c s p q v).
  Record jst := mkJ { j_v : rmat; j_cm : list rmat; j_on : R; j_theta : R; j_upds : nat; j_encore : bool }.
  (** one pair :200-228 *)
  Definition jade_step (seuil : R) (st : jst) (pq : nat * nat) : jst :=
    let (p, q) := pq in
    let th := theta_ (j_cm st) p q in
    if Rltb seuil (Rabs th)
    then mkJ (g_cols (cos th) (sin th) p q (j_v st)) (map (g_both (cos th) (sin th) p q) (j_cm st)) (j_on st + gain (j_cm st) p q) th (S (j_upds st)) true
    else mkJ (j_v st) (j_cm st) (j_on st) th (j_upds st) (j_encore st).
  (** a sweep :191-228 *)
  Definition jade_sweep (seuil : R) (st : jst) : jst := fold_left (jade_step seuil) (pairs m) (mkJ (j_v st) (j_cm st) (j_on st) (j_theta st) 0 false).
  (** the loop :190-235: None stands for a loop which needs more than [fuel] sweeps, inr for NodeException; [updates] rotations so far *)
  Fixpoint jade_loop (seuil : R) (max_it : nat) (fuel updates : nat) (st : jst) : option (jst * nat + unit) :=
    match fuel with
    | O => None
    | S fuel => let st := jade_sweep seuil st in
                let updates := (updates + j_upds st)%nat in
                if (max_it <? updates)%nat then Some (inr tt)
                else if j_encore st then jade_loop seuil max_it fuel updates st else Some (inl (st, updates))
    end.
  (** B = V.T, its rows in the order [perm] of argsort, first column made non-negative, filters = B.T :244-263 *)
  Definition jsign (b : R) : R := if Rlt_dec b 0 then -1 else 1.
  Definition jade_filters (perm : nat -> nat) (v : rmat) : rmat :=
    let b := transp v in
    let b1 : rmat := fun a k => b (perm a) k in
    let b2 : rmat := fun a k => jsign (b1 a 0%nat) * b1 a k in
    transp b2.
  Definition jade_start (data : rmat) : jst := mkJ eye (cms data) (on_ (cms data)) 0 0 true.
  Definition seuil_ (limit : R) : R := limit * limit / sqrt (INR tlen).
End JADE.

(** ** ICANode (mdp/nodes/ica_nodes.py:63-214) *)
Section ICA.
  (** the whitening node: execute is (x - avg) * P, inverse is y * R + avg; P has dim rows and wk columns.  get_projmatrix(transposed=1) is P, get_recmatrix(transposed=1) is R *)
  Record white := mkWhite { w_avg : nat -> R; w_p : rmat; w_r : rmat; w_k : nat }.
  Record ica := mkIca { i_whitened : bool; i_white : white; i_filters : rmat; i_k : nat }.   (* i_k: rows and columns of the filters *)
  Variable dim : nat.
  Definition w_execute (w : white) (x : rmat) : rmat := mult dim (fun t a => x t a - w_avg w a) (w_p w).
  Definition w_inverse (w : white) (y : rmat) : rmat := fun t a => mult (w_k w) y (w_r w) t a + w_avg w a.
  (** _execute :202-208 *)
  Definition ica_execute (s : ica) (x : rmat) : rmat :=
    let x := if i_whitened s then x else w_execute (i_white s) x in mult (i_k s) x (i_filters s).
  (** _inverse :210-214 *)
  Definition ica_inverse (s : ica) (y : rmat) : rmat :=
    let y := mult (i_k s) y (transp (i_filters s)) in if i_whitened s then y else w_inverse (i_white s) y.
  (** get_projmatrix :18-36, get_recmatrix :39-61 *)
  Definition get_projmatrix (s : ica) (transposed : bool) : rmat :=
    let q := transp (i_filters s) in
    let t := if i_whitened s then q else mult (i_k s) q (transp (w_p (i_white s))) in
    if transposed then transp t else t.
  Definition get_recmatrix (s : ica) (transposed : bool) : rmat :=
    let q := transp (i_filters s) in
    let t := if i_whitened s then q else mult (i_k s) q (w_r (i_white s)) in
    if transposed then t else transp t.
End ICA.

(** *** the telescope mode of _stop_training :166-181.  [core n] is the convergence of core(data[:n, :]) *)
Section Telescope.
  Variable core : nat -> R.
  Variables (limit : R) (dim n : nat).
  (** math.frexp(self.input_dim*10)[1]: the number of binary digits *)
  Definition minpow : nat := match dim with O => O | _ => S (Nat.log2 (dim * 10)) end.
  (** int(log(n)/log(2)) *)
  Definition maxpow : nat := Nat.log2 n.
  (** [convergence] is None while the variable is unbound; the sizes of the chunks used *)
  Fixpoint tel_loop (l : list nat) (convergence : option R) : option R * list nat :=
    match l with
    | [] => (convergence, [])
    | tel :: l => let index := (2 ^ tel)%nat in
                  let c := core (Nat.min index n) in
                  if Rleb c limit then (Some c, [index]) else let (r, u) := tel_loop l (Some c) in (r, index :: u)
    end.
  (** inl: self.convergence; inr: UnboundLocalError *)
  Definition stop_core (telescope : bool) : R + unit :=
    if telescope then match fst (tel_loop (seq minpow (maxpow + 1 - minpow)) None) with Some c => inl c | None => inr tt end else inl (core n).
  Definition stop_sizes (telescope : bool) : list nat := if telescope then snd (tel_loop (seq minpow (maxpow + 1 - minpow)) None) else [n].
End Telescope.

(** *** the dimensions: _set_input_dim :131-136, _stop_training :149-162, Node.inverse (mdp/signal_node.py).  [keep d o] is the number of components the whitening
    node keeps of d when its output_dim is o *)
Section Dims.
  Variable keep : nat -> option nat -> nat.
  Record idims := mkDims { d_in : option nat; d_out : option nat; d_filters : option nat }.
  (** the setter of Node.output_dim (mdp/signal_node.py): None is ignored, another value than the one set raises (None) *)
  Definition set_out (s : idims) (o : option nat) : option idims :=
    match o, d_out s with
    | None, _ => Some s
    | Some k, None => Some (mkDims (d_in s) (Some k) (d_filters s))
    | Some k, Some k' => if (k =? k')%nat then Some s else None
    end.
  Definition set_in (whitened : bool) (white_comp : option nat) (n : nat) (s : idims) : option idims :=
    let s := mkDims (Some n) (d_out s) (d_filters s) in
    if whitened then set_out s (Some n) else match white_comp with None => set_out s (Some n) | Some _ => Some s end.
  Definition stop_dims (whitened : bool) (white_comp : option nat) (s : idims) : option idims :=
    match d_in s with
    | None => None
    | Some n =>
        match (if whitened then Some s else set_out s white_comp) with
        | None => None
        | Some s1 =>
            match (match d_out s1 with None => set_out s1 (Some n) | Some _ => Some s1 end) with
            | None => None
            | Some s2 => Some (mkDims (d_in s2) (d_out s2) (Some (if whitened then n else keep n white_comp)))
            end
        end
    end.
  (** training on data with n columns *)
  Definition trained_dims (whitened : bool) (white_comp : option nat) (n : nat) : option idims :=
    match set_in whitened white_comp n (mkDims None None None) with None => None | Some s => stop_dims whitened white_comp s end.
End Dims.
