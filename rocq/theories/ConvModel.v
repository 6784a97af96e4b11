(** Model of mdp/nodes/convolution_nodes.py: Convolution2DNode.

    Numbers are those of an ordered field; dtypes and rounding (of the Fourier transform in particular) are not modelled.  A data point or filter of shape (h, w) is the
    row-major list of its h*w numbers, so that reshape keeps the list.  scipy.signal.fftconvolve and convolve2d are modelled by [conv] for images and filters with at least
    one row and one column: their result, its shape, and ValueError in mode 'valid' when neither argument is at least as large as the other in both axes; a wrapped or
    reflected index is taken modulo the (doubled) size.  Assigning to y[n_im, n_flt, :, :] broadcasts as numpy does.  ndarray.resize truncates or appends zeros. *)
From Coq Require Import List Arith Bool ZArith.
From Verif Require Import OField.
Import ListNotations.
Local Open Scope of_scope.

(** the values accepted by __init__ :98-106, :128-132 *)
Inductive cmode := Valid | Same | Full.
Inductive capproach := Linear | Fft.
Inductive cbound := Fill | Wrap | Symm.
(** NodeException, ValueError, TypeError *)
Inductive vexn := VNode | VValue | VType.

Section Conv.
  Context {K : ofield}.

  (** filters: number, height, width, and each filter :115-121 *)
  Record filt := mkF { f_n : nat; f_h : nat; f_w : nat; f_v : list (list K) }.
  (** the shape of x: (n, cols), (n, h, w), or another rank *)
  Inductive vshape := D2 (cols : nat) | D3 (h w : nat) | DN.
  Record vdata := mkX { x_shape : vshape; x_rows : list (list K) }.
  (** the attributes; the output shape may have negative entries *)
  Record cnode := mkC { c_flt : filt; c_ish : option (nat * nat); c_in : option nat; c_out : option Z; c_osh : option (Z * Z);
                        c_mode : cmode; c_app : capproach; c_bnd : cbound; c_fv : K; c_2d : bool }.
  (** the result: rank 2, or rank 4 with the number of filters and the shape of the images *)
  Inductive vres := R2 (cols : nat) (rows : list (list K)) | R4 (nf oh ow : nat) (rows : list (list K)).

  Definition set_ish (s : cnode) v := mkC (c_flt s) (Some v) (c_in s) (c_out s) (c_osh s) (c_mode s) (c_app s) (c_bnd s) (c_fv s) (c_2d s).
  Definition set_in (s : cnode) v := mkC (c_flt s) (c_ish s) (Some v) (c_out s) (c_osh s) (c_mode s) (c_app s) (c_bnd s) (c_fv s) (c_2d s).
  Definition set_out (s : cnode) v sh := mkC (c_flt s) (c_ish s) (c_in s) (Some v) (Some sh) (c_mode s) (c_app s) (c_bnd s) (c_fv s) (c_2d s).
  (** set_filters :115-121 with an array of rank 3 *)
  Definition set_filters (s : cnode) f := mkC f (c_ish s) (c_in s) (c_out s) (c_osh s) (c_mode s) (c_app s) (c_bnd s) (c_fv s) (c_2d s).

  (** :211-219 *)
  Definition out_shape (m : cmode) (ish : nat * nat) (f : filt) : Z * Z :=
    let (h, w) := (Z.of_nat (fst ish), Z.of_nat (snd ish)) in
    match m with
    | Same => (h, w)
    | Full => (h + Z.of_nat (f_h f) - 1, w + Z.of_nat (f_w f) - 1)%Z
    | Valid => (h - Z.of_nat (f_h f) + 1, w - Z.of_nat (f_w f) + 1)%Z
    end.
  Definition numel (sh : vshape) : nat := match sh with D2 c => c | D3 h w => h * w | DN => 0 end.

  (** _pre_execution_checks :171-224 *)
  Definition checks (s : cnode) (x : vdata) : cnode * option vexn :=
    match x_shape x with
    | DN => (s, Some VNode)
    | sh =>
        match (match c_ish s, sh with
               | None, D3 h w => Some (set_ish s (h, w))
               | None, _ => None
               | Some _, _ => Some s end) with
        | None => (s, Some VNode)
        | Some s1 =>
            let ish := match c_ish s1 with Some p => p | None => (0, 0)%nat end in
            let s2 := match c_in s1 with None => set_in s1 (fst ish * snd ish)%nat | Some _ => s1 end in
            if (match c_in s2 with Some n => numel sh =? n | None => false end)%nat then
              let s3 := match c_out s2 with
                        | None => let o := out_shape (c_mode s2) ish (c_flt s2) in set_out s2 (Z.of_nat (f_n (c_flt s2)) * (fst o * snd o))%Z o
                        | Some _ => s2 end in
              (s3, match x_rows x with [] => Some VNode | _ => None end)
            else (s2, Some VNode)
        end
    end.

  (** the image continued beyond its borders, for integer indices *)
  Definition reflect (n i : Z) : Z := let r := (i mod (2 * n))%Z in if (r <? n)%Z then r else (2 * n - 1 - r)%Z.
  Definition pix (w : nat) (im : list K) (i j : nat) : K := nth (i * w + j) im 0.
  Definition inside (n : nat) (i : Z) : bool := ((0 <=? i) && (i <? Z.of_nat n))%Z.
  Definition ext (b : cbound) (fv : K) (h w : nat) (im : list K) (i j : Z) : K :=
    match b with
    | Fill => if inside h i && inside w j then pix w im (Z.to_nat i) (Z.to_nat j) else fv
    | Wrap => pix w im (Z.to_nat (i mod Z.of_nat h)) (Z.to_nat (j mod Z.of_nat w))
    | Symm => pix w im (Z.to_nat (reflect (Z.of_nat h) i)) (Z.to_nat (reflect (Z.of_nat w) j))
    end.
  (** the entry (i, j) of the full convolution *)
  Definition full_at (b : cbound) (fv : K) (h w : nat) (im : list K) (fh fw : nat) (flt : list K) (i j : nat) : K :=
    fsumn fh (fun a => fsumn fw (fun c => pix fw flt a c * ext b fv h w im (Z.of_nat i - Z.of_nat a) (Z.of_nat j - Z.of_nat c))).
  (** signal.convolve2d :242-245: the shape of the result and its entries *)
  Definition conv (m : cmode) (b : cbound) (fv : K) (h w : nat) (im : list K) (fh fw : nat) (flt : list K) : vexn + (nat * nat * (nat -> nat -> K)) :=
    let g := full_at b fv h w im fh fw flt in
    match m with
    | Full => inr ((h + fh - 1, w + fw - 1)%nat, g)
    | Same => inr ((h, w), fun i j => g (i + (fh - 1) / 2)%nat (j + (fw - 1) / 2)%nat)
    | Valid =>
        if ((fh <=? h) && (fw <=? w))%nat then inr ((h - fh + 1, w - fw + 1)%nat, fun i j => g (i + (fh - 1))%nat (j + (fw - 1))%nat)
        else if ((h <=? fh) && (w <=? fw))%nat then inr ((fh - h + 1, fw - w + 1)%nat, fun i j => g (i + (h - 1))%nat (j + (w - 1))%nat)
        else inl VValue
    end.
  (** signal.fftconvolve :240 is the convolution with zeros around the image *)
  Definition convolve (s : cnode) (h w : nat) (im : list K) (flt : list K) : vexn + (nat * nat * (nat -> nat -> K)) :=
    match c_app s with
    | Fft => conv (c_mode s) Fill 0 h w im (f_h (c_flt s)) (f_w (c_flt s)) flt
    | Linear => conv (c_mode s) (c_bnd s) (c_fv s) h w im (f_h (c_flt s)) (f_w (c_flt s)) flt
    end.

  Definition flat (h w : nat) (g : nat -> nat -> K) : list K := flat_map (fun i => map (g i) (seq 0 w)) (seq 0 h).
  (** y[n_im, n_flt, :, :] = ... *)
  Definition assign (oh ow : nat) (r : nat * nat * (nat -> nat -> K)) : vexn + list K :=
    let '(a, b, g) := r in
    if (((a =? oh) || (a =? 1)) && ((b =? ow) || (b =? 1)))%nat
    then inr (flat oh ow (fun i j => g (if a =? 1 then 0 else i)%nat (if b =? 1 then 0 else j)%nat)) else inl VValue.
  Fixpoint collect (l : list (vexn + list K)) : vexn + list K :=
    match l with
    | [] => inr []
    | inl e :: _ => inl e
    | inr r :: l => match collect l with inl e => inl e | inr r' => inr (r ++ r') end
    end.
  Fixpoint collect_rows (l : list (vexn + list K)) : vexn + list (list K) :=
    match l with
    | [] => inr []
    | inl e :: _ => inl e
    | inr r :: l => match collect_rows l with inl e => inl e | inr r' => inr (r :: r') end
    end.
  (** the rows of y :233-245 *)
  Definition image (s : cnode) (oh ow : nat) (h w : nat) (im : list K) : vexn + list K :=
    collect (map (fun flt => match convolve s h w im flt with inl e => inl e | inr r => assign oh ow r end) (f_v (c_flt s))).
  Fixpoint cut_rows (n w : nat) (l : list K) : list (list K) :=
    match n with O => [] | S n => firstn w l :: cut_rows n w (skipn w l) end.
  (** y.resize((n, od)) *)
  Definition resize (n od : nat) (rows : list (list K)) : list (list K) := cut_rows n od (concat rows ++ repeat 0 (n * od)).

  (** _execute :226-251 *)
  Definition exec (s : cnode) (x : vdata) : vexn + vres :=
    match c_osh s, c_ish s, c_out s with
    | Some (oh, ow), Some (ih, iw), Some od =>
        if ((oh <? 0) || (ow <? 0))%Z then inl VValue else
        let oh := Z.to_nat oh in let ow := Z.to_nat ow in
        let imgs := match x_shape x with
                    | D2 c => if (c =? ih * iw)%nat then inr (ih, iw) else inl VValue
                    | D3 h w => inr (h, w)
                    | DN => inl VValue end in
        match imgs with
        | inl e => inl e
        | inr (h, w) =>
            match collect_rows (map (image s oh ow h w) (x_rows x)) with
            | inl e => inl e
            | inr rows =>
                if c_2d s then if (od <? 0)%Z then inl VValue else inr (R2 (Z.to_nat od) (resize (length rows) (Z.to_nat od) rows))
                else inr (R4 (f_n (c_flt s)) oh ow rows)
            end
        end
    | _, _, _ => inl VType
    end.
  (** Node.execute, signal_node.py:653-654: the node afterwards and the result *)
  Definition execute (s : cnode) (x : vdata) : cnode * (vexn + vres) :=
    match checks s x with (s', Some e) => (s', inl e) | (s', None) => (s', exec s' x) end.

  (** __init__ :91-109 with valid arguments *)
  Definition new (f : filt) (ish : option (nat * nat)) (a : capproach) (m : cmode) (b : cbound) (fv : K) (o2 : bool) (i : option nat) : cnode :=
    mkC f ish i None None m a b fv o2.
End Conv.
Arguments filt : clear implicits. Arguments vdata : clear implicits. Arguments cnode : clear implicits. Arguments vres : clear implicits.
