(** Model of bimdp/hinet/biswitchboard.py (BiSwitchboard, _binode_create_switchboard), bimdp/biclassifier.py (BiClassifier._execute) and
    mdp/hinet/switchboard_factory.py, upon SwitchModel.v (mdp/hinet/switchboard.py).

    Simplifications: an array of a message with at least two axes is a number of columns and a list of rows (the type of the entries may stand for
    further axes); other values, arrays with one axis and instances of subclasses of ndarray included, are objects.  The checks of BiNode.execute are not
    repeated here (BiModel.v).  Parameters of the factory are integers, pairs or truth values; the constructors get keyword arguments and raise TypeError
    for names they do not have and for missing ones, as Python does. *)
From Coq Require Import String List ZArith Bool.
From Verif Require Import BiModel SwitchModel.
Import ListNotations.
Open Scope Z_scope.

(** ** BiSwitchboard *)
Section Bi.
  Context {A O : Type}.
  Inductive bval := BArr (cols : Z) (rows : list (list A)) | BObj (o : O).
  Definition bmsg := dict bval.
  Inductive bout := BPlain (y : option (list (list A))) | BPair (y : option (list (list A))) (m : bmsg).
  (** a comprehension whose body may raise *)
  Fixpoint mapm {B C} (f : B -> sres C) (l : list B) : sres (list C) :=
    match l with [] => SOk [] | b :: l => sbind (f b) (fun c => sbind (mapm f l) (fun cs => SOk (c :: cs))) end.
  Definition execute_rows (conns : list Z) (rows : list (list A)) : sres (list (list A)) := mapm (sw_execute conns) rows.
  (** Switchboard._inverse of a whole array: the check comes first *)
  Definition inverse_rows (n : Z) (conns : list Z) (sort : list nat) (rows : list (list A)) : sres (list (list A)) :=
    sguard (negb (invertible n conns)) SNotInvertible (mapm (sw_inverse n conns sort) rows).
  Definition out_dim (conns : list Z) : Z := Z.of_nat (List.length conns).
  (** _execute_msg :76-86, _inverse_msg :63-73; None for None and for an empty message *)
  Definition execute_msg (n : Z) (conns : list Z) (m : option bmsg) : sres (option bmsg) :=
    match m with
    | None | Some [] => SOk None
    | Some m => sbind (mapm (fun p => match snd p with
                                      | BArr cols rows => if cols =? n then sbind (execute_rows conns rows) (fun r => SOk (fst p, BArr (out_dim conns) r)) else SOk p
                                      | BObj _ => SOk p end) m) (fun m => SOk (Some m))
    end.
  Definition inverse_msg (n : Z) (conns : list Z) (sort : list nat) (m : option bmsg) : sres (option bmsg) :=
    match m with
    | None | Some [] => SOk None
    | Some m => sbind (mapm (fun p => match snd p with
                                      | BArr cols rows => if cols =? out_dim conns then sbind (inverse_rows n conns sort rows) (fun r => SOk (fst p, BArr n r)) else SOk p
                                      | BObj _ => SOk p end) m) (fun m => SOk (Some m))
    end.
  (** if not msg: return y, else: return y, msg *)
  Definition answer (y : option (list (list A))) (m : option bmsg) : bout := match m with None | Some [] => BPlain y | Some m => BPair y m end.
  Definition omap (f : list (list A) -> sres (list (list A))) (x : option (list (list A))) : sres (option (list (list A))) :=
    match x with None => SOk None | Some x => sbind (f x) (fun y => SOk (Some y)) end.
  (** _execute :34-44, _inverse :46-56 *)
  Definition bi_execute (n : Z) (conns : list Z) (x : option (list (list A))) (m : option bmsg) : sres bout :=
    sbind (omap (execute_rows conns) x) (fun y => sbind (execute_msg n conns m) (fun m => SOk (answer y m))).
  Definition bi_inverse (n : Z) (conns : list Z) (sort : list nat) (x : option (list (list A))) (m : option bmsg) : sres bout :=
    sbind (omap (inverse_rows n conns sort) x) (fun y => sbind (inverse_msg n conns sort m) (fun m => SOk (answer y m))).
End Bi.
Arguments bval : clear implicits.
Arguments bmsg : clear implicits.
Arguments bout : clear implicits.

(** ** BiClassifier._execute, biclassifier.py:13-41 *)
Section Classifier.
  Context {X V : Type}.
  Variables label prob rank : X -> V.
  (** an argument return_...: None or False, another value which is no string (with its truth value), a string *)
  Inductive flag := FOff | FOther (truth : bool) | FStr (s : string).
  Definition asked (f : flag) : bool := match f with FOff => false | FOther b => b | FStr s => negb (String.eqb s "") end.
  Definition prefix_of (f : flag) : string := match f with FStr s => s | _ => ""%string end.
  (** if return_labels: msg[prefix + "labels"] = ... *)
  Definition put (f : flag) (name : string) (v : V) (m : dict V) : dict V := if asked f then dset (prefix_of f ++ name)%string v m else m.
  Definition classify (x : X) (labels probs ranks : flag) : X * dict V :=
    (x, put ranks "ranks"%string (rank x) (put probs "probs"%string (prob x) (put labels "labels"%string (label x) []))).
End Classifier.

(** ** switchboard_factory.py *)
Inductive pval := PInt (z : Z) | PXY (x y : Z) | PBool (b : bool) | PConns (l : list Z).
Inductive ferr := FESwitch (e : serr) | FEKey | FEType | FEIncompatible.
Inductive fres (A : Type) := FOk (a : A) | FErr (e : ferr).
Arguments FOk {A} _. Arguments FErr {A} _.
Definition fbind {A B} (r : fres A) (f : A -> fres B) : fres B := match r with FOk a => f a | FErr e => FErr e end.
Definition lift {A} (r : sres A) : fres A := match r with SOk a => FOk a | SErr e => FErr (FESwitch e) end.
(** d[key], with KeyError *)
Definition item {V} (k : string) (d : dict V) : fres V := match dget k d with Some v => FOk v | None => FErr FEKey end.
(** to_2tuple, switchboard.py:208-214, and numbers *)
Definition b2z (b : bool) : Z := if b then 1 else 0.
Definition to_xy (v : pval) : fres (Z * Z) := match v with PInt z => FOk (z, z) | PXY x y => FOk (x, y) | PBool b => FOk (b2z b, b2z b) | PConns _ => FErr FEType end.
Definition to_int (v : pval) : fres Z := match v with PInt z => FOk z | PBool b => FOk (b2z b) | _ => FErr FEType end.
Definition to_bool (v : pval) : bool := match v with PInt z => negb (z =? 0) | PXY _ _ => true | PBool b => b | PConns l => negb (List.length l =? 0)%nat end.
Definition to_list (v : pval) : fres (list Z) := match v with PConns l => FOk l | _ => FErr FEType end.

(** the switchboards: the board and out_channels_xy (long_out_channels_xy for DoubleRect2dSwitchboard) *)
Inductive psw := SWChannel (b : board) | SWRect (b : board) (xy : Z * Z) | SWDouble (b : board) (xy : Z * Z) | SWRhomb (b : board) (xy : Z * Z).
Definition board_of (s : psw) : board := match s with SWChannel b | SWRect b _ | SWDouble b _ | SWRhomb b _ => b end.
Inductive kind := KChannel | KRect | KDouble | KRhomb.

(** a call with keyword arguments: TypeError for a name which is no parameter, and for a missing one *)
Definition with_names {A} (names needed : list string) (kw : dict pval) (r : fres A) : fres A :=
  if forallb (fun p => existsb (String.eqb (fst p)) names) kw && forallb (fun k => existsb (String.eqb k) (map fst kw)) needed then r else FErr FEType.
Definition get_or (k : string) (v : pval) (kw : dict pval) : pval := match dget k kw with Some w => w | None => v end.
(** The constructors: ChannelSwitchboard.__init__ switchboard.py:141-168, Rectangular2dSwitchboard :242-243, DoubleRect2dSwitchboard :381-382,
    DoubleRhomb2dSwitchboard :534-535 (names and defaults), the rest is SwitchModel.v *)
Definition construct (k : kind) (kw : dict pval) : fres psw :=
  match k with
  | KChannel =>
      with_names ["input_dim"; "connections"; "out_channel_dim"; "in_channel_dim"]%string ["input_dim"; "connections"; "out_channel_dim"]%string kw
        (fbind (to_int (get_or "input_dim" (PInt 0) kw)) (fun n => fbind (to_list (get_or "connections" (PInt 0) kw)) (fun l =>
         fbind (to_int (get_or "out_channel_dim" (PInt 0) kw)) (fun o => fbind (to_int (get_or "in_channel_dim" (PInt 1) kw)) (fun i =>
         fbind (lift (ch_init n l o i)) (fun b => FOk (SWChannel b)))))))
  | KRect =>
      with_names ["in_channels_xy"; "field_channels_xy"; "field_spacing_xy"; "in_channel_dim"; "ignore_cover"]%string ["in_channels_xy"; "field_channels_xy"]%string kw
        (fbind (to_xy (get_or "in_channels_xy" (PInt 0) kw)) (fun X => fbind (to_xy (get_or "field_channels_xy" (PInt 0) kw)) (fun f =>
         fbind (to_xy (get_or "field_spacing_xy" (PInt 1) kw)) (fun s => fbind (to_int (get_or "in_channel_dim" (PInt 1) kw)) (fun i =>
         fbind (lift (rect_init (fst X) (snd X) (fst f) (snd f) (fst s) (snd s) i (to_bool (get_or "ignore_cover" (PBool false) kw)))) (fun r => FOk (SWRect (fst r) (snd r))))))))
  | KDouble =>
      with_names ["in_channels_xy"; "field_channels_xy"; "in_channel_dim"; "ignore_cover"]%string ["in_channels_xy"; "field_channels_xy"]%string kw
        (fbind (to_xy (get_or "in_channels_xy" (PInt 0) kw)) (fun X => fbind (to_xy (get_or "field_channels_xy" (PInt 0) kw)) (fun f =>
         fbind (to_int (get_or "in_channel_dim" (PInt 1) kw)) (fun i =>
         fbind (lift (drect_init (fst X) (snd X) (fst f) (snd f) i (to_bool (get_or "ignore_cover" (PBool false) kw)))) (fun r => FOk (SWDouble (fst r) (snd r)))))))
  | KRhomb =>
      with_names ["long_in_channels_xy"; "diag_field_channels"; "in_channel_dim"]%string ["long_in_channels_xy"; "diag_field_channels"]%string kw
        (fbind (to_xy (get_or "long_in_channels_xy" (PInt 0) kw)) (fun X => fbind (to_int (get_or "diag_field_channels" (PInt 0) kw)) (fun d =>
         fbind (to_int (get_or "in_channel_dim" (PInt 1) kw)) (fun i =>
         fbind (lift (rhomb_init (fst X) (snd X) d i)) (fun r => FOk (SWRhomb (fst r) (snd r)))))))
  end.

(** compatible_pre_switchboards :43, :90, :110, :129 and the isinstance test :57-60 *)
Definition compatible (k : kind) (prev : psw) : bool :=
  match k, prev with
  | KChannel, _ => true
  | (KRect | KDouble), (SWRect _ _ | SWRhomb _ _) => true
  | KRhomb, SWDouble _ _ => true
  | _, _ => false
  end.
(** if not "ignore_cover" in free_params: free_params["ignore_cover"] = True; the dict of the caller *)
Definition sanitize (k : kind) (fp : dict pval) : dict pval :=
  match k with
  | KRect | KDouble => match dget "ignore_cover" fp with Some _ => fp | None => dset "ignore_cover"%string (PBool true) fp end
  | _ => fp
  end.
(** the attribute of prev_switchboard with the number of channels *)
Definition xy_of (s : psw) : pval := match s with SWChannel _ => PInt 0 | SWRect _ p | SWDouble _ p | SWRhomb _ p => PXY (fst p) (snd p) end.
(** _get_switchboard_kwargs :72-83, :94-103, :114-122, :132-137; [fp] after [sanitize] *)
Definition kwargs (k : kind) (fp : dict pval) (prev : psw) (cd pod : Z) : fres (dict pval) :=
  match k with
  | KChannel => FOk [("input_dim", PInt pod); ("connections", PConns (zrange 0 pod)); ("out_channel_dim", PInt pod); ("in_channel_dim", PInt cd)]%string
  | KRect => fbind (item "field_channels_xy" fp) (fun f => fbind (item "field_spacing_xy" fp) (fun s => fbind (item "ignore_cover" fp) (fun i =>
      FOk [("in_channels_xy", xy_of prev); ("field_channels_xy", f); ("field_spacing_xy", s); ("in_channel_dim", PInt cd); ("ignore_cover", i)]%string)))
  | KDouble => fbind (item "field_channels_xy" fp) (fun f => fbind (item "ignore_cover" fp) (fun i =>
      FOk [("in_channels_xy", xy_of prev); ("field_channels_xy", f); ("in_channel_dim", PInt cd); ("ignore_cover", i)]%string))
  | KRhomb => fbind (item "field_size" fp) (fun f =>
      FOk [("long_out_channels_xy", xy_of prev); ("diag_field_channels", f); ("in_channel_dim", PInt cd)]%string)
  end.
(** create_switchboard :45-68: the dict free_params afterwards, and the switchboard *)
Definition create (k : kind) (fp : dict pval) (prev : psw) (pod : Z) : dict pval * fres psw :=
  if negb (compatible k prev) then (fp, FErr FEIncompatible) else
  match pydiv pod (output_channels (board_of prev)) with
  | SErr e => (fp, FErr (FESwitch e))
  | SOk cd => let fp := sanitize k fp in (fp, fbind (kwargs k fp prev cd pod) (construct k))
  end.
(** key.endswith('_xy') *)
Definition ends_xy (s : string) : bool := let n := String.length s in (3 <=? n)%nat && String.eqb (substring (n - 3) 3 s) "_xy".
(** _binode_create_switchboard, biswitchboard.py:95-117: the loop over the items, then the same *)
Definition pairs (fp : dict pval) : dict pval :=
  map (fun p => if ends_xy (fst p) then match snd p with PInt z => (fst p, PXY z z) | PBool b => (fst p, PXY (b2z b) (b2z b)) | _ => p end else p) fp.
Definition bi_create (k : kind) (fp : dict pval) (prev : psw) (pod : Z) : dict pval * fres psw :=
  if negb (compatible k prev) then (fp, FErr FEIncompatible) else create k (pairs fp) prev pod.
(** get_2d_image_switchboard :16-23 *)
Definition image_board (xy : pval) : fres psw := construct KRect [("in_channels_xy", xy); ("field_channels_xy", PInt 1); ("field_spacing_xy", PInt 1)]%string.
