(** Model of small utilities: progressinfo (mdp/utils/progress_bar.py), _LabelNormalizer (mdp/nodes/svm_classifiers.py), _memory_size_str and _format_dig
    (mdp/utils/introspection.py) and the generation of BiNode classes (bimdp/nodes/autogen.py).

    Numbers are exact rationals instead of floats.  The text written by autogen is modelled as the signature and the call which Python reads from it. *)
From Coq Require Import String Ascii List Arith ZArith QArith Qround Bool DecimalString.
Import ListNotations.
Open Scope nat_scope.

Inductive uexn := UUnbound | UZeroDiv | UAttr | UPlain | UValue | UNodeExc | UType | UIndex.

(** ** progress_bar.py *)
Definition text := list ascii.
Definition lit (s : string) : text := list_ascii_of_string s.
(** Python's round: to the nearest integer, ties to the even one *)
Definition pyround (q : Q) : Z :=
  let f := Qfloor (q + (1 # 2))%Q in if Qeq_bool (inject_Z f) (q + (1 # 2))%Q && Z.odd f then (f - 1)%Z else f.
(** '%3d%%' % n, for n >= 0 *)
Definition digits (n : nat) : text := lit (NilEmpty.string_of_uint (Nat.to_uint n)).
Definition percent_str (n : nat) : text := let s := digits n in repeat " "%char (3 - length s) ++ s ++ ["%"%char].
Definition lstrip (s : text) : text := (fix f (s : text) := match s with c :: r => if Ascii.eqb c " " then f r else s | [] => [] end) s.
(** s * n, and the slices s[:i], s[i:] (negative indices count from the end) *)
Definition rep (s : text) (n : Z) : text := concat (repeat s (Z.to_nat n)).
Definition index (s : text) (i : Z) : nat := if (i <? 0)%Z then Z.to_nat (i + Z.of_nat (length s)) else Z.to_nat i.
Definition upto (s : text) (i : Z) : text := firstn (index s i) s.
Definition from (s : text) (i : Z) : text := skipn (index s i) s.
Inductive position := PLeft | PRight | PMiddle.
Record layout := mkL { l_indent : text; l_width : Z; l_pos : position; l_open : text; l_close : text; l_char1 : text; l_char2 : text; l_char3 : text }.
(** _progress with style 'bar' :37-64: the text after the carriage return *)
Definition bar (l : layout) (percent : Q) : text :=
  let ps := percent_str (Z.to_nat (pyround (percent * 100))) in
  let symbols := pyround (percent * inject_Z (l_width l)) in
  let box := l_open l ++ (rep (l_char1 l) symbols ++ l_char2 l) ++ rep (l_char3 l) (l_width l - symbols) ++ l_close l in
  match l_pos l with
  | PLeft => l_indent l ++ ps ++ box
  | PRight => l_indent l ++ box ++ ps
  | PMiddle =>
      let ps := lstrip ps in
      let i := (Z.of_nat (length box) / 2 - Z.of_nat (length ps) + 2)%Z in
      l_indent l ++ upto box i ++ ps ++ from box (i + Z.of_nat (length ps))%Z
  end.
(** progressinfo :222-225: the width which is left in a terminal *)
Definition fit (l : layout) : layout :=
  mkL (l_indent l) (l_width l - (Z.of_nat (length (l_indent l)) + 4 + match l_pos l with PMiddle => 0 | _ => 4 end)) (l_pos l) (l_open l) (l_close l) (l_char1 l) (l_char2 l) (l_char3 l).
Definition default_layout (termwidth : Z) : layout := mkL [] termwidth PMiddle (lit "[") (lit "]") (lit "=") (lit ">") (lit ".").

(** style 'timer' :65-99: what _progress does with the clock.  The function attributes last_percent and last_time live as long as the module *)
Inductive speed := Mean | Last.
Record clock := mkC { c_last : option (Q * Q) }.
(** the estimated time; None: no estimate ('?') *)
Definition timer (sp : speed) (t_start now : Q) (percent : Q) (c : clock) : (option (Q * Q) * clock) + uexn :=
  if Qeq_bool percent 0 then inl (None, mkC (Some (percent, now)))
  else let elapsed := (now - t_start)%Q in
       match sp with
       | Mean => inl (Some (elapsed, (elapsed / percent - elapsed)%Q), mkC (Some (percent, now)))
       | Last =>
           match c_last c with
           | None => inr UAttr
           | Some (lp, lt) => if Qeq_bool (percent - lp) 0 then inr UZeroDiv
                              else inl (Some (elapsed, ((1 - percent) / (percent - lp) * (now - lt))%Q), mkC (Some (percent, now)))
           end
       end.

(** progressinfo :198-210 and :240-256.  [sized]: len(sequence) works; the consumer takes all values.  An event: a call of _progress with this fraction, a value
    given to the consumer, the final newline *)
Inductive event (A : Type) := EDraw (percent : Q) | EYield (v : A) | EEnd.
Arguments EDraw {A}. Arguments EYield {A}. Arguments EEnd {A}.
Section Progress.
  Variable A : Type.
  Variable val : A -> Q.                               (* the values as numbers, for a negative length *)
  (** length and iterate_on_items *)
  Definition get_length (sized : bool) (n : nat) (arg : option Z) : (Q * bool) + uexn :=
    if sized then inl (inject_Z (Z.of_nat n), false)
    else match arg with None => inr UPlain | Some z => if (z <? 0)%Z then inl (inject_Z (- z), true) else inl (inject_Z z, false) end.
  Definition div (a b : Q) : Q + uexn := if Qeq_bool b 0 then inr UZeroDiv else inl (a / b)%Q.
  Fixpoint loop (len : Q) (items : bool) (count : nat) (l : list A) : list (event A) * option uexn :=
    match l with
    | [] => ([], None)
    | v :: l =>
        match div (if items then val v else inject_Z (Z.of_nat count)) len with
        | inr e => ([], Some e)
        | inl p => let (ev, e) := loop len items (S count) l in (EDraw p :: EYield v :: ev, e)
        end
    end.
  Definition progressinfo (sized : bool) (arg : option Z) (l : list A) : list (event A) * option uexn :=
    match get_length sized (length l) arg with
    | inr e => ([], Some e)
    | inl (len, items) =>
        match loop len items 0 l with
        | (ev, Some e) => (ev, Some e)
        | (ev, None) =>
            (* the else clause: count is only bound by the loop *)
            if items then (ev ++ [EDraw 1; EEnd], None)
            else match l with
                 | [] => (ev, Some UUnbound)
                 | _ => match div (inject_Z (Z.of_nat (length l))) len with inr e => (ev, Some e) | inl p => (ev ++ [EDraw p; EEnd], None) end
                 end
        end
    end.
End Progress.

(** ** svm_classifiers.py:13-65 *)
Section Label.
  Variable L : Type.
  Variable leb : L -> L -> bool.                       (* equality of labels *)
  Inductive mode := MId | MDual | MMulti | MOther.
  (** dict(pairs): later pairs win; dict.get *)
  Fixpoint lookup {K V} (eqb : K -> K -> bool) (l : list (K * V)) (k : K) : option V :=
    match l with [] => None | (k', v) :: l => match lookup eqb l k with Some w => Some w | None => if eqb k' k then Some v else None end end.
  Fixpoint nkeys {K V} (eqb : K -> K -> bool) (l : list (K * V)) : nat :=
    match l with [] => 0 | (k, _) :: l => if existsb (fun p => eqb (fst p) k) l then nkeys eqb l else S (nkeys eqb l) end.
  Inductive normalizer := NId | NMap (m : list (L * Z)).
  (** __init__ with [labels] = the elements of set(labels) in the order of the set *)
  Definition zip_norm (m : mode) (labels : list L) : list (L * Z) :=
    match m with MDual => combine labels [1; -1]%Z | _ => combine labels (map Z.of_nat (seq 0 (length labels))) end.
  Definition make (m : mode) (labels : list L) : normalizer + uexn :=
    let set_dicts := let t := zip_norm m labels in
                     if (nkeys leb t =? length t) && (nkeys Z.eqb (map (fun p => (snd p, fst p)) t) =? length t) then inl (NMap t) else inr UNodeExc in
    match m with
    | MId => inl NId
    | MDual => if 2 <? length labels then inr UNodeExc else set_dicts
    | MMulti => set_dicts
    | MOther => inr UNodeExc
    end.
  (** normalize and revert; with mode 'id' both return the argument *)
  Definition normalize (t : list (L * Z)) (l : list L) : list (option Z) := map (lookup leb t) l.
  Definition revert (t : list (L * Z)) (l : list Z) : list (option L) := map (lookup Z.eqb (map (fun p => (snd p, fst p)) t)) l.
End Label.

(** ** introspection.py *)
(** _memory_size_str :119-143: the while loop, the number printed (before the rounding to one digit) and the prefix number; seven prefixes are known *)
Fixpoint scale_of (fuel : nat) (base size scale : N) : N := match fuel with O => scale | S f => if (base ^ (scale + 1) <? size)%N then scale_of f base size (scale + 1)%N else scale end.
Definition memory_size (si : bool) (size : N) : (Q * N) + uexn :=
  let base := if si then 1000%N else 1024%N in
  let scale := scale_of (N.to_nat (N.size size)) base size 0 in
  if (6 <? scale)%N then inr UIndex else inl ((inject_Z (Z.of_N size) / inject_Z (Z.of_N (base ^ scale)))%Q, scale).
(** _format_dig :64-78: the total; max of an empty list raises ValueError *)
Definition format_dig (l : list (string * N)) : N + uexn := match l with [] => inr UValue | _ => inl (fold_right (fun p s => (snd p + s)%N) 0%N l) end.

(** ** autogen.py:35-87 (_binode_code) *)
Section Autogen.
  Variable D : Type.                                   (* default values *)
  Variable none : D.
  (** what getfullargspec(__init__)[:4] gives; [a_args] without self *)
  Record argspec := mkA { a_args : list string; a_defaults : option (list D); a_varargs : option string; a_varkw : option string }.
  (** the generated __init__: required parameters, parameters with defaults, *args, **kwargs, and the call of super().__init__: keywords, *args, **kwargs *)
  Record init := mkI { i_required : list string; i_default : list (string * D); i_varargs : option string; i_varkw : string; c_kw : list string; c_star : option string; c_kwargs : string }.
  Definition binode_code (a : argspec) : init + uexn :=
    let args := a_args a ++ ["node_id"; "stop_result"]%string in
    match a_defaults a with
    | None => inr UType                                (* None + (None, None) *)
    | Some ds =>
        let ds := ds ++ [none; none] in
        let first := length args - length ds in
        let kw := match a_varkw a with Some k => k | None => "kwargs"%string end in
        inl (mkI (firstn first args) (combine (skipn first args) ds) (a_varargs a) kw args (a_varargs a) kw)
    end.
  (** Python's binding of positional values and keywords: TypeError if a parameter gets two values.  [params]: names in order *)
  Definition bind (params : list string) (npos : nat) (kws : list string) : bool := negb (existsb (fun p => existsb (String.eqb p) kws) (firstn npos params)).
End Autogen.
