(** Model of the extension mechanism: mdp/extension.py 290-487 (activation and deactivation, context manager, decorator).

    Classes, attribute names and extension names are numbers.  A class has its own dictionary and an MRO.  Simplifications:
    - metaclass attributes and data descriptors of the metaclass play no role in attribute lookup on a class;
    - attribute names do not start with the two prefixes of extension.py:40-50 (three kinds of keys, below);
    - the registry does not change while extensions are activated and deactivated (ExtensionNodeMetaclass, extension_method,
      extension_setup and extension_teardown, :76-242, which fill it, are not modelled); the nested dictionaries class -> attribute
      -> value of one extension are given as one list of (class, attribute, value), in the order of iteration;
    - setup and teardown functions either return or raise, and have no effect on classes or extensions. *)
From Coq Require Import List Arith Bool Lia.
Import ListNotations.

(** Keys of a class dictionary: an attribute, the stored original (ORIGINAL_ATTR_PREFIX + name), the flag
    (_EXTENSION_ATTR_PREFIX + name). *)
Inductive key := Attr (a : nat) | Orig (a : nat) | Flag (a : nat).
(** Values: a function or other plain value, a staticmethod or classmethod object, the bound method obtained from a class method,
    the name of an extension. *)
Inductive val := Plain (n : nat) | Static (n : nat) | ClassM (n : nat) | Bound (c n : nat) | Name (e : nat).

Definition key_eqb (x y : key) : bool :=
  match x, y with Attr a, Attr b => a =? b | Orig a, Orig b => a =? b | Flag a, Flag b => a =? b | _, _ => false end.
(** == of values: bound methods compare __self__ and __func__. *)
Definition val_eqb (x y : val) : bool :=
  match x, y with
  | Plain a, Plain b => a =? b
  | Static a, Static b => a =? b
  | ClassM a, ClassM b => a =? b
  | Bound c a, Bound d b => (c =? d) && (a =? b)
  | Name a, Name b => a =? b
  | _, _ => false
  end.

Definition dict := nat -> key -> option val.
Definition dset (d : dict) (c : nat) (k : key) (v : option val) : dict := fun c' k' => if (c' =? c) && key_eqb k' k then v else d c' k'.

Inductive eexn := EUnknown | ECollision | ESetup | ETeardown | EAttribute | EBody.

(** An extension: _extensions[name]. *)
Record ext := mkE { entries : list (nat * nat * val); setup_raises : bool; teardown_raises : bool }.
(** All class dictionaries, and _active_extensions. *)
Record est := mkS { dicts : dict; active : list nat }.

Section Ext.
  (** [mro c] is c.__mro__[1:]. *)
  Variable mro : nat -> list nat.
  Variable reg : nat -> option ext.
  (** Order in which a set is listed, :290-294. *)
  Variable order : list nat -> list nat.

  Fixpoint find (d : dict) (l : list nat) (k : key) : option val :=
    match l with [] => None | c :: l => match d c k with Some v => Some v | None => find d l k end end.
  (** Attribute lookup on a class; [k in dir(cls)] is [lookup <> None]. *)
  Definition lookup (d : dict) (c : nat) (k : key) : option val := find d (c :: mro c) k.
  Definition bind (c : nat) (v : val) : val := match v with Static n => Plain n | ClassM n => Bound c n | v => v end.
  Definition getattr (d : dict) (c : nat) (k : key) : option val := option_map (bind c) (lookup d c k).

  (** Body of the loop of activate_extension :313-338. *)
  Definition act_entry (d : dict) (e : nat) (x : nat * nat * val) : dict * option eexn :=
    let '(c, a, v) := x in
    let inject d := dset (dset d c (Attr a) (Some v)) c (Flag a) (Some (Name e)) in
    match lookup d c (Attr a) with
    | Some _ =>
        match d c (Flag a) with
        | Some _ => (d, Some ECollision)
        | None => (inject (match lookup d c (Flag a) with None => dset d c (Orig a) (getattr d c (Attr a)) | Some _ => d end), None)
        end
    | None => (inject d, None)
    end.
  Fixpoint act_entries (d : dict) (e : nat) (l : list (nat * nat * val)) : dict * option eexn :=
    match l with
    | [] => (d, None)
    | x :: l => match act_entry d e x with (d', None) => act_entries d' e l | r => r end
    end.

  Definition oval_eqb (x y : option val) : bool :=
    match x, y with Some v, Some w => val_eqb v w | None, None => true | _, _ => false end.
  (** Body of the loop of deactivate_extension :356-386. *)
  Definition deact_entry (d : dict) (x : nat * nat * val) : dict * option eexn :=
    let '(c, a, _) := x in
    match d c (Orig a) with
    | Some _ =>
        match d c (Attr a) with
        | None => (d, Some EAttribute)
        | Some _ =>
            let d1 := dset d c (Attr a) None in
            let original := getattr d1 c (Orig a) in
            let d2 := if forallb (fun x => negb (oval_eqb (getattr d1 x (Attr a)) original)) (mro c) then dset d1 c (Attr a) original else d1 in
            (dset (dset d2 c (Orig a) None) c (Flag a) None, None)
        end
    | None => (dset (dset d c (Attr a) None) c (Flag a) None, None)
    end.
  Fixpoint deact_entries (d : dict) (l : list (nat * nat * val)) : dict * option eexn :=
    match l with
    | [] => (d, None)
    | x :: l => match deact_entry d x with (d', None) => deact_entries d' l | r => r end
    end.

  Definition mem (e : nat) (l : list nat) : bool := existsb (Nat.eqb e) l.
  Definition remove (e : nat) (l : list nat) : list nat := filter (fun x => negb (x =? e)) l.

  (** deactivate_extension :345-389 *)
  Definition deactivate (s : est) (e : nat) : est * option eexn :=
    match reg e with
    | None => (s, Some EUnknown)
    | Some x =>
        if negb (mem e (active s)) then (s, None) else
        match deact_entries (dicts s) (entries x) with
        | (d, Some ex) => (mkS d (active s), Some ex)
        | (d, None) => if teardown_raises x then (mkS d (active s), Some ETeardown) else (mkS d (remove e (active s)), None)
        end
    end.
  (** activate_extension :296-342 *)
  Definition activate (s : est) (e : nat) : est * option eexn :=
    match reg e with
    | None => (s, Some EUnknown)
    | Some x =>
        if mem e (active s) then (s, None) else
        let act := active s ++ [e] in
        let (d, r) := if setup_raises x then (dicts s, Some ESetup) else act_entries (dicts s) e (entries x) in
        match r with
        | None => (mkS d act, None)
        | Some ex => match deactivate (mkS d act) e with (s', None) => (s', Some ex) | r' => r' end
        end
    end.
  (** deactivate_extensions :407-413 *)
  Fixpoint deactivates (s : est) (es : list nat) : est * option eexn :=
    match es with [] => (s, None) | e :: es => match deactivate s e with (s', None) => deactivates s' es | r => r end end.
  (** activate_extensions :392-405 *)
  Fixpoint activates_loop (s : est) (es : list nat) : est * option eexn :=
    match es with [] => (s, None) | e :: es => match activate s e with (s', None) => activates_loop s' es | r => r end end.
  Definition activates (s : est) (es : list nat) : est * option eexn :=
    match activates_loop s es with
    | (s', None) => (s', None)
    | (s', Some ex) => match deactivates s' (order (active s')) with (s2, None) => (s2, Some ex) | r => r end
    end.

  (** Programs: contexts [with mdp.extension(names): body] :454-487 and calls of a function decorated by with_extension :418-452. *)
  Inductive prog := PSkip | PRaise | PSeq (p q : prog) | PContext (names : list nat) (p : prog) | PDecorated (name : nat) (p : prog).
  Fixpoint exec (s : est) (p : prog) : est * option eexn :=
    match p with
    | PSkip => (s, None)
    | PRaise => (s, Some EBody)
    | PSeq p q => match exec s p with (s', None) => exec s' q | r => r end
    | PContext names p =>
        let todo := filter (fun e => negb (mem e (active s))) names in
        match activates s names with
        | (s1, Some ex) => (s1, Some ex)
        | (s1, None) =>
            let (s2, r) := exec s1 p in
            match deactivates s2 todo with (s3, None) => (s3, r) | r' => r' end
        end
    | PDecorated e p =>
        if negb (mem e (active s)) then
          let (s1, r1) := activate s e in
          let (s2, r2) := match r1 with None => exec s1 p | Some ex => (s1, Some ex) end in
          match deactivate s2 e with (s3, None) => (s3, r2) | r' => r' end
        else exec s p
    end.
End Ext.
