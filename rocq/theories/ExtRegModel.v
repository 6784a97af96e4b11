(** Model of the registration of extensions: mdp/extension.py 60-242 (the registry, extension_method, extension_setup, extension_teardown,
    ExtensionNodeMetaclass).

    Classes, attribute names, extension names and functions are numbers, values as in ExtModel.v.  Dictionaries are association lists in the order of
    insertion.  Simplifications:
    - the MRO of a class is given with its definition (the C3 linearization of type.__new__ is not modelled), and so is its dictionary, as it is after
      NodeMetaclass.__new__ (the docstring machinery, and cls.DOC_METHODS = [] :193);
    - the attributes which are not registered (_NON_EXTENSION_ATTRIBUTES :46-52) are left out of the dictionaries; extension_name is a field of its own;
    - type.__new__ raises nothing;
    - the functions used as setup and teardown only matter by whether they raise. *)
From Coq Require Import List Arith Bool Lia.
From Verif Require Import ExtModel.
Import ListNotations.

(** d[k] = v: the position of an old key is kept *)
Fixpoint aset {V} (k : nat) (v : V) (d : list (nat * V)) : list (nat * V) :=
  match d with [] => [(k, v)] | (k', v') :: d => if k =? k' then (k, v) :: d else (k', v') :: aset k v d end.
Fixpoint aget {V} (k : nat) (d : list (nat * V)) : option V :=
  match d with [] => None | (k', v) :: d => if k =? k' then Some v else aget k d end.

(** _extensions[name]: the keys _SETUP_FUNC_ATTR and _TEARDOWN_FUNC_ATTR, and the node classes *)
Record eentry := mkR { r_setup : option nat; r_tear : option nat; r_cls : list (nat * list (nat * val)) }.
Definition registry := list (nat * eentry).
Definition fresh : eentry := mkR None None [].

Inductive rexn := RExtension | RKey.

(** "if not extension_name in _extensions: _extensions[extension_name] = dict()" *)
Definition ensure (e : nat) (r : registry) : registry := match aget e r with None => aset e fresh r | Some _ => r end.
(** _extensions[e][c] *)
Definition cattrs (c : nat) (x : eentry) : list (nat * val) := match aget c (r_cls x) with Some l => l | None => [] end.
(** _register_attribute :76-82, the class being in the registry *)
Definition put_attr (c a : nat) (v : val) (x : eentry) : eentry := mkR (r_setup x) (r_tear x) (aset c (aset a v (cattrs c x)) (r_cls x)).
(** an empty dictionary for a class, if there is none *)
Definition ensure_cls (c : nat) (x : eentry) : eentry := match aget c (r_cls x) with None => mkR (r_setup x) (r_tear x) (aset c [] (r_cls x)) | Some _ => x end.

(** extension_method(e, c, a)(f) :85-115, f given as a value *)
Definition reg_method (e c a : nat) (v : val) (r : registry) : registry :=
  let r := ensure e r in
  match aget e r with Some x => aset e (put_attr c a v (ensure_cls c x)) r | None => r end.
(** extension_setup(e)(f) :118-139 *)
Definition reg_setup (e f : nat) (r : registry) : registry * option rexn :=
  let r := ensure e r in
  match aget e r with
  | Some x => match r_setup x with Some _ => (r, Some RExtension) | None => (aset e (mkR (Some f) (r_tear x) (r_cls x)) r, None) end
  | None => (r, None)
  end.
(** extension_teardown(e)(f) :142-160 *)
Definition reg_teardown (e f : nat) (r : registry) : registry * option rexn :=
  let r := ensure e r in
  match aget e r with
  | Some x => match r_tear x with Some _ => (r, Some RExtension) | None => (aset e (mkR (r_setup x) (Some f) (r_cls x)) r, None) end
  | None => (r, None)
  end.

(** A class: whether its type is ExtensionNodeMetaclass, __mro__ (itself first), __dict__, and the value of extension_name in __dict__
    (None: not there; Some None: the value None, or an empty string) *)
Record cls := mkC { is_ext : bool; c_mro : list nat; c_dict : list (nat * val); c_name : option (option nat) }.
(** number of the class ExtensionNode *)
Definition root := 0.

Section Reg.
  (** the classes there are, with the new one *)
  Variable classes : nat -> cls.

  (** ExtensionNode in base.__mro__ *)
  Definition under (b : nat) : bool := existsb (Nat.eqb root) (c_mro (classes b)).
  (** the part of reversed(mro) after ExtensionNode *)
  Fixpoint after_root (l : list nat) : list nat := match l with [] => [] | b :: l => if b =? root then l else after_root l end.
  (** the check of :220-225 *)
  Definition already (mro : list nat) (x : eentry) (a : nat) (v : val) : bool :=
    existsb (fun bb => match aget bb (r_cls x) with Some d => match aget a d with Some w => val_eqb w v | None => false end | None => false end) mro.
  (** the loops of :208-229 *)
  Definition reg_attr (mro : list nat) (c : nat) (x : eentry) (p : nat * val) : eentry := if already mro x (fst p) (snd p) then x else put_attr c (fst p) (snd p) x.
  Definition reg_class (mro : list nat) (c : nat) (x : eentry) (b : nat) : eentry := if under b then fold_left (reg_attr mro c) (c_dict (classes b)) x else x.
  Definition reg_all (mro : list nat) (c : nat) (x : eentry) : eentry := fold_left (reg_class mro c) (after_root (rev mro)) x.

  (** the attribute extension_name of a class; ExtensionNode has None *)
  Fixpoint ext_name (l : list nat) : option nat := match l with [] => None | b :: l => match c_name (classes b) with Some n => n | None => ext_name l end end.

  (** ExtensionNodeMetaclass.__new__ :170-233 for the class number k with the given bases; None as name: not a string of a registered extension *)
  Definition define (k : nat) (bases : list nat) (r : registry) : registry * option rexn :=
    let normal := filter (fun b => negb (is_ext (classes b))) bases in
    let named := if existsb (Nat.eqb root) bases then
                   match c_name (classes k) with
                   | None => (r, Some RKey)
                   | Some None => (r, Some RExtension)
                   | Some (Some e) => match aget e r with Some _ => (r, Some RExtension) | None => (aset e fresh r, None) end
                   end
                 else (r, None) in
    match named with
    | (r, Some ex) => (r, Some ex)
    | (r, None) =>
        match normal with
        | [] => (r, None)
        | [c] => match ext_name (c_mro (classes k)) with
                 | None => (r, Some RKey)
                 | Some e => match aget e r with
                             | None => (r, Some RKey)
                             | Some x => (aset e (reg_all (c_mro (classes k)) c (ensure_cls c x)) r, None)
                             end
                 end
        | _ => (r, Some RExtension)
        end
    end.
End Reg.

(** the registry as activate_extension and deactivate_extension go through it *)
Definition flat (x : eentry) : list (nat * nat * val) := flat_map (fun p => map (fun q => (fst p, fst q, snd q)) (snd p)) (r_cls x).
Definition as_ext (raises : nat -> bool) (x : eentry) : ext :=
  let b o := match o with Some f => raises f | None => false end in mkE (flat x) (b (r_setup x)) (b (r_tear x)).
Definition as_reg (raises : nat -> bool) (r : registry) (e : nat) : option ext := option_map (as_ext raises) (aget e r).
