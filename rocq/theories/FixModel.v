(** Model of fixup_namespace and _fixup_namespace_item, mdp/utils/__init__.py:123-227.

    Objects, names and submodules are numbers. The attributes of an object do not change while the function runs, only its __module__ does. The value of __module__ is
    that of the package ([MSelf]), that of a submodule "<mname>.<n>" ([MSub n]), anything else ([MOther]), or there is none. A bound method reads __module__ of its
    function. Simplified: an instance has a __module__ of its own (in the code it is that of its class until it is set). Not modelled: the messages of FIXUP_DEBUG, the lookup in sys.modules. *)
From Coq Require Import List Arith Bool Lia.
Import ListNotations.

Inductive modname := MSelf | MSub (n : nat) | MOther (n : nat).
Section Fix.
  Variable old : list nat.                     (* old_modules *)
  Variable settable : nat -> bool.             (* __module__ can be assigned *)
  Variable func : nat -> option nat.           (* __func__ of a bound method *)
  Variable dirl : nat -> list nat.             (* dir(item) *)
  Variable attr : nat -> nat -> option nat.    (* getattr; None: AttributeError *)
  Variables dunder under : nat -> bool.        (* the name starts with __, with _ *)
  Definition mods := nat -> option modname.
  Definition set_mod (st : mods) (o : nat) (m : modname) : mods := fun p => if p =? o then Some m else st p.
  Definition modof (st : mods) (o : nat) : option modname := match func o with Some f => st f | None => st o end.
  (** _without_prefix(current_name, mname + '.') in old_modules :123-127, :208-209 *)
  Definition private (m : option modname) : bool := match m with Some (MSub n) => existsb (Nat.eqb n) old | _ => false end.
  Inductive ferr := FAttr | FFuel.
  (** the names which are followed, :223-224 *)
  Definition subitems (o : nat) : list nat := filter (fun n => dunder n || negb (under n)) (dirl o).
  (** _fixup_namespace_item :199-227 *)
  Fixpoint item (fuel : nat) (st : mods) (parent name : nat) : mods * option ferr :=
    match fuel with
    | O => (st, Some FFuel)
    | S fuel =>
        match attr parent name with
        | None => if dunder name then (st, None) else (st, Some FAttr)
        | Some o =>
            if private (modof st o) then
              if settable o then
                (fix loop (l : list nat) (st : mods) : mods * option ferr :=
                   match l with [] => (st, None) | n :: l => match item fuel st o n with (st, None) => loop l st | r => r end end) (subitems o) (set_mod st o MSelf)
              else match func o with Some f => (if settable f then set_mod st f MSelf else st, None) | None => (st, None) end
            else (st, None)
        end
    end.
  Fixpoint items (fuel : nat) (parent : nat) (l : list nat) (st : mods) : mods * option ferr :=
    match l with [] => (st, None) | n :: l => match item fuel st parent n with (st, None) => items fuel parent l st | r => r end end.
  (** fixup_namespace :133-196: [names] are given or None; [space] are the names in the module, [modname] the name of a submodule there; the result is the state, the names
      which are left, and the exception *)
  Variable modname_ : nat -> nat.
  Definition fixup (fuel module : nat) (names : option (list nat)) (keep : list nat) (space : list nat) (st : mods) : mods * list nat * option ferr :=
    let names := match names with None => filter (fun n => negb (under n)) (dirl module) | Some l => l end in
    match items fuel module names st with
    | (st, Some e) => (st, space, Some e)
    | (st, None) => (st, fold_left (fun sp f => if existsb (Nat.eqb f) keep then sp else filter (fun n => negb (n =? modname_ f)) sp) old space, None)
    end.
End Fix.
