(** Model of apply_to_scikits_algorithms (mdp/nodes/scikits_nodes.py:155-195): the traversal of the modules of sklearn.

    Python modules and classes are numbers. [members m] are the members of the module [m] in the order of its __dict__, with a flag for a name which does not begin with an underscore.
    [alg c]: the class has fit, predict or transform; [sk m]: the name of the module begins with the prefix. The action does not raise and does not change the modules; its calls are recorded.
    [None]: the fuel is used up. *)
From Coq Require Import List Arith Bool.
Import ListNotations.

Inductive member := Cls (c : nat) | Mod (m : nat) | Other.
Definition inb (x : nat) (l : list nat) : bool := existsb (Nat.eqb x) l.
Record sst := mkSt { pmods : list nat; pcls : list nat; calls : list nat }.
Section Sk.
  Variable members : nat -> list (bool * member).
  Variable alg sk : nat -> bool.
  Definition one_member (rec : nat -> sst -> option sst) (x : bool * member) (s : sst) : option sst :=
    if fst x then
      match snd x with
      | Cls c => if inb c (pcls s) then Some s else Some (mkSt (pmods s) (pcls s ++ [c]) (calls s ++ if alg c then [c] else []))
      | Mod m => if sk m then rec m s else Some s
      | Other => Some s
      end
    else Some s.
  Fixpoint all_members (rec : nat -> sst -> option sst) (l : list (bool * member)) (s : sst) : option sst :=
    match l with [] => Some s | x :: l => match one_member rec x s with Some s => all_members rec l s | None => None end end.
  Fixpoint visit (fuel : nat) (m : nat) (s : sst) : option sst :=
    match fuel with
    | 0 => None
    | S f => if inb m (pmods s) then Some s else all_members (visit f) (members m) (mkSt (pmods s ++ [m]) (pcls s) (calls s))
    end.
  Definition apply_to_scikits (fuel m : nat) : option sst := visit fuel m (mkSt [] [] []).
End Sk.
