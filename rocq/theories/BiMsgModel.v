(** Model of MessageResultContainer, bimdp/biflow.py:40-88.

    Lists are mutable objects in a heap, the other values are immutable.  An array is the list of its rows; arrays of one key have the same
    row shape, so numpy.concatenate appends their rows (its ValueError for other shapes is not modelled). *)
From Coq Require Import List Arith ZArith Bool String Ascii.
From Verif Require Import BiModel.
Import ListNotations.
Open Scope nat_scope.

Section Container.
  Variable X : Type.      (* rows of arrays *)
  Inductive elem := EInt (z : Z) | EStr (s : string).
  (** MOther: an object without +=, e.g. None or a dictionary *)
  Inductive mval := MArr (a : list X) | MInt (z : Z) | MStr (s : string) | MList (r : nat) | MOther.
  Definition lheap := list (list elem).
  Definition lget (h : lheap) (r : nat) : list elem := nth r h [].
  Fixpoint lset (h : lheap) (r : nat) (l : list elem) : lheap :=
    match h, r with [], _ => [] | _ :: h, 0 => l :: h | a :: h, Datatypes.S r => a :: lset h r l end.
  Fixpoint chars (s : string) : list elem := match s with EmptyString => [] | String c s => EStr (String c EmptyString) :: chars s end.
  (** _msg_results and _msg_array_results :47-50 *)
  Record container := mkC { k_res : dict mval; k_arr : dict (list (list X)) }.
  Definition new_container : container := mkC [] [].
  (** a += b :71; a list is extended in place, also by the characters of a string *)
  Definition iadd (a b : mval) (h : lheap) : lheap * bres mval :=
    match a, b with
    | MInt a, MInt b => (h, BOk (MInt (a + b)))
    | MStr a, MStr b => (h, BOk (MStr (a ++ b)))
    | MList r, MList q => (lset h r (lget h r ++ lget h q), BOk (MList r))
    | MList r, MStr s => (lset h r (lget h r ++ chars s), BOk (MList r))
    | _, _ => (h, BErr EType)
    end.
  (** one pass of the loop in add_message :61-75 *)
  Definition add_key (p : string * mval) (w : container * lheap) : (container * lheap) * bres unit :=
    let (c, h) := w in let (k, v) := p in
    match v with
    | MArr a => ((mkC (k_res c) (dset k (match dget k (k_arr c) with None => [] | Some l => l end ++ [a]) (k_arr c)), h), BOk tt)
    | v => match dget k (k_res c) with
           | None => ((mkC (dset k v (k_res c)) (k_arr c), h), BOk tt)
           | Some u => match iadd u v h with
                       | (h', BOk u') => ((mkC (dset k u' (k_res c)) (k_arr c), h'), BOk tt)
                       | (h', BErr _) => ((c, h'), BErr EBiFlow)
                       end
           end
    end.
  (** add_message :52-75 *)
  Fixpoint add_message (m : dict mval) (w : container * lheap) : (container * lheap) * bres unit :=
    match m with
    | [] => (w, BOk tt)
    | p :: m => match add_key p w with (w', BOk _) => add_message m w' | (w', BErr e) => (w', BErr e) end
    end.
  (** the loop in get_message :80-87 *)
  Fixpoint get_arrays (l : dict (list (list X))) (c : container) : container * bres unit :=
    match l with
    | [] => (c, BOk tt)
    | (k, a) :: l => match dget k (k_res c) with
                     | Some _ => (c, BErr EBiFlow)
                     | None => get_arrays l (mkC (dset k (MArr (List.concat a)) (k_res c)) (k_arr c))
                     end
    end.
  (** get_message :77-88: the dictionary returned is _msg_results itself *)
  Definition get_message (c : container) : container * bres (dict mval) :=
    match get_arrays (k_arr c) c with (c', BOk _) => (c', BOk (k_res c')) | (c', BErr e) => (c', BErr e) end.
  (** add_message for all chunks, then get_message: what BiFlow.execute does with the messages of the chunks :336-337, 360 *)
  Fixpoint add_all (ms : list (dict mval)) (w : container * lheap) : (container * lheap) * bres unit :=
    match ms with
    | [] => (w, BOk tt)
    | m :: ms => match add_message m w with (w', BOk _) => add_all ms w' | (w', BErr e) => (w', BErr e) end
    end.
  Definition combine_all (ms : list (dict mval)) (h : lheap) : (container * lheap) * bres (dict mval) :=
    match add_all ms (new_container, h) with
    | ((c, h'), BOk _) => let (c', r) := get_message c in ((c', h'), r)
    | (w, BErr e) => (w, BErr e)
    end.
End Container.
