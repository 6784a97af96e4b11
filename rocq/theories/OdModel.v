(** Model of the OrderedDict of mdp/utils/_ordered_dict.py:5-99 (used if collections has none).

    The lists [key, prev, next] are cells of a heap; self.__end is the address of the sentinel, self.__map a dictionary from keys to addresses, and the
    inherited dict is an association list whose order is never observed. Keys are compared by a decidable equality. The methods of DictMixin which are used
    (pop, update, items) are those of the module UserDict of Python 2, which is not part of the repository: pop reads the value and deletes the key, update
    sets the items one after the other, items reads the values of the keys in the order of __iter__. *)
From Coq Require Import List Arith Bool Lia.
Import ListNotations.

Section Od.
  Variables (K V : Type) (keqb : K -> K -> bool).
  Fixpoint lookup {A} (l : list (K * A)) (k : K) : option A := match l with [] => None | (q, v) :: l => if keqb k q then Some v else lookup l k end.
  Fixpoint drop {A} (l : list (K * A)) (k : K) : list (K * A) := match l with [] => [] | (q, v) :: l => if keqb k q then drop l k else (q, v) :: drop l k end.

  Record cell := mkC { c_key : option K; c_prev : nat; c_next : nat }.
  Record od := mkO { o_end : nat; o_map : list (K * nat); o_dict : list (K * V); o_heap : nat -> cell; o_free : nat }.
  Inductive oerr := OKey.
  Definition upd (h : nat -> cell) (a : nat) (c : cell) : nat -> cell := fun b => if b =? a then c else h b.
  Definition set_prev (h : nat -> cell) (a p : nat) := upd h a (mkC (c_key (h a)) p (c_next (h a))).
  Definition set_next (h : nat -> cell) (a n : nat) := upd h a (mkC (c_key (h a)) (c_prev (h a)) n).

  (** clear :16-20; __init__ without arguments :7-14: a new sentinel *)
  Definition o_clear (s : od) : od := mkO (o_free s) [] [] (upd (o_heap s) (o_free s) (mkC None (o_free s) (o_free s))) (S (o_free s)).
  Definition o_new : od := o_clear (mkO 0 [] [] (fun _ => mkC None 0 0) 0).
  (** __setitem__ :22-27 *)
  Definition o_set (s : od) (k : K) (v : V) : od :=
    match lookup (o_dict s) k with
    | Some _ => mkO (o_end s) (o_map s) ((k, v) :: drop (o_dict s) k) (o_heap s) (o_free s)
    | None =>
        let e := o_end s in
        let curr := c_prev (o_heap s e) in
        let c := o_free s in
        let h := upd (o_heap s) c (mkC (Some k) curr e) in
        let h := set_next h curr c in
        let h := set_prev h e c in
        mkO e ((k, c) :: drop (o_map s) k) ((k, v) :: drop (o_dict s) k) h (S c)
    end.
  (** __delitem__ :29-33 *)
  Definition o_del (s : od) (k : K) : od + oerr :=
    match lookup (o_dict s) k with
    | None => inr OKey
    | Some _ =>
        match lookup (o_map s) k with
        | None => inr OKey
        | Some c =>
            let p := c_prev (o_heap s c) in
            let n := c_next (o_heap s c) in
            inl (mkO (o_end s) (drop (o_map s) k) (drop (o_dict s) k) (set_prev (set_next (o_heap s) p n) n p) (o_free s))
        end
    end.
  (** __iter__ :35-40 and __reversed__ :42-47; [fuel]: the loop is bounded by the number of cells *)
  Fixpoint walk (next : cell -> nat) (h : nat -> cell) (e : nat) (fuel curr : nat) : option (list (option K)) :=
    if curr =? e then Some [] else match fuel with O => None | S f => option_map (cons (c_key (h curr))) (walk next h e f (next (h curr))) end.
  Definition o_iter (s : od) : option (list (option K)) := walk c_next (o_heap s) (o_end s) (o_free s) (c_next (o_heap s (o_end s))).
  Definition o_reversed (s : od) : option (list (option K)) := walk c_prev (o_heap s) (o_end s) (o_free s) (c_prev (o_heap s (o_end s))).
  (** DictMixin.pop without a default *)
  Definition o_pop (s : od) (k : K) : (V * od) + oerr := match lookup (o_dict s) k with None => inr OKey | Some v => match o_del s k with inl s => inl (v, s) | inr e => inr e end end.
  (** popitem :49-57; next(iter(...)) is the first cell after the sentinel *)
  Definition o_popitem (last : bool) (s : od) : (K * V * od) + oerr :=
    match o_dict s with
    | [] => inr OKey
    | _ => match c_key (o_heap s (if last then c_prev (o_heap s (o_end s)) else c_next (o_heap s (o_end s)))) with
           | None => inr OKey
           | Some k => match o_pop s k with inl (v, s) => inl (k, v, s) | inr e => inr e end
           end
    end.
  (** items: [(k, self[k]) for k in self] *)
  Definition o_items (s : od) : option (list (K * V)) :=
    match o_iter s with
    | None => None
    | Some ks => fold_right (fun k r => match k, r with Some k, Some r => match lookup (o_dict s) k with Some v => Some ((k, v) :: r) | None => None end | _, _ => None end) (Some []) ks
    end.
  (** update with items; __init__(items) :7-14, which copy :86-87 and the unpickling of __reduce__ :59-67 use *)
  Definition o_update (s : od) (l : list (K * V)) : od := fold_left (fun s p => o_set s (fst p) (snd p)) l s.
  Definition o_of (l : list (K * V)) : od := o_update o_new l.
  Definition o_copy (s : od) : option od := option_map o_of (o_items s).
  (** __eq__ :96-99 of two OrderedDicts; [veqb] compares values *)
  Variable veqb : V -> V -> bool.
  Fixpoint items_eqb (l r : list (K * V)) : bool :=
    match l, r with [], [] => true | (k, v) :: l, (q, w) :: r => keqb k q && veqb v w && items_eqb l r | _, _ => false end.
  Definition o_eq (s t : od) : option bool :=
    if negb (length (o_dict s) =? length (o_dict t)) then Some false
    else match o_items s, o_items t with Some l, Some r => Some (items_eqb l r) | _, _ => None end.
End Od.
