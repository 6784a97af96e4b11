(** Models of parts of bimdp/inspection: the file names of the snapshots (tracer.py:721-749) and the order in which they are read (tracer.py:836-840), the index table
    (tracer.py:831-876, with the traces of the snapshots given), the sections of TrainHTMLSlideShow (slideshow.py:178-217) and PeekIterator (utils.py:65-92).

    HTML strings, pickling, the directories below the snapshot path and the choice of the node are not modelled; the numbers of slides of the traces are the input. *)
From Coq Require Import String List Arith ZArith Bool Ascii DecimalString.
Import ListNotations.
Local Open Scope string_scope.

(** "snapshot_%d.pckl" *)
Definition snapshot_name (n : nat) : string := "snapshot_" ++ NilZero.string_of_uint (Nat.to_uint n) ++ ".pckl".
(** comparison of strings as lists of characters *)
Fixpoint str_leb (a b : string) : bool :=
  match a, b with
  | EmptyString, _ => true
  | String _ _, EmptyString => false
  | String c a, String d b => if Nat.ltb (nat_of_ascii c) (nat_of_ascii d) then true else if Nat.ltb (nat_of_ascii d) (nat_of_ascii c) then false else str_leb a b
  end.
(** files.sort() :839; the insertion sort stands for it, the names are different *)
Fixpoint ins (n : nat) (l : list nat) : list nat := match l with [] => [n] | m :: l => if str_leb (snapshot_name n) (snapshot_name m) then n :: m :: l else m :: ins n l end.
(** [listing] are the numbers of the files in the order of os.walk *)
Definition read_order (listing : list nat) : list nat := fold_right ins [] listing.

(** the index table: for every node its snapshots with the numbers of the slides of train and of stop; entries are the last slides of train and stop *)
Fixpoint index_phases (total : Z) (l : list (nat * nat)) : list (Z * Z) * Z :=
  match l with
  | [] => ([], total)
  | (tr, st) :: l =>
      let t1 := (total + Z.of_nat tr)%Z in
      let t2 := (t1 + Z.of_nat st)%Z in
      let (r, total) := index_phases t2 l in ((t1 - 1, t2 - 1)%Z :: r, total)
  end.
Fixpoint index_table (total : Z) (l : list (list (nat * nat))) : list (list (Z * Z)) :=
  match l with [] => [] | n :: l => let (r, total) := index_phases total n in r :: index_table total l end.
(** TrainHTMLSlideShow.__init__: state train_id, start_index; [x] * n is empty for negative n *)
Definition times (x : nat) (n : Z) : list nat := repeat x (Z.to_nat n).
Fixpoint sections_phases (train_id : nat) (start : Z) (l : list (Z * Z)) : list nat * nat * Z :=
  match l with
  | [] => ([], train_id, start)
  | (tr, st) :: l =>
      let s1 := times train_id (tr - start + 1) in
      let start := (tr + 1)%Z in
      let start := if (st <? start)%Z then st else start in
      let s2 := times (S train_id) (st - start + 1) in
      let '(r, id, start) := sections_phases (S (S train_id)) (st + 1) l in (s1 ++ s2 ++ r, id, start)%list
  end.
Fixpoint sections (train_id : nat) (start : Z) (l : list (list (Z * Z))) : list nat :=
  match l with [] => [] | n :: l => let '(r, id, start) := sections_phases train_id start n in (r ++ sections id start l)%list end.
Definition section_ids (t : list (list (Z * Z))) : list nat := sections 0 0 t.

(** * PeekIterator: the iterator is the list of its remaining elements; [None] is StopIteration *)
Section Peek.
  Variable A : Type.
  Record peeker := mkP { p_iter : list A; p_cache : list A }.
  (** __next__: pop takes the last element *)
  Definition p_next (p : peeker) : peeker * option A :=
    match rev (p_cache p) with
    | x :: r => (mkP (p_iter p) (rev r), Some x)
    | [] => match p_iter p with x :: r => (mkP r [], Some x) | [] => (p, None) end
    end.
  Definition p_peek (p : peeker) : peeker * option A :=
    match p_next p with (p, Some x) => (mkP (p_iter p) (x :: p_cache p), Some x) | r => r end.
  Definition p_run (p : peeker) (ops : list bool) : peeker * list (option A) :=
    fold_left (fun (s : peeker * list (option A)) (peek : bool) => let (p, o) := (if peek then p_peek else p_next) (fst s) in (p, snd s ++ [o])%list) ops (p, []).
  (** first_iterable_elem :48-62: an iterator is wrapped, of another iterable a new iterator is used *)
  Definition first_iterable_elem (is_iterator : bool) (l : list A) : option (A * peeker) :=
    if is_iterator then match p_peek (mkP l []) with (p, Some x) => Some (x, p) | _ => None end
    else match l with x :: _ => Some (x, mkP l []) | [] => None end.
End Peek.
