(** Model of mdp/parallel/scheduling.py: result containers and the base class Scheduler (tasks are executed in add_task).

    A call either returns, raises, or blocks forever because the lock is still held by an earlier call that raised (one client
    thread; threading.Lock is not reentrant).  verbose printing is not modelled. *)
From Coq Require Import List Arith ZArith Bool.
Import ListNotations.
Open Scope nat_scope.

Section Container.
  Variable R : Type.
  (** list.sort(key=lambda x: x[1]), stable *)
  Fixpoint insert (x : R * nat) (l : list (R * nat)) : list (R * nat) :=
    match l with
    | [] => [x]
    | y :: r => if snd x <=? snd y then x :: l else y :: insert x r
    end.
  Fixpoint sort (l : list (R * nat)) : list (R * nat) := match l with [] => [] | x :: r => insert x (sort r) end.
  (** OrderedResultContainer.add_result :63-69 *)
  Definition add_result (r : R) (i : nat) (l : list (R * nat)) : list (R * nat) := l ++ [(r, i)].
  (** OrderedResultContainer.get_results :71-76: the container is emptied first; [list(zip( *results))[0]] raises IndexError (None here)
      if there are no results *)
  Definition get_container (l : list (R * nat)) : list (R * nat) * option (list R) :=
    match map fst (sort l) with [] => ([], None) | rs => ([], Some rs) end.
End Container.

Section Scheduler.
  Variables (D C R : Type).
  (** A callable object: does it have a fork method, what does fork return, what does calling it return (None: it raises) *)
  Variables (has_fork : C -> bool) (fork : C -> C) (call : C -> D -> option R).
  (** a callable object or TaskCallableWrapper(object) :148-160 *)
  Inductive task_callable := Obj (c : C) | Wrap (c : C).
  Record sched := mkSched { s_results : list (R * nat); s_open : nat; s_counter : nat; s_lock : bool; s_last : option task_callable; s_index2 : Z }.
  (** __init__ :201-219; [s_index2] is twice _last_callable_index *)
  Definition sched_init : sched := mkSched [] 0 0 false None (-2)%Z.
  Inductive outcome (X : Type) := Returns (x : X) | Raises | Blocks.
  Arguments Returns {X} _. Arguments Raises {X}. Arguments Blocks {X}.

  Definition wrap (c : C) : task_callable := if has_fork c then Obj c else Wrap c.
  (** fork of a callable; None: AttributeError *)
  Definition fork_of (t : task_callable) : option task_callable :=
    match t with Obj c => if has_fork c then Some (Obj (fork c)) else None | Wrap c => Some (Wrap c) end.
  Definition call_of (t : task_callable) : D -> option R := match t with Obj c => call c | Wrap c => call c end.

  (** _store_result :284-300 *)
  Definition store (r : R) (i : nat) (s : sched) : sched * outcome unit :=
    if s_lock s then (s, Blocks) else
    (mkSched (add_result R r i (s_results s)) (s_open s - 1) (s_counter s) false (s_last s) (s_index2 s), Returns tt).
  (** _process_task :342-358: entered with the lock held *)
  Definition process (d : D) (t : task_callable) (i : nat) (s : sched) : sched * outcome unit :=
    match fork_of t with
    | None => (s, Raises)
    | Some t =>
        match call_of t d with
        | None => (s, Raises)
        | Some r => store r i (mkSched (s_results s) (s_open s) (s_counter s) false (s_last s) (s_index2 s))
        end
    end.
  (** add_task :235-266 *)
  Definition add_task (d : D) (oc : option C) (s : sched) : sched * outcome unit :=
    if s_lock s then (s, Blocks) else
    match oc, s_last s with
    | None, None => (mkSched (s_results s) (s_open s) (s_counter s) true (s_last s) (s_index2 s), Raises)
    | None, Some t => process d t (S (s_counter s)) (mkSched (s_results s) (S (s_open s)) (S (s_counter s)) true (s_last s) (s_index2 s))
    | Some c, _ =>
        process d (wrap c) (S (s_counter s))
          (mkSched (s_results s) (S (s_open s)) (S (s_counter s)) true (Some (wrap c)) (2 * Z.of_nat (S (s_counter s)))%Z)
    end.
  (** set_task_callable :268-282: the callable is not wrapped *)
  Definition set_task_callable (c : C) (s : sched) : sched * outcome unit :=
    if s_lock s then (s, Blocks) else
    (mkSched (s_results s) (s_open s) (s_counter s) false (Some (Obj c)) (2 * Z.of_nat (s_counter s) + 1)%Z, Returns tt).
  (** get_results :302-315: polls while there are open tasks; an exception in the container leaves the lock held *)
  Definition get_results (s : sched) : sched * outcome (list R) :=
    if s_lock s then (s, Blocks) else
    if s_open s =? 0 then
      match get_container R (s_results s) with
      | (l, Some rs) => (mkSched l (s_open s) (s_counter s) false (s_last s) (s_index2 s), Returns rs)
      | (l, None) => (mkSched l (s_open s) (s_counter s) true (s_last s) (s_index2 s), Raises)
      end
    else (s, Blocks).

  (** A client program *)
  Inductive scall := CallAdd (d : D) (oc : option C) | CallSet (c : C) | CallGet.
  Inductive answer := AUnit (o : outcome unit) | AList (o : outcome (list R)).
  Definition do_call (c : scall) (s : sched) : sched * answer :=
    match c with
    | CallAdd d oc => let (s, o) := add_task d oc s in (s, AUnit o)
    | CallSet c => let (s, o) := set_task_callable c s in (s, AUnit o)
    | CallGet => let (s, o) := get_results s in (s, AList o)
    end.
  Fixpoint do_calls (cs : list scall) (s : sched) : sched * list answer :=
    match cs with
    | [] => (s, [])
    | c :: cs => let (s, a) := do_call c s in let (s, l) := do_calls cs s in (s, a :: l)
    end.
End Scheduler.
Arguments Returns {X} _. Arguments Raises {X}. Arguments Blocks {X}.
