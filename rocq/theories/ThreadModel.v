(** Model of mdp/parallel/thread_schedule.py: ThreadScheduler, as a transition system.

    One client thread, one thread per task; a step is one access to shared data or a critical section, so all interleavings are covered.
    [call c d] is the result of the callable [c], None if it raises.  copy_callable (a pickled copy of the fork) is not modelled: callables are
    values.  Not modelled: verbose output, failure to start a thread, several client threads. *)
From Coq Require Import List Arith ZArith Bool.
From Verif Require Import SchedModel.
Import ListNotations.
Open Scope nat_scope.

Section Threads.
  Variables (D C R : Type) (fork : C -> C) (call : C -> D -> option R) (n : nat).   (* n_threads *)
  (** program counter of a task thread :83-87 *)
  Inductive pc := Run (* before :85 *) | Store (r : R) (* before :86 *) | Dec (* before :87 *).
  Record thr := mkT { r_data : D; r_call : C; r_idx : nat; r_pc : pc }.
  Inductive client := Idle | Pend (d : D) (c : C) (i : nat) | Raised.
  Record st := mkS { lock : bool; n_open : nat; counter : nat; last : option C; results : list (R * nat); active : Z; cl : client; thrs : list thr;
                     (* ghost: submitted tasks, failed tasks, task_counter at the last get_results *)
                     subs : list (nat * D * C); failed : list nat; base : nat }.
  (** __init__ :26-47 *)
  Definition start : st := mkS false 0 0 None [] 0 Idle [] [] [] 0.
  Inductive step : st -> st -> Prop :=
  (** add_task, scheduling.py:235-265 *)
  | s_add op k la rs a ts sb f b d c :
      step (mkS false op k la rs a Idle ts sb f b) (mkS true (S op) (S k) (Some c) rs a (Pend d c (S k)) ts (sb ++ [(S k, d, c)]) f b)
  | s_add_last op k c rs a ts sb f b d :
      step (mkS false op k (Some c) rs a Idle ts sb f b) (mkS true (S op) (S k) (Some c) rs a (Pend d c (S k)) ts (sb ++ [(S k, d, c)]) f b)
  | s_add_none op k rs a ts sb f b : step (mkS false op k None rs a Idle ts sb f b) (mkS true op k None rs a Raised ts sb f b)
  (** set_task_callable, scheduling.py:275-280 *)
  | s_set op k la rs a ts sb f b c : step (mkS false op k la rs a Idle ts sb f b) (mkS false op k (Some c) rs a Idle ts sb f b)
  (** get_results, scheduling.py:306-312 *)
  | s_get k la rs a ts sb f b : rs <> [] -> step (mkS false 0 k la rs a Idle ts sb f b) (mkS false 0 k la [] a Idle ts sb f k)
  | s_get_empty k la a ts sb f b : step (mkS false 0 k la [] a Idle ts sb f b) (mkS true 0 k la [] a Raised ts sb f b)
  (** _process_task :57-61 *)
  | s_wait lk op k la rs a ts sb f b d c i : (Z.of_nat n <= a)%Z ->
      step (mkS lk op k la rs a (Pend d c i) ts sb f b) (mkS false op k la rs a (Pend d c i) ts sb f b)
  | s_again op k la rs a ts sb f b d c i :
      step (mkS false op k la rs a (Pend d c i) ts sb f b) (mkS true op k la rs a (Pend d c i) ts sb f b)
  (** :62-76 *)
  | s_spawn op k la rs a ts sb f b d c i : (a < Z.of_nat n)%Z ->
      step (mkS true op k la rs a (Pend d c i) ts sb f b) (mkS false op k la rs a Idle (ts ++ [mkT d c i Run]) sb f b)
  (** _task_thread :83-87; an exception ends the thread *)
  | t_run lk op k la rs a c0 l1 d c i l2 sb f b r : call (fork c) d = Some r ->
      step (mkS lk op k la rs a c0 (l1 ++ mkT d c i Run :: l2) sb f b) (mkS lk op k la rs a c0 (l1 ++ mkT d c i (Store r) :: l2) sb f b)
  | t_raise lk op k la rs a c0 l1 d c i l2 sb f b : call (fork c) d = None ->
      step (mkS lk op k la rs a c0 (l1 ++ mkT d c i Run :: l2) sb f b) (mkS lk op k la rs a c0 (l1 ++ l2) sb (f ++ [i]) b)
  | t_store op k la rs a c0 l1 d c i r l2 sb f b :
      step (mkS false op k la rs a c0 (l1 ++ mkT d c i (Store r) :: l2) sb f b) (mkS false (op - 1) k la (add_result R r i rs) a c0 (l1 ++ mkT d c i Dec :: l2) sb f b)
  | t_dec lk op k la rs a c0 l1 d c i l2 sb f b :
      step (mkS lk op k la rs a c0 (l1 ++ mkT d c i Dec :: l2) sb f b) (mkS lk op k la rs (a - 1) c0 (l1 ++ l2) sb f b).
  Inductive reachable : st -> Prop := r_start : reachable start | r_step s s' : reachable s -> step s s' -> reachable s'.
End Threads.
