(** Model of mdp/parallel/process_schedule.py: ProcessScheduler and its worker processes, as a transition system.

    One client thread calls the scheduler, one thread per task talks to a worker process through its two pipes.  A step is one
    access to shared data (or a critical section that does not block), so all interleavings are covered.  [call c d] is the result of
    the callable [c], None if it raises.  A waiting loop (no free process, open tasks) is a step back into the waiting state resp.
    no step.  Not modelled: pickling, verbose output, setup_environment, failure to start a thread, several client threads.
    [strict] restricts the clients (see [step]). *)
From Coq Require Import List Arith ZArith Bool.
From Verif Require Import SchedModel.
Import ListNotations.
Open Scope nat_scope.

Section Proc.
  Variables (D C R : Type) (fork : C -> C) (call : C -> D -> option R).
  Variables (n : nat) (caching strict : bool).        (* n_processes, cache_callable *)

  (** what a worker calls (_process_run :195-249): a fork if callables are cached, the unpickled callable itself otherwise *)
  Definition used (c : C) : C := if caching then fork c else c.

  (** message to a worker :181-183 *)
  Definition msg := (D * option C * nat)%type.
  (** program counter of a task thread :166-192 *)
  Inductive tpc :=
  | TStart                  (* before the test of :176 *)
  | TTag                    (* before :177 *)
  | TSend (full : bool)     (* before :181; full: the callable is sent *)
  | TWait                   (* :185 *)
  | TStore (r : R)          (* before _store_result *)
  | TFree                   (* before :192 *)
  | TFail.                  (* in the except clause, before :188 *)
  Record thread := mkT { t_proc : nat; t_data : D; t_call : C; t_idx : nat; t_pc : tpc }.
  Definition at_pc (t : thread) (pc : tpc) : thread := mkT (t_proc t) (t_data t) (t_call t) (t_idx t) pc.
  (** the client: between calls, in _process_task :138-164, or stopped by an exception or shutdown *)
  Inductive client := Idle | Pend (d : D) (c : C) (i : nat) | Sleep (d : D) (c : C) (i : nat) | Spawn (p : nat) (d : D) (c : C) (i : nat) | Raised | Ended.

  (** attributes of the scheduler; [h_idx] is twice _last_callable_index *)
  Record shared := mkH { h_lock : bool; h_open : nat; h_counter : nat; h_last : option C; h_idx : Z; h_results : list (R * nat); h_free : list nat }.
  (** the processes: _callable_index (twice), the pipes, the cached callable, is the process alive *)
  Record procs := mkP { p_tag : nat -> Z; p_in : nat -> list msg; p_out : nat -> list R; p_cache : nat -> option C; p_alive : nat -> bool }.
  (** Ghost: submitted tasks, computations made by the workers, tasks whose thread failed, task_counter at the last get_results *)
  Record ghost := mkG { g_subs : list (nat * D * C); g_execs : list (nat * C * D); g_failed : list nat; g_base : nat }.
  Record state := mkS { st_h : shared; st_p : procs; st_c : client; st_t : list thread; st_g : ghost }.

  Definition upd {X} (f : nat -> X) (p : nat) (v : X) : nat -> X := fun q => if q =? p then v else f q.
  (** __init__ :62-118 *)
  Definition start : state :=
    mkS (mkH false 0 0 None (-2)%Z [] (seq 0 n)) (mkP (fun _ => (-2)%Z) (fun _ => []) (fun _ => []) (fun _ => None) (fun _ => true)) Idle [] (mkG [] [] [] 0).

  Definition set_tag w v := mkP v (p_in w) (p_out w) (p_cache w) (p_alive w).
  Definition set_in w v := mkP (p_tag w) v (p_out w) (p_cache w) (p_alive w).
  Definition set_out w v := mkP (p_tag w) (p_in w) v (p_cache w) (p_alive w).

  (** a step of the client *)
  Inductive cstep : state -> state -> Prop :=
  (** add_task, scheduling.py:248-264, with a callable.  strict: only the current callable, or when no task is open *)
  | s_add lock_free op k last idx rs fr w ts g d c : lock_free = false -> (strict = true -> op = 0 \/ last = Some c) ->
      cstep (mkS (mkH lock_free op k last idx rs fr) w Idle ts g)
           (mkS (mkH true (S op) (S k) (Some c) (2 * Z.of_nat (S k)) rs fr) w (Pend d c (S k)) ts
                (mkG (g_subs g ++ [(S k, d, c)]) (g_execs g) (g_failed g) (g_base g)))
  (** without callable: the last one *)
  | s_add_last op k idx rs fr w ts g d c :
      cstep (mkS (mkH false op k (Some c) idx rs fr) w Idle ts g)
           (mkS (mkH true (S op) (S k) (Some c) idx rs fr) w (Pend d c (S k)) ts
                (mkG (g_subs g ++ [(S k, d, c)]) (g_execs g) (g_failed g) (g_base g)))
  | s_add_none op k idx rs fr w ts g :
      cstep (mkS (mkH false op k None idx rs fr) w Idle ts g) (mkS (mkH true op k None idx rs fr) w Raised ts g)
  (** set_task_callable, scheduling.py:275-280.  strict: when no task is open *)
  | s_set op k last idx rs fr w ts g c : (strict = true -> op = 0) ->
      cstep (mkS (mkH false op k last idx rs fr) w Idle ts g) (mkS (mkH false op k (Some c) (2 * Z.of_nat k + 1) rs fr) w Idle ts g)
  (** get_results, scheduling.py:306-312: the client gets [map fst (sort rs)] *)
  | s_get k last idx rs fr w ts g : rs <> [] ->
      cstep (mkS (mkH false 0 k last idx rs fr) w Idle ts g)
           (mkS (mkH false 0 k last idx [] fr) w Idle ts (mkG (g_subs g) (g_execs g) (g_failed g) k))
  | s_get_empty k last idx fr w ts g :
      cstep (mkS (mkH false 0 k last idx [] fr) w Idle ts g) (mkS (mkH true 0 k last idx [] fr) w Raised ts g)
  (** _process_task :138-164 *)
  | s_nofree lk op k last idx rs w ts g d c i :
      cstep (mkS (mkH lk op k last idx rs []) w (Pend d c i) ts g) (mkS (mkH false op k last idx rs []) w (Sleep d c i) ts g)
  | s_retry op k last idx rs fr w ts g d c i :
      cstep (mkS (mkH false op k last idx rs fr) w (Sleep d c i) ts g) (mkS (mkH true op k last idx rs fr) w (Pend d c i) ts g)
  | s_pop lk op k last idx rs fr p w ts g d c i :
      cstep (mkS (mkH lk op k last idx rs (fr ++ [p])) w (Pend d c i) ts g) (mkS (mkH false op k last idx rs fr) w (Spawn p d c i) ts g)
  | s_spawn h w ts g p d c i :
      cstep (mkS h w (Spawn p d c i) ts g) (mkS h w Idle (ts ++ [mkT p d c i TStart]) g)
  (** _shutdown :123-134 *)
  | s_shutdown op k last idx rs fr w ts g : length fr = n ->
      cstep (mkS (mkH false op k last idx rs fr) w Idle ts g)
           (mkS (mkH false op k last idx rs fr) (mkP (p_tag w) (p_in w) (p_out w) (p_cache w) (fun _ => false)) Ended ts g)
  | s_shutdown_busy op k last idx rs fr w ts g : length fr < n ->
      cstep (mkS (mkH false op k last idx rs fr) w Idle ts g) (mkS (mkH true op k last idx rs fr) w Raised ts g).
  (** a step of a task thread or a worker process *)
  Inductive wstep : state -> state -> Prop :=
  (** _task_thread :173-183 *)
  | t_nocache h w cl l1 t l2 g : t_pc t = TStart -> caching = false ->
      wstep (mkS h w cl (l1 ++ t :: l2) g) (mkS h w cl (l1 ++ at_pc t (TSend true) :: l2) g)
  | t_old h w cl l1 t l2 g : t_pc t = TStart -> caching = true -> (p_tag w (t_proc t) < h_idx h)%Z ->
      wstep (mkS h w cl (l1 ++ t :: l2) g) (mkS h w cl (l1 ++ at_pc t TTag :: l2) g)
  | t_current h w cl l1 t l2 g : t_pc t = TStart -> caching = true -> (h_idx h <= p_tag w (t_proc t))%Z ->
      wstep (mkS h w cl (l1 ++ t :: l2) g) (mkS h w cl (l1 ++ at_pc t (TSend false) :: l2) g)
  | t_tag h w cl l1 t l2 g : t_pc t = TTag ->
      wstep (mkS h w cl (l1 ++ t :: l2) g) (mkS h (set_tag w (upd (p_tag w) (t_proc t) (h_idx h))) cl (l1 ++ at_pc t (TSend true) :: l2) g)
  | t_send h w cl l1 t l2 g full : t_pc t = TSend full -> p_alive w (t_proc t) = true ->
      wstep (mkS h w cl (l1 ++ t :: l2) g)
           (mkS h (set_in w (upd (p_in w) (t_proc t) (p_in w (t_proc t) ++ [(t_data t, if full then Some (t_call t) else None, t_idx t)]))) cl
                (l1 ++ at_pc t TWait :: l2) g)
  | t_send_dead h w cl l1 t l2 g full : t_pc t = TSend full -> p_alive w (t_proc t) = false ->
      wstep (mkS h w cl (l1 ++ t :: l2) g) (mkS h w cl (l1 ++ at_pc t TFail :: l2) (mkG (g_subs g) (g_execs g) (g_failed g ++ [t_idx t]) (g_base g)))
  (** the worker, _process_run :214-249: a raising task ends the process *)
  | w_exec h w cl ts g p d oc c i rest : p_in w p = (d, oc, i) :: rest -> p_alive w p = true ->
      (match oc with Some c => Some c | None => p_cache w p end) = Some c ->
      wstep (mkS h w cl ts g)
           (mkS h (mkP (p_tag w) (upd (p_in w) p rest)
                       (match call (used c) d with Some r => upd (p_out w) p (p_out w p ++ [r]) | None => p_out w end)
                       (if caching then upd (p_cache w) p (Some c) else p_cache w)
                       (match call (used c) d with Some r => p_alive w | None => upd (p_alive w) p false end)) cl ts
                (mkG (g_subs g) (g_execs g ++ [(i, c, d)]) (g_failed g) (g_base g)))
  | w_nocallable h w cl ts g p d i rest : p_in w p = (d, None, i) :: rest -> p_alive w p = true -> p_cache w p = None ->
      wstep (mkS h w cl ts g) (mkS h (mkP (p_tag w) (upd (p_in w) p rest) (p_out w) (p_cache w) (upd (p_alive w) p false)) cl ts g)
  (** _task_thread :185-192 *)
  | t_recv h w cl l1 t l2 g r rest : t_pc t = TWait -> p_out w (t_proc t) = r :: rest ->
      wstep (mkS h w cl (l1 ++ t :: l2) g) (mkS h (set_out w (upd (p_out w) (t_proc t) rest)) cl (l1 ++ at_pc t (TStore r) :: l2) g)
  | t_eof h w cl l1 t l2 g : t_pc t = TWait -> p_out w (t_proc t) = [] -> p_alive w (t_proc t) = false ->
      wstep (mkS h w cl (l1 ++ t :: l2) g) (mkS h w cl (l1 ++ at_pc t TFail :: l2) (mkG (g_subs g) (g_execs g) (g_failed g ++ [t_idx t]) (g_base g)))
  (** _store_result, scheduling.py:290-299 *)
  | t_store op k last idx rs fr w cl l1 t l2 g r : t_pc t = TStore r ->
      wstep (mkS (mkH false op k last idx rs fr) w cl (l1 ++ t :: l2) g)
           (mkS (mkH false (op - 1) k last idx (add_result R r (t_idx t) rs) fr) w cl (l1 ++ at_pc t TFree :: l2) g)
  | t_free lk op k last idx rs fr w cl l1 t l2 g : t_pc t = TFree \/ t_pc t = TFail ->
      wstep (mkS (mkH lk op k last idx rs fr) w cl (l1 ++ t :: l2) g) (mkS (mkH lk op k last idx rs (fr ++ [t_proc t])) w cl (l1 ++ l2) g).

  Inductive step : state -> state -> Prop := by_client s s' : cstep s s' -> step s s' | by_work s s' : wstep s s' -> step s s'.
  Inductive reachable : state -> Prop :=
  | r_start : reachable start
  | r_step s s' : reachable s -> step s s' -> reachable s'.
End Proc.
