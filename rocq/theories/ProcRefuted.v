(** Executions of the process scheduler that refute C32, C103, C104, C105 and C106. *)
From Coq Require Import List Arith ZArith Lia Bool.
From Verif Require Import SchedModel SchedProofs ProcModel ProcProofs ProcPipes ProcProps.
Import ListNotations.
Open Scope nat_scope.

(** Callables are numbers; fork adds 10; the result of calling c on d is the pair (c, d); for d = 0 the call raises *)
Definition myfork (c : nat) : nat := c + 10.
Definition mycall (c d : nat) : option (nat * nat) := if d =? 0 then None else Some (c, d).
Notation Res := (nat * nat)%type.
Notation myreach := (reachable nat nat Res myfork mycall).
Notation mystep := (step nat nat Res myfork mycall).
Ltac tidy H := cbn -[Z.mul upd add_result] in H; unfold at_pc, set_tag, set_in, set_out in H; cbn -[upd] in H.
Ltac add_ H x f := eapply r_step in H; [|left; solve [eapply s_add with (d := x) (c := f); auto; discriminate]]; tidy H.
Ltac cl_ H r := eapply r_step in H; [|left; solve [eapply r; auto; try discriminate; try (cbn; lia)]]; tidy H.
Ltac pop_ H f := eapply r_step in H; [|left; solve [eapply s_pop with (fr := f)]]; tidy H.
Ltac th_ H r := eapply r_step in H; [|right; solve [eapply (r _ _ _ _ _ _) with (l1 := @nil (thread nat nat Res)); cbn; auto; lia]]; tidy H.
Ltac th2_ H r := eapply r_step in H; [|right; solve [match goal with |- wstep _ _ _ _ _ _ (mkS _ _ _ _ _ _ (?t :: _) _) _ => eapply (r _ _ _ _ _ _) with (l1 := [t]); cbn; auto; lia end]]; tidy H.
Ltac set_ H f := eapply r_step in H; [|left; solve [eapply s_set with (c := f); auto; discriminate]]; tidy H.
Ltac ex_ H q := eapply r_step in H; [|right; solve [eapply w_exec with (p := q); cbn; reflexivity]]; tidy H.

Notation St := (state nat nat Res).
Notation Answer := (answer nat nat Res).
Notation open_of s := (h_open _ _ (st_h _ _ _ s)). Notation subs_of s := (g_subs _ _ (st_g _ _ _ s)).
Notation failed_of s := (g_failed _ _ (st_g _ _ _ s)).

(** One process, callable caching.  The client adds a task with callable 1 and one with callable 2.  The thread of the first task reads
    _last_callable_index only after the second add_task has set it: the process is marked as up to date while it caches callable 1. *)
Theorem C32_race_refuted : exists s, myreach 1 true false s /\ open_of s = 0 /\
  subs_of s = [(1, 5, 1); (2, 6, 2)] /\ Answer s = [(11, 5); (11, 6)] /\ mycall (myfork 2) 6 = Some (12, 6).
Proof.
  pose proof (r_start nat nat Res myfork mycall 1 true false) as H. unfold start in H. cbn in H.
  add_ H 5 1. pop_ H (@nil nat). cl_ H s_spawn. add_ H 6 2. cl_ H s_nofree.
  th_ H t_old. th_ H t_tag. th_ H t_send. ex_ H 0. th_ H t_recv. th_ H t_store. th_ H t_free.
  cl_ H s_retry. pop_ H (@nil nat). cl_ H s_spawn. th_ H t_current. th_ H t_send. ex_ H 0. th_ H t_recv. th_ H t_store.
  eexists. split; [exact H|]. repeat split; reflexivity.
Qed.
Print Assumptions C32_race_refuted.
(** The same through set_task_callable: it gives the same index to two callables set between the same two tasks *)
Theorem C32_set_refuted : exists s, myreach 2 true false s /\ open_of s = 0 /\
  subs_of s = [(1, 5, 1); (2, 6, 3)] /\ Answer s = [(11, 5); (11, 6)] /\ mycall (myfork 3) 6 = Some (13, 6).
Proof.
  pose proof (r_start nat nat Res myfork mycall 2 true false) as H. unfold start in H. cbn in H.
  add_ H 5 1. pop_ H [0]. cl_ H s_spawn. set_ H 2. th_ H t_old. th_ H t_tag. th_ H t_send. ex_ H 1. th_ H t_recv. th_ H t_store. th_ H t_free.
  set_ H 3. eapply r_step in H; [|left; eapply s_add_last with (d := 6)]. tidy H. pop_ H [0]. cl_ H s_spawn. th_ H t_current. th_ H t_send. ex_ H 1. th_ H t_recv. th_ H t_store.
  eexists. split; [exact H|]. repeat split; reflexivity.
Qed.
Print Assumptions C32_set_refuted.

(** C103.  A task that raises ends its process and stays open (strict client, no caching problem involved) *)
Theorem C103_failed_refuted : exists s, myreach 1 true true s /\ subs_of s = [(1, 0, 1)] /\ failed_of s = [1] /\ open_of s = 1 /\ st_t _ _ _ s = [] /\ st_c _ _ _ s = Idle nat nat.
Proof.
  pose proof (r_start nat nat Res myfork mycall 1 true true) as H. unfold start in H. cbn in H.
  add_ H 0 1. pop_ H (@nil nat). cl_ H s_spawn. th_ H t_old. th_ H t_tag. th_ H t_send. ex_ H 0. th_ H t_eof. th_ H t_free.
  eexists. split; [exact H|]. repeat split; reflexivity.
Qed.
Print Assumptions C103_failed_refuted.
(** C104.  All results have been fetched, but the thread has not given back its process yet: shutdown raises, with the lock held *)
Theorem C104_shutdown_refuted : exists s s', myreach 1 true true s /\ st_c _ _ _ s = Idle nat nat /\ open_of s = 0 /\ g_base _ _ (st_g _ _ _ s) = h_counter _ _ (st_h _ _ _ s) /\ h_counter _ _ (st_h _ _ _ s) = 1 /\
  mystep 1 true true s s' /\ st_c _ _ _ s' = Raised nat nat /\ h_lock _ _ (st_h _ _ _ s') = true.
Proof.
  pose proof (r_start nat nat Res myfork mycall 1 true true) as H. unfold start in H. cbn in H.
  add_ H 5 1. pop_ H (@nil nat). cl_ H s_spawn. th_ H t_old. th_ H t_tag. th_ H t_send. ex_ H 0. th_ H t_recv. th_ H t_store. cl_ H s_get.
  eexists. eexists. split; [exact H|]. do 4 (split; [reflexivity|]). split; [left; apply s_shutdown_busy; cbn; lia|]. split; reflexivity.
Qed.
Print Assumptions C104_shutdown_refuted.
(** C105.  With cache_callable=False the callable itself is called, not a fork *)
Theorem C105_fork_refuted : exists s, myreach 1 false true s /\ open_of s = 0 /\ subs_of s = [(1, 5, 1)] /\ Answer s = [(1, 5)] /\ mycall (myfork 1) 5 = Some (11, 5).
Proof.
  pose proof (r_start nat nat Res myfork mycall 1 false true) as H. unfold start in H. cbn in H.
  add_ H 5 1. pop_ H (@nil nat). cl_ H s_spawn. th_ H t_nocache. th_ H t_send. ex_ H 0. th_ H t_recv. th_ H t_store.
  eexists. split; [exact H|]. repeat split; reflexivity.
Qed.
Print Assumptions C105_fork_refuted.
(** C106.  The process ended by a raising task is put back into the list of free processes, so that the next task fails as well *)
Theorem C106_dead_process_refuted : exists s, myreach 1 true true s /\ subs_of s = [(1, 0, 1); (2, 5, 1)] /\ failed_of s = [1; 2] /\ mycall (myfork 1) 5 <> None /\
  h_free _ _ (st_h _ _ _ s) = [0] /\ p_alive _ _ _ (st_p _ _ _ s) 0 = false.
Proof.
  pose proof (r_start nat nat Res myfork mycall 1 true true) as H. unfold start in H. cbn in H.
  add_ H 0 1. pop_ H (@nil nat). cl_ H s_spawn. th_ H t_old. th_ H t_tag. th_ H t_send. ex_ H 0. th_ H t_eof. th_ H t_free.
  add_ H 5 1. pop_ H (@nil nat). cl_ H s_spawn. th_ H t_old. th_ H t_tag. th_ H t_send_dead. th_ H t_free.
  eexists. split; [exact H|]. repeat split; try reflexivity. discriminate.
Qed.
Print Assumptions C106_dead_process_refuted.
(** Two processes whose tasks finish in the reverse order *)
Example C31_case : exists s, myreach 2 true true s /\ open_of s = 0 /\ map snd (h_results _ _ (st_h _ _ _ s)) = [2; 1] /\ Answer s = [(11, 5); (11, 6)].
Proof.
  pose proof (r_start nat nat Res myfork mycall 2 true true) as H. unfold start in H. cbn in H.
  add_ H 5 1. pop_ H [0]. cl_ H s_spawn. add_ H 6 1. pop_ H (@nil nat). cl_ H s_spawn.
  th2_ H t_old. th_ H t_old. th2_ H t_tag. th2_ H t_send. ex_ H 0. th2_ H t_recv. th2_ H t_store. th_ H t_tag. th_ H t_send. ex_ H 1. th_ H t_recv. th_ H t_store.
  eexists. split; [exact H|]. repeat split; reflexivity.
Qed.
