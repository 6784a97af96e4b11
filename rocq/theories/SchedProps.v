(** Properties C29, C30, C34 and C102 (result container, base scheduler). *)
From Coq Require Import List Arith ZArith Lia Bool Permutation.
From Verif Require Import SchedModel SchedProofs.
Import ListNotations.
Open Scope nat_scope.

(** C30. Whatever the order in which the results of tasks a, a+1, ... come in, get_results returns them in task order, and the container is
    empty afterwards. *)
Theorem C30_ordered_results (R : Type) (rs : list R) a l : rs <> [] -> Permutation l (combine rs (seq a (length rs))) ->
  get_container R (fold_left (fun c ri => add_result R (fst ri) (snd ri) c) l []) = ([], Some rs).
Proof.
  intros Hn H. assert (forall l acc, fold_left (fun c ri => add_result R (fst ri) (snd ri) c) l acc = acc ++ l) as E.
  { clear. induction l as [|[r i] l IH]; intros acc; cbn; [rewrite app_nil_r; reflexivity|]. rewrite IH. unfold add_result. rewrite <- app_assoc. reflexivity. }
  rewrite E. apply (get_combine R rs a); assumption.
Qed.
Print Assumptions C30_ordered_results.
Example C30_case : get_container nat [(30, 7); (10, 5); (20, 6)] = ([], Some [10; 20; 30]).
Proof. reflexivity. Qed.

Section Spec.
  Variables (D C R : Type) (has_fork : C -> bool) (fork : C -> C) (call : C -> D -> option R).
  Notation scall := (scall D C). Notation answer := (answer R).
  Notation do_calls := (do_calls D C R has_fork fork call). Notation do_call := (do_call D C R has_fork fork call).
  (** What a task computes: a fork of its callable is called; a callable without fork method is called itself if it was given to add_task *)
  Definition result_of (cur : C * bool) (d : D) : option R :=
    let (c, by_add) := cur in if has_fork c then call (fork c) d else if by_add then call c d else None.
  (** The answers a client expects, given the current callable (and whether it was given to add_task) and the results not yet fetched;
      None if some call has no proper answer: no callable, the task raises, or no results to fetch *)
  Fixpoint answers (cs : list scall) (cur : option (C * bool)) (pending : list R) : option (list answer) :=
    match cs with
    | [] => Some []
    | CallAdd _ _ d oc :: cs =>
        match (match oc with Some c => Some (c, true) | None => cur end) with
        | None => None
        | Some cur => match result_of cur d with
                      | None => None
                      | Some r => option_map (cons (AUnit _ (Returns tt))) (answers cs (Some cur) (pending ++ [r]))
                      end
        end
    | CallSet _ _ c :: cs => option_map (cons (AUnit _ (Returns tt))) (answers cs (Some (c, false)) pending)
    | CallGet _ _ :: cs => match pending with [] => None | _ => option_map (cons (AList _ (Returns pending))) (answers cs cur []) end
    end.
  Definition count_adds (cs : list scall) : nat := length (filter (fun c => match c with CallAdd _ _ _ _ => true | _ => false end) cs).

  Definition cur_tc (cur : option (C * bool)) : option (task_callable C) :=
    option_map (fun cb : C * bool => if snd cb then wrap C has_fork (fst cb) else Obj C (fst cb)) cur.
  Definition good (s : sched C R) (cur : option (C * bool)) (pending : list R) : Prop :=
    s_lock _ _ s = false /\ s_open _ _ s = 0 /\ s_last _ _ s = cur_tc cur /\ length pending <= s_counter _ _ s /\
    s_results _ _ s = combine pending (seq (S (s_counter _ _ s) - length pending) (length pending)).
  Lemma combine_snoc (rs : list R) r n : length rs <= n -> combine (rs ++ [r]) (seq (S (S n) - length (rs ++ [r])) (length (rs ++ [r]))) = combine rs (seq (S n - length rs) (length rs)) ++ [(r, S n)].
  Proof.
    intros H. rewrite app_length. cbn [length]. rewrite seq_app. replace (S (S n) - (length rs + 1)) with (S n - length rs) by lia.
    assert (forall (a : list R) (b : list nat) c d, length a = length b -> combine (a ++ c) (b ++ d) = combine a b ++ combine c d) as E.
    { clear. induction a as [|x a IH]; intros [|y b] c d; cbn; try discriminate; auto. intros [= H]. f_equal. auto. }
    rewrite E by (rewrite seq_length; reflexivity). cbn [combine seq]. replace (S n - length rs + length rs) with (S n) by lia. reflexivity.
  Qed.
  Lemma process_ok d cb i s : let t := if snd cb : bool then wrap C has_fork (fst cb) else Obj C (fst cb) in
    process D C R has_fork fork call d t i s = match result_of cb d with
      | None => (s, Raises)
      | Some r => store C R r i (mkSched C R (s_results _ _ s) (s_open _ _ s) (s_counter _ _ s) false (s_last _ _ s) (s_index2 _ _ s)) end.
  Proof.
    destruct cb as [c b]. cbn [fst snd]. unfold process, result_of, wrap. destruct b; destruct (has_fork c) eqn:E; cbn; rewrite ?E; auto.
  Qed.
  Lemma one_call c s cur pending : good s cur pending ->
    match answers [c] cur pending with
    | Some l => exists s' cur' p', do_call c s = (s', hd (AUnit _ Blocks) l) /\ length l = 1 /\ good s' cur' p' /\ s_counter _ _ s' = s_counter _ _ s + count_adds [c] /\
                  forall cs, answers (c :: cs) cur pending = option_map (app l) (answers cs cur' p')
    | None => exists s', (do_call c s = (s', AUnit _ Raises) \/ do_call c s = (s', AList _ Raises)) /\ s_lock _ _ s' = true
    end.
  Proof.
    intros (G1 & G2 & G3 & G4 & G5). destruct c as [d oc|c|].
    - cbn [answers SchedModel.do_call]. unfold add_task. rewrite G1.
      set (o := match oc with Some c => Some (c, true) | None => cur end).
      assert (exists idx, match oc, s_last _ _ s with
        | None, None => (mkSched C R (s_results _ _ s) (s_open _ _ s) (s_counter _ _ s) true (s_last _ _ s) (s_index2 _ _ s), Raises)
        | None, Some t => process D C R has_fork fork call d t (S (s_counter _ _ s)) (mkSched C R (s_results _ _ s) (S (s_open _ _ s)) (S (s_counter _ _ s)) true (s_last _ _ s) (s_index2 _ _ s))
        | Some c, _ => process D C R has_fork fork call d (wrap C has_fork c) (S (s_counter _ _ s)) (mkSched C R (s_results _ _ s) (S (s_open _ _ s)) (S (s_counter _ _ s)) true (Some (wrap C has_fork c)) (2 * Z.of_nat (S (s_counter _ _ s)))%Z)
        end = match o with
        | None => (mkSched C R (s_results _ _ s) (s_open _ _ s) (s_counter _ _ s) true (s_last _ _ s) (s_index2 _ _ s), Raises)
        | Some cb => match result_of cb d with
           | None => (mkSched C R (s_results _ _ s) (S (s_open _ _ s)) (S (s_counter _ _ s)) true (cur_tc o) idx, Raises)
           | Some r => (mkSched C R (s_results _ _ s ++ [(r, S (s_counter _ _ s))]) (s_open _ _ s) (S (s_counter _ _ s)) false (cur_tc o) idx, Returns tt)
           end end) as [idx E].
      { unfold o. destruct oc as [c|].
        - eexists. pose proof (process_ok d (c, true) (S (s_counter _ _ s))) as P. cbn [fst snd] in P. rewrite P. destruct (result_of (c, true) d); [|reflexivity]. unfold store. cbn. rewrite Nat.sub_0_r. reflexivity.
        - rewrite G3. destruct cur as [cb|]; cbn [cur_tc option_map]; [|exists 0%Z; reflexivity]. eexists. rewrite process_ok. destruct (result_of cb d); [|reflexivity]. unfold store. cbn. rewrite Nat.sub_0_r. reflexivity. }
      rewrite E. destruct o as [cb|] eqn:Eo; [|eexists; split; [left; reflexivity|reflexivity]]. destruct (result_of cb d) as [r|] eqn:Er; [|eexists; split; [left; reflexivity|reflexivity]].
      cbn [option_map]. eexists _, (Some cb), (pending ++ [r]). split; [reflexivity|]. split; [reflexivity|]. split.
      { split; [reflexivity|]. split; [exact G2|]. split; [reflexivity|]. split; [cbn; rewrite app_length; cbn; lia|]. cbn [s_results s_counter]. rewrite G5. symmetry. apply combine_snoc. exact G4. }
      split; [cbn; lia|]. intros cs. destruct (answers cs (Some cb) (pending ++ [r])); reflexivity.
    - cbn. unfold set_task_callable. rewrite G1. eexists _, (Some (c, false)), pending. split; [reflexivity|]. split; [reflexivity|]. split; [repeat split; auto|]. split; [cbn; lia|]. intros cs. destruct (answers cs _ pending); reflexivity.
    - cbn. unfold get_results. rewrite G1, G2. cbn [Nat.eqb]. destruct pending as [|r pending].
      + rewrite G5. cbn. eexists. split; [right; reflexivity|reflexivity].
      + rewrite (get_combine R (r :: pending) (S (s_counter _ _ s) - length (r :: pending))); [|discriminate|rewrite G5; auto].
        eexists _, cur, []. split; [reflexivity|]. split; [reflexivity|]. split; [repeat split; auto; cbn; lia|]. split; [cbn; lia|]. intros cs. destruct (answers cs cur []); reflexivity.
  Qed.
  Lemma calls_ok : forall cs s cur pending l, good s cur pending -> answers cs cur pending = Some l ->
    exists s' cur' p', do_calls cs s = (s', l) /\ good s' cur' p' /\ s_counter _ _ s' = s_counter _ _ s + count_adds cs /\
      forall more, answers (cs ++ more) cur pending = option_map (app l) (answers more cur' p').
  Proof.
    induction cs as [|c cs IH]; intros s cur pending l G E.
    - injection E as <-. exists s, cur, pending. repeat split; try apply G; cbn; try lia. intros more. destruct (answers more cur pending); reflexivity.
    - pose proof (one_call c s cur pending G) as H. destruct (answers [c] cur pending) as [l1|] eqn:E1.
      + destruct H as (s1 & cur1 & p1 & A1 & A2 & A3 & A4 & A5). rewrite (A5 cs) in E. destruct (answers cs cur1 p1) as [l2|] eqn:E2; [|discriminate]. injection E as <-.
        destruct (IH s1 cur1 p1 l2 A3 E2) as (s' & cur' & p' & B1 & B2 & B3 & B4). exists s', cur', p'. split; [|split; [exact B2|split]].
        * cbn [SchedModel.do_calls]. rewrite A1, B1. destruct l1 as [|a [|? ?]]; try discriminate. reflexivity.
        * rewrite B3, A4. unfold count_adds. cbn. destruct c; cbn; lia.
        * intros more. cbn [app]. rewrite (A5 (cs ++ more)), B4. destruct (answers more cur' p'); cbn; rewrite <- ?app_assoc; reflexivity.
      + exfalso. clear -E E1. cbn in E, E1. destruct c as [d oc|c|]; cbn in E, E1.
        * destruct (match oc with Some c => _ | None => _ end); [|discriminate]. destruct (result_of p d); discriminate.
        * discriminate.
        * destruct pending; discriminate.
  Qed.
  Lemma blocked : forall cs s, s_lock _ _ s = true -> do_calls cs s = (s, map (fun c => match c with CallGet _ _ => AList _ Blocks | _ => AUnit _ Blocks end) cs).
  Proof.
    induction cs as [|c cs IH]; intros s H; [reflexivity|]. cbn [SchedModel.do_calls]. assert (do_call c s = (s, match c with CallGet _ _ => AList _ Blocks | _ => AUnit _ Blocks end)) as ->.
    { destruct c; cbn; [unfold add_task|unfold set_task_callable|unfold get_results]; rewrite H; reflexivity. }
    rewrite (IH s H). reflexivity.
  Qed.

  (** C29. A client that always has a callable, results to fetch and tasks that do not raise gets the expected answers: get_results returns
      the results of the tasks added since the last get_results, in that order, each computed by a fork of the callable given with the
      task or last before; afterwards the lock is free, no task is open, and task_counter is the number of tasks added. *)
  Theorem C29_sequential_scheduler cs l : answers cs None [] = Some l ->
    exists s, do_calls cs (sched_init C R) = (s, l) /\ s_lock _ _ s = false /\ s_open _ _ s = 0 /\ s_counter _ _ s = count_adds cs.
  Proof.
    intros E. destruct (calls_ok cs (sched_init C R) None [] l) as (s & cur & p & A1 & A2 & A3 & _); [repeat split; auto|exact E|].
    exists s. split; [exact A1|]. split; [apply A2|]. split; [apply A2|exact A3].
  Qed.
  (** C34. The first call without proper answer raises, and every later call blocks forever, because the lock is never released. *)
  Theorem C34_raise_then_blocked cs l bad rest : answers cs None [] = Some l -> answers (cs ++ [bad]) None [] = None ->
    exists s a, do_calls (cs ++ bad :: rest) (sched_init C R) = (s, l ++ a :: map (fun c => match c with CallGet _ _ => AList _ Blocks | _ => AUnit _ Blocks end) rest) /\
      (a = AUnit _ Raises \/ a = AList _ Raises) /\ s_lock _ _ s = true.
  Proof.
    intros E1 E2. destruct (calls_ok cs (sched_init C R) None [] l) as (s & cur & p & A1 & A2 & A3 & A4); [repeat split; auto|exact E1|].
    rewrite A4 in E2. pose proof (one_call bad s cur p A2) as H. destruct (answers [bad] cur p); [discriminate|]. destruct H as (s' & Hd & Hl).
    assert (forall cs1 s1 cs2, do_calls (cs1 ++ cs2) s1 = (let (s2, l1) := do_calls cs1 s1 in let (s3, l2) := do_calls cs2 s2 in (s3, l1 ++ l2))) as Happ.
    { clear. induction cs1 as [|c cs1 IH]; intros s1 cs2; cbn [app SchedModel.do_calls]; [destruct (do_calls cs2 s1); reflexivity|]. destruct (do_call c s1) as [s2 a]. rewrite IH. destruct (do_calls cs1 s2) as [s3 l3]. destruct (do_calls cs2 s3). reflexivity. }
    destruct Hd as [Hd|Hd]; exists s'; eexists; (split; [rewrite Happ, A1; cbn [SchedModel.do_calls]; rewrite Hd, (blocked rest s' Hl); reflexivity|split; [auto|exact Hl]]).
  Qed.
End Spec.
Print Assumptions C29_sequential_scheduler.
Print Assumptions C34_raise_then_blocked.

(** Callables: numbers; 0 has no fork method; fork adds 10; calling c on d gives c * d, which raises for d = 0 *)
Notation mycalls := (do_calls nat nat nat (fun c => negb (c =? 0)) (fun c => c + 10) (fun c d => if d =? 0 then None else Some (c * d))).
Notation myanswers := (answers nat nat nat (fun c => negb (c =? 0)) (fun c => c + 10) (fun c d => if d =? 0 then None else Some (c * d))).
Notation Add := (CallAdd nat nat). Notation SetC := (CallSet nat nat). Notation Get := (CallGet nat nat).
Example C29_case : let cs := [Add 2 (Some 1); Add 3 None; Get; SetC 4; Add 5 None; Add 6 (Some 0); Get] in
  snd (mycalls cs (sched_init nat nat)) = [AUnit _ (Returns tt); AUnit _ (Returns tt); AList _ (Returns [22; 33]); AUnit _ (Returns tt); AUnit _ (Returns tt); AUnit _ (Returns tt); AList _ (Returns [70; 0])] /\
  myanswers cs None [] <> None.
Proof. split; [reflexivity|discriminate]. Qed.
(** The four ways to lose the lock: nothing to fetch, no callable, a raising task, a function given to set_task_callable *)
Theorem C34_lock_refuted : exists e1 e2 e3 e4 : list (answer nat),
  snd (mycalls [Get; Add 2 (Some 1)] (sched_init nat nat)) = e1 /\ e1 = [AList _ Raises; AUnit _ Blocks] /\
  snd (mycalls [Add 2 None; Add 2 (Some 1)] (sched_init nat nat)) = e2 /\ e2 = [AUnit _ Raises; AUnit _ Blocks] /\
  snd (mycalls [Add 0 (Some 1); Add 2 (Some 1)] (sched_init nat nat)) = e3 /\ e3 = [AUnit _ Raises; AUnit _ Blocks] /\
  snd (mycalls [SetC 0; Add 2 None; Add 2 (Some 1)] (sched_init nat nat)) = e4 /\ e4 = [AUnit _ (Returns tt); AUnit _ Raises; AUnit _ Blocks].
Proof. do 4 eexists. repeat split; reflexivity. Qed.
Print Assumptions C34_lock_refuted.
(** C102. "A function can be given to set_task_callable as well as to add_task" is false: add_task wraps it, set_task_callable does not. *)
Theorem C102_set_function_refuted : exists d c r, snd (mycalls [Add d (Some c); Get] (sched_init nat nat)) = [AUnit _ (Returns tt); AList _ (Returns [r])] /\
  snd (mycalls [SetC c; Add d None] (sched_init nat nat)) = [AUnit _ (Returns tt); AUnit _ Raises].
Proof. exists 2, 0. eexists. split; reflexivity. Qed.
Print Assumptions C102_set_function_refuted.
