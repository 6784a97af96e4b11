(** Model of mdp/parallel/parallelflows.py (ParallelFlow with a scheduler) and the fork/join methods it relies on.

    Nodes are values of an abstract type with the methods used here; a method that raises is not modelled except fork (None:
    NotForkableParallelException).  The training data of a node is a list of chunks that is iterated once per training phase (an iterable,
    not an iterator).  The scheduler runs a list of tasks, each with a fork of the callable; the order in which the results arrive is a
    parameter ([order]).  Nodes with use_execute_fork() and the extension mechanism are not modelled here. *)
From Coq Require Import List Arith Bool.
From Verif Require Import SchedModel.
Import ListNotations.
Open Scope nat_scope.

Section Parallel.
  Variables (N X : Type).
  Variables (training started : N -> bool) (phases : N -> nat) (trainN : N -> X -> N) (stopN : N -> N) (execN : N -> X -> X)
            (forkN : N -> option N) (joinN : N -> N -> N) (dummy : N).

  (** ** FlowNode with the parallel extension (parallelhinet.py:13-45) *)
  (** The node trained by a FlowNode in its current phase is the first one in training (see C28) *)
  Fixpoint fn_train (fl : list N) (x : X) : list N :=
    match fl with
    | [] => []
    | a :: r => if training a then trainN a x :: r else a :: fn_train r (execN a x)
    end.
  Fixpoint fn_stop (fl : list N) : list N :=
    match fl with [] => [] | a :: r => if training a then stopN a :: r else a :: fn_stop r end.
  Definition fn_exec (fl : list N) (x : X) : X := fold_left (fun x a => execN a x) fl x.
  (** _fork :16-31 *)
  Fixpoint fn_fork (fl : list N) : option (list N) :=
    match fl with
    | [] => Some []
    | a :: r => if training a then option_map (fun f => f :: r) (forkN a) else option_map (cons a) (fn_fork r)
    end.
  (** _join :33-41: the first node in training of the fork is joined *)
  Fixpoint fn_join (fl fk : list N) : list N :=
    match fl, fk with
    | a :: r, f :: s => if training f then joinN a f :: r else a :: fn_join r s
    | _, _ => fl
    end.
  (** _purge_flownode, parallelflows.py:39-43 *)
  Definition purge (fl : list N) : list N := map (fun a => if started a then a else dummy) fl.

  (** FlowTrainCallable.__call__ of a fork, :87-105; None: the fork raises *)
  Definition train_task (fl : list N) (x : X) : option (list N) := option_map (fun fk => purge (fn_train fk x)) (fn_fork fl).
  (** TrainResultContainer.add_result :120-124 *)
  Definition add_train_result (acc : option (list N)) (r : list N) : option (list N) :=
    match acc with None => Some r | Some a => Some (fn_join a r) end.

  (** ** ParallelFlow *)
  Inductive exc := Underway (* ParallelFlowException *) | Empty (* FlowException: no data *) | NoTask | NotForkable | TypeErr.
  Inductive res (A : Type) := Ok (a : A) | Err (e : exc).
  Arguments Ok {A} _. Arguments Err {A} _.
  (** attributes: flow, _i_train_node, _train_data_iterables, _train_data_iterator, _exec_data_iterator, _next_task (data; the callable is the one
      of the current phase, made from [flow]) *)
  Record pflow := mkPF { pf_flow : list N; pf_i : option nat; pf_data : list (list X); pf_titer : list X; pf_eiter : option (list X); pf_next : option X }.
  Definition set_flow s v := mkPF v (pf_i s) (pf_data s) (pf_titer s) (pf_eiter s) (pf_next s).
  Definition set_i s v := mkPF (pf_flow s) v (pf_data s) (pf_titer s) (pf_eiter s) (pf_next s).
  Definition set_data s v := mkPF (pf_flow s) (pf_i s) v (pf_titer s) (pf_eiter s) (pf_next s).
  Definition set_titer s v := mkPF (pf_flow s) (pf_i s) (pf_data s) v (pf_eiter s) (pf_next s).
  Definition set_eiter s v := mkPF (pf_flow s) (pf_i s) (pf_data s) (pf_titer s) v (pf_next s).
  Definition set_next s v := mkPF (pf_flow s) (pf_i s) (pf_data s) (pf_titer s) (pf_eiter s) v.
  (** __init__ :244-264 *)
  Definition pf_init (fl : list N) : pflow := mkPF fl None [] [] None None.

  (** _create_train_task :513-521 *)
  Definition create_train_task (s : pflow) : pflow :=
    match pf_titer s with [] => set_next s None | x :: r => set_next (set_titer s r) (Some x) end.
  (** _next_train_phase :414-478; [k] bounds the number of iterations (nodes plus training phases) *)
  Fixpoint next_train_phase (k i : nat) (s : pflow) : pflow * res unit :=
    match k with
    | 0 => (set_i s (Some i), Ok tt)
    | S k =>
        match nth_error (pf_flow s) i with
        | None => (set_i s None, Ok tt)
        | Some a =>
            if negb (training a) then next_train_phase k (S i) s
            else
              let d := nth i (pf_data s) [] in
              match fn_fork (pf_flow s) with
              | Some _ =>
                  match d with
                  | [] => (set_i (set_titer s []) (Some i), Err Empty)
                  | x :: r => (set_next (set_titer (set_i s (Some i)) r) (Some x), Ok tt)
                  end
              | None =>
                  (* _local_train_phase :480-507 and stop_training *)
                  match d with
                  | [] => (set_i s (Some i), Err Empty)
                  | _ => let fl := fn_stop (fold_left fn_train d (pf_flow s)) in
                         next_train_phase k (match nth_error fl i with Some a => if training a then i else S i | None => S i end) (set_flow s fl)
                  end
              end
        end
    end.
  Definition bound (fl : list N) : nat := S (length fl + list_sum (map phases fl)).
  (** setup_parallel_training :384-412 *)
  Definition setup_training (data : list (list X)) (s : pflow) : pflow * res unit :=
    match pf_i s with
    | Some _ => (s, Err Underway)
    | None => next_train_phase (bound (pf_flow s)) 0 (set_i (set_data s data) (Some 0))
    end.
  (** get_task :638-656 *)
  Definition get_task (s : pflow) : pflow * res X :=
    match pf_next s with
    | None => (s, Err NoTask)
    | Some x =>
        match pf_i s, pf_eiter s with
        | Some _, _ => (create_train_task s, Ok x)
        | None, Some [] => (set_next s None, Ok x)
        | None, Some (y :: r) => (set_next (set_eiter s (Some r)) (Some y), Ok x)
        | None, None => (s, Err NoTask)
        end
    end.
  (** use_results :677-700 during training *)
  Definition use_train_results (rs : list (list N)) (s : pflow) : pflow * res unit :=
    match pf_i s with
    | None => (s, Ok tt)
    | Some i =>
        let fl := fn_stop (fold_left fn_join rs (pf_flow s)) in
        next_train_phase (bound fl) (match nth_error fl i with Some a => if training a then i else S i | None => S i end) (set_flow s fl)
    end.
  (** all tasks of a phase, train :351-353 *)
  Fixpoint get_tasks (k : nat) (s : pflow) : pflow * list X :=
    match k with
    | 0 => (s, [])
    | S k => match get_task s with (s, Ok x) => let (s, l) := get_tasks k s in (s, x :: l) | (s, Err _) => (s, []) end
    end.
  (** The results of the tasks of a phase, computed with forks of the callable and joined in the order of arrival *)
  Variable order : nat -> list X -> list X.
  Definition run_train (i : nat) (fl : list N) (xs : list X) : option (list N) :=
    fold_left (fun acc x => match train_task fl x with Some r => add_train_result acc r | None => acc end) (order i xs) None.
  (** the loop of train :350-360 *)
  Fixpoint train_loop (k : nat) (s : pflow) : pflow * res unit :=
    match k with
    | 0 => (s, Ok tt)
    | S k =>
        match pf_i s with
        | None => (s, Ok tt)
        | Some i =>
            let (s, xs) := get_tasks (S (length (pf_titer s))) s in
            match run_train k (pf_flow s) xs with
            | None => (s, Err TypeErr)         (* use_results([None]) *)
            | Some r => match use_train_results [r] s with
                        | (s, Ok _) => train_loop k s
                        | (s, Err e) => (s, Err e)
                        end
            end
        end
    end.
  (** train :303-382 with one scheduler; the finally clause *)
  Definition par_train (data : list (list X)) (s : pflow) : pflow * res unit :=
    match pf_i s with
    | Some _ => (s, Err Underway)
    | None =>
        let (s, o) := match setup_training data s with
                      | (s, Ok _) => train_loop (bound (pf_flow s)) s
                      | (s, Err e) => (s, Err e)
                      end in
        (set_titer (set_data s []) [], o)
    end.

  (** setup_parallel_execution :588-625.  nodenr is not handed to the callable: FlowExecuteCallable executes the whole flow *)
  Definition setup_execution (nodenr : option nat) (xs : list X) (s : pflow) : pflow * res unit :=
    match pf_i s with
    | Some _ => (s, Err Underway)
    | None => match xs with
              | [] => (set_eiter s (Some []), Err Empty)
              | x :: r => (set_next (set_eiter s (Some r)) (Some x), Ok tt)
              end
    end.
  (** execute :556-586 with a scheduler: results are sorted by task index (ExecuteResultContainer), [list X] stands for the concatenated array *)
  Variable arrive : list (X * nat) -> list (X * nat).
  Definition par_execute (nodenr : option nat) (xs : list X) (s : pflow) : pflow * res (list X) :=
    match pf_i s with
    | Some _ => (s, Err Underway)
    | None =>
        match setup_execution nodenr xs s with
        | (s, Err e) => (set_eiter s None, Err e)
        | (s, Ok _) =>
            let (s, ts) := get_tasks (S (match pf_eiter s with Some l => length l | None => 0 end)) s in
            let rs := arrive (combine (map (fn_exec (pf_flow s)) ts) (seq 1 (length ts))) in
            (set_eiter s None, Ok (map fst (sort X rs)))
        end
    end.

  (** ** What serial code does *)
  (** Flow.train, one node after the other; each of its phases over all chunks *)
  Fixpoint node_phases (k : nat) (a : N) (xs : list X) : N :=
    match k with 0 => a | S k => if training a then node_phases k (stopN (fold_left trainN xs a)) xs else a end.
  Fixpoint serial_train (pre : list N) (fl : list N) (data : list (list X)) : list N :=
    match fl with
    | [] => pre
    | a :: r => serial_train (pre ++ [node_phases (phases a) a (map (fn_exec pre) (hd [] data))]) r (tl data)
    end.
End Parallel.
Arguments Ok {A} _. Arguments Err {A} _.

(** ** A node whose statistics are accumulated chunk by chunk, as PCANode, SFANode, FDANode, the Gaussian and nearest mean classifiers and
    HistogramNode (parallelnodes.py:179-257, parallelclassifiers.py:10-55).  The statistic (covariance sums, class sums, sample lists) is a
    value of [M]; [stat] is the contribution of a chunk, which may depend on the results of earlier phases (FDANode: the class means).
    [None] is the statistic of a node without data (_cov_mtx is None, no key in the dictionary, data_hist is None). *)
Section Additive.
  Variables (M X : Type) (add : M -> M -> M) (stat : list M -> X -> M) (seqf : option M -> X -> M) (out : list M -> X -> X).
  Record anode := mkA { a_forkable : bool; a_ph : nat; a_acc : option M; a_res : list M; a_started : bool }.
  Definition a_training (a : anode) : bool := 0 <? a_ph a.
  Definition a_train (a : anode) (x : X) : anode :=
    mkA (a_forkable a) (a_ph a)
      (Some (if a_forkable a then match a_acc a with None => stat (a_res a) x | Some m => add m (stat (a_res a) x) end
             else seqf (a_acc a) x)) (a_res a) true.
  Definition a_stop (a : anode) : anode :=
    mkA (a_forkable a) (pred (a_ph a)) None (match a_acc a with Some m => a_res a ++ [m] | None => a_res a end) false.
  Definition a_exec (a : anode) (x : X) : X := out (a_res a) x.
  (** a fork is a new instance, or a copy without the data of the current phase (FDANode) *)
  Definition a_fork (a : anode) : option anode := if a_forkable a then Some (mkA true (a_ph a) None (a_res a) false) else None.
  (** join of ParallelExtensionNode :66-82 with the _join methods *)
  Definition a_join (a f : anode) : anode :=
    mkA (a_forkable a) (a_ph a)
      (match a_acc a, a_acc f with None, o => o | Some m, Some m' => Some (add m m') | Some m, None => Some m end)
      (a_res a) (a_started a || a_started f).
  (** _DUMMY_NODE, parallelflows.py:24-37 *)
  Definition a_dummy : anode := mkA false 0 None [] false.
End Additive.

(** ** Schedulers per node, train :322-342, :361-382.  Schedulers are numbers; None: no scheduler *)
Definition sched := (option nat * list (option nat) * list nat)%type.  (* current, rest of the iterator, shut down so far *)
Definition dispose (s : sched) : option sched :=
  match s with
  | (c, r :: rs, d) => Some (r, rs, match c with Some k => d ++ [k] | None => d end)
  | (_, [], _) => None                                        (* StopIteration *)
  end.
Fixpoint dispose_n (k : nat) (s : sched) : option sched :=
  match k with 0 => Some s | S k => match dispose s with Some s => dispose_n k s | None => None end end.
(** :322-340; [i] is _i_train_node after setup_parallel_training.  [None > 0] raises TypeError in Python 3 before the elif is reached *)
Definition prepare (i : option nat) (scheds : list (option nat)) : res sched :=
  match scheds with
  | [] => Err NoTask
  | c :: rs => match i with
               | None => Err TypeErr
               | Some i => match dispose_n i (c, rs, []) with Some s => Ok s | None => Err NoTask end
               end
  end.
(** the loop :350-376 over the nodes trained in parallel; the schedulers used for them *)
Fixpoint use_scheds (last : nat) (is : list nat) (s : sched) : option (sched * list (option nat)) :=
  match is with
  | [] => Some (s, [])
  | i :: is => match dispose_n (i - last) s with
               | None => None
               | Some s => match use_scheds i is s with
                           | Some (s', l) => Some (s', fst (fst s) :: l)
                           | None => None
                           end
               end
  end.
(** finally :377-382 *)
Definition shut (s : sched) : list nat := match s with (Some k, _, d) => d ++ [k] | (None, _, d) => d end.

(** ** Entry of train :303-313: is it the serial train, the parallel one, or an exception *)
Inductive entry := Serial | Parallel | Raises.
Definition train_entry (underway scheduler callable : bool) : entry :=
  if underway then Raises else if scheduler then Parallel else if callable then Raises else Serial.
(** ParallelCheckpointFlow.train :727-742: the default of train_callable_class is a class *)
Definition cp_train_entry (underway scheduler : bool) : entry := train_entry underway scheduler true.

(** ** ExecuteResultContainer :175-210 and use_results :701-709 for flows with execute forks; the state of a flownode is its joined statistic *)
Section ExecCont.
  Variables (Y M : Type) (add : M -> M -> M).
  Record econt := mkEC { ec_res : list (Y * nat); ec_fn : option M }.
  Definition ec_add (c : econt) (r : Y * M * nat) : econt :=
    mkEC (ec_res c ++ [(fst (fst r), snd r)]) (Some (match ec_fn c with None => snd (fst r) | Some m => add m (snd (fst r)) end)).
  (** the flownode is not removed from the container *)
  Definition ec_get (c : econt) : econt * (list Y * option M) :=
    (mkEC [] (ec_fn c), (map fst (sort Y (ec_res c)), ec_fn c)).
  (** an execution whose results arrive as [rs], on a flow with statistic [m] *)
  Definition ec_execute (c : econt) (rs : list (Y * M * nat)) (m : M) : econt * (list Y * M) :=
    let (c, o) := ec_get (fold_left ec_add rs c) in
    (c, (fst o, match snd o with Some m' => add m m' | None => m end)).
End ExecCont.
