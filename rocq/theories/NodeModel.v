(** Model of mdp/signal_node.py: the [Node] base class as a state machine.

    What a concrete subclass computes ([_train], [_stop_training], [_execute], [_inverse],
    [_check_train_args], [is_trainable], ...) is a [behaviour]; everything below is parametric in it.
    Simplifications: floating point payloads are an arbitrary type [D]; [numx.dtype] objects are numbers;
    the error texts are dropped; hooks are finite programs that may replace the subclass' own attributes
    and may assign input_dim / output_dim / dtype through the public properties (signal_node.py:325,353,392),
    but do not write the private bookkeeping attributes [_training], [_train_phase], [_train_phase_started]. *)
From Coq Require Import List Arith ZArith Lia Bool.
Import ListNotations.
Open Scope Z_scope.

(** Exceptions: signal_node.py:25-55 (class hierarchy flattened); [IndexErr] is Python's IndexError raised by
    [self._train_seq[self._train_phase]]; [HookErr] is any exception raised by subclass code. *)
Inductive exn :=
| NodeExc | InconsistentDim | TrainingExc | TrainingFinished | IsNotTrainable | IsNotInvertible
| IndexErr | HookErr (code : nat) | OutOfFuel.

Inductive res (A : Type) := Ok (a : A) | Err (e : exn).
Arguments Ok {A} _.  Arguments Err {A} _.

Definition dtype := nat.

Section Node.
  Variable D : Type.     (* array payload *)
  Variable A : Type.     (* additional positional/keyword arguments *)
  Variable I : Type.     (* attributes of the subclass *)

  (** numpy array as seen by the checks: x.ndim, x.shape[0], x.shape[1], x.dtype and its contents. *)
  Record array := mkArray { a_ndim : nat; a_rows : nat; a_cols : nat; a_dtype : dtype; a_data : D }.

  (** mdp.utils.refcast (mdp/utils/routines.py:83-90): [x] itself if the dtype agrees, else [x.astype(dtype)].
      Payload conversion is abstracted: the payload is kept. *)
  Definition refcast (t : option dtype) (x : array) : array :=
    match t with
    | None => x
    | Some t => if Nat.eqb (a_dtype x) t then x
                else mkArray (a_ndim x) (a_rows x) (a_cols x) t (a_data x)
    end.

  (** Assignments a hook may do through the public properties. *)
  Inductive req := ReqIn (n : nat) | ReqOut (n : nat) | ReqDtype (t : dtype).

  (** A hook body: a finite program. *)
  Inductive prog (R : Type) :=
  | PRet (r : res R)
  | PSet (i : I) (k : prog R)
  | PReq (q : req) (k : prog R).
  Arguments PRet {R} _.  Arguments PSet {R} _ _.  Arguments PReq {R} _ _.

  (** What a hook can read. *)
  Record view := mkView { v_in : option nat; v_out : option nat; v_dt : option dtype; v_int : I }.

  (** The overridable part of a Node subclass. *)
  Record behaviour := mkBeh {
    b_trainable : bool;                                   (* is_trainable, signal_node.py:459 *)
    b_invertible : bool;                                  (* is_invertible, :464 *)
    b_preserve : bool;                                    (* subclass of PreserveDimNode, :730 *)
    b_supported : dtype -> bool;                          (* get_supported_dtypes, :404 *)
    b_phases : nat;                                       (* len(_train_seq), :428 *)
    b_check_args : view -> array -> A -> option exn;      (* _check_train_args, :584 *)
    b_train : nat -> view -> array -> A -> prog unit;     (* _train_seq[p][0] *)
    b_stop : nat -> view -> A -> prog unit;               (* _train_seq[p][1] *)
    b_execute : view -> array -> A -> prog array;         (* _execute, :577 *)
    b_inverse : view -> array -> A -> prog array          (* _inverse, :580 *)
  }.

  (** Calls of the subclass' hooks, as observable effects (ghost trace; [stop] records whether it returned normally). *)
  Inductive event :=
  | EvTrain (phase : nat) (x : array) (a : A)
  | EvStop (phase : nat) (ok : bool)
  | EvExec (x : array) (a : A)
  | EvInv (y : array) (a : A).

  (** Node attributes, signal_node.py:277-297. [n_trace] is ghost. *)
  Record node := mkNode {
    n_in : option nat; n_out : option nat; n_dt : option dtype;
    n_training : bool; n_phase : Z; n_started : bool;
    n_int : I; n_trace : list event
  }.

  Definition set_n_in s v := mkNode v (n_out s) (n_dt s) (n_training s) (n_phase s) (n_started s) (n_int s) (n_trace s).
  Definition set_n_out s v := mkNode (n_in s) v (n_dt s) (n_training s) (n_phase s) (n_started s) (n_int s) (n_trace s).
  Definition set_n_dt s v := mkNode (n_in s) (n_out s) v (n_training s) (n_phase s) (n_started s) (n_int s) (n_trace s).
  Definition set_n_training s v := mkNode (n_in s) (n_out s) (n_dt s) v (n_phase s) (n_started s) (n_int s) (n_trace s).
  Definition set_n_phase s v := mkNode (n_in s) (n_out s) (n_dt s) (n_training s) v (n_started s) (n_int s) (n_trace s).
  Definition set_n_started s v := mkNode (n_in s) (n_out s) (n_dt s) (n_training s) (n_phase s) v (n_int s) (n_trace s).
  Definition set_n_int s v := mkNode (n_in s) (n_out s) (n_dt s) (n_training s) (n_phase s) (n_started s) v (n_trace s).
  Definition add_event s e := mkNode (n_in s) (n_out s) (n_dt s) (n_training s) (n_phase s) (n_started s) (n_int s) (n_trace s ++ [e]).

  Definition view_of (s : node) : view := mkView (n_in s) (n_out s) (n_dt s) (n_int s).

  (** State and exception monad: the state after an exception is kept. *)
  Definition M (R : Type) := node -> node * res R.
  Definition ret {R} (r : R) : M R := fun s => (s, Ok r).
  Definition raise {R} (e : exn) : M R := fun s => (s, Err e).
  Definition bind {R T} (m : M R) (f : R -> M T) : M T :=
    fun s => match m s with
             | (s', Ok r) => f r s'
             | (s', Err e) => (s', Err e)
             end.
  Notation "m ;; k" := (bind m (fun _ => k)) (at level 61, right associativity).

  Section Methods.
  Variable b : behaviour.

  (** Node._set_input_dim :322-323, PreserveDimNode._set_input_dim :738-743 *)
  Definition p_set_input_dim (n : nat) : M unit := fun s =>
    if b_preserve b then
      match n_out s with
      | Some o => if Nat.eqb o n then (set_n_out (set_n_in s (Some n)) (Some n), Ok tt) else (s, Err InconsistentDim)
      | None => (set_n_out (set_n_in s (Some n)) (Some n), Ok tt)
      end
    else (set_n_in s (Some n), Ok tt).

  (** Node.set_input_dim :305-320 *)
  Definition set_input_dim (n : option nat) : M unit := fun s =>
    match n with
    | None => (s, Ok tt)
    | Some n =>
        match n_in s with
        | Some m => if Nat.eqb m n then p_set_input_dim n s else (s, Err InconsistentDim)
        | None => p_set_input_dim n s
        end
    end.

  (** Node._set_output_dim :350-351, PreserveDimNode._set_output_dim :745-750 *)
  Definition p_set_output_dim (n : nat) : M unit := fun s =>
    if b_preserve b then
      match n_in s with
      | Some i => if Nat.eqb i n then (set_n_out (set_n_in s (Some n)) (Some n), Ok tt) else (s, Err InconsistentDim)
      | None => (set_n_out (set_n_in s (Some n)) (Some n), Ok tt)
      end
    else (set_n_out s (Some n), Ok tt).

  (** Node.set_output_dim :333-348 *)
  Definition set_output_dim (n : option nat) : M unit := fun s =>
    match n with
    | None => (s, Ok tt)
    | Some n =>
        match n_out s with
        | Some m => if Nat.eqb m n then p_set_output_dim n s else (s, Err InconsistentDim)
        | None => p_set_output_dim n s
        end
    end.

  (** Node.set_dtype :361-383 and _set_dtype :385-390 (whose repeated check is subsumed) *)
  Definition set_dtype (t : option dtype) : M unit := fun s =>
    match t with
    | None => (s, Ok tt)
    | Some t =>
        match n_dt s with
        | Some m => if Nat.eqb m t
                    then (if b_supported b t then (set_n_dt s (Some t), Ok tt) else (s, Err NodeExc))
                    else (s, Err NodeExc)
        | None => if b_supported b t then (set_n_dt s (Some t), Ok tt) else (s, Err NodeExc)
        end
    end.

  (** Execution of a hook body. *)
  Fixpoint run_prog {R} (p : prog R) : M R := fun s =>
    match p with
    | PRet r => (s, r)
    | PSet i k => run_prog k (set_n_int s i)
    | PReq q k =>
        let m := match q with
                 | ReqIn n => set_input_dim (Some n)
                 | ReqOut n => set_output_dim (Some n)
                 | ReqDtype t => set_dtype (Some t)
                 end in
        match m s with
        | (s', Ok _) => run_prog k s'
        | (s', Err e) => (s', Err e)
        end
    end.

  (** Node.__init__ :265-297; [i0] are the subclass' own initial attributes. *)
  Definition blank (i0 : I) : node := mkNode None None None false (-1) false i0 [].
  Definition init (i0 : I) (din dout : option nat) (dt : option dtype) : node * res unit :=
    match (set_input_dim din ;; set_output_dim dout ;; set_dtype dt) (blank i0) with
    | (s, Err e) => (s, Err e)
    | (s, Ok _) =>
        if b_trainable b
        then (set_n_training (set_n_started (set_n_phase s 0) false) true, Ok tt)
        else (set_n_started (set_n_phase (set_n_training s false) (-1)) false, Ok tt)
    end.

  (** Node.is_training :436, get_current_train_phase :441, get_remaining_train_phase :447-455 *)
  Definition is_training (s : node) : bool := n_training s.
  Definition current_phase (s : node) : Z := n_phase s.
  Definition remaining (s : node) : Z :=
    if b_trainable b then Z.of_nat (b_phases b) - n_phase s else 0.

  (** Node._check_input :469-491 *)
  Definition check_input (x : array) : M unit := fun s =>
    if negb (Nat.eqb (a_ndim x) 2) then (s, Err NodeExc) else
    (match n_in s with None => set_input_dim (Some (a_cols x)) | Some _ => ret tt end ;;
     (fun s => match n_dt s with None => set_dtype (Some (a_dtype x)) s | Some _ => (s, Ok tt) end) ;;
     (fun s => match n_in s with
               | Some d => if Nat.eqb (a_cols x) d then (s, Ok tt) else (s, Err NodeExc)
               | None => (s, Err NodeExc)
               end) ;;
     (fun s => if Nat.eqb (a_rows x) 0 then (s, Err NodeExc) else (s, Ok tt))) s.

  (** Node._check_output :493-503 *)
  Definition check_output (y : array) : M unit := fun s =>
    if negb (Nat.eqb (a_ndim y) 2) then (s, Err NodeExc) else
    match n_out s with
    | Some d => if Nat.eqb (a_cols y) d then (s, Ok tt) else (s, Err NodeExc)
    | None => (s, Err NodeExc)
    end.

  (** [self._train_seq[self._train_phase]]: Python list indexing; the phase is never negative here because
      the callers require [_training]. *)
  Definition phase_index (s : node) : option nat :=
    if (0 <=? n_phase s)%Z && (n_phase s <? Z.of_nat (b_phases b))%Z then Some (Z.to_nat (n_phase s)) else None.

  (** Node.train :590-617 *)
  Definition train (x : array) (a : A) : M unit := fun s =>
    if negb (b_trainable b) then (s, Err IsNotTrainable) else
    if negb (n_training s) then (s, Err TrainingFinished) else
    (check_input x ;;
     (fun s => match b_check_args b (view_of s) x a with Some e => (s, Err e) | None => (s, Ok tt) end) ;;
     (fun s => (set_n_started s true, Ok tt)) ;;
     (fun s => match phase_index s with
               | None => (s, Err IndexErr)
               | Some p => let x' := refcast (n_dt s) x in
                           run_prog (b_train b p (view_of s) x' a) (add_event s (EvTrain p x' a))
               end)) s.

  (** Node.stop_training :619-639 *)
  Definition stop_training (a : A) : M unit := fun s =>
    if n_training s && negb (n_started s) then (s, Err TrainingExc) else
    if negb (n_training s) then (s, Err TrainingFinished) else
    match phase_index s with
    | None => (s, Err IndexErr)
    | Some p =>
        match run_prog (b_stop b p (view_of s) a) s with
        | (s, Err e) => (add_event s (EvStop p false), Err e)
        | (s, Ok _) =>
            let s := add_event s (EvStop p true) in
            let s := set_n_started (set_n_phase s (n_phase s + 1)) false in
            if (remaining s =? 0)%Z then (set_n_training s false, Ok tt) else (s, Ok tt)
        end
    end.

  (** Node._if_training_stop_training :505-511; [na] stands for "no arguments". *)
  Variable na : A.
  Definition if_training_stop_training : M unit := fun s =>
    if n_training s then
      (stop_training na ;;
       (fun s => if (0 <? remaining s)%Z then (s, Err TrainingExc) else (s, Ok tt))) s
    else (s, Ok tt).

  (** The [while True] loop of Node._pre_execution_checks :521-526.  [fuel] bounds the iterations;
      NodeProofs.auto_train_fuel shows that [b_phases b] iterations always suffice. *)
  Fixpoint auto_train (fuel : nat) (x : array) : M unit := fun s =>
    match fuel with
    | O => (s, Err OutOfFuel)
    | S fuel =>
        (train x na ;;
         (fun s => if (1 <? remaining s)%Z
                   then (stop_training na ;; auto_train fuel x) s
                   else (s, Ok tt))) s
    end.

  (** Node._pre_execution_checks :513-535 *)
  Definition pre_execution_checks (x : array) : M unit := fun s =>
    ((fun s => if (n_phase s =? 0)%Z && negb (n_started s) then auto_train (S (b_phases b)) x s else (s, Ok tt)) ;;
     if_training_stop_training ;;
     check_input x ;;
     (fun s => match n_out s with None => set_output_dim (n_in s) s | Some _ => (s, Ok tt) end)) s.

  (** Node._pre_inversion_checks :537-557 *)
  Definition pre_inversion_checks (y : array) : M unit := fun s =>
    if negb (b_invertible b) then (s, Err IsNotInvertible) else
    (if_training_stop_training ;;
     (fun s => match n_out s with
               | None => match n_in s with
                         | None => (s, Err NodeExc)
                         | Some d => set_output_dim (Some d) s
                         end
               | Some _ => (s, Ok tt)
               end) ;;
     check_output y) s.

  (** Node.execute :641-654 *)
  Definition execute (x : array) (a : A) : M array :=
    (pre_execution_checks x ;;
     (fun s => let x' := refcast (n_dt s) x in
               run_prog (b_execute b (view_of s) x' a) (add_event s (EvExec x' a)))).

  (** Node.inverse :656-667 *)
  Definition inverse (y : array) (a : A) : M array :=
    (pre_inversion_checks y ;;
     (fun s => let y' := refcast (n_dt s) y in
               run_prog (b_inverse b (view_of s) y' a) (add_event s (EvInv y' a)))).

  (** Public calls and histories of calls; a raising call leaves its partial effects, and the history goes on. *)
  Inductive call :=
  | CTrain (x : array) (a : A) | CStop (a : A) | CExec (x : array) (a : A) | CInv (y : array) (a : A)
  | CSetIn (n : option nat) | CSetOut (n : option nat) | CSetDtype (t : option dtype).

  Definition step (c : call) (s : node) : node * res (option array) :=
    let u (r : node * res unit) := (fst r, match snd r with Ok _ => Ok None | Err e => Err e end) in
    let v (r : node * res array) := (fst r, match snd r with Ok y => Ok (Some y) | Err e => Err e end) in
    match c with
    | CTrain x a => u (train x a s)
    | CStop a => u (stop_training a s)
    | CExec x a => v (execute x a s)
    | CInv y a => v (inverse y a s)
    | CSetIn n => u (set_input_dim n s)
    | CSetOut n => u (set_output_dim n s)
    | CSetDtype t => u (set_dtype t s)
    end.

  Fixpoint run (cs : list call) (s : node) : node :=
    match cs with [] => s | c :: cs => run cs (fst (step c s)) end.

  (** Running calls until the first exception. *)
  Fixpoint run_until (cs : list call) (s : node) : node * res (option array) :=
    match cs with
    | [] => (s, Ok None)
    | c :: cs =>
        match step c s with
        | (s', Ok r) => match cs with [] => (s', Ok r) | _ => run_until cs s' end
        | (s', Err e) => (s', Err e)
        end
    end.
  End Methods.
End Node.

Arguments mkArray {D} _ _ _ _ _.
Arguments a_ndim {D} _. Arguments a_rows {D} _. Arguments a_cols {D} _. Arguments a_dtype {D} _. Arguments a_data {D} _.
Arguments PRet {I R} _.  Arguments PSet {I R} _ _.  Arguments PReq {I R} _ _.
