(** Model of mdp/signal_node_online.py: OnlineNode, on top of the model of Node (NodeModel).

    The attributes of an OnlineNode are those of a Node, the training iteration, the training type (true: 'batch', false: 'incremental')
    and those of the subclass.  The random number generator is left out.  Hooks are programs as in NodeModel; they read the iteration
    but do not write it.  A channel (third entry of a tuple of _train_seq) returns an array; what the one of the last phase returns is not used. *)
From Coq Require Import List Arith ZArith Bool.
From Verif Require Import NodeModel.
Import ListNotations.
Open Scope nat_scope.

Record attrs (I : Type) := mkAttrs { at_iter : nat; at_type : option bool; at_own : I }.
Arguments mkAttrs {I}. Arguments at_iter {I}. Arguments at_type {I}. Arguments at_own {I}.

Section Online.
  Variables D A I : Type.
  Variable row_of : nat -> D -> D.      (* the payload of x[i:i+1] *)
  Variable na : A.                      (* no additional arguments *)
  Notation J := (attrs I).
  Notation array := (array D).
  Notation node := (node D A J).
  Notation M := (M D A J).
  Notation "m ;; k" := (bind D A J m (fun _ => k)) (at level 61, right associativity).

  (** the overridable part of an OnlineNode subclass *)
  Record obehaviour := mkOB {
    ob_trainable : bool;
    ob_invertible : bool;
    ob_preserve : bool;                                        (* PreserveDimOnlineNode :347-366 *)
    ob_supported : dtype -> bool;
    ob_types : list bool;                                      (* _get_supported_training_types :114-117 *)
    ob_phases : nat;                                           (* len(_train_seq) *)
    ob_check_args : view J -> array -> A -> option exn;
    ob_check_params : view J -> array -> prog I unit;          (* _check_params :234-236 *)
    ob_train : nat -> view J -> array -> A -> prog I unit;     (* _train_seq[p][0] *)
    ob_stop : nat -> view J -> A -> prog I unit;               (* _train_seq[p][1] *)
    ob_channel : nat -> option (view J -> array -> A -> prog I array);  (* _train_seq[p][2]; None: a pair *)
    ob_execute : view J -> array -> A -> prog I array;
    ob_inverse : view J -> array -> A -> prog I array
  }.

  (** hooks replace only the attributes of the subclass *)
  Fixpoint lift {R} (n : nat) (t : option bool) (p : prog I R) : prog J R :=
    match p with
    | PRet r => PRet r
    | PSet i k => PSet (mkAttrs n t i) (lift n t k)
    | PReq q k => PReq q (lift n t k)
    end.
  Definition lifted {R} (v : view J) (p : prog I R) : prog J R := lift (at_iter (v_int J v)) (at_type (v_int J v)) p.

  Section Methods.
  Variable b : obehaviour.
  (** what the inherited methods of Node use *)
  Definition base : behaviour D A J :=
    mkBeh D A J (ob_trainable b) (ob_invertible b) (ob_preserve b) (ob_supported b) (ob_phases b) (ob_check_args b)
      (fun p v x a => lifted v (ob_train b p v x a)) (fun p v a => lifted v (ob_stop b p v a))
      (fun v x a => lifted v (ob_execute b v x a)) (fun v x a => lifted v (ob_inverse b v x a)).

  Definition iteration (s : node) : nat := at_iter (n_int D A J s).
  Definition set_iteration (n : nat) (s : node) : node := set_n_int D A J s (mkAttrs n (at_type (n_int D A J s)) (at_own (n_int D A J s))).
  Definition set_type (t : option bool) (s : node) : node := set_n_int D A J s (mkAttrs (at_iter (n_int D A J s)) t (at_own (n_int D A J s))).

  (** __init__ :60-82 *)
  Definition o_init (i0 : I) (din dout : option nat) (dt : option dtype) : node * res unit := init D A J base (mkAttrs 0 None i0) din dout dt.

  (** set_training_type :119-126; None: OnlineNodeException, a NodeException *)
  Definition o_set_type (t : bool) : M unit := fun s => if existsb (Bool.eqb t) (ob_types b) then (set_type (Some t) s, Ok tt) else (s, Err NodeExc).

  (** _check_input :217-227 *)
  Definition o_check_input (x : array) : M unit :=
    check_input D A J base x ;;
    (fun s => match at_type (n_int D A J s) with
              | Some _ => (s, Ok tt)
              | None => match ob_types b with t :: _ => (set_type (Some t) s, Ok tt) | [] => (s, Err IndexErr) end
              end).
  Definition run_hook {R} (h : view J -> prog I R) : M R := fun s => run_prog D A J base (lifted (view_of D A J s) (h (view_of D A J s))) s.

  (** the loop over the phases in train :272-277, 281-285 *)
  Fixpoint o_pass (ps : list nat) (x : array) (a : A) : M unit :=
    match ps with
    | [] => ret D A J tt
    | p :: ps =>
        (fun s => run_hook (fun v => ob_train b p v x a) (add_event D A J s (EvTrain D A p x a))) ;;
        match ob_channel b p with
        | None => o_pass ps x a
        | Some h => bind D A J (run_hook (fun v => h v x a)) (fun y => o_pass ps y a)
        end
    end.
  Definition phases : list nat := seq 0 (ob_phases b).
  Definition count (n : nat) : M unit := fun s => (set_iteration (iteration s + n) s, Ok tt).
  Fixpoint o_rows (xs : list array) (a : A) : M unit :=
    match xs with [] => ret D A J tt | x :: xs => o_pass phases x a ;; count 1 ;; o_rows xs a end.
  (** x[:, None, :] *)
  Definition rows (x : array) : list array := map (fun i => mkArray 2 1 (a_cols x) (a_dtype x) (row_of i (a_data x))) (seq 0 (a_rows x)).

  (** train :240-286 *)
  Definition o_train (x : array) (a : A) : M unit := fun s =>
    if negb (ob_trainable b) then (s, Err IsNotTrainable) else
    if negb (n_training D A J s) then (s, Err TrainingFinished) else
    (o_check_input x ;;
     (fun s => match ob_check_args b (view_of D A J s) x a with Some e => (s, Err e) | None => (s, Ok tt) end) ;;
     run_hook (fun v => ob_check_params b v x) ;;
     (fun s => let x' := refcast D (n_dt D A J s) x in
               let s := set_n_started D A J s true in
               match at_type (n_int D A J s) with
               | Some false => o_rows (rows x') a s
               | _ => (o_pass phases x' a ;; count (a_rows x')) s
               end)) s.

  (** the loop of stop_training :303-304 *)
  Fixpoint o_stops (ps : list nat) (a : A) : M unit :=
    match ps with
    | [] => ret D A J tt
    | p :: ps => fun s =>
        match run_hook (fun v => ob_stop b p v a) s with
        | (s, Err e) => (add_event D A J s (EvStop D A p false), Err e)
        | (s, Ok _) => o_stops ps a (add_event D A J s (EvStop D A p true))
        end
    end.
  (** stop_training :288-309 *)
  Definition o_stop (a : A) : M unit := fun s =>
    if n_training D A J s && negb (n_started D A J s) then (s, Err TrainingExc) else
    if negb (n_training D A J s) then (s, Err TrainingFinished) else
    (o_stops phases a ;;
     (fun s => let s := set_n_started D A J (set_n_phase D A J s (Z.of_nat (ob_phases b))) false in
               if (remaining D A J base s =? 0)%Z then (set_n_training D A J s false, Ok tt) else (s, Ok tt))) s.

  (** _pre_execution_checks :177-193 *)
  Definition o_pre_exec (x : array) : M unit := fun s =>
    ((fun s => if (n_phase D A J s =? 0)%Z && negb (n_started D A J s) then o_train x na s else (s, Ok tt)) ;;
     o_check_input x ;;
     run_hook (fun v => ob_check_params b v x) ;;
     (fun s => match n_out D A J s with None => set_output_dim D A J base (n_in D A J s) s | Some _ => (s, Ok tt) end)) s.
  (** _pre_inversion_checks :197-215 *)
  Definition o_pre_inv (y : array) : M unit := fun s =>
    if negb (ob_invertible b) then (s, Err IsNotInvertible) else
    ((fun s => match n_out D A J s with
               | None => match n_in D A J s with None => (s, Err NodeExc) | Some d => set_output_dim D A J base (Some d) s end
               | Some _ => (s, Ok tt)
               end) ;;
     check_output D A J y) s.
  (** Node.execute, Node.inverse (signal_node.py:641-667) *)
  Definition o_execute (x : array) (a : A) : M array :=
    o_pre_exec x ;; (fun s => let x' := refcast D (n_dt D A J s) x in run_hook (fun v => ob_execute b v x' a) (add_event D A J s (EvExec D A x' a))).
  Definition o_inverse (y : array) (a : A) : M array :=
    o_pre_inv y ;; (fun s => let y' := refcast D (n_dt D A J s) y in run_hook (fun v => ob_inverse b v y' a) (add_event D A J s (EvInv D A y' a))).

  (** histories of calls; a raising call leaves its partial effects *)
  Inductive ocall :=
  | OTrain (x : array) (a : A) | OStop (a : A) | OExec (x : array) (a : A) | OInv (y : array) (a : A) | OSetType (t : bool)
  | OSetIn (n : option nat) | OSetOut (n : option nat) | OSetDtype (t : option dtype).
  Definition ok {R} (r : res R) : bool := match r with Ok _ => true | Err _ => false end.
  Definition ostep (c : ocall) (s : node) : node * bool :=
    let done {R} (r : node * res R) := (fst r, ok (snd r)) in
    match c with
    | OTrain x a => done (o_train x a s)
    | OStop a => done (o_stop a s)
    | OExec x a => done (o_execute x a s)
    | OInv y a => done (o_inverse y a s)
    | OSetType t => done (o_set_type t s)
    | OSetIn n => done (set_input_dim D A J base n s)
    | OSetOut n => done (set_output_dim D A J base n s)
    | OSetDtype t => done (set_dtype D A J base t s)
    end.
  (** the state after a history, and which of the calls returned normally *)
  Fixpoint orun (cs : list ocall) (s : node) : node * list bool :=
    match cs with [] => (s, []) | c :: cs => let (s1, r) := ostep c s in let (s2, rs) := orun cs s1 in (s2, r :: rs) end.
  End Methods.
End Online.
