(** Model of mdp/nodes/sfa_nodes.py: SFANode.

    Exact arithmetic over an ordered field, conventions as in PCAModel.v; the input dimension is fixed.  The solver of the generalised eigenvalue problem is a
    parameter which depends on the method set; SymeigModel.v has models of several of them.  The solver does not change the matrices it is given (overwrite is
    not modelled).  [None] stands for an attribute that was deleted.  The state after an exception is kept.  The rank_threshold and warnings are not modelled. *)
From Coq Require Import List Arith ZArith Bool.
From Verif Require Import OField LinAlg PCAModel SymeigModel.
Import ListNotations.
Open Scope nat_scope.

(** NodeException, InconsistentDimException, TrainingException, TrainingFinishedException, AttributeError, ValueError, IndexError *)
Inductive serr := SNode | SInconsistent | STraining | SFinished | SAttribute | SValue | SIndex.
Inductive sres (T : Type) := SOk (v : T) | SErr (e : serr).
Arguments SOk {T}. Arguments SErr {T}.
(** rank_deficit_method; 'auto' is the same as 'pca' (set_rank_deficit_method :183-204) *)
Inductive method := MNone | MPca | MReg | MSvd | MLdl.

Section SFA.
  Context {K : ofield}.
  Notation vec := (vec (K := K)). Notation mtx := (mtx (K := K)).
  Variable dim : nat.                     (* input_dim *)
  (** the solver: method, range, the old value of rank_deficit, the matrices A (derivatives) and B (inputs) *)
  Variable solver : method -> option (Z * Z) -> nat -> mtx -> mtx -> solres K vec.
  Variable pinv : list vec -> list vec.   (* the rows of the pseudoinverse of the matrix with these columns *)

  (** fields: _output_dim, _include_last_sample, (_cov_mtx, _dcov_mtx), (cov_mtx, dcov_mtx), avg, tlen, dtlen, the method behind _symeig, rank_deficit, d, sf (a list of
      columns), _bias, _train_phase_started, is_training() *)
  Record sfa := mkS { s_out : option nat; s_incl : bool; s_accs : option (acc (K := K) * acc (K := K)); s_mats : option (mtx * mtx); s_avg : vec; s_tlen : nat; s_dtlen : nat;
                      s_meth : method; s_dfc : nat; s_d : list K; s_sf : list vec; s_bias : list K; s_started : bool; s_training : bool }.
  (** __init__ :67-175 *)
  Definition sfa_new (out : option nat) (incl : bool) (m : method) : sfa :=
    mkS out incl (Some (acc_new, acc_new)) None (fun _ => f0) 0 0 m 0 [] [] [] false true.
  (** set_rank_deficit_method :183-204 *)
  Definition sfa_set_method (s : sfa) (m : method) : sfa :=
    mkS (s_out s) (s_incl s) (s_accs s) (s_mats s) (s_avg s) (s_tlen s) (s_dtlen s) m (s_dfc s) (s_d s) (s_sf s) (s_bias s) (s_started s) (s_training s).
  (** Node.set_output_dim (mdp/signal_node.py:333-348) *)
  Definition sfa_set_output (s : sfa) (n : nat) : sfa * sres unit :=
    match s_out s with
    | Some k => if k =? n then (s, SOk tt) else (s, SErr SInconsistent)
    | None => (mkS (Some n) (s_incl s) (s_accs s) (s_mats s) (s_avg s) (s_tlen s) (s_dtlen s) (s_meth s) (s_dfc s) (s_d s) (s_sf s) (s_bias s) (s_started s) (s_training s), SOk tt)
    end.
  (** time_derivative :206-216 *)
  Definition time_derivative (x : list vec) : list vec := map (fun p : vec * vec => sub (fst p) (snd p)) (combine (tl x) (removelast x)).
  (** Node.train (mdp/signal_node.py:590-617), _check_train_args :228-242 and _train :244-261 *)
  Definition sfa_train (s : sfa) (x : list vec) (include_last_sample : option bool) : sfa * sres unit :=
    if negb (s_training s) then (s, SErr SFinished)
    else if length x =? 0 then (s, SErr SNode)
    else if length x <? 2 then (s, SErr STraining)
    else
      let incl := match include_last_sample with Some b => b | None => s_incl s end in
      let set a := mkS (s_out s) (s_incl s) a (s_mats s) (s_avg s) (s_tlen s) (s_dtlen s) (s_meth s) (s_dfc s) (s_d s) (s_sf s) (s_bias s) true (s_training s) in
      match s_accs s with
      | None => (set None, SErr SAttribute)
      | Some (c, dc) => (set (Some (acc_update c (if incl then x else removelast x), acc_update dc (time_derivative x))), SOk tt)
      end.
  (** calls of train; the first exception ends the sequence *)
  Fixpoint sfa_trains (s : sfa) (calls : list (list vec * option bool)) : sfa * sres unit :=
    match calls with [] => (s, SOk tt) | (x, b) :: r => match sfa_train s x b with (s, SOk _) => sfa_trains s r | e => e end end.
  (** the matrices are computed once, _stop_training :265-276 *)
  Definition sfa_fix (s : sfa) : sfa :=
    match s_accs s with
    | None => s
    | Some (c, dc) =>
        let (cm, avg) := acc_fix true c in
        let (dm, _) := acc_fix false dc in
        mkS (s_out s) (s_incl s) None (Some (cm, dm)) avg (a_n c) (a_n dc) (s_meth s) (s_dfc s) (s_d s) (s_sf s) (s_bias s) (s_started s) (s_training s)
    end.
  (** _set_range :218-226 *)
  Definition set_range (s : sfa) : sres (option nat * option (Z * Z)) :=
    match s_out s with
    | Some k => if k <=? dim then SOk (Some k, Some (1, Z.of_nat k)%Z) else SErr SInconsistent
    | None => SOk (Some dim, None)
    end.
  (** Node.stop_training (mdp/signal_node.py:619-639) and _stop_training :263-318 *)
  Definition sfa_stop (s : sfa) (debug : bool) : sfa * sres unit :=
    if s_training s && negb (s_started s) then (s, SErr STraining)
    else if negb (s_training s) then (s, SErr SFinished)
    else
      let s := sfa_fix s in
      match set_range s with
      | SErr e => (s, SErr e)
      | SOk (out, rng) =>
          let set dfc d u := mkS out (s_incl s) (s_accs s) (s_mats s) (s_avg s) (s_tlen s) (s_dtlen s) (s_meth s) dfc d u (s_bias s) (s_started s) (s_training s) in
          let same := set (s_dfc s) (s_d s) (s_sf s) in
          match s_mats s with
          | None => (same, SErr SAttribute)
          | Some (cm, dm) =>
              match solver (s_meth s) rng (s_dfc s) dm cm with
              | SolSymeig => (same, SErr SNode)
              | SolIndex => (same, SErr SIndex)
              | SolOk dfc d u =>
                  let dfc := match dfc with Some k => k | None => s_dfc s end in
                  if length d =? 0 then (set dfc d u, SErr SValue)
                  else if existsb (fun a => fltb a f0) d then (set dfc d u, SErr SNode)
                  else (mkS out (s_incl s) (s_accs s) (if debug then s_mats s else None) (s_avg s) (s_tlen s) (s_dtlen s) (s_meth s) dfc d u
                            (map (fun v => dot dim (s_avg s) v) u) false false, SOk tt)
              end
          end
      end.
  (** _execute :320-339 on one row of a trained node *)
  Definition upto {T} (n : option Z) (l : list T) : list T := match n with None | Some 0%Z => l | Some n => pyslice 0 n l end.
  Definition sfa_execute (s : sfa) (n : option Z) (x : vec) : list K :=
    map (fun p : vec * K => (dot dim x (fst p) - snd p)%of) (combine (upto n (s_sf s)) (upto n (s_bias s))).
  (** Node.inverse (mdp/signal_node.py:656-667) with the check of the dimension (mdp/signal_node.py:493-503), and _inverse :341-342, on one row of a trained node *)
  Definition sfa_inverse (s : sfa) (y : list K) : sres vec :=
    if negb (match s_out s with Some o => length y =? o | None => false end) then SErr SNode
    else
      let w := pinv (s_sf s) in
      if length w =? length y then SOk (fun i => fsum (map (fun p : K * vec => fst p * snd p i) (combine y w)) + s_avg s i)%of else SErr SValue.
End SFA.
