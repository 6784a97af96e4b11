(** Model of mdp/nodes/regression_nodes.py: LinearRegressionNode.

    Exact arithmetic over the rationals; arrays are lists of rows.  The inversion function (utils.inv or utils.pinv, chosen by use_pinv :114-117) is a
    parameter, None for LinAlgError.  The input dimension is fixed; the rank of the target array is not modelled.  The state after an exception is kept. *)
From Coq Require Import List Arith QArith Qcanon Bool.
From Verif Require Import CovModel.
Import ListNotations.
Open Scope nat_scope.

Inductive rerr := RNode | RTraining | RFinished.
Inductive rres (T : Type) := ROk (v : T) | RErr (e : rerr).
Arguments ROk {T}. Arguments RErr {T}.

Section Reg.
  Variable invfun : nat -> mat -> option mat.
  Variable with_bias : bool.
  Variable dim : nat.                     (* input_dim *)
  (** fields: _output_dim, (_xTx, _xTy), _tlen, beta, _train_phase_started, is_training() *)
  Record reg := mkR { r_out : option nat; r_acc : option (mat * mat); r_tlen : nat; r_beta : option mat; r_started : bool; r_training : bool }.
  (** __init__ :23-69 *)
  Definition reg_new (out : option nat) : reg := mkR out None 0 None false true.
  (** x_size in _train :96-99 *)
  Definition size : nat := if with_bias then dim + 1 else dim.
  (** _add_constant :136-147 *)
  Definition add_constant (x : row) : row := fun i => if i =? 0 then 1%Qc else x (i - 1).
  Definition extend (x : row) : row := if with_bias then add_constant x else x.
  (** _check_train_args :75-84; [yd]: y.shape[1] *)
  Definition check_args (s : reg) (x : list row) (yd : nat) (y : list row) : reg * rres unit :=
    let s := match r_out s with None => mkR (Some yd) (r_acc s) (r_tlen s) (r_beta s) (r_started s) (r_training s) | Some _ => s end in
    match r_out s with
    | Some o => if negb (yd =? o) then (s, RErr RNode) else if negb (length y =? length x) then (s, RErr RTraining) else (s, ROk tt)
    | None => (s, RErr RNode)
    end.
  (** Node.train (mdp/signal_node.py:590-617) and _train :86-110 *)
  Definition reg_train (s : reg) (x : list row) (yd : nat) (y : list row) : reg * rres unit :=
    if negb (r_training s) then (s, RErr RFinished)
    else
      match check_args s x yd y with
      | (s, RErr e) => (s, RErr e)
      | (s, ROk _) =>
          let (a, b) := match r_acc s with Some ab => ab | None => (zero_mat, zero_mat) end in
          let x := map extend x in
          (mkR (r_out s) (Some (fun i j => a i j + tmult x x i j, fun i j => b i j + tmult x y i j)%Qc) (r_tlen s + length x) (r_beta s) true true, ROk tt)
      end.
  (** Node.stop_training (mdp/signal_node.py:619-639) and _stop_training :112-129 *)
  Definition reg_stop (s : reg) : reg * rres unit :=
    if r_training s && negb (r_started s) then (s, RErr RTraining)
    else if negb (r_training s) then (s, RErr RFinished)
    else match r_acc s with
         | None => (s, RErr RNode)
         | Some (a, b) => match invfun size a with
                          | None => (s, RErr RNode)
                          | Some p => (mkR (r_out s) None (r_tlen s) (Some (mmult size p b)) false false, ROk tt)
                          end
         end.
  (** _execute :131-134 for one row *)
  Definition reg_execute (beta : mat) (x : row) : row := fun o => qsum (map (fun i => extend x i * beta i o)%Qc (seq 0 size)).
  (** calls of train; the first exception ends the sequence *)
  Fixpoint reg_trains (s : reg) (calls : list (list row * nat * list row)) : reg * rres unit :=
    match calls with [] => (s, ROk tt) | (x, yd, y) :: calls => match reg_train s x yd y with (s, ROk _) => reg_trains s calls | r => r end end.
End Reg.
