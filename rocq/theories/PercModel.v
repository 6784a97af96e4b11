(** Model of PerceptronClassifier, mdp/nodes/classifier_nodes.py:33-115, and SignumClassifier :12-30, in exact arithmetic (the learning rate 0.1 is 1/10). *)
From Coq Require Import List Arith QArith Qcanon Bool.
From Verif Require Import CovModel RoutModel ClassModel.
Import ListNotations.
Open Scope Qc_scope.

(** weights (empty before the first training) and offset_weight *)
Record perc := mkPerc { p_weights : vec; p_offset : Qc }.
Definition perc_init : perc := mkPerc [] 0.
Definition learning_rate : Qc := Q2Qc (1 # 10).
(** _label :106-115 for one point *)
Definition perc_label (s : perc) (x : vec) : Qc := sign (dot x (p_weights s) + p_offset s).
(** the body of the loop in _train :92-104; new_weights and self.weights are the same array, which only enters _label before the loop over j *)
Definition perc_one (s : perc) (xl : vec * Qc) : perc :=
  let (x, l) := xl in
  let rate := learning_rate * (l - perc_label s x) in
  mkPerc (map (fun p => fst p + rate * snd p) (combine (p_weights s) x)) (p_offset s + rate * 1).
Definition perc_start (input_dim : nat) (s : perc) : perc := match p_weights s with [] => mkPerc (repeat 1 input_dim) (p_offset s) | _ => s end.
(** _check_train_args :63-75 and _train :77-104; None: TrainingException *)
Definition is_pm1 (l : Qc) : bool := if Qc_eq_dec l 1 then true else if Qc_eq_dec l (- (1)) then true else false.
Definition perc_train (input_dim : nat) (s : perc) (x : list vec) (labels : labels_arg Qc) : option perc :=
  match labels with
  | Single l => if is_pm1 l then Some (fold_left perc_one (map (fun v => (v, l)) x) (perc_start input_dim s)) else None
  | Listed ls | Arrayed ls =>
      if (length ls =? length x)%nat && forallb is_pm1 ls then Some (fold_left perc_one (combine x ls) (perc_start input_dim s)) else None
  end.
(** SignumClassifier._label :28-30 *)
Definition signum_label (x : list vec) : list Qc := map (fun v => sign (qsum v)) x.
