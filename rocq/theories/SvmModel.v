(** Model of the parameters and the results of LibSVMClassifier (mdp/nodes/libsvm_classifier.py:16-184).

    The library is not modelled: [names] are the names of svm_parameter._names, [attr] says which attributes an svm_parameter has, [default] are the values after svm_parameter("-q"),
    [const] are the constants of the module. Values are integers. The cumulation of the data is that of ClassModel.v. A keyword argument None or an empty string is [None]. *)
From Coq Require Import String List ZArith Bool Ascii.
Import ListNotations.
Local Open Scope string_scope.

(** str.upper, for ASCII *)
Definition upper_char (c : ascii) : ascii := let n := nat_of_ascii c in if Nat.leb 97 n && Nat.leb n 122 then ascii_of_nat (n - 32) else c.
Fixpoint upper (s : string) : string := match s with EmptyString => EmptyString | String c s => String (upper_char c) (upper s) end.
Definition kernels := ["RBF"; "LINEAR"; "POLY"; "SIGMOID"].
Definition classifiers := ["C_SVC"; "NU_SVC"; "ONE_CLASS"; "EPSILON_SVR"; "NU_SVR"].
Inductive serr := ETypeError | ENodeException | EAttributeError.
Definition param := string -> Z.
Definition setp (p : param) (k : string) (v : Z) : param := fun x => if String.eqb x k then v else p x.
Section Svm.
  Variable names : list string.
  Variable attr : string -> bool.
  Variable default : param.
  Variable const : string -> Z.
  (** the parameter after the call, and the exception *)
  Definition set_kernel (p : param) (k : string) : param * option serr :=
    if existsb (String.eqb (upper k)) kernels then (setp p "kernel_type" (const (upper k)), None) else (p, Some ETypeError).
  Definition set_classifier (p : param) (k : string) : param * option serr :=
    if existsb (String.eqb (upper k)) classifiers then (setp p "svm_type" (const (upper k)), None) else (p, Some ETypeError).
  Fixpoint set_params (p : param) (l : list (string * Z)) : param * option serr :=
    match l with
    | [] => (p, None)
    | (k, v) :: l => if negb (existsb (String.eqb k) names) then (p, Some ENodeException) else if attr k then set_params (setp p k v) l else (p, Some EAttributeError)
    end.
  Definition opt (f : param -> string -> param * option serr) (p : param) (k : option string) : param * option serr := match k with Some k => f p k | None => (p, None) end.
  (** __init__ *)
  Definition svm_init (kernel classifier : option string) (probability : bool) (params : list (string * Z)) : param + serr :=
    let p := if probability then setp default "probability" 1 else default in
    match opt set_kernel p kernel with
    | (_, Some e) => inr e
    | (p, None) => match opt set_classifier p classifier with (_, Some e) => inr e | (p, None) => match set_params p params with (_, Some e) => inr e | (p, None) => inl p end end
    end.
End Svm.
(** dict(zip(labels, ps)) of _prob :177-181: a later pair replaces an earlier one *)
Definition dict_zip (labels : list Z) (ps : list Z) : Z -> option Z := fold_left (fun d kv => fun x => if Z.eqb x (fst kv) then Some (snd kv) else d x) (combine labels ps) (fun _ => None).
Definition prob (labels : list Z) (vals : list (list Z)) : list (Z -> option Z) := map (dict_zip labels) vals.
