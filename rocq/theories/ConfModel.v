(** Model of mdp/configuration.py: the registry of dependencies (:88-171), the choice of the numerical backend (:265-335), the test of versions (:354-382) and
    set_configuration (:434-566).

    The environment and the installed modules are the input: a module can be imported or not, and an attribute which is read of it is there or not. Not modelled: the
    texts of the exceptions (a message is a string of the input), the replacement of members of scipy (:299-303), get_symeig, the monkeypatch of pp (its
    result is an input), and the value of tempfile.gettempdir. *)
From Coq Require Import String List Arith ZArith Bool Lia Ascii.
Import ListNotations.

(** * _version_too_old :354-382; a part of the version is [None] if int(part) raises ValueError; the result [None] is None *)
Fixpoint too_old (version : list (option Z)) (known : list Z) : option bool :=
  match version, known with
  | part :: version, expected :: known =>
      match part with
      | None => None
      | Some p => if (p <? expected)%Z then Some true else if (expected <? p)%Z then Some false else too_old version known
      end
  | _, _ => Some false
  end.
Definition truthy (b : option bool) : bool := match b with Some b => b | None => false end.

(** * The registry: _ExternalDep :90-109, ExternalDepFailed :111-128, ExternalDepFound :130-146 *)
Record dep := mkD { d_version : option string; d_failmsg : option string; d_order : nat }.
(** the attributes has_<name> of config, and _HAS_NUMBER *)
Record conf := mkConf { c_deps : list (string * dep); c_number : nat }.
Definition conf0 : conf := mkConf [] 0.
Fixpoint set_attr (l : list (string * dep)) (n : string) (d : dep) : list (string * dep) :=
  match l with [] => [(n, d)] | (m, e) :: l => if String.eqb n m then (m, d) :: l else (m, e) :: set_attr l n d end.
Fixpoint get_attr (l : list (string * dep)) (n : string) : option dep := match l with [] => None | (m, e) :: l => if String.eqb n m then Some e else get_attr l n end.
(** __init__ :91-100; [None] is the failed assertion :92 *)
Definition external_dep (c : conf) (name : string) (version failmsg : option string) : option conf :=
  match version, failmsg with
  | Some _, Some _ | None, None => None
  | _, _ => Some (mkConf (set_attr (c_deps c) name (mkD version failmsg (c_number c))) (S (c_number c)))
  end.
Definition dep_found (c : conf) (name version : string) : conf := match external_dep c name (Some version) None with Some c => c | None => c end.
Definition dep_failed (c : conf) (name msg : string) : conf := match external_dep c name None (Some msg) with Some c => c | None => c end.
(** __bool__ :102-103, __repr__ :105-109; version is str(None) for a failed dependency, which is not shown *)
Definition dep_bool (d : dep) : bool := match d_failmsg d with None => true | Some _ => false end.
Definition dep_repr (d : dep) : string :=
  match d_failmsg d with
  | None => match d_version d with Some v => v | None => "None" end
  | Some m => ("NOT AVAILABLE: " ++ m)%string
  end.
(** info :148-171: [dirl] are the has_ attributes in the order of dir(cls); the insertion sort stands for sorted, which is stable; [None] is the ValueError of max :168 *)
Fixpoint blanks (s : string) : string := match s with EmptyString => EmptyString | String c s => String (if Ascii.eqb c "_" then " "%char else c) (blanks s) end.
Fixpoint spaces (n : nat) : string := match n with O => EmptyString | S n => String " " (spaces n) end.
Fixpoint ins (x : string * dep) (l : list (string * dep)) : list (string * dep) :=
  match l with [] => [x] | y :: l => if d_order (snd x) <=? d_order (snd y) then x :: y :: l else y :: ins x l end.
Definition sort_deps (l : list (string * dep)) : list (string * dep) := fold_right ins [] l.
Definition info (dirl : list (string * dep)) : option (list string) :=
  match dirl with
  | [] => None
  | _ =>
      let maxlen := fold_right max 0 (map (fun p => String.length (blanks (fst p))) dirl) in
      Some (map (fun p => (spaces (maxlen + 1 - String.length (blanks (fst p))) ++ blanks (fst p) ++ ": " ++ dep_repr (snd p))%string) (sort_deps dirl))
  end.

(** * get_numx :265-335 *)
(** importing a backend: it fails; it is imported with its version; scipy alone: the import of numpy :298 fails after the registration :290 *)
Inductive backend := BFail (msg : string) | BOk (version : string) | BLate (version : string).
Inductive nres := NScipy | NNumpy | NError.
Local Open Scope string_scope.
Definition get_numx (label : option string) (scipy numpy : backend) (c : conf) : nres * conf :=
  let label_set := match label with Some l => negb (String.eqb l "") | None => false end in
  let is s := match label with Some l => String.eqb l s | None => false end in
  if label_set && negb (is "numpy") && negb (is "scipy") then (NError, c)
  else
    let step1 := if match label with None => true | Some _ => is "scipy" end then
        match scipy with
        | BOk v => (Some NScipy, c, false)
        | BLate v => (Some NScipy, c, label_set)
        | BFail _ => (None, c, label_set)
        end else (None, c, false) in
    let '(descr, _, raised) := step1 in
    let c := match descr, scipy with Some _, (BOk v | BLate v) => dep_found c "numx" ("scipy " ++ v) | _, _ => c end in
    if raised then (NError, c)
    else match descr with
         | Some _ => (NScipy, c)
         | None =>
             match numpy with
             | BOk v | BLate v => (NNumpy, dep_found c "numx" ("numpy " ++ v))
             | BFail m => (NError, dep_failed c "numx" m)
             end
         end.

(** * set_configuration :434-566 *)
(** an environment variable is [None] or a string; os.getenv(...) is true iff it is a non-empty string *)
Definition on (v : option string) : bool := match v with Some s => negb (String.eqb s "") | None => false end.
Record env := mkE { e_pp_secret : option string; e_no_pp : option string; e_no_patch : option string; e_no_shogun : option string; e_no_libsvm : option string; e_no_joblib : option string; e_no_sklearn : option string }.
Inductive imp (A : Type) := IFail (msg : string) | IOk (a : A).
Arguments IFail {A}. Arguments IOk {A}.
(** pp: its version, the message of the exception of Server() if any, whether monkeypatching is needed *)
Record ppmod := mkPP { pp_version : string; pp_server : option string; pp_patch : bool }.
(** a version: the string, and its parts parsed by int *)
Record vers := mkV { v_string : string; v_parts : list (option Z) }.
Record world := mkW {
  w_python : string; w_mdp : string; w_revision : string;
  w_pp : imp ppmod;
  w_user : imp (option string); (* the module user with its attribute pp_secret *)
  w_shogun : imp (option string); (* Version_get_version_release(), or None for an AttributeError :499 *)
  w_svmutil : imp (option string); (* svmutil.libsvm._name, or an AttributeError *)
  w_libsvm : imp (option string); (* libsvm.__version__, or an AttributeError *)
  w_joblib : imp (option vers);
  w_sklearn : imp (option vers);
  w_scikits : imp (option vers) }.
Inductive cerr := CAttr.
(** the result: the registry, the secret of the module user, config.pp_monkeypatch_dirname set or not; or AttributeError with what was registered before *)
Record cstate := mkCS { s_conf : conf; s_secret : option string; s_patched : bool }.
Definition fnd (s : cstate) n v := mkCS (dep_found (s_conf s) n v) (s_secret s) (s_patched s).
Definition fld (s : cstate) n m := mkCS (dep_failed (s_conf s) n m) (s_secret s) (s_patched s).
(** :443-481; the secret of user is set before MDP_DISABLE_PARALLEL_PYTHON is looked at *)
Definition conf_pp (e : env) (w : world) (s : cstate) : cstate :=
  match w_pp w with
  | IFail m => fld s "parallel_python" m
  | IOk pp =>
      let secret := if on (e_pp_secret e) then match e_pp_secret e with Some x => x | None => "" end else "mdp-pp-support-password" in
      match w_user w with
      | IFail m => fld s "parallel_python" m
      | IOk u =>
          let s := mkCS (s_conf s) (match u with None => Some secret | Some x => Some x end) (s_patched s) in
          if on (e_no_pp e) then fld s "parallel_python" "disabled"
          else match pp_server pp with
               | Some m => fld s "parallel_python" m
               | None =>
                   if pp_patch pp then
                     if on (e_no_patch e) then fld s "parallel_python" (pp_version pp ++ " broken on Debian")
                     else let s := fnd s "parallel_python" (pp_version pp ++ "-monkey-patched") in mkCS (s_conf s) (s_secret s) true
                   else fnd s "parallel_python" (pp_version pp)
               end
      end
  end.
(** :483-507 *)
Definition conf_shogun (e : env) (w : world) (s : cstate) : cstate :=
  match w_shogun w with
  | IFail m => fld s "shogun" m
  | IOk v =>
      if on (e_no_shogun e) then fld s "shogun" "disabled"
      else match v with
           | None => fld s "shogun" "only shogun v1 is supported"
           | Some v => if String.prefix "v1." v then fnd s "shogun" v else fld s "shogun" "only shogun v1 is supported"
           end
  end.
(** :509-531; only ImportError is caught *)
Definition conf_libsvm (e : env) (w : world) (s : cstate) : cstate * option cerr :=
  if on (e_no_libsvm e) then (fld s "libsvm" "disabled", None)
  else match w_svmutil w with
       | IOk (Some n) => (fnd s "libsvm" n, None)
       | IOk None => (s, Some CAttr)
       | IFail m =>
           match w_libsvm w with
           | IOk (Some v) => (fnd s "libsvm" v, None)
           | IOk None => (s, Some CAttr)
           | IFail m' => (fld s "libsvm" (m ++ " " ++ m'), None)
           end
       end.
(** :533-546 *)
Definition conf_joblib (e : env) (w : world) (s : cstate) : cstate * option cerr :=
  match w_joblib w with
  | IFail m => (fld s "joblib" m, None)
  | IOk None => (s, Some CAttr)
  | IOk (Some v) =>
      (if on (e_no_joblib e) then fld s "joblib" "disabled"
       else if truthy (too_old (v_parts v) [0; 4; 3]%Z) then fld s "joblib" ("version " ++ v_string v ++ " is too old")
       else fnd s "joblib" (v_string v), None)
  end.
(** :548-566; scikits.learn is tried if sklearn cannot be imported *)
Definition conf_sklearn (e : env) (w : world) (s : cstate) : cstate :=
  match match w_sklearn w with IOk v => IOk v | IFail _ => w_scikits w end with
  | IFail m => fld s "sklearn" m
  | IOk None => fld s "sklearn" "AttributeError"
  | IOk (Some v) =>
      if on (e_no_sklearn e) then fld s "sklearn" "disabled"
      else if truthy (too_old (v_parts v) [0; 6]%Z) then fld s "sklearn" ("version " ++ v_string v ++ " is too old")
      else fnd s "sklearn" (v_string v)
  end.
Definition set_configuration (e : env) (w : world) (c : conf) : cstate * option cerr :=
  let s := mkCS c (match w_user w with IOk u => u | IFail _ => None end) false in
  let s := fnd s "python" (w_python w) in
  let s := fnd s "mdp" (if negb (String.eqb (w_revision w) "") then w_mdp w ++ ", " ++ w_revision w else w_mdp w) in
  let s := conf_pp e w s in
  let s := conf_shogun e w s in
  match conf_libsvm e w s with
  | (s, Some x) => (s, Some x)
  | (s, None) => match conf_joblib e w s with
                 | (s, Some x) => (s, Some x)
                 | (s, None) => (conf_sklearn e w s, None)
                 end
  end.
