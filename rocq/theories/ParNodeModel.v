(** Model of mdp/parallel/parallelnodes.py, parallelclassifiers.py and parallelhinet.py: fork and join of the nodes which can be trained in parallel.

    The nodes are those of PCAModel.v, SFAModel.v, FDAModel.v, VSFAModel.v, ClassModel.v and GaussModel.v.  A chunk has at least one row, so that
    CovarianceMatrix._cov_mtx is None exactly as long as _tlen is 0.  The state after an exception is kept.  The dimensions and dtypes of a node and its fork agree;
    the input dimension is fixed.  A join takes over objects of the fork: in the models of the nodes the objects are values; [ref_join] is a model with references.
    How the extension mechanism attaches the methods to the classes is in ExtModel.v; a class inherits _fork and _join of its base class. *)
From Coq Require Import String List Arith ZArith QArith Qcanon Bool.
From Verif Require Import CovModel ClassModel GaussModel OField PCAModel SymeigModel SFAModel FDAModel VSFAModel.
Import ListNotations.
Open Scope nat_scope.

(** TypeError, AttributeError, NotForkableParallelException *)
Inductive jerr := JType | JAttribute | JNotForkable.
Inductive jres := JOk | JErr (e : jerr).

(** ** ParallelExtensionNode._default_fork, parallelnodes.py:117-163 *)
Section DefaultFork.
  Variable V : Type.                      (* values of attributes *)
  (** the arguments of __init__ after self; the last [k_defaults] of them have a default value *)
  Record klass := mkKl { k_args : list string; k_defaults : nat }.
  Definition required (c : klass) : list string := firstn (length (k_args c) - k_defaults c) (k_args c).
  Inductive fork_result := Forked (kwargs : list (string * V)) | Refused (e : jerr).
  Definition has (d : list (string * V)) (k : string) : bool := existsb (fun p : string * V => String.eqb (fst p) k) d.
  (** [attr] is getattr, None if the attribute does not exist.  The call of the constructor raises TypeError if a required argument is missing *)
  Definition construct (c : klass) (kwargs : list (string * V)) : fork_result :=
    if forallb (has kwargs) (required c) then Forked kwargs else Refused JType.
  Definition default_fork (c : klass) (attr : string -> option V) : fork_result :=
    let args := k_args c in
    let non_default_keys := if k_defaults c =? 0 then [] else required c in
    let look (name : string -> string) := flat_map (fun k => match attr (name k) with Some v => [(k, v)] | None => [] end) in
    let kwargs := look (fun k => k) args in
    let args := filter (fun k => negb (has kwargs k)) args in
    let under := look (append "_") args in
    let args := filter (fun k => negb (has under k)) args in
    if existsb (fun k => existsb (String.eqb k) args) non_default_keys then Refused JNotForkable
    else construct c (kwargs ++ under).
End DefaultFork.
Arguments Forked {V}. Arguments Refused {V}. Arguments has {V}. Arguments construct {V}. Arguments default_fork {V}.

(** ** ParallelExtensionNode.join, parallelnodes.py:66-82: the attributes dtype, input_dim, output_dim and _train_phase_started *)
Record generic := mkGen { ge_dtype : option nat; ge_in : option nat; ge_out : option nat; ge_started : bool }.
Definition first_of {T} (a b : option T) : option T := match a with None => b | _ => a end.
Definition generic_join (s f : generic) : generic :=
  mkGen (first_of (ge_dtype s) (ge_dtype f)) (first_of (ge_in s) (ge_in f)) (first_of (ge_out s) (ge_out f)) (ge_started s || ge_started f).

Section Moments.
  Context {K : ofield}.
  Notation vec := (OField.vec (K := K)). Notation mtx := (mtx (K := K)). Notation acc := (acc (K := K)). Notation pca := (pca (K := K)). Notation sfa := (sfa (K := K)).
  Notation fda := (fda (K := K)). Notation vsfa := (vsfa (K := K)). Notation vacc := (vacc (K := K)).

  (** _join_covariance, parallelnodes.py:165-174; None + None: TypeError, see the callers *)
  Definition acc_join (a b : acc) : acc := mkAcc (fun i j => a_m a i j + a_m b i j)%of (fun i => a_s a i + a_s b i)%of (a_n a + a_n b).

  (** ** ParallelPCANode, parallelnodes.py:179-191 *)
  Definition pca_fork (s : pca) : pca := pca_new (match p_out s with Some n => OInt n | None => ONone end).
  Definition pca_join (s f : pca) : pca * jres :=
    let set a := mkP (first_of (p_out s) (p_out f)) (p_desired s) a (p_tlen s) (p_avg s) (p_d s) (p_v s) (p_vartot s) (p_expl s) (p_started s || p_started f) (p_training s) in
    match p_acc s, p_acc f with
    | Some a, Some b =>
        if a_n a =? 0 then (set (Some b), JOk)
        else if a_n b =? 0 then (set (Some a), JErr JType)
        else (set (Some (acc_join a b)), JOk)
    | a, _ => (set a, JErr JAttribute)
    end.

  (** ** ParallelSFANode, parallelnodes.py:194-208; the rank_deficit_method is not an attribute, the fork has the default 'none' *)
  Definition sfa_fork (s : sfa) : sfa := sfa_new (s_out s) (s_incl s) MNone.
  Definition sfa_join (s f : sfa) : sfa * jres :=
    let set a := mkS (first_of (s_out s) (s_out f)) (s_incl s) a (s_mats s) (s_avg s) (s_tlen s) (s_dtlen s) (s_meth s) (s_dfc s) (s_d s) (s_sf s) (s_bias s) (s_started s || s_started f) (s_training s) in
    match s_accs s, s_accs f with
    | Some (c, dc), Some (fc, fdc) =>
        if a_n c =? 0 then (set (Some (fc, fdc)), JOk)
        else if a_n fc =? 0 then (set (Some (c, dc)), JErr JType)
        else if a_n fdc =? 0 then (set (Some (acc_join c fc, dc)), JErr JType)
        else (set (Some (acc_join c fc, acc_join dc fdc)), JOk)
    | a, _ => (set a, JErr JAttribute)
    end.

  (** ** VartimeSFANode inherits these methods; VartimeCovarianceMatrix has the additional attributes tchunk and xlast, which are not joined *)
  Definition vacc_join (a b : vacc) : vacc := mkW (fun i j => w_m a i j + w_m b i j)%of (fun i => w_s a i + w_s b i)%of (w_t a + w_t b)%of (w_chunks a) (w_last a).
  Definition vsfa_fork (s : vsfa) : vsfa := vsfa_new (s_out (v_sfa s)) MNone.
  Definition vsfa_join (s f : vsfa) : vsfa * jres :=
    let b := v_sfa s in
    let b := mkS (first_of (s_out b) (s_out (v_sfa f))) (s_incl b) (s_accs b) (s_mats b) (s_avg b) (s_tlen b) (s_dtlen b) (s_meth b) (s_dfc b) (s_d b) (s_sf b) (s_bias b)
                 (s_started b || s_started (v_sfa f)) (s_training b) in
    let set a := mkVS b a (v_tlen s) (v_dtlen s) (v_tchunk s) (v_xlast s) in
    match v_accs s, v_accs f with
    | Some (c, dc), Some (fc, fdc) =>
        if w_chunks c =? 0 then (set (Some (fc, fdc)), JOk)
        else if w_chunks fc =? 0 then (set (Some (c, dc)), JErr JType)
        else if w_chunks fdc =? 0 then (set (Some (vacc_join c fc, dc)), JErr JType)
        else (set (Some (vacc_join c fc, vacc_join dc fdc)), JOk)
    | a, _ => (set a, JErr JAttribute)
    end.

  (** ** ParallelFDANode, parallelnodes.py:211-243 *)
  Definition fda_fork (s : fda) : fda :=
    if f_phase s =? 1 then mkF (f_out s) (f_means s) 1 (f_started s) (Some acc_new) (Some None) (f_v s) (f_avg s) else fda_new (f_out s).
  Definition means_join (d e : nat -> option (vec * nat)) : nat -> option (vec * nat) :=
    fun l => match e l with
             | None => d l
             | Some (m', n') => match d l with Some (m, n) => Some ((fun i => m i + m' i)%of : vec, n + n') | None => Some (m', n') end
             end.
  Definition fda_join (s f : fda) : fda * jres :=
    let set m a w := mkF (first_of (f_out s) (f_out f)) m (f_phase s) (f_started s || f_started f) a w (f_v s) (f_avg s) in
    if f_phase s =? 1 then
      let same := set (f_means s) (f_all s) (f_sw s) in
      if negb (f_phase f =? 1) then (same, JErr JNotForkable)
      else
        match f_sw s with
        | None => (same, JErr JAttribute)
        | Some None => match f_all f, f_sw f with Some b, Some v => (set (f_means s) (Some b) (Some v), JOk) | _, _ => (same, JErr JAttribute) end
        | Some (Some w) =>
            match f_all s, f_all f with
            | Some a, Some b =>
                if (a_n a =? 0) || (a_n b =? 0) then (same, JErr JType)
                else
                  let joined := set (f_means s) (Some (acc_join a b)) in
                  match f_sw f with
                  | Some (Some v) => (joined (Some (Some (fun i j => w i j + v i j)%of)), JOk)
                  | Some None => (joined (f_sw s), JErr JType)
                  | None => (joined (f_sw s), JErr JAttribute)
                  end
            | _, _ => (same, JErr JAttribute)
            end
        end
    else (set (means_join (f_means s) (f_means f)) (f_all s) (f_sw s), JOk).
End Moments.

(** ** NIPALSNode (mdp/nodes/nipals.py:11-142) inherits the methods of ParallelPCANode.  It collects its data with Cumulator (mdp/signal_node.py:763-784): data, tlen.
    The covariance matrix of PCANode stays without data, so that a join only exchanges one covariance matrix without data for another one *)
Section Nipals.
  Context {A : Type}.                     (* rows *)
  Record nip := mkNip { ni_out : option nat; ni_data : list (list A); ni_tlen : nat; ni_started : bool; ni_training : bool }.
  Inductive nres (T : Type) := NOk (v : T) | NTraining | NFinished | NValue.
  Arguments NOk {T}. Arguments NTraining {T}. Arguments NFinished {T}. Arguments NValue {T}.
  Definition nip_new (out : option nat) : nip := mkNip out [] 0 false true.
  Definition nip_train (s : nip) (x : list A) : nip * nres unit :=
    if negb (ni_training s) then (s, NFinished) else (mkNip (ni_out s) (ni_data s ++ [x]) (ni_tlen s + length x) true true, NOk tt).
  (** stop_training up to the data array used by the algorithm: numx.concatenate([]) is a ValueError *)
  Definition nip_stop_data (s : nip) : nres (list A) :=
    if ni_training s && negb (ni_started s) then NTraining
    else if negb (ni_training s) then NFinished
    else match ni_data s with [] => NValue | l => NOk (concat l) end.
  Definition nip_fork (s : nip) : nip := nip_new (ni_out s).
  Definition nip_join (s f : nip) : nip * jres :=
    (mkNip (first_of (ni_out s) (ni_out f)) (ni_data s) (ni_tlen s) (ni_started s || ni_started f) (ni_training s), JOk).

  (** ** HistogramNode with hist_fraction 1 (mdp/nodes/misc_nodes.py:892-903): data_hist; ParallelHistogramNode, parallelnodes.py:246-257 *)
  Definition hist_train (s : option (list A)) (x : list A) : option (list A) := match s with Some h => Some (h ++ x) | None => Some x end.
  Definition hist_fork (s : option (list A)) : option (list A) := None.
  Definition hist_join (s f : option (list A)) : option (list A) := match s, f with Some a, Some b => Some (a ++ b) | None, Some b => Some b | _, None => s end.
End Nipals.
Arguments NOk {T}. Arguments NTraining {T}. Arguments NFinished {T}. Arguments NValue {T}.

(** ** the classifiers, parallelclassifiers.py; a dictionary is the list of its items in the order of insertion *)
Section Classifiers.
  Context {L : Type} (eqL : forall a b : L, {a = b} + {a <> b}).
  Notation vec := ClassModel.vec.
  (** ParallelNearestMeanClassifier :28-42 *)
  Definition nm_join (s f : nm_state (L := L)) : nm_state :=
    fold_left (fun s (e : L * (vec * nat)) => dupd eqL (fun o => match o with Some (m, n) => (vadd m (fst (snd e)), n + snd (snd e)) | None => snd e end) (fst e) s) f s.
  (** ParallelKNNClassifier :44-57 *)
  Definition knn_join (s f : knn_state (L := L)) : knn_state :=
    fold_left (fun s (e : L * list (list vec)) => dupd eqL (fun o => match o with Some c => c ++ snd e | None => snd e end) (fst e) s) f s.
  (** _join_covariance, parallelnodes.py:165-174; None: TypeError *)
  Definition cov_join (a b : cov) : option cov :=
    match c_acc a, c_acc b with
    | Some (m, u), Some (m', u') => Some (mkCov (Some ((fun i j => m i j + m' i j)%Qc, (fun i => u i + u' i)%Qc)) (c_tlen a + c_tlen b))
    | _, _ => None
    end.
  (** ParallelGaussianClassifier :10-25; false: TypeError *)
  Fixpoint objs_join (s f : list (L * cov)) : list (L * cov) * bool :=
    match f with
    | [] => (s, true)
    | (k, c) :: f =>
        match dget eqL k s with
        | None => objs_join (s ++ [(k, c)]) f
        | Some b => match cov_join b c with None => (s, false) | Some j => objs_join (dupd eqL (fun _ => j) k s) f end
        end
    end.
  Definition gauss_join (s f : gauss (L := L)) : gauss * bool :=
    let set o := mkG o (g_dets s) (g_invs s) (g_means s) (g_p s) (g_labels s) in
    match g_objs s with [] => (set (g_objs f), true) | _ => let (o, b) := objs_join (g_objs s) (g_objs f) in (set o, b) end.
End Classifiers.

(** ** references: a node with one covariance object, as PCANode.  [heap] gives for a reference the accumulated sums, None before the first update *)
Section Heap.
  Variables (M : Type) (add : M -> M -> M).
  Definition heap := nat -> option M.
  Definition put (h : heap) (r : nat) (v : option M) : heap := fun q => if q =? r then v else h q.
  (** _join :185-191 with the references of the covariance objects of the node and the fork: the new heap and the new reference of the node; None: TypeError *)
  Definition ref_join (h : heap) (s f : nat) : option (heap * nat) :=
    match h s with
    | None => Some (h, f)
    | Some a => match h f with None => None | Some b => Some (put h s (Some (add a b)), s) end
    end.
  Fixpoint ref_joins (h : heap) (s : nat) (fs : list nat) : option (heap * nat) :=
    match fs with [] => Some (h, s) | f :: fs => match ref_join h s f with Some (h, s) => ref_joins h s fs | None => None end end.
End Heap.

(** ** containers of nodes, parallelhinet.py; [N] are the nodes *)
Section Containers.
  Variable N : Type.
  Variables (training exec_fork : N -> bool) (forkN : N -> option N) (joinN : N -> N -> option N).
  (** ParallelLayer._fork :50-58; None: an exception of fork *)
  Fixpoint layer_fork (l : list N) : option (list N) :=
    match l with
    | [] => Some []
    | a :: r => match (if training a then forkN a else Some a), layer_fork r with Some b, Some r => Some (b :: r) | _, _ => None end
    end.
  (** ParallelLayer._join :60-64 *)
  Fixpoint layer_join (l f : list N) : option (list N) :=
    match l, f with
    | a :: r, b :: q => match (if training a then joinN a b else Some a), layer_join r q with Some c, Some r => Some (c :: r) | _, _ => None end
    | [], _ => Some []
    | a :: r, [] => if existsb training l then None else Some l
    end.
  (** use_execute_fork :43-44, :66-67 *)
  Definition any_exec_fork (l : list N) : bool := existsb exec_fork l.
  (** ParallelFlowNode._fork :16-31; [found] is found_train_node *)
  Fixpoint flow_fork (found : bool) (l : list N) : option (list N) :=
    match l with
    | [] => Some []
    | a :: r =>
        let first := negb found && training a in
        match (if first || exec_fork a then forkN a else Some a), flow_fork (found || first) r with Some b, Some r => Some (b :: r) | _, _ => None end
    end.
  (** ParallelFlowNode._join :33-41 *)
  Fixpoint flow_join (found : bool) (l f : list N) : option (list N) :=
    match l, f with
    | a :: r, b :: q =>
        let first := negb found && training b in
        match (if first || exec_fork b then joinN a b else Some a), flow_join (found || first) r q with Some c, Some r => Some (c :: r) | _, _ => None end
    | l, _ => Some l
    end.
  (** ParallelCloneLayer :70-82: one node and the number of its uses *)
  Definition clone_fork (c : N * nat) : option (N * nat) := option_map (fun b => (b, snd c)) (forkN (fst c)).
  Definition clone_join (c f : N * nat) : option (N * nat) := option_map (fun b => (b, snd c)) (joinN (fst c) (fst f)).
End Containers.
