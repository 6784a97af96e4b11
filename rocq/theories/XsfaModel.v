(** Model of mdp/nodes/xsfa_nodes.py: ProjectionNode, NormalizeNode, and the schedule of training phases of XSFANode.

    Numbers are rationals; a row of data is a list, and a function of the column (0 outside) where CovModel.v (mdp/utils/covariance.py) is used.
    Simplifications: rows shorter than output_dim (numpy would clip or broadcast the slices) are refused by ProjectionNode here; numpy.sqrt is a
    parameter.  Of XSFANode the modules in the internal flow (what _get_source_extractor returns) are their number S and the count of the phases
    they went through; how many phases a module has is computed from the nodes it is composed of.  The data that pass through the modules are not
    modelled.  The other checks of Node.train and Node.stop_training (signal_node.py:591-639) are NodeModel.v; here only the counting is repeated. *)
From Coq Require Import QArith Qcanon List Arith Bool.
From Verif Require Import CovModel.
Import ListNotations.
Local Open Scope Qc_scope.

(** ** Slices of one row *)
(** x[:, -k:] is everything for k = 0; x[:, :-k] is nothing for k = 0 *)
Definition tail_cols {A} (k : nat) (r : list A) : list A := match k with O => r | _ => skipn (length r - k) r end.
Definition head_cols {A} (k : nat) (r : list A) : list A := match k with O => [] | _ => firstn (length r - k) r end.
(** x[:, -d:-l] = (x[:, :-l]) from column -d on *)
Definition mid_cols {A} (d l : nat) (r : list A) : list A :=
  match l with O => [] | _ => let a := match d with O => O | _ => (length r - d)%nat end in firstn (length r - l - a) (skipn a r) end.
Definition vec (r : list Qc) : row := fun i => nth i r 0.

(** ** ProjectionNode :280-312 *)
Record proj := mkP { p_S : nat; p_L : nat; p_acc : xcov; p_mtx : option mat }.
(** output_dim = S+1+L :291 *)
Definition p_out (p : proj) : nat := (p_S p + 1 + p_L p)%nat.
(** __init__ :284-292 *)
Definition proj_init (S L : nat) : proj := mkP S L xcov_init None.
(** _train :294-297; both slices have as many rows *)
Definition proj_train (p : proj) (x : list (list Qc)) : proj :=
  mkP (p_S p) (p_L p) (fst (xcov_update (p_acc p) (map (fun r => vec (head_cols (p_out p) r)) x) (map (fun r => vec (tail_cols (p_L p) r)) x))) (p_mtx p).
(** _stop_training :299-300 *)
Definition proj_stop (p : proj) : option proj :=
  match xcov_fix false (p_acc p) with (a, Some (m, _, _, _)) => Some (mkP (p_S p) (p_L p) a (Some m)) | (_, None) => None end.
(** _execute :302-312 on one row; None: ValueError, a slice of another width is assigned (or the node is not trained) *)
Definition proj_exec (p : proj) (r : list Qc) : option (list Qc) :=
  match p_mtx p with
  | None => None
  | Some m =>
      let src := mid_cols (p_out p) (p_L p) r in let ex := head_cols (p_out p) r in let inp := tail_cols (p_L p) r in
      let new := map (fun j => nth j inp 0 - qsum (map (fun k => nth k ex 0 * m k j) (seq 0 (length ex)))) (seq 0 (length inp)) in
      match p_L p with
      | O => if (length inp =? p_out p)%nat then Some new else None   (* result[:, -0:] is the whole result, result[:, :-0] nothing *)
      | _ => if (length inp =? p_L p)%nat && (length src =? p_out p - p_L p)%nat then Some (src ++ new) else None
      end
  end.

(** ** NormalizeNode :314-350 *)
Section Normalize.
  Variable sqrt : Qc -> Qc.
  Record nrm := mkN { n_m : row; n_s : row }.
  (** _train :338-339 with the chunks, then _stop_training :341-344; None: never trained (TypeError in fix) *)
  Definition nrm_train (chunks : list (list row)) : option nrm :=
    match cov_fix false true (fold_left cov_update chunks cov_init) with (_, Some (c, a, _)) => Some (mkN a (fun i => sqrt (c i i))) | (_, None) => None end.
End Normalize.
(** _execute :346-347, component i; None: nan or inf (division by zero) *)
Definition nrm_exec (n : nrm) (x : row) (i : nat) : option Qc := if Qc_eq_dec (n_s n i) 0 then None else Some ((x i - n_m n i) / n_s n i).
(** _inverse :349-350 *)
Definition nrm_inv (n : nrm) (y : row) (i : nat) : Qc := y i * n_s n i + n_m n i.

Local Open Scope nat_scope.
(** ** The number of training phases of a source extractor *)
(** a node with len(node._get_train_seq()) phases (1 also if it is not trainable, signal_node.py:428-429), a FlowNode, a Layer *)
Inductive comp := CNode (trainable : bool) (k : nat) | CFlow (l : list comp) | CLayer (l : list comp).
Fixpoint trainable (c : comp) : bool := match c with CNode b _ => b | CFlow l | CLayer l => existsb trainable l end.
(** len(_get_train_seq()): FlowNode (flownode.py:139-157) sums over its trainable nodes, none pretrained; Layer (layer.py:135-145) takes the maximum *)
Fixpoint seq_len (c : comp) : nat :=
  match c with
  | CNode _ k => k
  | CFlow l => list_sum (map (fun c => if trainable c then seq_len c else 0) l)
  | CLayer l => list_max (map seq_len l)
  end.
Definition identity := CNode false 1.
(** SFANode, WhiteningNode, NormalizeNode, ProjectionNode: one phase *)
Definition one_phase := CNode true 1.
(** _get_source_extractor :224-277; exp: the node of the internal expansion, out: output_dim.  A Flow of FlowNodes made with + stays a list of nodes *)
Definition extractor (exp : comp) (out S : nat) : comp :=
  let src_exp := CFlow [exp; one_phase; one_phase] in
  let n2cont := CLayer [CLayer [src_exp; identity]; identity] in
  let src_rem := CFlow [one_phase; CLayer [identity; one_phase]] in
  if S =? 0 then CFlow [CFlow [one_phase; n2cont]; src_rem]
  else if S =? out - 1 then CLayer [identity; one_phase]
  else CFlow [CFlow [CLayer [identity; one_phase]; n2cont]; src_rem].

(** ** XSFANode :9-222: the phases *)
Section Phases.
  Variable np : nat -> nat.        (* len(mod._train_seq) of module S *)
  Variable out : nat.              (* output_dim *)
  (** the modules in the flow behind the expansion (none: _flow is None) with the number of phases they went through, n_extracted_src, _train_phase, _training *)
  Record xsfa := mkXs { xs_mods : list (nat * nat); xs_src : nat; xs_phase : nat; xs_training : bool }.
  (** __init__ :118-125 *)
  Definition xs_init : xsfa := mkXs [] 0 0 true.
  (** _training_phases and _training_phases_mods, _initialize_internal_flow :181-193 *)
  Definition phases : list nat := map np (seq 0 out).
  Definition ends : list nat := map (fun i => list_sum (firstn (i + 1) phases)) (seq 0 (length phases - 1)).
  (** len(_get_train_seq()) :132-153 *)
  Definition n_phases (s : xsfa) : nat := match xs_mods s with [] => 2 | _ => list_sum phases end.
  (** get_remaining_train_phase, signal_node.py:447-453 *)
  Definition remaining (s : xsfa) : nat := n_phases s - xs_phase s.
  (** train: _check_train_args :161-167 makes the flow with module 0; _train :199-201 trains the last module.  None: TrainingFinishedException *)
  Definition xs_train (s : xsfa) : option xsfa :=
    if negb (xs_training s) then None else Some (match xs_mods s with [] => mkXs [(0, 0)] (xs_src s) (xs_phase s) true | _ => s end).
  (** self._flow[-1].stop_training() *)
  Fixpoint last_done (l : list (nat * nat)) : list (nat * nat) :=
    match l with [] => [] | (a, k) :: l' => match l' with [] => [(a, S k)] | _ => (a, k) :: last_done l' end end.
  (** stop_training: _stop_training :203-219, then the phase is counted (signal_node.py:634-639); None: an exception *)
  Definition xs_stop (s : xsfa) : option xsfa :=
    if negb (xs_training s) then None else
    match xs_mods s with
    | [] => None
    | mods =>
        let mods := last_done mods in
        let cur := xs_phase s + 1 in
        let more := existsb (Nat.eqb cur) ends && negb (xs_src s =? out - 1) in
        let src := if more then xs_src s + 1 else xs_src s in
        let s' := mkXs (if more then mods ++ [(src, 0)] else mods) src cur true in
        Some (if remaining s' =? 0 then mkXs (xs_mods s') src cur false else s')
    end.
  (** one phase: some training, then stop_training *)
  Definition xs_round (s : xsfa) : option xsfa := match xs_train s with Some s => xs_stop s | None => None end.
  Fixpoint xs_run (n : nat) (s : xsfa) : option xsfa := match n with 0 => Some s | S n => match xs_round s with Some s => xs_run n s | None => None end end.
End Phases.
