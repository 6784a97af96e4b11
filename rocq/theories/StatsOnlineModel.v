(** Model of mdp/nodes/stats_nodes_online.py: OnlineCenteringNode and OnlineTimeDiffNode, as subclasses of OnlineNode (OnlineModel), in
    exact rational arithmetic.  The payload of an array is the list of its rows; a row is a function from column indices to rationals. *)
From Coq Require Import List Arith QArith Qcanon Bool.
From Verif Require Import CovModel NodeModel OnlineModel.
Import ListNotations.
Open Scope nat_scope.

(** x[i:i+1] *)
Definition pick (i : nat) (d : list row) : list row := firstn 1 (skipn i d).
Notation rarray := (array (list row)).
Definition with_data (x : rarray) (d : list row) : rarray := mkArray (a_ndim x) (length d) (a_cols x) (a_dtype x) d.

Section Nodes.
  Variable sup : dtype -> bool.           (* get_supported_dtypes *)

  (** ** OnlineCenteringNode :4-116; avg_n (a natural number or None) and avg *)
  Record cent := mkCent { c_n : option nat; c_avg : option row }.
  (** alpha in _train :59-62 *)
  Definition alpha (n : option nat) (it : nat) : Qc :=
    (match n with None => 1 / (qn it + 1) | Some k => if (0 <? it)%nat then (1 + 1) / (qn k + 1) else 1 end)%Qc.
  (** _check_params :50-52 *)
  Definition cent_ini (v : view (attrs cent)) (x : rarray) : option cent :=
    let i := at_own (v_int _ v) in match c_avg i with None => Some (mkCent (c_n i) (Some zero_row)) | Some _ => None end.
  (** _train :57-64; called with single rows only (training type 'incremental') *)
  Definition cent_upd (v : view (attrs cent)) (x : rarray) : cent :=
    let i := at_own (v_int _ v) in
    let al := alpha (c_n i) (at_iter (v_int _ v)) in
    let av := match c_avg i with Some a => a | None => zero_row end in
    let r := hd zero_row (a_data x) in
    mkCent (c_n i) (Some (fun j => ((1 - al) * av j + al * r j)%Qc)).
  (** _execute :66-77, _inverse :79-91; numpy cannot subtract None (TypeError) *)
  Definition cent_map (f : Qc -> Qc -> Qc) (v : view (attrs cent)) (x : rarray) : res rarray :=
    if at_iter (v_int _ v) <=? 1 then Ok x
    else match c_avg (at_own (v_int _ v)) with
         | None => Err (HookErr 0)
         | Some a => Ok (with_data x (map (fun (r : row) j => f (r j) (a j)) (a_data x)))
         end.
  Definition put {I} (o : option I) : prog I unit := match o with None => PRet (Ok tt) | Some i => PSet i (PRet (Ok tt)) end.
  Definition cent_node : obehaviour (list row) unit cent :=
    mkOB _ _ _ true true true sup [false] 1 (fun _ _ _ => None)
      (fun v x => put (cent_ini v x)) (fun _ v x _ => PSet (cent_upd v x) (PRet (Ok tt))) (fun _ _ _ => PRet (Ok tt)) (fun _ => None)
      (fun v x _ => PRet (cent_map Qcminus v x)) (fun v x _ => PRet (cent_map Qcplus v x)).
  Definition cent0 (n : option nat) : cent := mkCent n None.

  (** ** OnlineTimeDiffNode :119-194; x_prev and x_cur *)
  Definition td := option (list row * list row).
  (** _check_params :170-173 *)
  Definition td_ini (v : view (attrs td)) (x : rarray) : option td :=
    match at_own (v_int _ v) with None => Some (Some (repeat zero_row (a_rows x), repeat zero_row (a_rows x))) | Some _ => None end.
  (** x[-1:] *)
  Definition last_row (d : list row) : list row := match rev d with [] => [] | r :: _ => [r] end.
  (** _train :175-178 *)
  Definition td_upd (v : view (attrs td)) (x : rarray) : td :=
    Some (match at_own (v_int _ v) with Some (_, cur) => cur | None => [] end, last_row (a_data x)).
  (** x[1:] - x[:-1] *)
  Fixpoint diffs (l : list row) : list row :=
    match l with a :: (b :: _) as r => (fun j => (b j - a j)%Qc) :: diffs r | _ => [] end.
  (** _execute :184-194 *)
  Definition td_exec (v : view (attrs td)) (x : rarray) : res rarray :=
    match at_own (v_int _ v) with None => Err (HookErr 0) | Some (prev, _) => Ok (with_data x (diffs (prev ++ a_data x))) end.
  Definition td_node : obehaviour (list row) unit td :=
    mkOB _ _ _ true false true sup [false; true] 1 (fun _ _ _ => None)
      (fun v x => put (td_ini v x)) (fun _ v x _ => PSet (td_upd v x) (PRet (Ok tt))) (fun _ _ _ => PRet (Ok tt)) (fun _ => None)
      (fun v x _ => PRet (td_exec v x)) (fun v x _ => PRet (Err IsNotInvertible)).
End Nodes.
