(** Model of mdp/hinet/flownode.py: FlowNode, a flow wrapped into a node.

    The enclosed flow is a FlowModel flow; the FlowNode's own Node attributes are a record.  Additional arguments of train go to
    the node being trained (flownode.py:142-149).  Not modelled: the automatic training of Node._pre_execution_checks for a
    FlowNode whose training has not begun, additional arguments of execute, verbose printing. *)
From Coq Require Import List Arith ZArith Bool.
From Verif Require Import NodeModel FlowModel.
Import ListNotations.
Open Scope nat_scope.

(** An exception of the Node machinery or of the enclosed flow *)
Inductive nexn := NX (e : exn) | NF (e : fexn).
Inductive nres (R : Type) := NOk (r : R) | NErr (e : nexn).
Arguments NOk {R} _. Arguments NErr {R} _.

Section FN.
  Variables (D A I : Type) (na : A).
  Notation fnode := (fnode D A I).
  Notation f_b := (f_b D A I). Notation f_s := (f_s D A I). Notation with_s := (with_s D A I).
  Notation flow := (flow D A I).

  Record fnn := mkFN {
    fn_flow : flow;                                     (* _flow *)
    fn_in : option nat; fn_out : option nat; fn_dt : option dtype;
    fn_pre : list Z;                                    (* _pretrained_phase *)
    fn_trainable : bool; fn_training : bool; fn_phase : Z; fn_started : bool }.
  Definition set_flow s v := mkFN v (fn_in s) (fn_out s) (fn_dt s) (fn_pre s) (fn_trainable s) (fn_training s) (fn_phase s) (fn_started s).
  Definition set_in s v := mkFN (fn_flow s) v (fn_out s) (fn_dt s) (fn_pre s) (fn_trainable s) (fn_training s) (fn_phase s) (fn_started s).
  Definition set_out s v := mkFN (fn_flow s) (fn_in s) v (fn_dt s) (fn_pre s) (fn_trainable s) (fn_training s) (fn_phase s) (fn_started s).
  Definition set_dt s v := mkFN (fn_flow s) (fn_in s) (fn_out s) v (fn_pre s) (fn_trainable s) (fn_training s) (fn_phase s) (fn_started s).
  Definition set_started s v := mkFN (fn_flow s) (fn_in s) (fn_out s) (fn_dt s) (fn_pre s) (fn_trainable s) (fn_training s) (fn_phase s) v.
  Definition set_phase s v := mkFN (fn_flow s) (fn_in s) (fn_out s) (fn_dt s) (fn_pre s) (fn_trainable s) (fn_training s) v (fn_started s).
  Definition set_training s v := mkFN (fn_flow s) (fn_in s) (fn_out s) (fn_dt s) (fn_pre s) (fn_trainable s) v (fn_phase s) (fn_started s).

  Definition FM (R : Type) := fnn -> fnn * nres R.
  Definition fbind {R T} (m : FM R) (f : R -> FM T) : FM T :=
    fun s => match m s with (s', NOk r) => f r s' | (s', NErr e) => (s', NErr e) end.
  Definition fok : FM unit := fun s => (s, NOk tt).

  (** an operation on the enclosed flow *)
  Definition on_flow (m : flow -> flow * res unit) : FM unit := fun s =>
    match m (fn_flow s) with (fs, Ok _) => (set_flow s fs, NOk tt) | (fs, Err e) => (set_flow s fs, NErr (NX e)) end.
  Definition at_node (j : nat) (m : behaviour D A I -> M D A I unit) (fs : flow) : flow * res unit :=
    match nth_error fs j with
    | None => (fs, Err IndexErr)
    | Some f => let (t, r) := m (f_b f) (f_s f) in (update D A I fs j (with_s f t), r)
    end.
  Definition last_of (fs : flow) : option fnode := nth_error fs (length fs - 1).
  Definition out_of (f : option fnode) : option nat := match f with Some f => n_out D A I (f_s f) | None => None end.
  Definition in_of (f : option fnode) : option nat := match f with Some f => n_in D A I (f_s f) | None => None end.
  (** Flow._check_nodes_consistency, linear_flows.py:471-485, as in FlowListModel: [(out and inp) is not None and out != inp] *)
  Definition clash (out inp : option nat) : bool :=
    match out, inp with
    | None, _ => false
    | Some 0, Some 0 => false
    | Some 0, _ => true
    | Some _, None => false
    | Some o, Some i => negb (o =? i)
    end.
  Fixpoint clashes (fs : flow) : bool :=
    match fs with
    | f :: ((g :: _) as fs') => clash (n_out D A I (f_s f)) (n_in D A I (f_s g)) || clashes fs'
    | _ => false
    end.
  (** (its ValueError or TypeError is reported as FExc) *)
  Definition check_consistency : FM unit := fun s => if clashes (fn_flow s) then (s, NErr (NF FExc)) else (s, NOk tt).

  (** _set_input_dim :74-80 and Node.set_input_dim (signal_node.py:305-320) *)
  Definition fn_set_input_dim (n : option nat) : FM unit := fun s =>
    match n with
    | None => (s, NOk tt)
    | Some n =>
        if match fn_in s with Some m => negb (m =? n) | None => false end then (s, NErr (NX InconsistentDim)) else
        (fbind (on_flow (at_node 0 (fun b => set_input_dim D A I b (Some n)))) (fun _ =>
         fbind check_consistency (fun _ s => (set_in s (Some n), NOk tt)))) s
    end.

  (** _fix_nodes_dimensions :105-116: the loop *)
  Fixpoint fix_in (prev : option nat) (fs : flow) : flow * res unit :=
    match fs with
    | [] => ([], Ok tt)
    | f :: fs =>
        match (match n_in D A I (f_s f) with None => set_input_dim D A I (f_b f) prev (f_s f) | Some _ => (f_s f, Ok tt) end) with
        | (t, Err e) => (with_s f t :: fs, Err e)
        | (t, Ok _) => let (fs', r) := fix_in (n_out D A I t) fs in (with_s f t :: fs', r)
        end
    end.
  Definition fix_loop (fs : flow) : flow * res unit :=
    match fs with [] => ([], Ok tt) | f :: fs => let (fs', r) := fix_in (n_out D A I (f_s f)) fs in (f :: fs', r) end.
  (** the end of _set_output_dim :97-103 *)
  Definition out_finish (n : nat) : FM unit := fun s =>
    match out_of (last_of (fn_flow s)) with
    | Some o => if n =? o then (set_out s (Some n), NOk tt) else (s, NErr (NX InconsistentDim))
    | None => (s, NErr (NX InconsistentDim))
    end.
  (** [self.output_dim = self._flow[-1].output_dim] :114-116, for a last node whose output_dim is set *)
  Definition out_known : FM unit := fun s =>
    match out_of (last_of (fn_flow s)) with
    | None => (s, NOk tt)
    | Some n =>
        if match fn_out s with Some m => negb (m =? n) | None => false end then (s, NErr (NX InconsistentDim)) else
        if length (fn_flow s) =? 1
        then fbind (on_flow (at_node 0 (fun b => set_output_dim D A I b (Some n)))) (fun _ => out_finish n) s
        else out_finish n s
    end.
  Definition fix_dims : FM unit := fun s =>
    if 1 <? length (fn_flow s)
    then fbind (on_flow fix_loop) (fun _ => fbind check_consistency (fun _ => out_known)) s
    else out_known s.
  (** _set_output_dim :82-103 and Node.set_output_dim (signal_node.py:333-348) *)
  Definition fn_set_output_dim (n : option nat) : FM unit := fun s =>
    match n with
    | None => (s, NOk tt)
    | Some n =>
        if match fn_out s with Some m => negb (m =? n) | None => false end then (s, NErr (NX InconsistentDim)) else
        if length (fn_flow s) =? 1
        then fbind (on_flow (at_node 0 (fun b => set_output_dim D A I b (Some n)))) (fun _ => out_finish n) s
        else match out_of (last_of (fn_flow s)) with
             | Some _ => out_finish n s
             | None =>
                 fbind fix_dims (fun _ s =>
                   match out_of (last_of (fn_flow s)) with
                   | Some _ => out_finish n s
                   | None =>
                       match in_of (last_of (fn_flow s)) with
                       | None => (s, NErr (NX InconsistentDim))
                       | Some _ => fbind (on_flow (at_node (length (fn_flow s) - 1) (fun b => set_output_dim D A I b (Some n)))) (fun _ => out_finish n) s
                       end
                   end) s
             end
    end.

  (** _set_dtype :118-124 and Node.set_dtype (signal_node.py:361-383) with _get_supported_dtypes :126-131 *)
  Fixpoint dtype_all (t : dtype) (fs : flow) : flow * res unit :=
    match fs with
    | [] => ([], Ok tt)
    | f :: fs =>
        match set_dtype D A I (f_b f) (Some t) (f_s f) with
        | (u, Err e) => (with_s f u :: fs, Err e)
        | (u, Ok _) => let (fs', r) := dtype_all t fs in (with_s f u :: fs', r)
        end
    end.
  Definition fn_set_dtype (t : option dtype) : FM unit := fun s =>
    match t with
    | None => (s, NOk tt)
    | Some t =>
        if match fn_dt s with Some m => negb (m =? t) | None => false end then (s, NErr (NX NodeExc)) else
        if negb (forallb (fun f => b_supported _ _ _ (f_b f) t) (fn_flow s)) then (s, NErr (NX NodeExc)) else
        fbind (on_flow (dtype_all t)) (fun _ s => (set_dt s (Some t), NOk tt)) s
    end.

  (** _get_train_seq :139-171: the node trained in each phase *)
  Fixpoint train_seq (i : nat) (fs : flow) (pre : list Z) : list nat :=
    match fs, pre with
    | f :: fs, p :: pre =>
        (if b_trainable _ _ _ (f_b f) then repeat i (Z.to_nat (Z.of_nat (b_phases _ _ _ (f_b f)) - p)) else []) ++ train_seq (S i) fs pre
    | _, _ => []
    end.
  Definition fn_seq (s : fnn) : list nat := train_seq 0 (fn_flow s) (fn_pre s).

  (** __init__ :24-63; the dims and dtype are those given or those of the first and last node *)
  Definition fn_init (fs : flow) (din dout : option nat) (dt : option dtype) : fnn * nres unit :=
    let pre := map (fun f => n_phase D A I (f_s f)) fs in
    let din := match din with None => in_of (nth_error fs 0) | d => d end in
    let dout := match dout with None => out_of (last_of fs) | d => d end in
    let dt := match dt with None => match last_of fs with Some f => n_dt D A I (f_s f) | None => None end | d => d end in
    let blank := mkFN fs None None None pre false false (-1)%Z false in
    match fs with
    | [] => (blank, NErr (NX IndexErr))
    | _ =>
        let tr := match train_seq 0 fs pre with [] => false | _ => true end in
        match fbind (fn_set_input_dim din) (fun _ => fbind (fn_set_output_dim dout) (fun _ => fn_set_dtype dt))
                    (mkFN fs None None None pre tr tr (-1)%Z false) with
        | (s, NErr e) => (s, NErr e)
        | (s, NOk _) => if tr then (set_phase s 0%Z, NOk tt) else (s, NOk tt)
        end
    end.

  (** Node._check_input (signal_node.py:469-491) *)
  Definition fn_check_input (x : array D) : FM unit := fun s =>
    if negb (a_ndim x =? 2) then (s, NErr (NX NodeExc)) else
    fbind (match fn_in s with None => fn_set_input_dim (Some (a_cols x)) | Some _ => fok end) (fun _ =>
    fbind (fun s => match fn_dt s with None => fn_set_dtype (Some (a_dtype x)) s | Some _ => (s, NOk tt) end) (fun _ =>
    fbind (fun s => match fn_in s with
                    | Some d => if a_cols x =? d then (s, NOk tt) else (s, NErr (NX NodeExc))
                    | None => (s, NErr (NX NodeExc)) end) (fun _ =>
    (fun s => if a_rows x =? 0 then (s, NErr (NX NodeExc)) else (s, NOk tt))))) s.

  Definition fn_index (s : fnn) : option nat := if (0 <=? fn_phase s)%Z then nth_error (fn_seq s) (Z.to_nat (fn_phase s)) else None.
  (** the training function of node i :142-149 *)
  Definition train_hook (i : nat) (x : array D) (a : A) (fs : flow) : flow * nres unit :=
    match exec_seq D A I na i 0 fs x with
    | (fs1, FErr e) => (fs1, NErr (NF e))
    | (fs1, FOk y) =>
        match at_node i (fun b => train D A I b y a) fs1 with
        | (fs2, Ok _) => (fs2, NOk tt)
        | (fs2, Err e) => (fs2, NErr (NX e))
        end
    end.
  (** Node.train (signal_node.py:590-617) *)
  Definition fn_train (x : array D) (a : A) : FM unit := fun s =>
    if negb (fn_trainable s) then (s, NErr (NX IsNotTrainable)) else
    if negb (fn_training s) then (s, NErr (NX TrainingFinished)) else
    fbind (fn_check_input x) (fun _ s =>
      let s := set_started s true in
      match fn_index s with
      | None => (s, NErr (NX IndexErr))
      | Some i => let (fs, r) := train_hook i (refcast D (fn_dt s) x) a (fn_flow s) in (set_flow s fs, r)
      end) s.
  (** Node.stop_training (signal_node.py:619-639); in the last phase also _fix_nodes_dimensions :105-116 (wrapper :159-170) *)
  Definition fn_stop (a : A) : FM unit := fun s =>
    if fn_training s && negb (fn_started s) then (s, NErr (NX TrainingExc)) else
    if negb (fn_training s) then (s, NErr (NX TrainingFinished)) else
    match fn_index s with
    | None => (s, NErr (NX IndexErr))
    | Some i =>
        fbind (on_flow (at_node i (fun b => stop_training D A I b a))) (fun _ =>
        fbind (fun s => if (Z.to_nat (fn_phase s) + 1 =? length (fn_seq s)) then fix_dims s else (s, NOk tt)) (fun _ s =>
          let s := set_started (set_phase s (fn_phase s + 1)%Z) false in
          if (Z.of_nat (length (fn_seq s)) - fn_phase s =? 0)%Z then (set_training s false, NOk tt) else (s, NOk tt))) s
    end.

  (** execute of a FlowNode that is not in training: _check_input, output_dim set to input_dim if None (signal_node.py:531-535), then
      Flow.execute :173-174 *)
  Definition fn_execute (x : array D) : FM (array D) := fun s =>
    fbind (fn_check_input x) (fun _ =>
    fbind (fun s => match fn_out s with None => fn_set_output_dim (fn_in s) s | Some _ => (s, NOk tt) end) (fun _ s =>
      match exec_seq D A I na (length (fn_flow s)) 0 (fn_flow s) (refcast D (fn_dt s) x) with
      | (fs, FOk y) => (set_flow s fs, NOk y)
      | (fs, FErr e) => (set_flow s fs, NErr (NF e))
      end)) s.

  (** Training phase by phase: [data] are the elements given in each phase *)
  Fixpoint fn_chunks (els : list (array D * A)) : FM unit := fun s =>
    match els with
    | [] => (s, NOk tt)
    | (x, a) :: els => fbind (fn_train x a) (fun _ => fn_chunks els) s
    end.
  Fixpoint fn_fit (data : list (list (array D * A))) : FM unit := fun s =>
    match data with
    | [] => (s, NOk tt)
    | els :: data => fbind (fn_chunks els) (fun _ => fbind (fn_stop na) (fun _ => fn_fit data)) s
    end.
End FN.

(** ** FlowNode.copy :179-206.  The attribute [flow] of a Flow object: a list of nodes, another Flow object, or None. *)
Inductive fattr := AList (l : list nat) | AFlow (a : fattr) | ANone.
Inductive cexn := CType | CNode (code : nat) | CDeep.
Inductive cres (X : Type) := COk (x : X) | CErr (e : cexn).
Arguments COk {X} _. Arguments CErr {X} _.
(** Flow.__getitem__(slice(None)), linear_flows.py:491-495: the new Flow object holds [self.flow[:]] *)
Fixpoint slice_all (a : fattr) : cres fattr :=
  match a with
  | AList l => COk (AList l)
  | AFlow b => match slice_all b with COk c => COk (AFlow c) | CErr e => CErr e end
  | ANone => CErr CType
  end.
(** Flow.__iter__, linear_flows.py:525-526 *)
Fixpoint iter_attr (a : fattr) : cres (list nat) :=
  match a with AList l => COk l | AFlow b => iter_attr b | ANone => CErr CType end.
Fixpoint copies (cp : nat -> cres nat) (l : list nat) : cres (list nat) :=
  match l with
  | [] => COk []
  | n :: l => match cp n with CErr e => CErr e | COk m => match copies cp l with COk r => COk (m :: r) | CErr e => CErr e end end
  end.
(** [a] is [self._flow.flow]; [cp] is node.copy() (it may raise), [deep] whether deepcopy of the rest of the FlowNode succeeds.  The
    result is [self._flow.flow] afterwards and the attribute of the copy's flow. *)
Definition fn_copy (cp : nat -> cres nat) (deep : bool) (a : fattr) : fattr * cres fattr :=
  match slice_all a with
  | CErr e => (a, CErr e)
  | COk old =>
      match iter_attr old with
      | CErr e => (a, CErr e)
      | COk nodes =>
          match copies cp nodes with
          | CErr e => (a, CErr e)
          | COk new => if deep then (AFlow old, COk (AList new)) else (ANone, CErr CDeep)
          end
      end
  end.
(** Flow([...]) + fn.flow, linear_flows.py:528-535: list.__add__ accepts only lists *)
Definition add_flow (l : list nat) (other : fattr) : cres (list nat) :=
  match other with AList m => COk (l ++ m) | _ => CErr CType end.
(** the nesting of Flow objects, i.e. the recursion depth of len, indexing and iteration *)
Fixpoint depth (a : fattr) : nat := match a with AFlow b => S (depth b) | _ => 0 end.
