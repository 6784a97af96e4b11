(** Properties C01-C05 and C65 (nodes). *)
From Coq Require Import List Arith ZArith Bool Lia.
From Verif Require Import NodeModel NodeSpec NodeProofs CumulatorModel CumulatorProofs.
Import ListNotations.
Open Scope nat_scope.

(** C01. [b] is any Node subclass with [k] training phases ([k = 0]: not trainable), [cs] any history of public
    calls (raising ones included) on a freshly constructed node.  The hooks ran in a legal order, is_training and
    get_remaining_train_phase tell the truth, train hands its data to the open phase, stop_training closes the open
    phase, and a fully trained node rejects train and stop_training without change. *)
Theorem C01_training_lifecycle :
  forall (D A I : Type) (b : behaviour D A I) (na : A),
  (b_trainable _ _ _ b = true -> 0 < b_phases _ _ _ b) ->
  forall i0 din dout dt s0 (cs : list (call D A)),
  init D A I b i0 din dout dt = (s0, Ok tt) ->
  let s := run D A I b na cs s0 in
  let k := if b_trainable _ _ _ b then b_phases _ _ _ b else 0 in
  legal_life k (n_trace _ _ _ s) /\ closed (n_trace _ _ _ s) <= k /\
  (is_training _ _ _ s = true <-> closed (n_trace _ _ _ s) < k) /\
  remaining _ _ _ b s = Z.of_nat (k - closed (n_trace _ _ _ s)) /\
  (forall x a s', train D A I b x a s = (s', Ok tt) ->
     exists x', n_trace _ _ _ s' = n_trace _ _ _ s ++ [EvTrain D A (closed (n_trace _ _ _ s)) x' a] /\
                a_data x' = a_data x /\ a_rows x' = a_rows x /\ a_cols x' = a_cols x) /\
  (forall a s', stop_training D A I b a s = (s', Ok tt) ->
     n_trace _ _ _ s' = n_trace _ _ _ s ++ [EvStop D A (closed (n_trace _ _ _ s)) true]) /\
  (b_trainable _ _ _ b = true -> is_training _ _ _ s = false ->
     forall x a, train D A I b x a s = (s, Err TrainingFinished) /\ stop_training D A I b a s = (s, Err TrainingFinished)).
Proof. exact (fun D A I b na Hk i0 din dout dt s0 cs H => lifecycle D A I b na Hk i0 din dout dt s0 cs H). Qed.
Print Assumptions C01_training_lifecycle.

(** A two-phase node summing its data in phase 0 and counting rows in phase 1; stop of phase 0 fails while nothing
    positive was seen. *)
Definition two_phase : behaviour nat unit (nat * nat) :=
  mkBeh nat unit (nat * nat) true true false (fun t => Nat.leb t 3) 2
    (fun _ _ _ => None)
    (fun p v x _ => let '(a, c) := v_int _ v in
       match p with O => PSet (a + a_data x, c) (PRet (Ok tt)) | _ => PSet (a, c + a_rows x) (PRet (Ok tt)) end)
    (fun p v _ => match p, fst (v_int _ v) with O, O => PRet (Err (HookErr 7)) | _, _ => PRet (Ok tt) end)
    (fun v x _ => PReq (ReqOut (a_cols x)) (PRet (Ok (mkArray 2 (a_rows x) (a_cols x) (a_dtype x) (a_data x + fst (v_int _ v))))))
    (fun v y _ => PRet (Ok y)).
Definition arr (r c d : nat) : array nat := mkArray 2 r c 1 d.
Definition two0 := fst (init nat unit (nat * nat) two_phase (0, 0) None None None).

Example C01_case :
  let cs := [CTrain nat unit (arr 3 2 0) tt; CStop nat unit tt; CTrain nat unit (arr 0 2 9) tt; CTrain nat unit (arr 3 2 5) tt;
             CStop nat unit tt; CTrain nat unit (arr 4 2 1) tt; CStop nat unit tt; CTrain nat unit (arr 4 2 1) tt;
             CExec nat unit (arr 1 2 10) tt] in
  let s := run nat unit (nat * nat) two_phase tt cs two0 in
  init nat unit (nat * nat) two_phase (0, 0) None None None = (two0, Ok tt) /\
  n_trace _ _ _ s = [EvTrain nat unit 0 (arr 3 2 0) tt; EvStop nat unit 0 false; EvTrain nat unit 0 (arr 3 2 5) tt;
                     EvStop nat unit 0 true; EvTrain nat unit 1 (arr 4 2 1) tt; EvStop nat unit 1 true; EvExec nat unit (arr 1 2 10) tt]
  /\ n_int _ _ _ s = (5, 4).
Proof. vm_compute. repeat split; reflexivity. Qed.

(** C02. Attributes that have a value keep it through any history of calls; conflicting assignments raise and change nothing. *)
Theorem C02_dims_write_once :
  forall (D A I : Type) (b : behaviour D A I) (na : A) (cs : list (call D A)) (s : node D A I),
  let s' := run D A I b na cs s in
  (forall v, n_in _ _ _ s = Some v -> n_in _ _ _ s' = Some v) /\
  (forall v, n_out _ _ _ s = Some v -> n_out _ _ _ s' = Some v) /\
  (forall v, n_dt _ _ _ s = Some v -> n_dt _ _ _ s' = Some v) /\
  (forall v n, n_in _ _ _ s = Some v -> v <> n -> step D A I b na (CSetIn D A (Some n)) s = (s, Err InconsistentDim)) /\
  (forall v n, n_out _ _ _ s = Some v -> v <> n -> step D A I b na (CSetOut D A (Some n)) s = (s, Err InconsistentDim)) /\
  (forall v n, n_dt _ _ _ s = Some v -> v <> n -> step D A I b na (CSetDtype D A (Some n)) s = (s, Err NodeExc)).
Proof. exact write_once. Qed.
Print Assumptions C02_dims_write_once.

Example C02_case :
  let s := run nat unit (nat * nat) two_phase tt [CTrain nat unit (arr 3 2 1) tt; CStop nat unit tt; CTrain nat unit (arr 3 4 1) tt;
             CTrain nat unit (arr 3 2 1) tt; CExec nat unit (arr 1 2 3) tt; CSetOut nat unit (Some 5); CSetIn nat unit (Some 2)] two0 in
  (n_in _ _ _ two0, n_in _ _ _ s, n_out _ _ _ s, n_dt _ _ _ s) = (None, Some 2, Some 2, Some 1).
Proof. vm_compute. reflexivity. Qed.

(** C03. PreserveDimNode: both dimensions unset or equal, whatever was called, even if the constructor raised. *)
Theorem C03_preserve_dim :
  forall (D A I : Type) (b : behaviour D A I) (na : A), b_preserve _ _ _ b = true ->
  forall i0 din dout dt s0 r (cs : list (call D A)),
  init D A I b i0 din dout dt = (s0, r) ->
  n_in _ _ _ (run D A I b na cs s0) = n_out _ _ _ (run D A I b na cs s0).
Proof. exact preserve_reach. Qed.
Print Assumptions C03_preserve_dim.

Definition pres : behaviour nat unit unit :=
  mkBeh nat unit unit false true true (fun t => true) 0 (fun _ _ _ => None)
    (fun _ _ _ _ => PRet (Ok tt)) (fun _ _ _ => PRet (Ok tt)) (fun _ x _ => PRet (Ok x)) (fun _ y _ => PRet (Ok y)).
Example C03_case :
  let s0 := fst (init nat unit unit pres tt None None None) in
  let s := run nat unit unit pres tt [CInv nat unit (arr 1 3 1) tt; CSetOut nat unit (Some 4); CSetIn nat unit (Some 5); CExec nat unit (arr 1 4 1) tt] s0 in
  (n_in _ _ _ s0, n_out _ _ _ s0, n_in _ _ _ s, n_out _ _ _ s) = (None, None, Some 4, Some 4) /\
  snd (init nat unit unit pres tt (Some 3) (Some 4) None) = Err InconsistentDim.
Proof. vm_compute. repeat split. Qed.

(** C04. Execute on a trainable node that never got training data = one train/stop round per phase with the same
    data, then execute: same result or exception and same node afterwards. *)
Theorem C04_execute_untrained :
  forall (D A I : Type) (b : behaviour D A I) (na : A),
  (b_trainable _ _ _ b = true -> 0 < b_phases _ _ _ b) ->
  forall i0 din dout dt s0 (cs : list (call D A)),
  init D A I b i0 din dout dt = (s0, Ok tt) ->
  let s := run D A I b na cs s0 in
  b_trainable _ _ _ b = true -> (forall p x a, ~ In (EvTrain D A p x a) (n_trace _ _ _ s)) ->
  forall x a, step D A I b na (CExec D A x a) s =
    run_until D A I b na (train_stop_calls na (b_phases _ _ _ b) x ++ [CExec D A x a]) s.
Proof. exact (fun D A I b na Hk i0 din dout dt s0 cs H => execute_untrained D A I b na Hk i0 din dout dt s0 cs H). Qed.
Print Assumptions C04_execute_untrained.

(** Execute on a node whose training has begun and that has more than one phase left always raises, with
    TrainingException unless the node's own stop hook raises first. *)
Theorem C04_execute_midtraining :
  forall (D A I : Type) (b : behaviour D A I) (na : A),
  (b_trainable _ _ _ b = true -> 0 < b_phases _ _ _ b) ->
  forall i0 din dout dt s0 (cs : list (call D A)),
  init D A I b i0 din dout dt = (s0, Ok tt) ->
  let s := run D A I b na cs s0 in
  (exists p x a, In (EvTrain D A p x a) (n_trace _ _ _ s)) -> (1 < remaining _ _ _ b s)%Z ->
  forall x a, exists e, snd (execute D A I b na x a s) = Err e /\
    ((forall v, snd (run_prog D A I b (b_stop _ _ _ b (Z.to_nat (current_phase D A I s)) v na) s) = Ok tt) -> e = TrainingExc).
Proof. exact (fun D A I b na Hk i0 din dout dt s0 cs H => execute_midtraining D A I b na Hk i0 din dout dt s0 cs H). Qed.
Print Assumptions C04_execute_midtraining.

Example C04_case :
  let r := step nat unit (nat * nat) two_phase tt (CExec nat unit (arr 3 2 5) tt) two0 in
  snd r = Ok (Some (arr 3 2 10)) /\ n_int _ _ _ (fst r) = (5, 3) /\ n_training _ _ _ (fst r) = false /\
  let s1 := run nat unit (nat * nat) two_phase tt [CTrain nat unit (arr 3 2 5) tt] two0 in
  remaining _ _ _ two_phase s1 = 2%Z /\ snd (execute nat unit (nat * nat) two_phase tt (arr 3 2 5) tt s1) = Err TrainingExc.
Proof. vm_compute. repeat split. Qed.

(** C65. "A call that raises leaves the node as it was" is false of this code in two ways a user can see:
    a rejected array fixes input_dim and dtype, and a rejected execute closes the current training phase. *)
Theorem C65_failed_call_atomic_refuted :
  exists (D A I : Type) (b : behaviour D A I) (na : A) (s0 : node D A I) i0,
    init D A I b i0 None None None = (s0, Ok tt) /\
    (exists x e, snd (step D A I b na (CTrain D A x na) s0) = Err e /\
       n_in _ _ _ s0 = None /\ n_in _ _ _ (fst (step D A I b na (CTrain D A x na) s0)) = Some 7 /\ a_rows x = 0) /\
    (exists cs x e, let s := run D A I b na cs s0 in
       snd (step D A I b na (CExec D A x na) s) = Err e /\
       current_phase _ _ _ (fst (step D A I b na (CExec D A x na) s)) = (current_phase _ _ _ s + 1)%Z).
Proof.
  exists nat, unit, (nat * nat)%type, two_phase, tt, two0, (0, 0). split; [reflexivity|]. split.
  - exists (arr 0 7 1), NodeExc. repeat split.
  - exists [CTrain nat unit (arr 3 2 5) tt], (arr 3 2 5), TrainingExc. split; reflexivity.
Qed.
Print Assumptions C65_failed_call_atomic_refuted.

(** What does hold: a raising train call on a node whose dimension and dtype are known and which rejects the
    array itself (wrong rank, width or no rows) leaves the node exactly as it was. *)
Theorem C65_rejected_array_keeps_node :
  forall (D A I : Type) (b : behaviour D A I) (na : A) (s : node D A I) x a d t,
  n_in _ _ _ s = Some d -> n_dt _ _ _ s = Some t ->
  (a_ndim x <> 2 \/ a_cols x <> d \/ a_rows x = 0) ->
  exists e, step D A I b na (CTrain D A x a) s = (s, Err e).
Proof. exact rejected_array. Qed.
Print Assumptions C65_rejected_array_keeps_node.

(** C05. A cumulator with [nf] fields that is trained with valid chunks [cs] (array plus [nf - 1] extra arguments,
    each a list of rows) and then stopped: every call succeeds, field j holds the concatenation of all
    j-th arguments in call order, tlen the number of rows of the data field. *)
Theorem C05_cumulator_collects :
  forall (V : Type) (supported : dtype -> bool) nf d t na sarg, supported t = true ->
  forall cs : list (array (rows V) * list (rows V)), cs <> [] ->
  Forall (fun c => a_ndim (fst c) = 2 /\ a_cols (fst c) = d /\ a_dtype (fst c) = t /\
                   a_rows (fst c) = length (a_data (fst c)) /\ 0 < a_rows (fst c) /\ S (length (snd c)) = nf) cs ->
  exists s0 s r,
    init (rows V) (list (rows V)) (cum V) (cumulator V supported) (cum0 V nf) None None None = (s0, Ok tt) /\
    run_until (rows V) (list (rows V)) (cum V) (cumulator V supported) na
      (map (fun c => CTrain _ _ (fst c) (snd c)) cs ++ [CStop _ _ sarg]) s0 = (s, Ok r) /\
    is_training _ _ _ s = false /\
    c_tlen (n_int _ _ _ s) = length (concat (map (fun c => a_data (fst c)) cs)) /\
    c_fields (n_int _ _ _ s) =
      map (fun j => Arr (concat (map (fun c => nth j (a_data (fst c) :: snd c) []) cs))) (seq 0 nf).
Proof. exact cumulator_collects. Qed.
Print Assumptions C05_cumulator_collects.

(** Chunking does not matter: two chunk sequences with the same concatenated data leave the same attributes. *)
Theorem C05_chunking_irrelevant :
  forall (V : Type) (supported : dtype -> bool) nf d t na sarg, supported t = true ->
  forall cs1 cs2 : list (array (rows V) * list (rows V)), cs1 <> [] -> cs2 <> [] ->
  (forall cs, cs = cs1 \/ cs = cs2 -> Forall (fun c => a_ndim (fst c) = 2 /\ a_cols (fst c) = d /\ a_dtype (fst c) = t /\
                   a_rows (fst c) = length (a_data (fst c)) /\ 0 < a_rows (fst c) /\ S (length (snd c)) = nf) cs) ->
  (forall j, j < nf -> concat (map (fun c => nth j (a_data (fst c) :: snd c) []) cs1) =
                       concat (map (fun c => nth j (a_data (fst c) :: snd c) []) cs2)) ->
  0 < nf ->
  forall s0 s1 s2 r1 r2,
  init (rows V) (list (rows V)) (cum V) (cumulator V supported) (cum0 V nf) None None None = (s0, Ok tt) ->
  run_until (rows V) (list (rows V)) (cum V) (cumulator V supported) na (map (fun c => CTrain _ _ (fst c) (snd c)) cs1 ++ [CStop _ _ sarg]) s0 = (s1, r1) ->
  run_until (rows V) (list (rows V)) (cum V) (cumulator V supported) na (map (fun c => CTrain _ _ (fst c) (snd c)) cs2 ++ [CStop _ _ sarg]) s0 = (s2, r2) ->
  n_int _ _ _ s1 = n_int _ _ _ s2.
Proof. exact chunking_irrelevant. Qed.
Print Assumptions C05_chunking_irrelevant.

Example C05_case :
  let mk (l : list nat) := mkArray 2 (length l) 3 1 l in
  let s0 := fst (init (rows nat) (list (rows nat)) (cum nat) (cumulator nat (fun _ => true)) (cum0 nat 2) None None None) in
  let s := run (rows nat) (list (rows nat)) (cum nat) (cumulator nat (fun _ => true)) []
             [CTrain _ _ (mk [1; 2]) [[7; 8]]; CTrain _ _ (mk [3]) [[9]]; CStop _ _ []] s0 in
  n_int _ _ _ s = mkCum 3 [Arr [1; 2; 3]; Arr [7; 8; 9]] /\ n_training _ _ _ s = false.
Proof. vm_compute. repeat split. Qed.
