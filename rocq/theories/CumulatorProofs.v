From Coq Require Import List Arith ZArith Lia Bool.
From Verif Require Import NodeModel NodeSpec NodeProofs CumulatorModel.
Import ListNotations.
Open Scope nat_scope.

Section P.
  Variable V : Type.
  Notation rows := (rows V).
  Notation cum := (cum V).
  Variable supported : dtype -> bool.
  Notation cb := (cumulator V supported).
  Notation nodeT := (node rows (list rows) cum).

  (** A training call a cumulator accepts: a 2d array of at least one row, [d] columns, dtype [t],
      rows really as many as claimed; [nf - 1] extra arguments. *)
  Definition valid_call (nf d : nat) (t : dtype) (c : array rows * list rows) : Prop :=
    let (x, extra) := c in
    a_ndim x = 2 /\ a_cols x = d /\ a_dtype x = t /\ a_rows x = length (a_data x) /\ 0 < a_rows x /\
    S (length extra) = nf.

  Definition field_args (j : nat) (cs : list (array rows * list rows)) : list rows :=
    map (fun c => nth j (a_data (fst c) :: snd c) []) cs.

  Lemma append_all_spec : forall (ls : list (list rows)) (args : list rows), length ls = length args ->
    append_all (map Chunks ls) args = Some (map (fun p => Chunks (fst p ++ [snd p])) (combine ls args)).
  Proof.
    induction ls as [|l ls IH]; intros [|a args] Hl; cbn in Hl |- *; try discriminate; [reflexivity|].
    rewrite IH by lia. reflexivity.
  Qed.

  Definition open_fields (nf : nat) (cs : list (array rows * list rows)) : list (cfield V) :=
    map (fun j => Chunks (field_args j cs)) (seq 0 nf).

  Lemma append_open : forall (args : list rows) (g : nat -> list rows) k,
    append_all (map (fun j => Chunks (g j)) (seq k (length args))) args =
    Some (map (fun j => Chunks (g j ++ [nth (j - k) args []])) (seq k (length args))).
  Proof.
    induction args as [|a args IH]; intros g k; cbn [length seq map append_all]; [reflexivity|].
    rewrite IH. f_equal. f_equal.
    - rewrite Nat.sub_diag. reflexivity.
    - apply map_ext_in. intros j Hj. apply in_seq in Hj. destruct (j - k) eqn:E; [lia|].
      cbn. replace (j - S k) with n by lia. reflexivity.
  Qed.

  Lemma open_snoc nf cs x extra : S (length extra) = nf ->
    append_all (open_fields nf cs) (a_data x :: extra) = Some (open_fields nf (cs ++ [(x, extra)])).
  Proof.
    intros H. subst nf. unfold open_fields.
    change (S (length extra)) with (length (a_data x :: extra)).
    rewrite append_open. f_equal. apply map_ext. intros j. f_equal.
    unfold field_args. rewrite map_app. cbn [map fst snd]. rewrite Nat.sub_0_r. reflexivity.
  Qed.

  Definition ready (nf d : nat) (t : dtype) (cs : list (array rows * list rows)) (s : nodeT) : Prop :=
    n_training _ _ _ s = true /\ n_phase _ _ _ s = 0%Z /\ (cs <> [] -> n_started _ _ _ s = true) /\
    (n_in _ _ _ s = None \/ n_in _ _ _ s = Some d) /\ (n_dt _ _ _ s = None \/ n_dt _ _ _ s = Some t) /\
    n_int _ _ _ s = mkCum (length (concat (field_args 0 cs))) (open_fields nf cs).

  Lemma check_ok d t x s : a_ndim x = 2 -> a_cols x = d -> a_dtype x = t -> 0 < a_rows x -> supported t = true ->
    (n_in _ _ _ s = None \/ n_in _ _ _ s = Some d) -> (n_dt _ _ _ s = None \/ n_dt _ _ _ s = Some t) ->
    exists s', check_input rows (list rows) cum cb x s = (s', Ok tt) /\
      n_in _ _ _ s' = Some d /\ n_dt _ _ _ s' = Some t /\ n_int _ _ _ s' = n_int _ _ _ s /\
      n_training _ _ _ s' = n_training _ _ _ s /\ n_phase _ _ _ s' = n_phase _ _ _ s /\
      n_started _ _ _ s' = n_started _ _ _ s.
  Proof.
    intros H2 Hd Ht Hr Hs Hin Hdt. unfold check_input. rewrite H2. cbn [Nat.eqb negb].
    unfold bind, ret, set_input_dim, p_set_input_dim, set_dtype. cbn [b_preserve b_supported cumulator].
    destruct (a_rows x) as [|r]; [lia|]. subst d t.
    destruct s as [i o dt tr ph st it tc]. cbn in *. subst.
    destruct Hin as [->| ->]; destruct Hdt as [->| ->]; cbn.
    - rewrite Hs. cbn. rewrite Nat.eqb_refl. eexists. split; [reflexivity|]. cbn. auto 10.
    - rewrite Nat.eqb_refl. eexists. split; [reflexivity|]. cbn. auto 10.
    - rewrite Hs. cbn. rewrite Nat.eqb_refl. eexists. split; [reflexivity|]. cbn. auto 10.
    - rewrite Nat.eqb_refl. eexists. split; [reflexivity|]. cbn. auto 10.
  Qed.

  Lemma field_args_snoc j cs c : field_args j (cs ++ [c]) = field_args j cs ++ [nth j (a_data (fst c) :: snd c) []].
  Proof. unfold field_args. rewrite map_app. reflexivity. Qed.

  Lemma train_ready nf d t cs x extra s : supported t = true -> valid_call nf d t (x, extra) -> ready nf d t cs s ->
    exists s', train rows (list rows) cum cb x extra s = (s', Ok tt) /\ ready nf d t (cs ++ [(x, extra)]) s'.
  Proof.
    intros Hs (V1 & V2 & V3 & V4 & V5 & V6) (R1 & R2 & R3 & R4 & R5 & R6).
    destruct (check_ok d t x s V1 V2 V3 V5 Hs R4 R5) as (s1 & E1 & C1 & C2 & C3 & C4 & C5 & C6).
    unfold train. cbn [b_trainable cumulator negb]. rewrite R1. cbn [negb]. unfold bind. rewrite E1.
    cbn [b_check_args cumulator].
    unfold phase_index. cbn [set_n_started n_phase b_phases cumulator]. rewrite C5, R2. cbn [Z.leb Z.ltb andb Z.to_nat].
    unfold b_train, cumulator at 1, cum_train, view_of. cbn -[run_prog append_all refcast open_fields].
    assert (refcast rows (n_dt _ _ _ s1) x = x) as Hrc.
    { unfold refcast. rewrite C2, V3, Nat.eqb_refl. reflexivity. }
    rewrite Hrc. rewrite C3, R6. unfold cum_train. cbn [c_fields c_tlen]. rewrite (open_snoc nf cs x extra V6).
    cbn [run_prog]. eexists. split; [reflexivity|].
    unfold ready. cbn. rewrite C1, C2, C4, C5. repeat split; auto.
    rewrite field_args_snoc, concat_app, app_length. cbn. rewrite app_nil_r, V4. reflexivity.
  Qed.

  Definition train_calls (cs : list (array rows * list rows)) : list (call rows (list rows)) :=
    map (fun c => CTrain rows (list rows) (fst c) (snd c)) cs.

  Lemma trains_ready nf d t na : supported t = true -> forall cs cs0 s, Forall (valid_call nf d t) cs -> ready nf d t cs0 s ->
    exists s' r, run_until rows (list rows) cum cb na (train_calls cs) s = (s', Ok r) /\ ready nf d t (cs0 ++ cs) s'.
  Proof.
    intros Hs. induction cs as [|[x extra] cs IH]; intros cs0 s Hv Hr; cbn [train_calls map run_until].
    - exists s, None. rewrite app_nil_r. auto.
    - inversion Hv as [|? ? Hv1 Hv2]; subst.
      destruct (train_ready nf d t cs0 x extra s Hs Hv1 Hr) as (s1 & E1 & R1).
      cbn [step fst snd]. rewrite E1. cbn [fst snd].
      destruct (IH (cs0 ++ [(x, extra)]) s1 Hv2 R1) as (s2 & r & E2 & R2). rewrite <- app_assoc in R2. cbn in R2.
      destruct cs as [|c cs].
      + cbn in E2. injection E2 as <- <-. exists s1, None. auto.
      + cbn [train_calls map] in E2. cbn [map]. exists s2, r. auto.
  Qed.

  Lemma stop_fields_run b0 tlen : forall (todo done : list (cfield V)) (outs : list rows) (s : nodeT),
    Forall2 (fun f o => concatenate f = Some (Arr o)) todo outs ->
    n_int _ _ _ s = mkCum tlen (done ++ todo) ->
    exists s', run_prog rows (list rows) cum b0 (cum_stop_fields tlen done todo) s = (s', Ok tt) /\
      n_int _ _ _ s' = mkCum tlen (done ++ map Arr outs) /\
      n_training _ _ _ s' = n_training _ _ _ s /\ n_phase _ _ _ s' = n_phase _ _ _ s.
  Proof.
    induction todo as [|f todo IH]; intros done outs s HF Hi; inversion HF as [|? o ? outs' Hf HF']; subst; cbn [cum_stop_fields].
    - cbn. exists s. rewrite Hi. auto.
    - rewrite Hf. cbn [run_prog].
      destruct (IH (done ++ [Arr o]) outs' (set_n_int rows (list rows) cum s (mkCum tlen (done ++ Arr o :: todo))) HF') as (s' & E & I1 & I2 & I3).
      + cbn. rewrite <- app_assoc. reflexivity.
      + exists s'. split; [exact E|]. rewrite I1. cbn [map]. rewrite <- app_assoc. auto.
  Qed.

  Lemma collect nf d t na sarg : supported t = true -> forall cs s, cs <> [] -> Forall (valid_call nf d t) cs -> ready nf d t [] s ->
    exists s' r, run_until rows (list rows) cum cb na (train_calls cs ++ [CStop rows (list rows) sarg]) s = (s', Ok r) /\
      n_training _ _ _ s' = false /\
      c_tlen (n_int _ _ _ s') = length (concat (field_args 0 cs)) /\
      c_fields (n_int _ _ _ s') = map (fun j => Arr (concat (field_args j cs))) (seq 0 nf).
  Proof.
    intros Hs cs s Hne Hv Hr.
    destruct (trains_ready nf d t na Hs cs [] s Hv Hr) as (s1 & r1 & E1 & R). cbn [app] in R.
    rewrite run_until_app by discriminate. rewrite E1. destruct R as (R1 & R2 & R3 & R4 & R5 & R6).
    cbn [run_until step]. unfold stop_training. rewrite R1, (R3 Hne). cbn [andb negb].
    unfold phase_index. cbn [b_phases cumulator]. rewrite R2. cbn [Z.leb Z.ltb andb Z.to_nat].
    cbn [b_stop cumulator view_of v_int]. rewrite R6. cbn [c_tlen c_fields].
    destruct (stop_fields_run cb (length (concat (field_args 0 cs))) (open_fields nf cs) []
                (map (fun j => concat (field_args j cs)) (seq 0 nf)) s1) as (s2 & E2 & J1 & J2 & J3).
    - unfold open_fields. generalize (seq 0 nf). induction l as [|j l IH]; cbn; constructor; auto.
      cbn. destruct cs as [|c cs]; [congruence|]. reflexivity.
    - exact R6.
    - rewrite E2. unfold remaining. cbn [b_trainable b_phases cumulator set_n_started set_n_phase add_event n_phase].
      rewrite J3, R2. cbn. eexists. eexists. split; [reflexivity|]. cbn. rewrite J1. cbn. rewrite map_map. auto.
  Qed.

  Lemma init_ready nf d t : exists s, init rows (list rows) cum cb (cum0 V nf) None None None = (s, Ok tt) /\ ready nf d t [] s.
  Proof.
    unfold init, bind. cbn. eexists. split; [reflexivity|]. unfold ready; cbn.
    repeat split; auto; try congruence. unfold cum0, open_fields. f_equal. cbn.
    assert (forall k, repeat (Chunks []) nf = map (fun _ : nat => @Chunks V []) (seq k nf)) as H; [|apply H].
    induction nf as [|n IH]; intros k; cbn; [reflexivity|]. rewrite <- IH. reflexivity.
  Qed.
End P.

Lemma cumulator_collects : forall (V : Type) (supported : dtype -> bool) nf d t na sarg, supported t = true ->
  forall cs : list (array (rows V) * list (rows V)), cs <> [] ->
  Forall (fun c => a_ndim (fst c) = 2 /\ a_cols (fst c) = d /\ a_dtype (fst c) = t /\
                   a_rows (fst c) = length (a_data (fst c)) /\ 0 < a_rows (fst c) /\ S (length (snd c)) = nf) cs ->
  exists s0 s r,
    init (rows V) (list (rows V)) (cum V) (cumulator V supported) (cum0 V nf) None None None = (s0, Ok tt) /\
    run_until (rows V) (list (rows V)) (cum V) (cumulator V supported) na
      (map (fun c => CTrain _ _ (fst c) (snd c)) cs ++ [CStop _ _ sarg]) s0 = (s, Ok r) /\
    is_training _ _ _ s = false /\
    c_tlen (n_int _ _ _ s) = length (concat (map (fun c => a_data (fst c)) cs)) /\
    c_fields (n_int _ _ _ s) =
      map (fun j => Arr (concat (map (fun c => nth j (a_data (fst c) :: snd c) []) cs))) (seq 0 nf).
Proof.
  intros V supported nf d t na sarg Hs cs Hne Hv.
  destruct (init_ready V supported nf d t) as (s0 & E0 & R0).
  destruct (collect V supported nf d t na sarg Hs cs s0 Hne) as (s & r & E & H1 & H2 & H3); [|exact R0|].
  - eapply Forall_impl; [|exact Hv]. intros [x e] H. exact H.
  - exists s0, s, r. repeat split; assumption.
Qed.

Lemma chunking_irrelevant :
  forall (V : Type) (supported : dtype -> bool) nf d t na sarg, supported t = true ->
  forall cs1 cs2 : list (array (rows V) * list (rows V)), cs1 <> [] -> cs2 <> [] ->
  (forall cs, cs = cs1 \/ cs = cs2 -> Forall (fun c => a_ndim (fst c) = 2 /\ a_cols (fst c) = d /\ a_dtype (fst c) = t /\
                   a_rows (fst c) = length (a_data (fst c)) /\ 0 < a_rows (fst c) /\ S (length (snd c)) = nf) cs) ->
  (forall j, j < nf -> concat (map (fun c => nth j (a_data (fst c) :: snd c) []) cs1) =
                       concat (map (fun c => nth j (a_data (fst c) :: snd c) []) cs2)) ->
  0 < nf ->
  forall s0 s1 s2 r1 r2,
  init (rows V) (list (rows V)) (cum V) (cumulator V supported) (cum0 V nf) None None None = (s0, Ok tt) ->
  run_until (rows V) (list (rows V)) (cum V) (cumulator V supported) na (map (fun c => CTrain _ _ (fst c) (snd c)) cs1 ++ [CStop _ _ sarg]) s0 = (s1, r1) ->
  run_until (rows V) (list (rows V)) (cum V) (cumulator V supported) na (map (fun c => CTrain _ _ (fst c) (snd c)) cs2 ++ [CStop _ _ sarg]) s0 = (s2, r2) ->
  n_int _ _ _ s1 = n_int _ _ _ s2.
Proof.
  intros V supported nf d t na sarg Hs cs1 cs2 N1 N2 Hv Heq Hnf s0 s1 s2 r1 r2 E0 E1 E2.
  destruct (cumulator_collects V supported nf d t na sarg Hs cs1 N1 (Hv _ (or_introl eq_refl))) as (t0 & t1 & q1 & F0 & F1 & _ & G1 & G2).
  destruct (cumulator_collects V supported nf d t na sarg Hs cs2 N2 (Hv _ (or_intror eq_refl))) as (u0 & u1 & q2 & K0 & K1 & _ & L1 & L2).
  rewrite E0 in F0, K0. injection F0 as <-. injection K0 as <-.
  rewrite E1 in F1. rewrite E2 in K1. injection F1 as -> _. injection K1 as -> _.
  destruct (n_int _ _ _ t1) as [tl1 f1], (n_int _ _ _ u1) as [tl2 f2]. cbn in *. subst. f_equal.
  - exact (f_equal (@length _) (Heq 0 Hnf)).
  - apply map_ext_in. intros j Hj. apply in_seq in Hj. rewrite Heq by lia. reflexivity.
Qed.
