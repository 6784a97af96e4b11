(** Properties of online layers: C255-C261. *)
From Coq Require Import List Arith ZArith Bool Lia.
From Verif Require Import LayerModel LayerProofs LayerProps OLayerModel.
Import ListNotations.
Open Scope nat_scope.

Section Props.
  Variables (N : Type) (zero : N) (St : Type).
  Variable ocls : nat -> oobj N St.
  Variable fresh : nat.
  Notation cls := (OLayerModel.cls N St ocls).
  Notation mat := (mat N). Notation heap := (heap St). Notation obj := (obj N St).
  Notation state := (state St).
  Notation o_in := (o_in N St). Notation o_training := (o_training N St).
  Notation o_train := (o_train N St). Notation o_stop := (o_stop N St).
  Notation oo_online := (oo_online N St). Notation oo_type := (oo_type N St). Notation oo_setrng := (oo_setrng N St).
  Notation ol_init := (ol_init N St ocls).
  Notation ol_train := (ol_train N St ocls fresh). Notation ol_stop := (ol_stop N St ocls).
  Notation ol_execute := (ol_execute N zero St ocls fresh). Notation ol_inverse := (ol_inverse N zero St ocls).
  Notation ol_set_type := (ol_set_type St).
  Notation run1 := (run1 N zero St ocls fresh). Notation run := (run N zero St ocls fresh).
  Notation rng_nodes := (rng_nodes N St ocls).
  Notation check_input := (check_input N St ocls fresh).
  Notation steps := (steps N St ocls). Notation step := (step N St ocls).
  Notation call := (call N).

  (** ** C255: construction *)
  Definition base_init (k : kind) := match k with KSame => same_init N St cls | _ => layer_init N St cls end.
  Lemma rng_nodes_other refs g : forall h q, ~ In q refs -> rng_nodes refs g h q = h q.
  Proof using.
    unfold OLayerModel.rng_nodes. induction refs as [|r refs IH]; intros h q Hq; [reflexivity|]. cbn [fold_left]. rewrite IH by (intros C; apply Hq; right; exact C).
    destruct (oo_online (ocls r)); [|reflexivity]. apply upd_other. intros ->. apply Hq. left; reflexivity.
  Qed.
  Lemma rng_nodes_plain refs g : forall h q, oo_online (ocls q) = false -> rng_nodes refs g h q = h q.
  Proof using.
    unfold OLayerModel.rng_nodes. induction refs as [|r refs IH]; intros h q Hq; [reflexivity|]. cbn [fold_left]. rewrite IH by exact Hq.
    destruct (oo_online (ocls r)) eqn:E; [|reflexivity]. apply upd_other. congruence.
  Qed.
  Lemma rng_nodes_inv refs g (P : nat -> St -> Prop) : (forall r s, P r s -> P r (oo_setrng (ocls r) g s)) -> forall h, (forall q, P q (h q)) -> forall q, P q (rng_nodes refs g h q).
  Proof using.
    intros HP. unfold OLayerModel.rng_nodes. induction refs as [|r refs IH]; intros h Hh q; [apply Hh|]. cbn [fold_left]. apply IH. intros q'.
    destruct (oo_online (ocls r)); [|apply Hh]. unfold upd. destruct (Nat.eqb_spec q' r) as [->|]; [apply HP|]; apply Hh.
  Qed.
  Theorem C255_init_accepts k refs dt rng h : (exists h' l, ol_init k refs dt rng h = (h', OOk l)) <->
    (exists b, base_init k refs h dt = LOk b) /\ forall r, In r refs -> oo_online (ocls r) = true \/ o_training (cls r) (h r) = false.
  Proof.
    unfold OLayerModel.ol_init. replace (match k with KSame => same_init N St cls refs h dt | _ => layer_init N St cls refs h dt end) with (base_init k refs h dt) by (destruct k; reflexivity).
    destruct (base_init k refs h dt) as [b|e]; [|split; [intros (h' & l & [=])|intros [[b [=]] _]]].
    destruct (forallb _ refs) eqn:E.
    - split; [|intros _; destruct (set_rng _ _ _ _ _) as [l' h'']; eauto]. intros _. split; [eauto|]. intros r Hr. rewrite forallb_forall in E. specialize (E r Hr).
      unfold compatible in E. destruct (oo_online (ocls r)); [auto|]. right. destruct (o_training (cls r) (h r)); [discriminate|reflexivity].
    - split; [intros (h' & l & [=])|]. intros [_ H]. exfalso. assert (forallb (fun r => compatible N St ocls r h) refs = true) as C; [|congruence].
      apply forallb_forall. intros r Hr. unfold compatible. destruct (H r Hr) as [->| ->]; [reflexivity|]. apply orb_true_r.
  Qed.
  (** a rejected construction raises TypeError after the checks of Layer have passed, and leaves the nodes alone *)
  Theorem C255_init_rejects k refs dt rng h b r : base_init k refs h dt = LOk b -> In r refs -> oo_online (ocls r) = false -> o_training (cls r) (h r) = true ->
    ol_init k refs dt rng h = (h, OBad (OE LType)).
  Proof.
    intros E Hr Ho Ht. unfold OLayerModel.ol_init. replace (match k with KSame => same_init N St cls refs h dt | _ => layer_init N St cls refs h dt end) with (base_init k refs h dt) by (destruct k; reflexivity).
    rewrite E. destruct (forallb _ refs) eqn:F; [|reflexivity]. rewrite forallb_forall in F. specialize (F r Hr). unfold compatible in F. rewrite Ho, Ht in F. discriminate.
  Qed.
  (** the new layer: in training iff some node is; batch iff some OnlineNode has that type *)
  Theorem C255_new_layer k refs dt rng h h' l : ol_init k refs dt rng h = (h', OOk l) -> (forall g r s, oo_type (ocls r) (oo_setrng (ocls r) g s) = oo_type (ocls r) s) ->
    (ol_trainable l = true <-> exists r, In r refs /\ o_training (cls r) (h r) = true) /\ ol_training l = ol_trainable l /\ ol_started l = false /\
    (ol_type l = Some true \/ ol_type l = None) /\
    (ol_type l = Some true <-> exists r, In r refs /\ oo_online (ocls r) = true /\ oo_type (ocls r) (h r) = Some true).
  Proof.
    intros E Hk. unfold OLayerModel.ol_init in E. replace (match k with KSame => same_init N St cls refs h dt | _ => layer_init N St cls refs h dt end) with (base_init k refs h dt) in E by (destruct k; reflexivity).
    destruct (base_init k refs h dt) as [b|e] eqn:Eb; [|discriminate]. destruct (forallb _ refs); [|discriminate].
    assert (l_trainable b = existsb (fun r => o_training (cls r) (h r)) refs) as Et.
    { clear -Eb. unfold base_init, same_init, layer_init in Eb. destruct k; destruct (check_props _ _ _ _ _ _); try discriminate.
      1, 2: destruct (in_dim _ _ _ _ _); [injection Eb as <-; reflexivity|discriminate].
      destruct refs as [|r0 refs]; [discriminate|]. destruct (existsb _ (r0 :: refs)); [discriminate|]. destruct (LayerModel.o_in _ _ _ _); [injection Eb as <-; reflexivity|discriminate]. }
    match type of E with context [set_rng _ _ _ rng ?s] => set (s0 := s) in * end.
    assert (forall r, oo_type (ocls r) (snd (set_rng N St ocls rng s0) r) = oo_type (ocls r) (h r)) as Hty.
    { intros r. destruct rng as [g|]; [|reflexivity]. cbn. apply (rng_nodes_inv refs g (fun r s => oo_type (ocls r) s = oo_type (ocls r) (h r))); [|reflexivity].
      intros r' s' <-. apply Hk. }
    assert (ol_trainable (fst (set_rng N St ocls rng s0)) = l_trainable b /\ ol_training (fst (set_rng N St ocls rng s0)) = l_trainable b /\ ol_started (fst (set_rng N St ocls rng s0)) = false) as (A1 & A2 & A3)
      by (destruct rng; auto).
    destruct (set_rng N St ocls rng s0) as [l1 h1]. cbn in Hty, A1, A2, A3. injection E as <- <-. cbn [set_ltype ol_trainable ol_training ol_started ol_type]. rewrite A1, A2.
    split; [rewrite Et, existsb_exists; reflexivity|]. split; [reflexivity|]. split; [exact A3|].
    unfold type_of_nodes. match goal with |- context [existsb ?f refs] => destruct (existsb f refs) eqn:X end.
    - split; [auto|]. split; [intros _|reflexivity]. apply existsb_exists in X as (r & X1 & X2). exists r. rewrite <- Hty.
      destruct (oo_online (ocls r)); [|discriminate]. destruct (oo_type (ocls r) (h1 r)) as [[]|]; try discriminate. auto.
    - split; [auto|]. split; [discriminate|]. intros (r & X1 & X2 & X3). exfalso. assert (existsb (fun r => oo_online (ocls r) && match oo_type (ocls r) (h1 r) with Some true => true | _ => false end) refs = true) as C; [|congruence].
      apply existsb_exists. exists r. split; [exact X1|]. rewrite X2, Hty, X3. reflexivity.
  Qed.

  (** ** C256: the training type *)
  Lemma check_input_type x s : ol_type (fst (fst (check_input x s))) = match snd (check_input x s), ol_type (fst s) with OOk _, None => Some false | _, t => t end.
  Proof using.
    destruct s as [l h]. unfold OLayerModel.check_input. cbn [fst]. destruct (_ || _); [reflexivity|]. destruct (ol_rng l); cbn; destruct (ol_type l) eqn:E; cbn; rewrite ?E; reflexivity.
  Qed.
  Lemma step_frame x n s : ol_type (fst (fst (step x n s))) = ol_type (fst s) /\ ol_training (fst (fst (step x n s))) = ol_training (fst s) /\ ol_started (fst (fst (step x n s))) = ol_started (fst s) /\
    ol_out (fst (fst (step x n s))) = ol_out (fst s) /\ ol_phase (fst (fst (step x n s))) = ol_phase (fst s) /\ ol_refs (fst (fst (step x n s))) = ol_refs (fst s) /\ ol_rng (fst (fst (step x n s))) = ol_rng (fst s).
  Proof using. unfold OLayerModel.step. destruct (inner_train _ _ _ _ _ _) as [h [u|e]]; cbn; auto 10. Qed.
  Lemma steps_frame x : forall s, ol_type (fst (fst (steps x s))) = ol_type (fst s) /\ ol_training (fst (fst (steps x s))) = ol_training (fst s) /\ ol_started (fst (fst (steps x s))) = ol_started (fst s) /\
    ol_out (fst (fst (steps x s))) = ol_out (fst s) /\ ol_phase (fst (fst (steps x s))) = ol_phase (fst s) /\ ol_refs (fst (fst (steps x s))) = ol_refs (fst s) /\ ol_rng (fst (fst (steps x s))) = ol_rng (fst s).
  Proof using.
    induction x as [|row x IH]; intros s; [cbn; auto 10|]. cbn [OLayerModel.steps]. pose proof (step_frame [row] 1 s) as H. destruct (step [row] 1 s) as [s1 [u|e]]; cbn in H.
    - destruct (IH s1) as (I1 & I2 & I3 & I4 & I5 & I6 & I7). destruct H as (H1 & H2 & H3 & H4 & H5 & H6 & H7). rewrite I1, I2, I3, I4, I5, I6, I7. auto 10.
    - cbn. tauto.
  Qed.
  Lemma check_input_frame x s : let s' := fst (check_input x s) in
    ol_training (fst s') = ol_training (fst s) /\ ol_trainable (fst s') = ol_trainable (fst s) /\ ol_started (fst s') = ol_started (fst s) /\ ol_out (fst s') = ol_out (fst s) /\
    ol_phase (fst s') = ol_phase (fst s) /\ ol_refs (fst s') = ol_refs (fst s) /\ ol_kind (fst s') = ol_kind (fst s) /\ ol_in (fst s') = ol_in (fst s) /\ ol_iter (fst s') = ol_iter (fst s).
  Proof using.
    destruct s as [l h]. unfold OLayerModel.check_input. cbn [fst]. destruct (_ || _); [cbn; auto 10|]. destruct (ol_rng l); cbn; destruct (ol_type l) eqn:E; cbn; auto 10.
  Qed.
  Lemma train_type x s t : ol_type (fst s) = Some t -> ol_type (fst (fst (ol_train x s))) = Some t.
  Proof using.
    intros Ht. unfold OLayerModel.ol_train. destruct (negb _); [exact Ht|]. destruct (negb _); [exact Ht|]. pose proof (check_input_type x s) as H. rewrite Ht in H.
    destruct (check_input x s) as [s1 [u|e]]; cbn [fst snd] in H; [|exact H]. cbn [set_train ol_type fst]. destruct (ol_type (fst s1)) as [[]|] eqn:E; cbn [set_train ol_type].
    - rewrite (proj1 (step_frame x (length x) _)). cbn. congruence.
    - rewrite (proj1 (steps_frame x _)). cbn. congruence.
    - discriminate.
  Qed.
  Lemma inner_pre_frame x s : let s' := fst (inner_pre N St ocls x s) in ol_type (fst s') = ol_type (fst s) /\ ol_training (fst s') = ol_training (fst s) /\ ol_started (fst s') = ol_started (fst s) /\
    ol_phase (fst s') = ol_phase (fst s) /\ ol_refs (fst s') = ol_refs (fst s) /\ ol_rng (fst s') = ol_rng (fst s) /\ ol_trainable (fst s') = ol_trainable (fst s).
  Proof using.
    destruct s as [l h]. cbn. destruct (ol_out l); [cbn; auto 10|]. destruct (match ol_kind l with KSame => _ | _ => _ end) as [h1 [u|e]]; [|cbn; auto 10]. destruct (out_dim _ _ _ _ _); cbn; auto 10.
  Qed.
  Lemma pre_exec_type x s t : ol_type (fst s) = Some t -> ol_type (fst (fst (pre_exec N St ocls fresh x s))) = Some t.
  Proof using.
    intros Ht. unfold pre_exec. pose proof (inner_pre_frame x s) as H. destruct (inner_pre N St ocls x s) as [s1 [u|e]]; cbn in H; [|cbn; destruct H; congruence].
    assert (ol_type (fst s1) = Some t) as Ht1 by (destruct H; congruence).
    assert (ol_type (fst (fst (if (ol_phase (fst s1) =? 0)%Z && negb (ol_started (fst s1)) then ol_train x s1 else (s1, OOk tt)))) = Some t) as Ht2.
    { destruct (_ && _); [apply train_type|]; exact Ht1. }
    destruct (if (_ && _)%bool then _ else _) as [s2 [u2|e2]]; cbn [fst] in Ht2; [|exact Ht2]. rewrite check_input_type, Ht2. destruct (snd _); reflexivity.
  Qed.
  Lemma run1_type c s t : ol_type (fst s) = Some t -> ol_type (fst (run1 c s)) = Some t.
  Proof using.
    intros Ht. destruct c as [x| |x|y|u]; cbn [OLayerModel.run1].
    - apply train_type; exact Ht.
    - destruct s as [l h]. unfold OLayerModel.ol_stop. destruct (_ && _); [exact Ht|]. destruct (negb _); [exact Ht|]. destruct (inner_stop _ _ _ _ _) as [h1 [u|e]]; [|exact Ht]. cbn. destruct (ol_out l); exact Ht.
    - unfold OLayerModel.ol_execute. pose proof (pre_exec_type x s t Ht) as H. destruct (pre_exec _ _ _ _ _ _) as [s1 [u|e]]; [|exact H]. unfold lift. destruct (inner_exec _ _ _ _ _ _ _) as [h1 [u1|e1]]; exact H.
    - unfold OLayerModel.ol_inverse. destruct (negb _); [exact Ht|]. assert (forall o, ol_type (set_out (fst s) o) = Some t) as Hso by (intros; exact Ht).
      destruct (ol_out (fst s)) eqn:E.
      + rewrite E. destruct (_ && _); [exact Ht|]. unfold lift. destruct (inner_inv _ _ _ _ _ _ _) as [h1 [u1|e1]]; exact Ht.
      + cbn [set_out ol_out]. destruct (_ && _); [exact Ht|]. unfold lift. destruct (inner_inv _ _ _ _ _ _ _) as [h1 [u1|e1]]; exact Ht.
    - unfold OLayerModel.ol_set_type. rewrite Ht. exact Ht.
  Qed.
  (** once there is a training type, no sequence of calls changes it *)
  Theorem C256_type_is_final cs s t : ol_type (fst s) = Some t -> ol_type (fst (run cs s)) = Some t.
  Proof. revert s. induction cs as [|c cs IH]; intros s Ht; [exact Ht|]. apply IH. apply run1_type. exact Ht. Qed.
  Theorem C256_set_type t s : snd (ol_set_type t s) = OOk tt <-> ol_type (fst s) = None \/ ol_type (fst s) = Some t.
  Proof.
    unfold OLayerModel.ol_set_type. destruct (ol_type (fst s)) as [u|] eqn:E; cbn; [|tauto]. destruct (Bool.eqb_spec u t) as [->|Hn]; [tauto|]. split; [discriminate|]. intros [C|C]; congruence.
  Qed.
  Theorem C256_set_type_sets t s : snd (ol_set_type t s) = OOk tt -> ol_type (fst (fst (ol_set_type t s))) = Some t /\ snd (fst (ol_set_type t s)) = snd s.
  Proof.
    unfold OLayerModel.ol_set_type. destruct (ol_type (fst s)) as [u|] eqn:E; cbn; [|auto]. destruct (Bool.eqb_spec u t) as [->|Hn]; [auto|discriminate].
  Qed.
  (** without a type, the first training or execution that gets past the checks fixes 'incremental' *)
  Theorem C256_default_incremental x s : ol_type (fst s) = None -> snd (ol_train x s) = OOk tt -> ol_type (fst (fst (ol_train x s))) = Some false.
  Proof.
    intros Ht. unfold OLayerModel.ol_train. destruct (negb _); [discriminate|]. destruct (negb _); [discriminate|]. pose proof (check_input_type x s) as H. rewrite Ht in H.
    destruct (check_input x s) as [s1 [u|e]]; cbn [fst snd] in H; [|discriminate]. cbn [set_train ol_type fst]. rewrite H. intros _. rewrite (proj1 (steps_frame x _)). exact H.
  Qed.

  (** ** C257: incremental training *)
  Lemma steps_app x y s : steps (x ++ y) s = match steps x s with (s, OBad e) => (s, OBad e) | (s, OOk _) => steps y s end.
  Proof using.
    revert s. induction x as [|row x IH]; intros s; [reflexivity|]. cbn [app OLayerModel.steps]. destruct (step [row] 1 s) as [s1 [u|e]]; [apply IH|reflexivity].
  Qed.
  Lemma step_more x n s : ol_kind (fst (fst (step x n s))) = ol_kind (fst s) /\ ol_in (fst (fst (step x n s))) = ol_in (fst s) /\ ol_trainable (fst (fst (step x n s))) = ol_trainable (fst s).
  Proof using. unfold OLayerModel.step. destruct (inner_train _ _ _ _ _ _) as [h [u|e]]; cbn; auto. Qed.
  Lemma steps_more x : forall s, ol_kind (fst (fst (steps x s))) = ol_kind (fst s) /\ ol_in (fst (fst (steps x s))) = ol_in (fst s) /\ ol_trainable (fst (fst (steps x s))) = ol_trainable (fst s).
  Proof using.
    induction x as [|row x IH]; intros s; [cbn; auto|]. cbn [OLayerModel.steps]. pose proof (step_more [row] 1 s) as H. destruct (step [row] 1 s) as [s1 [u|e]]; cbn in H; [|cbn; tauto].
    destruct (IH s1) as (I1 & I2 & I3). destruct H as (H1 & H2 & H3). rewrite I1, I2, I3. auto.
  Qed.
  Lemma check_input_again y s t : ol_rng (fst s) <> None -> ol_type (fst s) = Some t -> length y <> 0 -> width N y = ol_in (fst s) -> check_input y s = (s, OOk tt).
  Proof using.
    intros Hr Ht Hy Hw. unfold OLayerModel.check_input. destruct (Nat.eqb_spec (length y) 0); [contradiction|]. rewrite Hw, Nat.eqb_refl. cbn. destruct (ol_rng (fst s)) eqn:E; [|congruence].
    rewrite Ht. reflexivity.
  Qed.
  Lemma check_input_rng x s s' : check_input x s = (s', OOk tt) -> ol_rng (fst s') <> None /\ ol_type (fst s') <> None /\ width N x = ol_in (fst s) /\ length x <> 0.
  Proof using.
    unfold OLayerModel.check_input. destruct (Nat.eqb_spec (length x) 0); [discriminate|]. cbn [orb]. destruct (Nat.eqb_spec (width N x) (ol_in (fst s))); [|discriminate]. cbn [negb].
    destruct s as [l h]. cbn [fst snd]. destruct (ol_rng l) eqn:E1; cbn; destruct (ol_type l) eqn:E2; cbn; intros [= <-]; cbn; repeat split; auto; congruence.
  Qed.
  (** the way the data are cut into chunks does not matter, and neither does an exception *)
  Theorem C257_chunks x y s : ol_type (fst s) <> Some true -> x <> [] -> y <> [] -> width N y = width N x ->
    ol_train (x ++ y) s = match ol_train x s with (s, OBad e) => (s, OBad e) | (s, OOk _) => ol_train y s end.
  Proof.
    intros Ht Hx Hy Hw. unfold OLayerModel.ol_train at 1 2. destruct (ol_trainable (fst s)) eqn:E1; cbn [negb]; [|reflexivity]. destruct (ol_training (fst s)) eqn:E2; cbn [negb]; [|reflexivity].
    assert (check_input (x ++ y) s = check_input x s) as ->.
    { unfold OLayerModel.check_input. destruct x as [|r x]; [contradiction|]. reflexivity. }
    pose proof (check_input_frame x s) as HF. pose proof (check_input_type x s) as HT. destruct (check_input x s) as [s1 [[]|e]] eqn:E; [|reflexivity]. cbn [fst snd] in HF, HT. cbn [set_train ol_type fst].
    destruct (check_input_rng x s s1 E) as (R1 & R2 & R3 & R4). assert (ol_type (fst s1) = Some false) as Ht1 by (destruct (ol_type (fst s)) as [[]|]; congruence). rewrite Ht1.
    rewrite steps_app. match goal with |- context [steps x ?a] => set (s2 := a) end. pose proof (steps_frame x s2) as (F1 & F2 & F3 & F4 & F5 & F6 & F7). pose proof (steps_more x s2) as (G1 & G2 & G3).
    destruct (steps x s2) as [s3 [u|e]]; [|reflexivity]. cbn [fst] in *. unfold OLayerModel.ol_train. destruct HF as (K1 & K2 & K3 & K4 & K5 & K6 & K7 & K8 & K9).
    rewrite G3. cbn. rewrite K2, E1. cbn. rewrite F2. cbn. rewrite K1, E2. cbn. unfold s2 in F1, F7; cbn in F1, F7.
    rewrite (check_input_again y s3 false); [|congruence|congruence|destruct y; [contradiction|cbn; lia]|rewrite G2; unfold s2; cbn; congruence].
    rewrite F1, Ht1. f_equal. destruct s3 as [l3 h3]. cbn [fst snd] in *. f_equal. unfold set_train. destruct l3; cbn in *. rewrite F3. reflexivity.
  Qed.
  Lemma steps_iter (x : mat) : forall s s', steps x s = (s', OOk tt) -> ol_iter (fst s') = ol_iter (fst s) + length x.
  Proof using.
    induction x as [|row x IH]; intros s s' E; [injection E as <-; cbn; lia|]. cbn [OLayerModel.steps] in E. destruct (step [row] 1 s) as [s1 [u|e]] eqn:E1; [|discriminate].
    apply IH in E. unfold OLayerModel.step in E1. destruct (inner_train _ _ _ _ _ _) as [h [v|e]]; [|discriminate]. injection E1 as <- _. cbn in E |- *. lia.
  Qed.
  (** train_iteration counts the rows, in both types of training and for all three kinds of layer *)
  Theorem C257_counts x s s' : ol_train x s = (s', OOk tt) -> ol_iter (fst s') = ol_iter (fst s) + length x.
  Proof.
    unfold OLayerModel.ol_train. destruct (negb _); [discriminate|]. destruct (negb _); [discriminate|]. pose proof (check_input_frame x s) as HF.
    destruct (check_input x s) as [s1 [u|e]]; [|discriminate]. cbn [fst snd] in HF. destruct HF as (_ & _ & _ & _ & _ & _ & _ & _ & HF). cbn [set_train ol_type]. intros E.
    assert (ol_iter (fst s') = ol_iter (fst s1) + length x) as ->; [|congruence].
    destruct (ol_type (fst s1)) as [[]|].
    - unfold OLayerModel.step in E. destruct (inner_train _ _ _ _ _ _) as [h [v|e]]; [|discriminate]. injection E as <-. reflexivity.
    - apply steps_iter in E. exact E.
    - apply steps_iter in E. exact E.
  Qed.
  (** what one node gets: its columns of every row, one row at a time *)
  Section Nodes.
    Variables (refs ds : list nat).
    Hypothesis Hn : NoDup refs.
    Hypothesis Hl : length ds = length refs.
    Hypothesis keep : forall r d s x, o_in (cls r) s = Some d -> o_in (cls r) (fst (o_train (cls r) s x)) = Some d.
    Definition solo (k r : nat) (x : mat) (s : St) : St * lres unit := solo_each N St (cls r) (map (fun row => cols N (start ds k) (start ds k + nth k ds 0) [row]) x) s.
    Lemma steps_each (x : mat) : forall l h s', ol_kind l = KLayer -> ol_refs l = refs -> steps x (l, h) = (s', OOk tt) ->
      each N St (layer_train N St cls refs) (map (fun row => [row]) x) h = (snd s', LOk tt) /\ ol_iter (fst s') = ol_iter l + length x.
    Proof using.
      clear Hn Hl keep ds. induction x as [|row x IH]; intros l h s' Hk Hr; cbn [OLayerModel.steps map each length]; [intros [= <-]; auto|].
      unfold OLayerModel.step. cbn [fst snd]. unfold inner_train. rewrite Hk, Hr. destruct (layer_train N St cls refs [row] h) as [h1 [[]|e]] eqn:E; [|discriminate].
      intros H. apply IH in H; [|exact Hk|exact Hr]. cbn in H. destruct H as [H1 H2]. split; [exact H1|]. cbn in H2. lia.
    Qed.
    Theorem C257_nodes_alone x l h s' : ol_kind l = KLayer -> ol_refs l = refs -> ol_type l <> Some true ->
      ol_train x (l, h) = (s', OOk tt) -> let h0 := match ol_rng l with None => rng_nodes refs fresh h | Some _ => h end in
      (forall k r d, nth_error refs k = Some r -> nth_error ds k = Some d -> o_in (cls r) (h0 r) = Some d) ->
      ol_iter (fst s') = ol_iter l + length x /\
      (forall k r, nth_error refs k = Some r -> solo k r x (h0 r) = (snd s' r, LOk tt)) /\ (forall q, ~ In q refs -> snd s' q = h q).
    Proof.
      intros Hk Hr Ht E h0 Hd. unfold OLayerModel.ol_train in E. cbn [fst] in E. destruct (negb _); [discriminate|]. destruct (negb _); [discriminate|].
      pose proof (check_input_frame x (l, h)) as HF. pose proof (check_input_type x (l, h)) as HT. cbn [fst snd] in HT.
      assert (snd (check_input x (l, h)) = OOk tt -> snd (fst (check_input x (l, h))) = h0) as HH.
      { unfold OLayerModel.check_input, h0. cbn [fst snd]. destruct (_ || _); [discriminate|]. intros _. rewrite <- Hr. destruct (ol_rng l); cbn; destruct (ol_type l); reflexivity. }
      destruct (check_input x (l, h)) as [s1 [u|e]]; [|discriminate]. destruct u. cbn [fst snd] in *. specialize (HH eq_refl). cbn [set_train ol_type] in E.
      assert (ol_type (fst s1) = Some false) as Ht1 by (destruct (ol_type l) as [[]|]; congruence). rewrite Ht1 in E. destruct HF as (F1 & F2 & F3 & F4 & F5 & F6 & F7 & F8 & F9).
      apply steps_each in E; [|cbn; congruence|cbn; congruence]. destruct E as [E1 E2]. cbn in E2. rewrite F9 in E2. split; [exact E2|]. rewrite HH in E1.
      destruct (each_ok N St cls refs ds o_in (fun x a b => cols N a b x) Hn Hl keep (map (fun row => [row]) x) h0 (snd s') Hd E1) as (_ & B & C). split.
      - intros k r Hkr. specialize (B k r Hkr). rewrite map_map in B. exact B.
      - intros q Hq. rewrite C by exact Hq. unfold h0. destruct (ol_rng l); [reflexivity|]. apply rng_nodes_other. exact Hq.
    Qed.
  End Nodes.

  (** ** C258: only stop_training ends the training, and it ends that of all nodes *)
  Lemma run1_training c s : c <> CStop N -> ol_training (fst (run1 c s)) = ol_training (fst s).
  Proof using.
    assert (forall x s, ol_training (fst (fst (ol_train x s))) = ol_training (fst s)) as HT.
    { intros x s0. unfold OLayerModel.ol_train. destruct (negb _); [reflexivity|]. destruct (negb _); [reflexivity|]. pose proof (check_input_frame x s0) as H. destruct (check_input x s0) as [s1 [u|e]]; cbn [fst] in H.
      - cbn [set_train ol_type]. destruct H as (H & _). destruct (ol_type (fst s1)) as [[]|]; [rewrite (proj1 (proj2 (step_frame x (length x) _)))|rewrite (proj1 (proj2 (steps_frame x _)))|rewrite (proj1 (proj2 (steps_frame x _)))]; exact H.
      - apply H. }
    intros Hc. destruct c as [x| |x|y|t]; cbn [OLayerModel.run1]; [apply HT|contradiction| | |].
    - unfold OLayerModel.ol_execute. assert (ol_training (fst (fst (pre_exec N St ocls fresh x s))) = ol_training (fst s)) as H.
      { unfold pre_exec. pose proof (inner_pre_frame x s) as H. destruct (inner_pre N St ocls x s) as [s1 [u|e]]; cbn [fst] in H; [|apply H]. destruct H as (_ & H & _).
        assert (ol_training (fst (fst (if (ol_phase (fst s1) =? 0)%Z && negb (ol_started (fst s1)) then ol_train x s1 else (s1, OOk tt)))) = ol_training (fst s1)) as H2 by (destruct (_ && _); [apply HT|reflexivity]).
        destruct (if (_ && _)%bool then _ else _) as [s2 [u2|e2]]; cbn [fst] in H2; [|cbn; congruence]. rewrite (proj1 (check_input_frame x s2)). congruence. }
      destruct (pre_exec _ _ _ _ _ _) as [s1 [u|e]]; [|exact H]. unfold lift. destruct (inner_exec _ _ _ _ _ _ _) as [h1 [u1|e1]]; exact H.
    - unfold OLayerModel.ol_inverse. destruct (negb _); [reflexivity|]. destruct (ol_out (fst s)) eqn:E.
      + rewrite E. destruct (_ && _); [reflexivity|]. unfold lift. destruct (inner_inv _ _ _ _ _ _ _) as [h1 [u1|e1]]; reflexivity.
      + cbn [set_out ol_out]. destruct (_ && _); [reflexivity|]. unfold lift. destruct (inner_inv _ _ _ _ _ _ _) as [h1 [u1|e1]]; reflexivity.
    - unfold OLayerModel.ol_set_type. destruct (ol_type (fst s)); reflexivity.
  Qed.
  Theorem C258_only_stop_ends cs s : ~ In (CStop N) cs -> ol_training (fst (run cs s)) = ol_training (fst s).
  Proof.
    revert s. induction cs as [|c cs IH]; intros s Hc; [reflexivity|]. change (run (c :: cs) s) with (run cs (run1 c s)). rewrite IH by (intros C; apply Hc; right; exact C). apply run1_training. intros ->. apply Hc. left; reflexivity.
  Qed.
  Definition ends (r : nat) : Prop := forall s s', o_stop (cls r) s = (s', LOk tt) -> o_training (cls r) s' = false.
  Lemma layer_stop_ends refs : forall h h', (forall r, In r refs -> ends r) -> layer_stop N St cls refs h = (h', LOk tt) ->
    (forall r, In r refs -> o_training (cls r) (h' r) = false) /\ (forall r, o_training (cls r) (h r) = false -> h' r = h r) /\ (forall q, ~ In q refs -> h' q = h q).
  Proof using.
    induction refs as [|r refs IH]; intros h h' He; cbn [layer_stop]; [intros [= <-]; repeat split; auto; intros ? []|].
    destruct (o_training (cls r) (h r)) eqn:Et.
    - destruct (o_stop (cls r) (h r)) as [s [[]|e]] eqn:Es; [|discriminate]. intros E. apply IH in E; [|intros; apply He; right; assumption]. destruct E as (A & B & C).
      assert (h' r = s) as Er. { rewrite B by (rewrite upd_same; apply (He r (or_introl eq_refl) _ _ Es)). apply upd_same. }
      repeat split.
      + intros q [<-|Hq]; [|apply A; exact Hq]. rewrite Er. apply (He r (or_introl eq_refl) _ _ Es).
      + intros q Hq. destruct (Nat.eq_dec q r) as [->|Hne]; [congruence|]. rewrite B; rewrite upd_other by exact Hne; auto.
      + intros q Hq. rewrite C by (intros X; apply Hq; right; exact X). apply upd_other. intros ->. apply Hq. left; reflexivity.
    - intros E. apply IH in E; [|intros; apply He; right; assumption]. destruct E as (A & B & C). repeat split; auto.
      + intros q [<-|Hq]; [|auto]. rewrite B; exact Et.
      + intros q Hq. apply C. intros X; apply Hq; right; exact X.
  Qed.
  (** every node of the layer is done after one stop_training, whatever the number of its phases; so is the layer *)
  Theorem C258_stop_ends_all l h s' : (forall r, In r (ol_refs l) -> ends r) -> (ol_kind l = KClone -> exists r n, ol_refs l = repeat r n) ->
    ol_stop (l, h) = (s', OOk tt) ->
    (forall r, In r (ol_refs l) -> o_training (cls r) (snd s' r) = false) /\ (forall r, o_training (cls r) (h r) = false -> snd s' r = h r) /\ (forall q, ~ In q (ol_refs l) -> snd s' q = h q) /\
    ol_training (fst s') = false /\ (forall x, exists e, ol_train x s' = (s', OBad e)) /\ ol_stop s' = (s', OBad OFinished).
  Proof.
    intros He Hc. unfold OLayerModel.ol_stop at 1. destruct (_ && _); [discriminate|]. destruct (negb _) eqn:Et; [discriminate|].
    destruct (inner_stop N St ocls l h) as [h1 [[]|e]] eqn:Es; [|discriminate]. intros [= <-]. cbn [snd fst set_train ol_training].
    assert ((forall r, In r (ol_refs l) -> o_training (cls r) (h1 r) = false) /\ (forall r, o_training (cls r) (h r) = false -> h1 r = h r) /\ (forall q, ~ In q (ol_refs l) -> h1 q = h q)) as (A & B & C).
    { unfold inner_stop in Es. destruct (ol_kind l) eqn:Ek; [eapply layer_stop_ends; eauto| |eapply layer_stop_ends; eauto].
      destruct (Hc eq_refl) as (r & n & Er). rewrite Er in *. destruct n as [|n]; cbn [repeat] in *; [injection Es as <-; repeat split; auto; intros ? []|].
      unfold clone_stop in Es. assert (forall q, In q (r :: repeat r n) -> q = r) as Hq by (intros q [<-|Hq]; [reflexivity|apply repeat_spec in Hq; exact Hq]).
      destruct (o_training (cls r) (h r)) eqn:E1.
      - destruct (o_stop (cls r) (h r)) as [s [[]|e]] eqn:E2; injection Es as <-; [|discriminate]. repeat split.
        + intros q Hin. rewrite (Hq q Hin), upd_same. apply (He r (or_introl eq_refl) _ _ E2).
        + intros q Hf. apply upd_other. congruence.
        + intros q Hin. apply upd_other. intros ->. apply Hin. left; reflexivity.
      - injection Es as <-. repeat split; auto. intros q Hin. rewrite (Hq q Hin). exact E1. }
    repeat split; auto.
    - destruct (ol_trainable _); reflexivity.
    - intros x. unfold OLayerModel.ol_train. cbn [fst set_train ol_trainable ol_training]. destruct (ol_trainable _); cbn; eauto.
    - unfold OLayerModel.ol_stop. cbn. destruct (ol_trainable _); reflexivity.
  Qed.

  (** ** C259: executing a layer that has not been trained trains it first *)
  Theorem C259_execute_trains x s : ol_out (fst s) <> None -> ol_phase (fst s) = 0%Z -> ol_started (fst s) = false ->
    ol_execute x s = match ol_train x s with (s, OBad e) => (s, OBad e) | (s, OOk _) => ol_execute x s end.
  Proof.
    intros Ho Hp Hs. unfold OLayerModel.ol_execute at 1. unfold pre_exec.
    assert (forall s, ol_out (fst s) <> None -> inner_pre N St ocls x s = (s, OOk tt)) as HI.
    { intros [l h] H. cbn in *. destruct (ol_out l); [reflexivity|contradiction]. }
    rewrite (HI s Ho), Hp, Hs. cbn [negb andb Z.eqb].
    assert (snd (ol_train x s) = OOk tt -> ol_out (fst (fst (ol_train x s))) <> None /\ ol_started (fst (fst (ol_train x s))) = true) as HT.
    { unfold OLayerModel.ol_train. destruct (negb _); [discriminate|]. destruct (negb _); [discriminate|]. pose proof (check_input_frame x s) as HF. destruct (check_input x s) as [s1 [u|e]]; [|discriminate]. cbn [fst] in HF.
      destruct HF as (_ & _ & _ & HF & _). cbn [set_train ol_type]. destruct (ol_type (fst s1)) as [[]|]; intros _.
      - destruct (step_frame x (length x) (set_train (fst s1) (ol_training (fst s1)) (ol_phase (fst s1)) true, snd s1)) as (_ & _ & -> & -> & _). cbn. split; congruence.
      - destruct (steps_frame x (set_train (fst s1) (ol_training (fst s1)) (ol_phase (fst s1)) true, snd s1)) as (_ & _ & -> & -> & _). cbn. split; congruence.
      - destruct (steps_frame x (set_train (fst s1) (ol_training (fst s1)) (ol_phase (fst s1)) true, snd s1)) as (_ & _ & -> & -> & _). cbn. split; congruence. }
    destruct (ol_train x s) as [s1 [[]|e]]; [|reflexivity]. destruct (HT eq_refl) as [H1 H2]. cbn [fst] in H1, H2. unfold OLayerModel.ol_execute, pre_exec. rewrite (HI s1 H1), H2. cbn [negb]. rewrite andb_false_r. reflexivity.
  Qed.

  (** ** C260: random number generators: all OnlineNodes of the layer share one from the first training or execution on *)
  Variable rng_of : St -> option nat.
  Hypothesis set_get : forall r g s, oo_online (ocls r) = true -> rng_of (oo_setrng (ocls r) g s) = Some g.
  Definition shared (g : nat) (refs : list nat) (h : heap) : Prop := forall r, In r refs -> oo_online (ocls r) = true -> rng_of (h r) = Some g.
  Lemma rng_nodes_shared refs g h : shared g refs (rng_nodes refs g h).
  Proof using set_get.
    intros r Hr Ho. revert h. induction refs as [|a refs IH]; [destruct Hr|]. intros h. unfold OLayerModel.rng_nodes. cbn [fold_left]. destruct (in_dec Nat.eq_dec r refs) as [Hin|Hnin].
    - apply (IH Hin).
    - destruct Hr as [->|Hr]; [|contradiction]. rewrite Ho. change (fold_left _ refs ?h0) with (rng_nodes refs g h0). rewrite rng_nodes_other by exact Hnin. rewrite upd_same. apply set_get. exact Ho.
  Qed.
  Theorem C260_init_shares k refs dt g h h' l : ol_init k refs dt (Some g) h = (h', OOk l) -> ol_rng l = Some g /\ shared g refs h'.
  Proof.
    unfold OLayerModel.ol_init. destruct (match k with KSame => _ | _ => _ end) as [b|e]; [|discriminate]. destruct (forallb _ refs); [|discriminate]. cbn. intros [= <- <-]. split; [reflexivity|]. apply rng_nodes_shared.
  Qed.
  Theorem C260_first_call_shares x s s' : ol_rng (fst s) = None -> check_input x s = (s', OOk tt) -> ol_rng (fst s') = Some fresh /\ shared fresh (ol_refs (fst s)) (snd s').
  Proof.
    intros Hr. unfold OLayerModel.check_input. destruct (_ || _); [discriminate|]. rewrite Hr. cbn. destruct (ol_type (fst s)); intros [= <-]; cbn; (split; [reflexivity|apply rng_nodes_shared]).
  Qed.

  (** ** C261: CloneOnlineLayer(node, n) and OnlineLayer([node]*n) *)
  Definition as_layer (l : olayer) : olayer :=
    mkOL KLayer (ol_refs l) (ol_in l) (ol_out l) (ol_trainable l) (ol_training l) (ol_phase l) (ol_started l) (ol_type l) (ol_iter l) (ol_rng l).
  Theorem C261_train_same x l h : ol_kind l = KClone -> let (s1, r1) := ol_train x (l, h) in ol_train x (as_layer l, h) = ((as_layer (fst s1), snd s1), r1).
  Proof.
    intros Hk. unfold OLayerModel.ol_train. cbn [fst snd as_layer ol_trainable ol_training]. destruct (negb _); [reflexivity|]. destruct (negb _); [reflexivity|].
    assert (forall x n l h, ol_kind l = KClone -> step x n (as_layer l, h) = ((as_layer (fst (fst (step x n (l, h)))), snd (fst (step x n (l, h)))), snd (step x n (l, h)))) as HS.
    { intros x0 n l0 h0 Hk0. unfold OLayerModel.step, inner_train. cbn [fst snd as_layer ol_kind ol_refs]. rewrite Hk0. destruct (layer_train _ _ _ _ _ _) as [h1 [u|e]]; reflexivity. }
    assert (forall x l h, ol_kind l = KClone -> steps x (as_layer l, h) = ((as_layer (fst (fst (steps x (l, h)))), snd (fst (steps x (l, h)))), snd (steps x (l, h)))) as HSS.
    { induction x0 as [|row x0 IH]; intros l0 h0 Hk0; [reflexivity|]. cbn [OLayerModel.steps]. rewrite HS by exact Hk0. pose proof (step_more [row] 1 (l0, h0)) as (K & _). destruct (step [row] 1 (l0, h0)) as [[l1 h1] [u|e]]; [|reflexivity].
      cbn [fst snd] in K |- *. apply IH. congruence. }
    assert (check_input x (as_layer l, h) = ((as_layer (fst (fst (check_input x (l, h)))), snd (fst (check_input x (l, h)))), snd (check_input x (l, h)))) as ->.
    { unfold OLayerModel.check_input. cbn [fst snd as_layer ol_in ol_rng ol_type ol_refs]. destruct (_ || _); [reflexivity|]. destruct (ol_rng l); cbn; destruct (ol_type l); reflexivity. }
    pose proof (check_input_frame x (l, h)) as HF. destruct (check_input x (l, h)) as [[l1 h1] [u|e]]; cbn [fst snd] in *; [|reflexivity]. cbn [set_train as_layer ol_type ol_training ol_phase].
    destruct HF as (_ & _ & _ & _ & _ & _ & HF & _). change (set_train (as_layer l1) (ol_training l1) (ol_phase l1) true) with (as_layer (set_train l1 (ol_training l1) (ol_phase l1) true)).
    destruct (ol_type l1) as [[]|]; [rewrite HS by (cbn; congruence)|rewrite HSS by (cbn; congruence)|rewrite HSS by (cbn; congruence)];
      (destruct (step _ _ _) as [[? ?] ?] || destruct (steps _ _) as [[? ?] ?]); reflexivity.
  Qed.
  (** the docstring (layer_online.py:103-104) says that OnlineLayer([node]*n) has a problem when closing the training: it has not *)
  Theorem C261_stop_same l h r n : ol_kind l = KClone -> ol_refs l = repeat r (S n) -> ends r ->
    let (s1, r1) := ol_stop (l, h) in ol_stop (as_layer l, h) = ((as_layer (fst s1), snd s1), r1).
  Proof.
    intros Hk Hr He. unfold OLayerModel.ol_stop. cbn [as_layer ol_training ol_started ol_out]. destruct (_ && _); [reflexivity|]. destruct (negb _); [reflexivity|].
    assert (inner_stop N St ocls (as_layer l) h = inner_stop N St ocls l h) as ->.
    { unfold inner_stop. cbn [as_layer ol_kind ol_refs]. rewrite Hk, Hr. cbn [repeat]. unfold clone_stop. cbn [layer_stop].
      assert (forall m h, o_training (cls r) (h r) = false -> layer_stop N St cls (repeat r m) h = (h, LOk tt)) as HL by (induction m as [|m IH]; intros h0 H0; cbn; [reflexivity|rewrite H0; apply IH; exact H0]).
      destruct (o_training (cls r) (h r)) eqn:Et; [|apply HL; exact Et]. destruct (o_stop (cls r) (h r)) as [s [[]|e]] eqn:Es; [|reflexivity]. apply HL. rewrite upd_same. apply (He _ _ Es). }
    destruct (inner_stop N St ocls l h) as [h1 [[]|e]]; [|reflexivity]. destruct (ol_out l); reflexivity.
  Qed.
  (** once out dimension is known and training has begun (or is over), execution is the same for a node that acts row by row *)
  Theorem C261_execute_same l h r k n d o f x g t : ol_kind l = KClone -> ol_refs l = repeat r k -> 0 < k -> 0 < d -> ol_in l = k * d -> ol_out l = Some (k * o) ->
    ol_rng l = Some g -> ol_type l = Some t -> (ol_phase l <> 0%Z \/ ol_started l = true) ->
    o_in (cls r) (h r) = Some d -> o_out N St (cls r) (h r) = Some o -> rowwise N St cls (o_exec N St) r (h r) d o f -> is_mat N n (k * d) x -> n <> 0 ->
    exists y h1 h2, ol_execute x (l, h) = ((l, h1), OOk (Some y)) /\ ol_execute x (as_layer l, h) = ((as_layer l, h2), OOk (Some y)) /\ (forall q, h1 q = h q) /\ (forall q, h2 q = h q).
  Proof.
    intros Hk Hr Hk0 Hd Hin Hout Hg Ht Hph E1 E2 R Hx Hn0. destruct (C27_clone_execute N zero St cls r k n d o f x h Hk0 Hd E1 E2 R Hx) as (y & h1 & h2 & A & B & C & D).
    exists y, h1, h2. assert (length x <> 0 /\ width N x = k * d) as [Hx1 Hx2].
    { destruct Hx as [X1 X2]. split; [congruence|]. destruct x as [|row x]; [cbn in X1; congruence|]. inversion X2; subst. assumption. }
    assert ((ol_phase l =? 0)%Z && negb (ol_started l) = false) as Hno by (destruct Hph as [Hp| ->]; [destruct (Z.eqb_spec (ol_phase l) 0); [contradiction|reflexivity]|apply andb_false_r]).
    assert (forall l', ol_out l' = Some (k * o) -> (ol_phase l' =? 0)%Z && negb (ol_started l') = false -> ol_in l' = k * d -> ol_rng l' = Some g -> ol_type l' = Some t ->
      pre_exec N St ocls fresh x (l', h) = ((l', h), OOk tt)) as HP.
    { intros l' P1 P2 P3 P4 P5. unfold pre_exec, inner_pre. rewrite P1. cbn [fst]. rewrite P2. apply (check_input_again x (l', h) t); cbn; congruence. }
    split; [|split; [|split; assumption]].
    - unfold OLayerModel.ol_execute. rewrite HP by assumption. cbn [fst snd]. unfold inner_exec. rewrite Hout, Hk, Hr. destruct k as [|k]; [lia|]. cbn [repeat]. rewrite A. reflexivity.
    - unfold OLayerModel.ol_execute. rewrite HP by assumption. cbn [fst snd]. unfold inner_exec. cbn [as_layer ol_out ol_kind ol_refs]. rewrite Hout. cbn [as_layer ol_out ol_kind ol_refs]. rewrite Hr, B. reflexivity.
  Qed.
End Props.

(** * Concrete nodes *)
(** state: training?, number of rows trained on, sum of the training data, output dimension known?, own generator, training type *)
Record nst := mkN { n_tr : bool; n_rows : nat; n_sum : nat; n_out : bool; n_rng : option nat; n_type : option bool }.
(** an OnlineNode with one column that adds its trained sum to its input.  execute and _pre_execution_checks train it first if it has not been
    trained (signal_node_online.py:181-183), and set the output dimension *)
Definition learn (s : nst) (x : list (list nat)) : nst := mkN (n_tr s) (n_rows s + length x) (n_sum s + sum_all x) (n_out s) (n_rng s) (n_type s).
Definition prepare (s : nst) (x : list (list nat)) : nst :=
  let s := if n_tr s && (n_rows s =? 0) then learn s x else s in mkN (n_tr s) (n_rows s) (n_sum s) true (n_rng s) (n_type s).
Definition counter : obj nat nst :=
  mkObj nat nst (fun _ => Some 1) (fun s => if n_out s then Some 1 else None) (fun _ => None) n_tr true 1
    (fun s x => (learn s x, LOk tt))
    (fun s => (mkN false (n_rows s) (n_sum s) (n_out s) (n_rng s) (n_type s), LOk tt))
    (fun s x => (prepare s x, LOk tt))
    (fun s x => let s := prepare s x in (s, LOk (map (map (fun v => v + n_sum s)) x)))
    (fun s x => (s, LOk (map (map (fun v => v - n_sum s)) x))).
Definition ocounter : oobj nat nst := mkOO nat nst counter true n_type (fun g s => mkN (n_tr s) (n_rows s) (n_sum s) (n_out s) (Some g) (n_type s)).
Definition plain : oobj nat nst := mkOO nat nst counter false (fun _ => None) (fun _ s => s).
Definition n0 : nst := mkN true 0 0 true None None.
Definition ocs : nat -> oobj nat nst := fun _ => ocounter.
Definition made (k : kind) (refs : list nat) (rng : option nat) (h : heap nst) : state nst :=
  match ol_init nat nst ocs k refs None rng h with (h, OOk l) => (l, h) | (h, OBad _) => (mkOL k [] 0 None false false 0 false None 0 None, h) end.

Example C255_example :
  (exists h l, ol_init nat nst ocs KLayer [0;1] None None (fun _ => n0) = (h, OOk l) /\ ol_in l = 2 /\ ol_trainable l = true /\ ol_type l = None) /\
  (exists h l, ol_init nat nst ocs KLayer [0;1] None None (fun r => match r with 0 => n0 | _ => mkN true 0 0 true None (Some true) end) = (h, OOk l) /\ ol_type l = Some true) /\
  snd (ol_init nat nst (fun r => match r with 0 => ocounter | _ => plain end) KLayer [0;1] None None (fun _ => n0)) = OBad (OE LType) /\
  (exists h l, ol_init nat nst (fun r => match r with 0 => ocounter | _ => plain end) KLayer [0;1] None None (fun r => match r with 0 => n0 | _ => mkN false 0 0 true None None end) = (h, OOk l)) /\
  snd (ol_init nat nst ocs KSame [] None None (fun _ => n0)) = OBad (OE LIndex).
Proof. split; [do 2 eexists; repeat split|]. split; [do 2 eexists; repeat split|]. split; [reflexivity|]. split; [do 2 eexists; reflexivity|reflexivity]. Qed.
(** ** C256: the training type can be set anew as for any OnlineNode, unless the nodes prescribe it: refuted.  No node has a training type. *)
Theorem C256_type_settable_refuted : exists refs h, let s := made KLayer refs None h in
  (forall r, In r refs -> oo_type nat nst (ocs r) (h r) = None) /\
  (let (s1, r1) := ol_set_type nst false s in r1 = OOk tt /\ snd (ol_set_type nst true s1) = OBad OOnline).
Proof. exists [0;1], (fun _ => n0). split; [intros r [<-|[<-|[]]]; reflexivity|split; reflexivity]. Qed.
Example C257_example :
  let (s1, r1) := ol_train nat nst ocs 7 [[1;2];[3;4]] (made KLayer [0;1] None (fun _ => n0)) in
  let (s2, r2) := ol_train nat nst ocs 7 [[5;6]] s1 in
  let (s3, r3) := ol_train nat nst ocs 7 [[1;2];[3;4];[5;6]] (made KLayer [0;1] None (fun _ => n0)) in
  r1 = OOk tt /\ r2 = OOk tt /\ r3 = OOk tt /\ snd s2 0 = mkN true 3 9 true (Some 7) None /\ snd s3 0 = snd s2 0 /\ snd s3 1 = mkN true 3 12 true (Some 7) None /\ snd s2 1 = snd s3 1 /\
  ol_iter (fst s3) = 3.
Proof. vm_compute. repeat split. Qed.
Example C258_example :
  let (s1, r1) := ol_train nat nst ocs 7 [[1;2];[3;4]] (made KLayer [0;1] None (fun _ => n0)) in
  let (s2, r2) := ol_execute nat 0 nst ocs 7 [[1;1]] s1 in
  let (s3, r3) := ol_stop nat nst ocs s2 in
  r2 = OOk (Some [[5;7]]) /\ ol_training (fst s2) = true /\ r3 = OOk tt /\ ol_training (fst s3) = false /\ n_tr (snd s3 0) = false /\ n_tr (snd s3 1) = false /\
  (forall r, ends nat nst ocs r).
Proof. vm_compute. repeat split. intros r s s' [= <-]. reflexivity. Qed.
Example C259_example :
  let (s1, r1) := ol_execute nat 0 nst ocs 7 [[1;2];[3;4]] (made KLayer [0;1] None (fun _ => n0)) in
  r1 = OOk (Some [[5;8];[7;10]]) /\ n_rows (snd s1 0) = 2 /\ ol_training (fst s1) = true.
Proof. vm_compute. repeat split. Qed.
(** ** C259: executing an untrained layer is training it and executing it: refuted if the output dimension of a node is not known yet: the nodes
    are trained by Layer._pre_execution_checks (layer.py:174) and a second time by OnlineNode._pre_execution_checks *)
Definition n1 : nst := mkN true 0 0 false None None.
Theorem C259_trained_twice_refuted : exists refs h x, let s := made KLayer refs None h in
  let (s1, r1) := ol_execute nat 0 nst ocs 7 x s in
  let (s2, r2) := ol_train nat nst ocs 7 x s in
  let (s3, r3) := ol_execute nat 0 nst ocs 7 x s2 in
  r1 = OOk (Some [[9;14];[11;16]]) /\ r3 = OOk (Some [[5;8];[7;10]]) /\ length x = 2 /\ n_rows (snd s1 0) = 4 /\ n_rows (snd s3 0) = 2.
Proof. exists [0;1], (fun _ => n1), [[1;2];[3;4]]. vm_compute. repeat split. Qed.
(** ** C260: a node keeps the random number generator it was given: refuted *)
Theorem C260_own_generator_refuted : exists refs h x r, let s := made KLayer refs None h in
  n_rng (snd s r) = Some 5 /\ let (s1, r1) := ol_train nat nst ocs 7 x s in r1 = OOk tt /\ n_rng (snd s1 r) = Some 7.
Proof. exists [0;1], (fun r => match r with 0 => mkN true 0 0 true (Some 5) None | _ => n0 end), [[1;2]], 0. vm_compute. repeat split. Qed.
Example C260_example : let s := made KLayer [0;1] (Some 3) (fun _ => n0) in n_rng (snd s 0) = Some 3 /\ n_rng (snd s 1) = Some 3 /\
  let (s1, r1) := ol_train nat nst ocs 7 [[1;2]] s in r1 = OOk tt /\ n_rng (snd s1 0) = Some 3 /\ ol_rng (fst s1) = Some 3.
Proof. vm_compute. repeat split. Qed.
Example C261_example :
  let (s1, r1) := ol_train nat nst ocs 7 [[1;2];[3;4]] (made KClone [0;0] None (fun _ => n0)) in
  let (s2, r2) := ol_execute nat 0 nst ocs 7 [[1;1]] s1 in
  let (s3, r3) := ol_stop nat nst ocs s2 in
  let (t1, q1) := ol_train nat nst ocs 7 [[1;2];[3;4]] (made KLayer [0;0] None (fun _ => n0)) in
  let (t2, q2) := ol_execute nat 0 nst ocs 7 [[1;1]] t1 in
  let (t3, q3) := ol_stop nat nst ocs t2 in
  r2 = OOk (Some [[11;11]]) /\ q2 = r2 /\ r3 = OOk tt /\ q3 = OOk tt /\ snd s3 0 = mkN false 4 10 true (Some 7) None /\ snd t3 0 = snd s3 0.
Proof. vm_compute. repeat split. Qed.
