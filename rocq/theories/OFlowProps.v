(** C59, C156, C157, C160: training an OnlineFlow and a CircularOnlineFlow. *)
From Coq Require Import List Arith ZArith Bool Lia.
From Verif Require Import NodeModel NodeProofs OnlineModel OnlineProps OFlowModel.
Import ListNotations.
Open Scope nat_scope.

Section Props.
  Variables D A I : Type.
  Variable row_of : nat -> D -> D.
  Variable na : A.
  Variable arglen : A -> nat.
  Notation array := (array D).
  Notation ofnode := (ofnode D A I).
  Notation visit := (visit D A I row_of na arglen).
  Notation visit1 := (visit1 D A I row_of na).
  Notation pass_with := (pass_with D A I).
  Notation pass_elt := (pass_elt D A I row_of na arglen).
  Notation pass_elts := (pass_elts D A I row_of na arglen).
  Notation elt := (elt D A).

  (** ** what one node does with the data reaching it *)
  (** node i serves the elements, one after the other: if it is in training it is trained (with its arguments) and then executed *)
  Fixpoint serve (i : nat) (els : list elt) (f : ofnode) : ofnode * option (list array) :=
    match els with
    | [] => (f, Some [])
    | (x, args) :: els =>
        match visit i args x f with
        | (f', inr _) => (f', None)
        | (f', inl y) => match serve i els f' with (f'', Some ys) => (f'', Some (y :: ys)) | r => r end
        end
    end.
  (** the nodes of a flow in a row: the first one serves all the elements, what it returns goes to the next, and so on *)
  Fixpoint cascade (i : nat) (els : list elt) (fs fs' : list ofnode) : Prop :=
    match fs, fs' with
    | [], [] => True
    | f :: fs, f' :: fs' => exists ys, serve i els f = (f', Some ys) /\ cascade (S i) (combine ys (map snd els)) fs fs'
    | _, _ => False
    end.
  Lemma cascade_nil fs : forall i, cascade i [] fs fs.
  Proof. induction fs as [|f fs IH]; intro i; cbn; [exact Logic.I|]. exists []. auto. Qed.
  Lemma pass_length v fs : forall i x, length (fst (pass_with v i fs x)) = length fs.
  Proof. induction fs as [|f fs IH]; intros i x; cbn; [reflexivity|]. destruct (v i x f) as [f' [y|c]]; cbn; [|reflexivity]. specialize (IH (S i) y). destruct (pass_with v (S i) fs y) as [fs' r]. cbn in *. congruence. Qed.
  Lemma serve_length i els : forall f f' ys, serve i els f = (f', Some ys) -> length ys = length els.
  Proof.
    induction els as [|[x args] els IH]; intros f f' ys; cbn; [now intros [= <- <-]|]. destruct (visit i args x f) as [f1 [y|c]]; [|discriminate]. destruct (serve i els f1) as [f2 [zs|]] eqn:E; [|discriminate]. intros [= <- <-]. cbn. f_equal. eauto.
  Qed.
  Lemma cascade_cons x args els : forall fs fs1 y fs' i, pass_with (fun i x f => visit i args x f) i fs x = (fs1, FOk y) -> cascade i els fs1 fs' -> cascade i ((x, args) :: els) fs fs'.
  Proof.
    intros fs. revert x els. induction fs as [|f fs IH]; intros x els fs1 y fs' i; cbn [OFlowModel.pass_with]; [intros [= <- <-]; cbn; auto|].
    destruct (visit i args x f) as [f1 [z|c]] eqn:E; [|discriminate]. destruct (pass_with _ (S i) fs z) as [fs2 r] eqn:E2. intros [= <- ->]. destruct fs' as [|f' fs']; [now cbn|]. cbn [cascade].
    intros (ys & Hs & Hc). exists (z :: ys). split; [cbn [serve]; now rewrite E, Hs|]. cbn [map combine snd]. eapply IH; eassumption.
  Qed.
  (** every node gets every element, processed by the nodes before it *)
  Theorem C59_every_element fs els fs' : pass_elts fs els = (fs', FOk tt) -> cascade 0 els fs fs'.
  Proof.
    revert fs. induction els as [|[x args] els IH]; intros fs; cbn [OFlowModel.pass_elts]; [intros [= <-]; apply cascade_nil|].
    destruct (match args with Some l => _ | None => false end); [discriminate|]. destruct (pass_elt fs args x) as [fs1 [y|e]] eqn:E; [|discriminate]. intro H. eapply cascade_cons; [exact E|]. now apply IH.
  Qed.
  Lemma cascade_nth fs : forall fs' i els k f, cascade i els fs fs' -> nth_error fs k = Some f -> exists els' f' ys, nth_error fs' k = Some f' /\ length els' = length els /\ serve (i + k) els' f = (f', Some ys).
  Proof.
    induction fs as [|g fs IH]; intros fs' i els k f; [destruct k; discriminate|]. destruct fs' as [|g' fs']; [now cbn|]. cbn [cascade]. intros (ys & Hs & Hc). destruct k as [|k]; cbn.
    - intros [= <-]. exists els, g', ys. rewrite Nat.add_0_r. auto.
    - intro Hk. destruct (IH _ _ _ _ _ Hc Hk) as (els' & f' & ys' & H1 & H2 & H3). exists els', f', ys'. split; [assumption|]. rewrite Nat.add_succ_r. split; [|exact H3]. etransitivity; [exact H2|]. etransitivity; [apply combine_length|]. rewrite map_length, (serve_length _ _ _ _ _ Hs). apply Nat.min_id.
  Qed.

  (** ** an OnlineNode in training is trained on all of it *)
  Section OnlineNode.
    Variable b : obehaviour D A I.
    Variable k : nat.
    Notation node := (node D A (attrs I)).
    Notation trace := (n_trace D A (attrs I)).
    Notation training := (n_training D A (attrs I)).
    Notation own := (n_int D A (attrs I)).
    Hypothesis trainable : ob_trainable D A I b = true.
    Hypothesis has_phase : 1 <= ob_phases D A I b.
    Variable f : nat -> array -> array.
    Hypothesis pure : channels D A I b f.
    (** the events of an element: those of training, then the execution *)
    Definition events (t : dtype) (batch : bool) (xa : array * A) : list (event D A) :=
      flat_map (training_of D A I b f (snd xa)) (if batch then [refcast D (Some t) (fst xa)] else rows D row_of (refcast D (Some t) (fst xa))) ++ [EvExec D A (refcast D (Some t) (fst xa)) na].
    (** the arguments node i gets *)
    Definition args_of (i : nat) (e : elt) : array * A := (fst e, if k =? 0 then na else nth i (match snd e with Some l => l | None => [] end) na).
    Lemma exec_ok x s s' y : oinv D A I b s -> o_execute D A I row_of na b x na s = (s', Ok y) -> n_started _ _ _ s = true ->
      trace s' = trace s ++ [EvExec D A (refcast D (n_dt _ _ _ s') x) na] /\ (exists t, n_dt _ _ _ s' = Some t) /\ (forall t, n_dt _ _ _ s = Some t -> n_dt _ _ _ s' = Some t)
      /\ (forall t, at_type (own s) = Some t -> at_type (own s') = Some t) /\ training s' = training s /\ n_phase _ _ _ s' = n_phase _ _ _ s /\ n_started _ _ _ s' = n_started _ _ _ s.
    Proof.
      intros Hi H Hs. pose proof H as H0. unfold OnlineModel.o_execute, bind at 1 in H.
      destruct (o_pre_exec D A I row_of na b x s) as [s1 [[]|e]] eqn:E1; [|discriminate].
      assert (E : quiet D A I s s1 /\ (exists t, n_dt _ _ _ s1 = Some t) /\ (forall t, n_dt _ _ _ s = Some t -> n_dt _ _ _ s1 = Some t) /\ (forall t, at_type (own s) = Some t -> at_type (own s1) = Some t)).
      { clear H H0. revert E1. unfold o_pre_exec, bind at 1. rewrite Hs, andb_false_r.
        unfold bind at 1. pose proof (ocheck_quiet D A I b x s) as Q1. destruct (o_check_input D A I b x s) as [s2 [[]|e]] eqn:E2; [|discriminate]. cbn [fst] in Q1.
        assert (Gc : good D A (attrs I) (base D A I b) s s2).
        { pose proof (good_check_input D A (attrs I) (base D A I b) x s) as G. revert E2. unfold o_check_input, bind. destruct (check_input D A (attrs I) (base D A I b) x s) as [s3 [u|e]]; [|discriminate]. cbn [fst] in G. destruct (at_type (own s3)); [now intros [= <-]|]. destruct (ob_types D A I b); [discriminate|]. intros [= <-]. eapply good_trans; [exact G|]. apply good_dims. reflexivity. }
        apply (check_settles D A I b has_phase) in E2 as ((_ & (t & Hd) & _) & _ & _ & Hat).
        unfold bind at 1. destruct (hook_quiet D A I b (fun v => ob_check_params D A I b v x) s2) as [Q2 T2].
        pose proof (good_prog D A (attrs I) (base D A I b) (lifted I (view_of D A (attrs I) s2) (ob_check_params D A I b (view_of D A (attrs I) s2) x)) s2) as G. change (run_prog D A (attrs I) (base D A I b) _ s2) with (run_hook D A I b (fun v => ob_check_params D A I b v x) s2) in G.
        destruct (run_hook D A I b (fun v => ob_check_params D A I b v x) s2) as [s3 [[]|e]]; [|discriminate]. cbn [fst] in *.
        assert (F : quiet D A I s s3 /\ (exists t, n_dt _ _ _ s3 = Some t) /\ (forall t, n_dt _ _ _ s = Some t -> n_dt _ _ _ s3 = Some t) /\ (forall t, at_type (own s) = Some t -> at_type (own s3) = Some t)).
        { split; [eapply quiet_trans; eassumption|]. destruct G as [(_ & _ & G) _]. destruct Gc as [(_ & _ & Gc) _]. split; [eauto|]. split; [auto|]. intros u Hu. rewrite T2, Hat, Hu. reflexivity. }
        destruct (n_out _ _ _ s3); [intros [= <-]; exact F|]. intro E. destruct F as (F1 & F2 & F3 & F4). pose proof (outdim_quiet D A I b (n_in _ _ _ s3) s3) as Q4. pose proof (good_set_out D A (attrs I) (base D A I b) (n_in _ _ _ s3) s3) as [(_ & _ & G4) _]. pose proof (own_set_out D A I b (n_in _ _ _ s3) s3) as O4. rewrite E in *. cbn [fst] in *.
        split; [eapply quiet_trans; eassumption|]. split; [destruct F2; eauto|]. split; [auto|]. intros u Hu. rewrite O4. auto. }
      destruct E as (Hq & (t & Hd) & Hk & Hty). set (x' := refcast D (n_dt _ _ _ s1) x) in *. destruct (hook_quiet D A I b (fun v => ob_execute D A I b v x' na) (add_event D A (attrs I) s1 (EvExec D A x' na))) as [Q2 T2].
      pose proof (good_prog D A (attrs I) (base D A I b) (lifted I (view_of D A (attrs I) (add_event D A (attrs I) s1 (EvExec D A x' na))) (ob_execute D A I b (view_of D A (attrs I) (add_event D A (attrs I) s1 (EvExec D A x' na))) x' na)) (add_event D A (attrs I) s1 (EvExec D A x' na))) as [(_ & _ & G) _].
      change (run_prog D A (attrs I) (base D A I b) _ _) with (run_hook D A I b (fun v => ob_execute D A I b v x' na) (add_event D A (attrs I) s1 (EvExec D A x' na))) in G.
      rewrite H in *. cbn [fst] in *. pose proof (G t Hd) as Gt. apply quiet_out in Q2 as (R1 & R2 & R3 & R4 & R5). apply quiet_out in Hq as (P1 & P2 & P3 & P4 & P5). cbn in R1, R2, R3, R4, T2.
      rewrite R1, R2, R3, R4, T2, Gt, P1, P2, P3, P4. unfold x'. rewrite Hd. repeat split; auto; [eauto|]. intros u Hu. specialize (Hk u Hu). congruence.
    Qed.
    Definition facts (s s' : node) : Prop := oinv D A I b s' /\ training s' = true /\ n_started _ _ _ s' = true /\ (exists t, n_dt _ _ _ s' = Some t) /\ (exists u, at_type (own s') = Some u)
      /\ (forall t, n_dt _ _ _ s = Some t -> n_dt _ _ _ s' = Some t) /\ (forall u, at_type (own s) = Some u -> at_type (own s') = Some u).
    Lemma visit_ok x a s s1 y : oinv D A I b s -> training s = true -> visit1 x a (Online D A I b k s) = (s1, inl y) -> exists s',
      s1 = Online D A I b k s' /\ facts s s' /\ forall t u, n_dt _ _ _ s' = Some t -> at_type (own s') = Some u -> trace s' = trace s ++ events t u (x, a).
    Proof.
      intros Hi Ht. unfold OFlowModel.visit1. cbn [f_training]. rewrite Ht. cbn [f_train]. destruct (o_train D A I row_of b x a s) as [s2 [[]|e]] eqn:E1; [|discriminate]. cbn [f_exec].
      destruct (o_execute D A I row_of na b x na s2) as [s3 [z|e]] eqn:E2; [|discriminate]. intros [= <- <-]. exists s3. split; [reflexivity|].
      destruct (C153_channels D A I row_of b trainable has_phase f x a s s2 pure E1) as (t & Hd & Htr).
      pose proof (train_frame D A I row_of b x a s s2 _ E1) as (F1 & F2 & _ & _ & _ & F6). destruct (F6 eq_refl) as (F7 & _ & _).
      assert (Hi2 : oinv D A I b s2). { destruct Hi as [I1 I2]. unfold oinv. rewrite F1, F2. split; [assumption|]. rewrite Ht. discriminate. }
      assert (Hty : (exists u, at_type (own s2) = Some u) /\ (forall u, at_type (own s) = Some u -> at_type (own s2) = Some u) /\ (forall t, n_dt _ _ _ s = Some t -> n_dt _ _ _ s2 = Some t)).
      { rewrite (train_unfold D A I row_of b trainable x a s Ht) in E1. 
        assert (Gc : good D A (attrs I) (base D A I b) s (fst (o_check_input D A I b x s))).
        { pose proof (good_check_input D A (attrs I) (base D A I b) x s) as G. unfold o_check_input, bind. destruct (check_input D A (attrs I) (base D A I b) x s) as [s4 [u|e]]; [|exact G]. cbn [fst] in G. destruct (at_type (own s4)); [exact G|]. destruct (ob_types D A I b); [exact G|]. eapply good_trans; [exact G|]. apply good_dims. reflexivity. }
        destruct (o_check_input D A I b x s) as [s4 [[]|e]] eqn:E4; [|discriminate]. cbn [fst] in Gc. apply (check_settles D A I b has_phase) in E4 as ((_ & (t4 & Hd4) & (u & Hu)) & _ & _ & Hat). destruct (ob_check_args D A I b _ x a); [discriminate|].
        destruct (hook_quiet D A I b (fun v => ob_check_params D A I b v x) s4) as [_ T2].
        pose proof (good_prog D A (attrs I) (base D A I b) (lifted I (view_of D A (attrs I) s4) (ob_check_params D A I b (view_of D A (attrs I) s4) x)) s4) as G. change (run_prog D A (attrs I) (base D A I b) _ s4) with (run_hook D A I b (fun v => ob_check_params D A I b v x) s4) in G.
        destruct (run_hook D A I b (fun v => ob_check_params D A I b v x) s4) as [s5 [[]|e]]; [|discriminate]. cbn [fst] in *.
        pose proof (work_frame D A I row_of b x a s5 s2 _ E1) as (_ & _ & _ & W & _).
        assert (Gw : good D A (attrs I) (base D A I b) s5 s2).
        { revert E1. unfold work. cbv zeta. intro E1. set (x' := refcast D (n_dt _ _ _ s5) x) in *. set (s6 := set_n_started D A (attrs I) s5 true) in *.
          assert (G6 : good D A (attrs I) (base D A I b) s5 s6) by (apply good_dims; reflexivity).
          assert (Hb : bind D A (attrs I) (o_pass D A I b (phases D A I b) x' a) (fun _ => count D A I (a_rows x')) s6 = (s2, Ok tt) -> good D A (attrs I) (base D A I b) s5 s2).
          { unfold bind. pose proof (pass_good D A I b (phases D A I b) a x' s6) as G7. destruct (o_pass D A I b (phases D A I b) x' a s6) as [s7 [[]|e]]; [|discriminate]. cbn [fst] in G7. unfold count. intros [= <-]. eapply good_trans; [exact G6|]. eapply good_trans; [exact G7|]. apply good_dims. reflexivity. }
          destruct (at_type (n_int D A (attrs I) s6)) as [[]|]; [now apply Hb| |now apply Hb].
          pose proof (rows_good D A I b (rows D row_of x') a s6) as G7. rewrite E1 in G7. eapply good_trans; [exact G6|exact G7]. }
        destruct Gc as [(_ & _ & Gc) _], G as [(_ & _ & G) _], Gw as [(_ & _ & Gw) _]. rewrite W, T2, Hu. split; [eauto|]. split; [intros u2 Hu2; rewrite Hu2 in Hat; congruence|auto]. }
      destruct Hty as ((u & Hu) & Hty & Hdt). destruct (exec_ok x s2 s3 z Hi2 E2 F7) as (X1 & X2 & X3 & X4 & X5 & X6 & X7).
      split.
      - split; [|split; [|split; [|split; [|split; [|split]]]]]; auto; [|congruence|congruence|eauto]. destruct Hi2 as [I1 I2]. unfold oinv. rewrite X5, X6, X7. auto.
      - intros t' u' Hd' Hu'. rewrite X1, Htr, Hd'. rewrite (X3 _ Hd) in Hd'. injection Hd' as <-. rewrite (X4 _ Hu) in Hu'. injection Hu' as <-. rewrite <- app_assoc. unfold events. cbn [fst snd]. rewrite Hu. destruct u; reflexivity.
    Qed.
    Theorem C59_trained_on_all i els s f' ys : oinv D A I b s -> training s = true -> els <> [] -> serve i els (Online D A I b k s) = (f', Some ys) -> exists s' t u,
      f' = Online D A I b k s' /\ training s' = true /\ n_dt _ _ _ s' = Some t /\ at_type (own s') = Some u
      /\ trace s' = trace s ++ flat_map (fun e => events t u (args_of i e)) els.
    Proof.
      intros Hi Ht Hne Hs.
      assert (G : forall els s f' ys, oinv D A I b s -> training s = true -> serve i els (Online D A I b k s) = (f', Some ys) -> exists s', f' = Online D A I b k s' /\ (els <> [] -> facts s s') /\
        forall t u, n_dt _ _ _ s' = Some t -> at_type (own s') = Some u -> trace s' = trace s ++ flat_map (fun e => events t u (args_of i e)) els).
      { clear s els f' ys Hi Ht Hne Hs. intros els. induction els as [|[x args] els IH]; intros s f' ys Hi Ht; cbn [serve].
        - intros [= <- <-]. exists s. split; [reflexivity|]. split; [easy|]. intros. cbn. now rewrite app_nil_r.
        - destruct (visit i args x (Online D A I b k s)) as [f1 [y|c]] eqn:E; [|discriminate].
          assert (E' : visit1 x (snd (args_of i (x, args))) (Online D A I b k s) = (f1, inl y)).
          { revert E. unfold OFlowModel.visit, args_of. cbn [f_nargs fst snd]. destruct (k =? 0); [auto|]. destruct args as [l|]; [|discriminate]. destruct (nth_error l i) as [a|] eqn:En; [|discriminate]. rewrite (nth_error_nth _ _ na En). destruct (k =? arglen a); [auto|discriminate]. }
          destruct (visit_ok x _ s f1 y Hi Ht E') as (s1 & -> & (G1 & G2 & G3 & G4 & G5 & G6 & G7) & Htr). destruct (serve i els (Online D A I b k s1)) as [f2 [zs|]] eqn:E2; [|discriminate]. intros [= <- <-].
          destruct (IH s1 f2 zs G1 G2 E2) as (s2 & -> & Hf & Htr2). exists s2. split; [reflexivity|].
          assert (F : facts s s2). { destruct els as [|e els]; [cbn in E2; injection E2 as <- <-; unfold facts; auto 10|]. destruct (Hf ltac:(discriminate)) as (K1 & K2 & K3 & K4 & K5 & K6 & K7). unfold facts. auto 10. }
          split; [auto|]. intros t u Hd Hu. rewrite (Htr2 t u Hd Hu). destruct G4 as [t1 G4]. destruct G5 as [u1 G5].
          assert (t1 = t /\ u1 = u) as [-> ->].
          { destruct els as [|e els]; [cbn in E2; injection E2 as <- <-; split; congruence|]. destruct (Hf ltac:(discriminate)) as (_ & _ & _ & _ & _ & K6 & K7). rewrite (K6 _ G4) in Hd. rewrite (K7 _ G5) in Hu. split; congruence. }
          rewrite (Htr t u G4 G5), <- app_assoc. reflexivity. }
      destruct (G els s f' ys Hi Ht Hs) as (s' & -> & Hf & Htr). destruct (Hf Hne) as (K1 & K2 & K3 & (t & K4) & (u & K5) & _). exists s', t, u. repeat split; auto.
    Qed.
  End OnlineNode.

  (** ** C156: a flow of OnlineNodes stays open *)
  Definition is_open (f : ofnode) : Prop :=
    match f with
    | Online _ _ _ b _ s => ob_trainable D A I b = true /\ 1 <= ob_phases D A I b /\ oinv D A I b s /\ n_training D A (attrs I) s = true
    | Plain _ _ _ _ _ _ => False
    end.
  Definition phases_of (f : ofnode) : nat := match f with Online _ _ _ b _ _ => ob_phases D A I b | Plain _ _ _ b _ _ => b_phases D A I b end.
  Notation oflow_train := (oflow_train D A I row_of na arglen).
  Lemma visit_open i args x f f' r : is_open f -> visit i args x f = (f', r) -> is_open f' /\ phases_of f' = phases_of f.
  Proof.
    intro Ho. assert (V : forall a f' r, visit1 x a f = (f', r) -> is_open f' /\ phases_of f' = phases_of f).
    { clear f' r. intros a f' r. destruct f as [b k s|b k s]; [destruct Ho|]. destruct Ho as (H1 & H2 & [I1 I2] & H4). unfold OFlowModel.visit1. cbn [f_training]. rewrite H4. cbn [f_train].
      destruct (o_train D A I row_of b x a s) as [s1 r1] eqn:E1. apply train_frame in E1 as (F1 & F2 & _).
      assert (O1 : oinv D A I b s1 /\ n_training D A (attrs I) s1 = true). { unfold oinv. rewrite F1, F2, H4. split; [|reflexivity]. split; [congruence|discriminate]. }
      destruct r1 as [u|e]; [|intros [= <- <-]; cbn; tauto]. cbn [f_exec]. destruct (o_execute D A I row_of na b x na s1) as [s2 r2] eqn:E2. destruct O1 as [[J1 J2] J3]. apply execute_frame in E2 as (F3 & F4 & _); [|assumption|assumption].
      assert (O2 : oinv D A I b s2 /\ n_training D A (attrs I) s2 = true). { unfold oinv. rewrite F3, F4, J3. split; [|reflexivity]. split; [congruence|discriminate]. }
      destruct r2 as [z|e]; intros [= <- <-]; cbn; tauto. }
    unfold OFlowModel.visit. destruct (f_nargs D A I f =? 0); [apply V|]. destruct args as [l|]; [|intros [= <- <-]; auto]. destruct (nth_error l i) as [a|]; [|intros [= <- <-]; auto]. destruct (f_nargs D A I f =? arglen a); [apply V|intros [= <- <-]; auto].
  Qed.
  Lemma pass_open args fs : forall i x fs' r, Forall is_open fs -> pass_with (fun i x f => visit i args x f) i fs x = (fs', r) -> Forall is_open fs' /\ map phases_of fs' = map phases_of fs.
  Proof.
    induction fs as [|f fs IH]; intros i x fs' r HF; cbn [OFlowModel.pass_with]; [intros [= <- <-]; auto|]. apply Forall_cons_iff in HF as [H1 H2]. destruct (visit i args x f) as [f' [y|c]] eqn:E; apply visit_open in E as [V1 V2]; auto.
    - destruct (pass_with _ (S i) fs y) as [fs1 r1] eqn:E1. intros [= <- <-]. apply IH in E1 as [W1 W2]; [|assumption]. cbn. rewrite V2, W2. auto.
    - intros [= <- <-]. cbn. rewrite V2. auto.
  Qed.
  Lemma elts_open els : forall fs fs' r, Forall is_open fs -> pass_elts fs els = (fs', r) -> Forall is_open fs' /\ map phases_of fs' = map phases_of fs.
  Proof.
    induction els as [|[x args] els IH]; intros fs fs' r HF; cbn [OFlowModel.pass_elts]; [intros [= <- <-]; auto|]. destruct (match args with Some l => _ | None => false end); [intros [= <- <-]; auto|].
    destruct (pass_elt fs args x) as [fs1 [y|e]] eqn:E; apply pass_open in E as [P1 P2]; auto.
    - intro E. apply IH in E as [Q1 Q2]; [|assumption]. rewrite Q2. auto.
    - intros [= <- <-]. auto.
  Qed.
  (** whatever happens in train, no OnlineNode is closed if the last one has a single phase *)
  Theorem C156_stays_open fs els fs' r : Forall is_open fs -> (forall f, last (map Some fs) None = Some f -> phases_of f = 1) -> oflow_train fs els = (fs', r) -> Forall is_open fs'.
  Proof.
    intros HF Hl. unfold OFlowModel.oflow_train, train_nodes. destruct (pass_elts fs els) as [fs1 [[]|e]] eqn:E; apply elts_open in E as [P1 P2]; auto; [|intros [= <- <-]; assumption].
    destruct els as [|e els]; [intros [= <- <-]; assumption|]. destruct (rev fs1) as [|f l] eqn:Er; [intros [= <- <-]; assumption|].
    assert (Hf : is_open f). { rewrite Forall_forall in P1. apply P1. apply in_rev. rewrite Er. now left. }
    assert (E1 : fs1 = rev l ++ [f]) by (rewrite <- (rev_involutive fs1), Er; reflexivity).
    assert (Hp : phases_of f = 1).
    { rewrite E1, map_app in P2. cbn in P2. destruct fs as [|g fs] using rev_ind; [destruct (map phases_of (rev l)); discriminate|]. rewrite map_app in P2. cbn in P2. apply app_inj_tail in P2 as [_ P2]. rewrite P2. apply Hl. rewrite map_app. cbn. apply last_last. }
    assert (H1 : (1 <? f_remaining D A I f)%Z = false).
    { destruct f as [b k s|b k s]; [destruct Hf|]. destruct Hf as (T & _ & [I1 I2] & Tr). cbn in *. unfold remaining. cbn. rewrite T, Hp. rewrite Tr in I1. symmetry in I1. apply Z.eqb_eq in I1. rewrite I1. reflexivity. }
    rewrite H1, Er. destruct f as [b k s|b k s]; [destruct Hf|]. cbn. intros [= <- <-]. assumption.
  Qed.

  (** ** C157: CircularOnlineFlow *)
  Notation circ := (circ D A I).
  Notation circ_elts := (circ_elts D A I row_of na).
  Notation loops := (loops D A I row_of na).
  Lemma loops_add n m : forall fs st x, loops (n + m) fs st x = match loops n fs st x with (fs', st', FOk x') => loops m fs' st' x' | e => e end.
  Proof.
    induction n as [|n IH]; intros fs st x; cbn [Nat.add OFlowModel.loops]; [reflexivity|]. destruct x as [x|].
    - destruct (pass_with _ 0 fs x) as [fs1 [y|e]]; [apply IH|reflexivity].
    - destruct fs; [apply IH|reflexivity].
  Qed.
  Lemma loops_stored n : forall fs st fs' st' x, loops n fs st st = (fs', st', FOk x) -> x = st'.
  Proof.
    induction n as [|n IH]; intros fs st fs' st' x; cbn [OFlowModel.loops]; [now intros [= _ <- <-]|]. destruct st as [y|].
    - destruct (pass_with _ 0 fs y) as [fs1 [z|e]]; [apply IH|discriminate].
    - destruct fs; [apply IH|discriminate].
  Qed.
  Definition outcome (r : circ * ofres unit) : list ofnode * option array * ofres unit := (c_nodes D A I (fst r), c_stored D A I (fst r), snd r).
  (** ignoring the input, the data only counts: the nodes go through (number of elements) * (iterations) passes *)
  Theorem C157_clock fs n st xs y : outcome (circ_elts (mkC D A I fs n st true) xs) = outcome (circ_elts (mkC D A I fs (length xs * n) st true) [y]).
  Proof.
    cbn [OFlowModel.circ_elts c_iters c_nodes c_stored c_ignore]. revert fs st. induction xs as [|x xs IH]; intros fs st; cbn [length Nat.mul OFlowModel.circ_elts c_iters c_nodes c_stored c_ignore]; [reflexivity|].
    rewrite loops_add. destruct (loops n fs st st) as [[fs1 st1] [z|e]] eqn:E; [|reflexivity]. apply loops_stored in E as ->. rewrite IH. destruct (loops _ fs1 st1 st1) as [[fs2 st2] [z|e]]; reflexivity.
  Qed.
  (** otherwise each element is used in the first of n passes, and the output of each pass is the input of the next *)
  Theorem C157_iterations fs n st x y : outcome (circ_elts (mkC D A I fs (S n) st false) [x]) =
    match circ_elts (mkC D A I fs 1 st false) [x] with
    | (c, FOk _) => outcome (circ_elts (mkC D A I (c_nodes D A I c) n (c_stored D A I c) true) [y])
    | r => outcome r
    end.
  Proof.
    cbn [OFlowModel.circ_elts c_iters c_nodes c_stored c_ignore OFlowModel.loops]. destruct (pass_with _ 0 fs x) as [fs1 [z|e]]; [|reflexivity]. cbn. destruct (loops n fs1 (Some z) (Some z)) as [[fs2 st2] [u|e]]; reflexivity.
  Qed.
  (** with one pass and no ignored input: as OnlineFlow *)
  Theorem C157_default fs st xs : Forall (fun f => f_nargs D A I f = 0) fs ->
    (c_nodes D A I (fst (circ_elts (mkC D A I fs 1 st false) xs)), snd (circ_elts (mkC D A I fs 1 st false) xs)) = pass_elts fs (map (fun x => (x, None)) xs).
  Proof.
    assert (P : forall fs i x, Forall (fun f => f_nargs D A I f = 0) fs -> pass_with (fun i x f => visit i None x f) i fs x = pass_with (fun _ x f => visit1 x na f) i fs x /\ Forall (fun f => f_nargs D A I f = 0) (fst (pass_with (fun _ x f => visit1 x na f) i fs x))).
    { induction fs0 as [|f fs0 IH]; intros i x HF; cbn [OFlowModel.pass_with]; [auto|]. apply Forall_cons_iff in HF as [H1 H2]. unfold OFlowModel.visit at 1. rewrite H1. cbn [Nat.eqb].
      assert (K : forall a, f_nargs D A I (fst (visit1 x a f)) = 0).
      { intro a. unfold OFlowModel.visit1, f_train, f_exec. destruct f as [b k s|b k s]; cbn [f_nargs f_training] in *.
        - destruct (n_training _ _ _ s); [destruct (train _ _ _ _ _ _ _) as [s1 [u|e]]; [|exact H1]|]; destruct (execute _ _ _ _ _ _ _ _) as [s2 [y|e]]; exact H1.
        - destruct (n_training _ _ _ s); [destruct (o_train _ _ _ _ _ _ _ _) as [s1 [u|e]]; [|exact H1]|]; destruct (o_execute _ _ _ _ _ _ _ _ _) as [s2 [y|e]]; exact H1. }
      specialize (K na). destruct (visit1 x na f) as [f' [y|c]]; cbn [fst] in K.
      - destruct (IH (S i) y H2) as [-> F]. destruct (pass_with _ (S i) fs0 y) as [fs1 r]. cbn in *. auto.
      - cbn. auto. }
    revert fs st. induction xs as [|x xs IH]; intros fs st HF; cbn [map OFlowModel.pass_elts OFlowModel.circ_elts c_iters c_nodes c_stored c_ignore OFlowModel.loops]; [reflexivity|].
    unfold OFlowModel.pass_elt. destruct (P fs 0 x HF) as [-> F]. destruct (pass_with _ 0 fs x) as [fs1 [y|e]]; cbn [fst] in *; [|reflexivity]. now apply IH.
  Qed.
  Theorem C160_stored_input c x f fs d : c_nodes D A I c = f :: fs -> f_in D A I f = Some d -> 
    let (c', r) := circ_set_stored D A I c x in match r with FOk _ => a_cols x = d /\ c_stored D A I c' = Some x | FErr _ => a_cols x <> d /\ c' = c end.
  Proof. intros H1 H2. unfold circ_set_stored. rewrite H1, H2. destruct (Nat.eqb_spec (a_cols x) d); auto. Qed.
End Props.

(** ** Examples and refutations *)
Section Examples.
  Notation I := (list (nat * nat)).
  (* a plain node of n phases that records what it is trained on *)
  Definition ex_plain (n : nat) : behaviour (list nat) unit I :=
    mkBeh _ _ _ true false false (fun _ => true) n (fun _ _ _ => None) (fun p v x _ => PSet (v_int _ v ++ map (pair p) (a_data x)) (PRet (Ok tt))) (fun p v _ => PRet (Ok tt))
      (fun v x _ => PRet (Ok x)) (fun v x _ => PRet (Ok x)).
  Definition fresh_plain n := Plain _ _ _ (ex_plain n) 0 (fst (init _ _ _ (ex_plain n) [] None None None)).
  Definition fresh_online := Online _ _ _ (ex_node [false] fine) 0 (fst (o_init _ _ _ (ex_node [false] fine) [] None None None)).
  Definition ex_one : obehaviour (list nat) unit I :=
    mkOB _ _ _ true false false (fun _ => true) [false] 1 (fun _ _ _ => None) (fun _ _ => PRet (Ok tt)) (fun p v x _ => esee p v x) (fun p v _ => PRet (Ok tt)) (fun p => None)
      (fun v x _ => PRet (Ok (edouble x))) (fun v x _ => PRet (Ok x)).
  Definition fresh_one := Online _ _ _ ex_one 0 (fst (o_init _ _ _ ex_one [] None None None)).
  Definition elts (ds : list (list nat)) : list (elt (list nat) unit) := map (fun d => (chunk d, None)) ds.
  Definition seen (fs : list (ofnode (list nat) unit I)) := map (fun f => match f with Plain _ _ _ _ _ s => (n_training _ _ _ s, n_int _ _ _ s) | Online _ _ _ _ _ s => (n_training _ _ _ s, at_own (n_int _ _ _ s)) end) fs.
  Notation run := (oflow_train (list nat) unit I erow tt (fun _ => 0)).
  Example C59_two : let (fs, r) := run [fresh_one; fresh_one] (elts [[1; 2]; [3]]) in r = FOk tt /\ seen fs = [(true, [(0, 1); (0, 2); (0, 3)]); (true, [(0, 2); (0, 4); (0, 6)])].
  Proof. vm_compute. auto. Qed.
  Example C156_twice : let (fs, r) := run [fresh_one; fresh_one] (elts [[1]]) in let (fs2, r2) := run fs (elts [[2]]) in r = FOk tt /\ r2 = FOk tt /\ seen fs2 = [(true, [(0, 1); (0, 2)]); (true, [(0, 2); (0, 4)])].
  Proof. vm_compute. auto. Qed.
  Definition circ_seen c xs := let (c', r) := circ_elts (list nat) unit I erow tt c (map chunk xs) in (seen (c_nodes _ _ _ c'), option_map (fun x => a_data x) (c_stored _ _ _ c'), r).
  Example C157_three : circ_seen (mkC _ _ _ [fresh_one] 3 None false) [[1]; [5]] = ([(true, [(0, 1); (0, 2); (0, 4); (0, 5); (0, 10); (0, 20)])], Some [40], FOk tt).
  Proof. reflexivity. Qed.
  Example C157_ignored : circ_seen (mkC _ _ _ [fresh_one] 2 (Some (chunk [1])) true) [[7]; [9]] = ([(true, [(0, 1); (0, 2); (0, 4); (0, 8)])], Some [16], FOk tt).
  Proof. reflexivity. Qed.

  (** C160: set_stored_input is ignored as long as the input dim of the first node is unknown; training then fails *)
  Theorem C160_stored_input_refuted : exists c x, let (c', r) := circ_set_stored (list nat) unit I c x in r = FOk tt /\ c_stored _ _ _ c' = None /\ c_nodes _ _ _ c' <> []
    /\ snd (circ_elts (list nat) unit I erow tt c' [x]) = FErr (XCR 0 CAttr).
  Proof. exists (mkC _ _ _ [fresh_one] 1 None true), (chunk [1]). vm_compute. repeat split; discriminate. Qed.
  (** C59: a terminal Node that is not an OnlineNode is trained on the first element only: executing it ends its training *)
  Theorem C59_terminal_node_refuted : exists fs els, let (fs', r) := run fs els in r = FOk tt /\ map fst els = [chunk [1]; chunk [2]] /\ seen fs = [(true, [])] /\ seen fs' = [(false, [(0, 1)])].
  Proof. exists [fresh_plain 1], (elts [[1]; [2]]). vm_compute. auto. Qed.
  (** with two phases it cannot be trained *)
  Theorem C59_terminal_phases_refuted : exists fs els, let (fs', r) := run fs els in r = FErr (XCR 0 (CNode TrainingExc)) /\ seen fs = [(true, [])] /\ map fst els = [chunk [1]].
  Proof. exists [fresh_plain 2], (elts [[1]]). vm_compute. auto. Qed.
  (** C156: a terminal OnlineNode with two phases is closed by the first train, and not trained by the second *)
  Theorem C156_closed_refuted : exists fs els, let (fs1, r1) := run fs els in let (fs2, r2) := run fs1 els in
    forallb (f_online _ _ _) fs = true /\ r1 = FOk tt /\ r2 = FOk tt /\ seen fs = [(true, [])] /\ map fst (seen fs1) = [false] /\ seen fs2 = seen fs1.
  Proof. exists [fresh_online], (elts [[1]]). vm_compute. auto 10. Qed.
End Examples.
