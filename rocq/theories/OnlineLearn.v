(** What an OnlineNode with one phase has learned: a principle for proving properties of its attributes over all histories of calls.

    The hooks are total: _check_params and _train replace the attributes of the subclass, the others do not change them. *)
From Coq Require Import List Arith ZArith Bool Lia.
From Verif Require Import NodeModel NodeProofs OnlineModel OnlineProps.
Import ListNotations.
Open Scope nat_scope.

Section Learn.
  Variables D A I : Type.
  Variable row_of : nat -> D -> D.
  Variable na : A.
  Notation J := (attrs I).
  Notation array := (array D).
  Notation node := (node D A J).
  Variable b : obehaviour D A I.
  Notation base := (base D A I b).
  Notation run_hook := (run_hook D A I b).
  Notation own := (n_int D A J).
  Notation iteration := (iteration D A I).
  Notation o_train := (o_train D A I row_of b).
  Notation o_execute := (o_execute D A I row_of na b).
  Notation orun := (orun D A I row_of na b).
  Notation ostep := (ostep D A I row_of na b).
  Notation quiet := (quiet D A I).

  (** the arrays given to _train so far *)
  Definition taught (e : event D A) : list array := match e with EvTrain _ _ _ x _ => [x] | _ => [] end.
  Definition seen (s : node) : list array := flat_map taught (n_trace D A J s).
  Definition total (l : list array) : nat := list_sum (map a_rows l).

  Variable ini : view J -> array -> option I.
  Variable upd : view J -> array -> I.
  Record learner : Prop := {
    l_trainable : ob_trainable D A I b = true;
    l_phases : ob_phases D A I b = 1;
    l_channel : ob_channel D A I b 0 = None;
    l_params : forall v x, ob_check_params D A I b v x = match ini v x with None => PRet (Ok tt) | Some i => PSet i (PRet (Ok tt)) end;
    l_train : forall v x a, ob_train D A I b 0 v x a = PSet (upd v x) (PRet (Ok tt));
    l_stop : forall p v a, exists r, ob_stop D A I b p v a = PRet r;
    l_execute : forall v x a, exists r, ob_execute D A I b v x a = PRet r;
    l_inverse : forall v x a, exists r, ob_inverse D A I b v x a = PRet r
  }.
  Hypothesis L : learner.

  (** [Q l i]: after training on l the attributes are i *)
  Variable WF : array -> Prop.
  Variable Q : list array -> I -> Prop.
  Definition fits (l : list array) (v : view J) (x : array) : Prop :=
    v_in J v = Some (a_cols x) /\ Forall (fun y => a_cols y = a_cols x) l /\ Forall WF l /\ WF x /\ at_iter (v_int J v) = total l /\ Q l (at_own (v_int J v)).
  Record lesson : Prop := {
    q_cast : forall t x, WF x -> WF (refcast D t x);
    q_rows : forall x, WF x -> Forall WF (rows D row_of x);
    q_ini : forall l v x i, fits l v x -> ini v x = Some i -> Q l i;
    q_upd : forall l v x, fits l v x -> (exists t, at_type (v_int J v) = Some t /\ In t (ob_types D A I b) /\ (t = false -> a_rows x = 1)) -> Q (l ++ [x]) (upd v x)
  }.
  Hypothesis T : lesson.

  Definition known (s : node) : Prop := Forall (fun x => n_in D A J s = Some (a_cols x)) (seen s) /\ Forall WF (seen s) /\ iteration s = total (seen s) /\ Q (seen s) (at_own (own s))
    /\ (forall t, at_type (own s) = Some t -> In t (ob_types D A I b)) /\ pres_inv D A J base s.
  Lemma known_fits s x : known s -> n_in D A J s = Some (a_cols x) -> WF x -> fits (seen s) (view_of D A J s) x.
  Proof.
    intros (K1 & K2 & K3 & K4 & K5 & _) Hn Hw. unfold fits. cbn. repeat split; auto. eapply Forall_impl; [|exact K1]. cbn. intros y Hy. congruence.
  Qed.
  Definition still (s s' : node) : Prop := quiet s s' /\ at_own (own s') = at_own (own s) /\ good D A J base s s'
    /\ forall t, at_type (own s') = Some t -> at_type (own s) = Some t \/ In t (ob_types D A I b).
  Lemma still_refl s : still s s. Proof. split; [apply quiet_refl|]. split; [reflexivity|]. split; [apply good_refl|auto]. Qed.
  Lemma still_trans s1 s2 s3 : still s1 s2 -> still s2 s3 -> still s1 s3.
  Proof. intros (A1 & A2 & A3 & A4) (B1 & B2 & B3 & B4). split; [eapply quiet_trans; eassumption|]. split; [congruence|]. split; [eapply good_trans; eassumption|]. intros t Ht. destruct (B4 t Ht); auto. Qed.
  Lemma still_seen s s' : still s s' -> seen s' = seen s.
  Proof. intros (H & _). apply quiet_out in H as (_ & _ & _ & H & _). unfold seen. now rewrite H. Qed.
  Lemma still_known s s' : still s s' -> known s -> known s'.
  Proof.
    intros H (K1 & K2 & K3 & K4 & K5 & K6). pose proof (still_seen _ _ H) as Hs. destruct H as (H1 & H2 & [(H3 & _) H5] & H4). apply quiet_out in H1 as (_ & _ & _ & _ & H1). unfold known. rewrite Hs, H1, H2. split; [eapply Forall_impl; [|exact K1]; cbn; auto|]. repeat split; auto. intros t Ht. destruct (H4 t Ht); auto.
  Qed.
  Lemma still_event e s : taught e = [] -> known s -> known (add_event D A J s e) /\ seen (add_event D A J s e) = seen s.
  Proof.
    intros He K. assert (E : seen (add_event D A J s e) = seen s) by (unfold seen; cbn; rewrite flat_map_app; cbn; now rewrite He, !app_nil_r). split; [|assumption]. unfold known. rewrite E. exact K.
  Qed.
  Lemma still_set_in n s : still s (fst (set_input_dim D A J base n s)).
  Proof. split; [split; [apply book_set_in|unfold OnlineModel.iteration; now rewrite own_set_in]|]. split; [now rewrite own_set_in|]. split; [apply good_set_in|rewrite own_set_in; auto]. Qed.
  Lemma still_set_out n s : still s (fst (set_output_dim D A J base n s)).
  Proof. split; [apply outdim_quiet|]. split; [now rewrite own_set_out|]. split; [apply good_set_out|rewrite own_set_out; auto]. Qed.
  Lemma still_set_dt t s : still s (fst (set_dtype D A J base t s)).
  Proof. split; [split; [apply book_set_dt|unfold OnlineModel.iteration; now rewrite own_set_dt]|]. split; [now rewrite own_set_dt|]. split; [apply good_set_dt|rewrite own_set_dt; auto]. Qed.
  Lemma still_check x s : still s (fst (o_check_input D A I b x s)).
  Proof.
    split; [apply ocheck_quiet|]. unfold o_check_input, bind. pose proof (own_check_input D A I b x s) as H1. pose proof (good_check_input D A J base x s) as H2. destruct (check_input D A J base x s) as [s1 [u|e]]; cbn [fst] in *.
    - destruct (at_type (own s1)) as [t1|] eqn:Et; [|destruct (ob_types D A I b)]; cbn; (split; [congruence|split; [exact H2|]]); intros t Ht; [left; congruence|left; congruence|injection Ht as <-; right; now left].
    - split; [congruence|split; [assumption|]]. intros t Ht. left. congruence.
  Qed.
  Lemma still_ret {R} (h : view J -> prog I R) r s : h (view_of D A J s) = PRet r -> run_hook h s = (s, r).
  Proof. intro H. unfold OnlineModel.run_hook. now rewrite H. Qed.

  Lemma params_known x s : known s -> n_in D A J s = Some (a_cols x) -> WF x -> exists s', run_hook (fun v => ob_check_params D A I b v x) s = (s', Ok tt) /\ known s' /\ seen s' = seen s /\ n_in D A J s' = n_in D A J s /\ n_dt D A J s' = n_dt D A J s.
  Proof.
    intros K Hn Hw. unfold OnlineModel.run_hook, lifted. rewrite (l_params L). destruct (ini (view_of D A J s) x) as [i|] eqn:E; cbn [lift run_prog]; [|exists s; auto].
    eexists. split; [reflexivity|]. assert (Es : seen (set_n_int D A J s (mkAttrs (at_iter (v_int J (view_of D A J s))) (at_type (v_int J (view_of D A J s))) i)) = seen s) by reflexivity.
    split; [|auto]. pose proof K as (K1 & K2 & K3 & K4 & K5 & K6). unfold known. rewrite Es. repeat split; auto. cbn. apply (q_ini T _ _ _ _ (known_fits s x K Hn Hw) E).
  Qed.
  Notation phases := (phases D A I b).
  Lemma has_phase : 1 <= ob_phases D A I b. Proof. rewrite (l_phases L). lia. Qed.
  Lemma one_phase : phases = [0]. Proof. unfold OnlineModel.phases. now rewrite (l_phases L). Qed.
  (** one call of _train and the increment of the iteration *)
  Lemma teach x a s k : known s -> n_in D A J s = Some (a_cols x) -> WF x -> (exists t, at_type (own s) = Some t /\ (t = false -> a_rows x = 1)) -> k = a_rows x -> exists s',
    bind D A J (o_pass D A I b phases x a) (fun _ => count D A I k) s = (s', Ok tt) /\ known s' /\ seen s' = seen s ++ [x] /\ n_in D A J s' = n_in D A J s /\ n_dt D A J s' = n_dt D A J s /\ at_type (own s') = at_type (own s).
  Proof.
    intros K Hn Hw Ht ->. rewrite one_phase. unfold bind. cbn [o_pass]. unfold bind. unfold OnlineModel.run_hook, lifted. rewrite (l_train L), (l_channel L). cbn [lift run_prog]. unfold count.
    eexists. split; [reflexivity|].
    set (s' := set_iteration _ _ _ _ _). assert (Es : seen s' = seen s ++ [x]) by (unfold s', seen; cbn; now rewrite flat_map_app).
    split; [|auto]. pose proof K as (K1 & K2 & K3 & K4 & K5 & K6). unfold known. rewrite Es. split; [|split; [|split; [|split; [|split]]]].
    - apply Forall_app. split; [exact K1|]. constructor; [exact Hn|constructor].
    - apply Forall_app. split; [exact K2|]. constructor; [exact Hw|constructor].
    - unfold total. rewrite map_app, list_sum_app. cbn. change (iteration s + a_rows x = total (seen s) + (a_rows x + 0)). lia.
    - cbn. apply (q_upd T); change (view_of D A J (add_event D A J s (EvTrain D A 0 x a))) with (view_of D A J s); [now apply known_fits|]. destruct Ht as (t & Ht1 & Ht2). exists t. auto.
    - exact K5.
    - exact K6.
  Qed.
  Lemma teach_rows a : forall xs s, known s -> at_type (own s) = Some false -> Forall (fun x => n_in D A J s = Some (a_cols x) /\ WF x /\ a_rows x = 1) xs -> exists s',
    o_rows D A I b xs a s = (s', Ok tt) /\ known s' /\ seen s' = seen s ++ xs.
  Proof.
    induction xs as [|x xs IH]; intros s K Ht HF; [exists s; rewrite app_nil_r; auto|]. apply Forall_cons_iff in HF as [(H1 & H2 & H3) HF].
    destruct (teach x a s 1 K H1 H2 (ex_intro _ false (conj Ht (fun _ => H3))) (eq_sym H3)) as (s1 & E1 & K1 & S1 & N1 & _ & T1). cbn [o_rows]. unfold bind in *. destruct (o_pass D A I b phases x a s) as [s0 [u|e]]; [|discriminate]. unfold count in *. injection E1 as E1.
    destruct (IH s1 K1) as (s2 & E2 & K2 & S2); [congruence|rewrite N1; exact HF|]. rewrite E1, E2. exists s2. split; [reflexivity|]. split; [assumption|]. now rewrite S2, S1, <- app_assoc.
  Qed.
  (** the arrays given to _train by a training call: rows in incremental mode *)
  Definition lessons (t : option bool) (dt : option dtype) (x : array) : list array := match t with Some false => rows D row_of (refcast D dt x) | _ => [refcast D dt x] end.
  Lemma cast_cols t x : a_cols (refcast D t x) = a_cols x.
  Proof. unfold refcast. destruct t as [t|]; [|reflexivity]. destruct (Nat.eqb _ t); reflexivity. Qed.
  Theorem learn_train x a s s' r : known s -> WF x -> o_train x a s = (s', r) -> known s' /\
    match r with Ok _ => exists t dt, seen s' = seen s ++ lessons t dt x /\ t = match at_type (own s) with None => hd_error (ob_types D A I b) | t => t end | Err _ => seen s' = seen s end.
  Proof.
    intros K Hw. unfold OnlineModel.o_train. rewrite (l_trainable L). cbn [negb]. destruct (n_training D A J s); cbn [negb]; [|intros [= <- <-]; auto].
    unfold bind at 1. pose proof (still_check x s) as S1. destruct (o_check_input D A I b x s) as [s1 [u|e]] eqn:E1; cbn [fst] in S1; [|intros [= <- <-]; split; [now apply (still_known s)|now apply still_seen]].
    destruct u. pose proof (still_known _ _ S1 K) as K1. pose proof (still_seen _ _ S1) as Q1.
    destruct (check_settles D A I b has_phase x s s1 E1) as ((N1 & _ & (ty & Hsome)) & _ & _ & Ht).
    unfold bind at 1. destruct (ob_check_args D A I b (view_of D A J s1) x a); [intros [= <- <-]; auto|]. unfold bind at 1.
    destruct (hook_quiet D A I b (fun v => ob_check_params D A I b v x) s1) as [_ Ht2].
    destruct (params_known x s1 K1 N1 Hw) as (s2 & E2 & K2 & Q2 & N2 & D2). rewrite E2 in *. cbn [fst] in Ht2. cbn [n_int set_n_started].
    set (s3 := set_n_started D A J s2 true). assert (K3 : known s3) by exact K2. assert (N3 : n_in D A J s3 = Some (a_cols x)) by (unfold s3; cbn; congruence).
    assert (Hty : at_type (own s2) = match at_type (own s) with None => hd_error (ob_types D A I b) | t => t end) by (rewrite Ht2; exact Ht).
    assert (Eb : (at_type (own s2) = Some false -> False) -> bind D A J (o_pass D A I b phases (refcast D (n_dt D A J s2) x) a) (fun _ => count D A I (a_rows (refcast D (n_dt D A J s2) x))) s3 = (s', r) ->
       known s' /\ match r with Ok _ => exists t dt, seen s' = seen s ++ lessons t dt x /\ t = match at_type (own s) with None => hd_error (ob_types D A I b) | t => t end | Err _ => seen s' = seen s end).
    { intros Hnf E. destruct (teach (refcast D (n_dt D A J s2) x) a s3 (a_rows (refcast D (n_dt D A J s2) x)) K3) as (s4 & E4 & K4 & Q4 & _); [rewrite cast_cols; exact N3|now apply (q_cast T)| |reflexivity|].
      { exists ty. split; [unfold s3; cbn; congruence|]. intros ->. exfalso. apply Hnf. congruence. }
      rewrite E4 in E. injection E as <- <-. split; [assumption|].
      exists (at_type (own s2)), (n_dt D A J s2). split; [|exact Hty]. rewrite Q4. change (seen s3) with (seen s2). rewrite Q2, Q1. f_equal. unfold lessons. destruct (at_type (own s2)) as [[]|]; tauto. }
    destruct (at_type (own s2)) as [[]|] eqn:Et; [apply Eb; discriminate| |apply Eb; discriminate].
    intro E. destruct (teach_rows a (rows D row_of (refcast D (n_dt D A J s2) x)) s3 K3) as (s4 & E4 & K4 & Q4); [exact Et| |].
    - pose proof (q_rows T _ (q_cast T (n_dt D A J s2) x Hw)) as HW. rewrite Forall_forall in HW |- *. intros y Hy. split; [|split; [exact (HW y Hy)|]]; unfold rows in Hy; apply in_map_iff in Hy as (i & <- & _); cbn [a_cols a_rows]; [rewrite cast_cols; exact N3|reflexivity].
    - rewrite E4 in E. injection E as <- <-. split; [assumption|]. exists (Some false), (n_dt D A J s2). split; [|exact Hty]. rewrite Q4. change (seen s3) with (seen s2). now rewrite Q2, Q1.
  Qed.
  Lemma learn_pre_exec x s s' r : known s -> WF x -> o_pre_exec D A I row_of na b x s = (s', r) -> known s' /\ ((n_phase D A J s =? 0)%Z && negb (n_started D A J s) = false -> seen s' = seen s)
    /\ (r = Ok tt -> n_in D A J s' = Some (a_cols x) /\ a_ndim x = 2).
  Proof.
    intros K Hw. unfold o_pre_exec, bind at 1.
    assert (G : forall s1, known s1 -> bind D A J (o_check_input D A I b x) (fun _ => bind D A J (run_hook (fun v => ob_check_params D A I b v x)) (fun _ s => match n_out D A J s with None => set_output_dim D A J base (n_in D A J s) s | Some _ => (s, Ok tt) end)) s1 = (s', r) -> known s' /\ seen s' = seen s1 /\ (r = Ok tt -> n_in D A J s' = Some (a_cols x) /\ a_ndim x = 2)).
    { clear s K. intros s1 K. unfold bind at 1. pose proof (still_check x s1) as S1. destruct (o_check_input D A I b x s1) as [s2 [u|e]] eqn:E1; cbn [fst] in S1; [|intros [= <- <-]; split; [now apply (still_known s1)|split; [now apply still_seen|discriminate]]].
      destruct u. pose proof (still_known _ _ S1 K) as K1. pose proof (still_seen _ _ S1) as Q1. destruct (check_settles D A I b has_phase x s1 s2 E1) as ((N1 & _ & _) & Hnd & _ & _).
      unfold bind. destruct (params_known x s2 K1 N1 Hw) as (s3 & E2 & K2 & Q2 & N2 & _). rewrite E2. destruct (n_out D A J s3); [intros [= <- <-]; split; [assumption|split; [congruence|]]; intros _; split; congruence|].
      intro E. pose proof (still_set_out (n_in D A J s3) s3) as S3. rewrite E in S3. cbn [fst] in S3. split; [now apply (still_known s3)|]. split; [rewrite (still_seen _ _ S3); congruence|]. intros _. split; [|exact Hnd]. apply S3. congruence. }
    destruct ((n_phase D A J s =? 0)%Z && negb (n_started D A J s)).
    - destruct (o_train x na s) as [s1 r1] eqn:E1. apply learn_train in E1 as [K1 E1]; [|assumption|assumption]. destruct r1 as [u|e]; [|intros [= <- <-]; split; [assumption|split; discriminate]]. intro E. apply G in E; [|assumption]. split; [apply E|]. split; [discriminate|apply E].
    - intro E. apply G in E; [|assumption]. split; [apply E|]. split; [intros _; apply E|apply E].
  Qed.
  (** execute: the result is that of _execute in a state in which the node knows what it has seen *)
  Theorem learn_execute x a s s' r : known s -> WF x -> o_execute x a s = (s', r) -> known s' /\ ((n_phase D A J s =? 0)%Z && negb (n_started D A J s) = false -> seen s' = seen s)
    /\ (forall y, r = Ok y -> exists dt, a_ndim x = 2 /\ fits (seen s') (view_of D A J s') (refcast D dt x) /\ ob_execute D A I b (view_of D A J s') (refcast D dt x) a = PRet (Ok y)).
  Proof.
    intros K Hw. unfold OnlineModel.o_execute, bind. destruct (o_pre_exec D A I row_of na b x s) as [s1 r1] eqn:E1. apply learn_pre_exec in E1 as (K1 & Q1 & N1); [|assumption|assumption]. destruct r1 as [[]|e]; [|intros [= <- <-]; split; [assumption|split; [assumption|discriminate]]].
    set (x' := refcast D (n_dt D A J s1) x). set (s2 := add_event D A J s1 (EvExec D A x' a)). destruct (l_execute L (view_of D A J s2) x' a) as [r2 Hr]. rewrite (still_ret (fun v => ob_execute D A I b v x' a) r2 s2 Hr). intros [= <- <-].
    destruct (still_event (EvExec D A x' a) s1 eq_refl K1) as [K2 Q2]. fold s2 in K2, Q2. split; [assumption|]. split; [intro H; rewrite Q2; auto|]. intros y ->. exists (n_dt D A J s1). split; [apply (N1 eq_refl)|]. split; [|exact Hr]. apply known_fits; [assumption| |now apply (q_cast T)]. unfold x'. rewrite cast_cols. apply (N1 eq_refl).
  Qed.
  Lemma stops_known ps a : forall s s' r, known s -> o_stops D A I b ps a s = (s', r) -> known s' /\ seen s' = seen s.
  Proof.
    induction ps as [|p ps IH]; intros s s' r K; cbn [o_stops]; [intros [= <- <-]; auto|]. destruct (l_stop L p (view_of D A J s) a) as [r1 Hr]. rewrite (still_ret (fun v => ob_stop D A I b p v a) r1 s Hr).
    destruct r1 as [u|e].
    - destruct (still_event (EvStop D A p true) s eq_refl K) as [K1 Q1]. intro E. apply IH in E; [|assumption]. rewrite <- Q1. exact E.
    - intros [= <- <-]. apply (still_event (EvStop D A p false) s eq_refl K).
  Qed.
  Definition call_data (c : ocall D A) : list array := match c with OTrain _ _ x _ | OExec _ _ x _ => [x] | _ => [] end.
  Theorem learn_step c s s' r : known s -> Forall WF (call_data c) -> ostep c s = (s', r) -> known s'.
  Proof.
    intros K HW. destruct c as [x a|a|x a|y a|t|n|n|t]; cbn [OnlineModel.ostep call_data] in *.
    - apply Forall_cons_iff in HW as [HW _]. destruct (o_train x a s) as [s1 r1] eqn:E. intros [= <- <-]. eapply learn_train; eassumption.
    - unfold o_stop. destruct (_ && _); [intros [= <- <-]; assumption|]. destruct (negb _); [intros [= <- <-]; assumption|]. unfold bind. destruct (o_stops D A I b phases a s) as [s1 [u|e]] eqn:E; apply stops_known in E as [K1 Q1]; auto; [|intros [= <- <-]; exact K1].
      destruct (remaining D A J base _ =? 0)%Z; intros [= <- <-]; exact K1.
    - apply Forall_cons_iff in HW as [HW _]. destruct (o_execute x a s) as [s1 r1] eqn:E. intros [= <- <-]. eapply learn_execute; eassumption.
    - unfold o_inverse, bind. destruct (o_pre_inv D A I b y s) as [s1 r1] eqn:E1.
      assert (S1 : still s s1).
      { revert E1. unfold o_pre_inv. destruct (negb _); [intros [= <- <-]; apply still_refl|]. unfold bind.
        assert (C : forall (s2 s3 : node) r3, still s s2 -> check_output D A J y s2 = (s3, r3) -> still s s3).
        { intros s2 s3 r3 H. unfold check_output. destruct (negb _); [intros [= <- <-]; assumption|]. destruct (n_out D A J s2) as [d|]; [destruct (Nat.eqb _ d)|]; intros [= <- <-]; assumption. }
        destruct (n_out D A J s); [apply C, still_refl|]. destruct (n_in D A J s) as [d|]; [|intros [= <- <-]; apply still_refl].
        pose proof (still_set_out (Some d) s) as H. destruct (set_output_dim D A J base (Some d) s) as [s2 [u|e]]; cbn [fst] in H; [now apply C|]. intros [= <- <-]. assumption. }
      pose proof (still_known _ _ S1 K) as K1. destruct r1 as [u|e]; [|intros [= <- <-]; assumption].
      set (y' := refcast D (n_dt D A J s1) y). set (s2 := add_event D A J s1 (EvInv D A y' a)). destruct (l_inverse L (view_of D A J s2) y' a) as [r2 Hr]. rewrite (still_ret (fun v => ob_inverse D A I b v y' a) r2 s2 Hr). intros [= <- <-]. apply (still_event (EvInv D A y' a) s1 eq_refl K1).
    - unfold o_set_type. destruct (existsb (Bool.eqb t) (ob_types D A I b)) eqn:Ee; intros [= <- <-]; [|exact K]. apply existsb_exists in Ee as (u & Hu & Eu). apply Bool.eqb_prop in Eu. subst u. destruct K as (K1 & K2 & K3 & K4 & K5 & K6). repeat split; auto. cbn. intros u [= <-]. exact Hu.
    - pose proof (still_set_in n s) as S1. destruct (set_input_dim D A J base n s) as [s1 r1]. intros [= <- <-]. now apply (still_known s).
    - pose proof (still_set_out n s) as S1. destruct (set_output_dim D A J base n s) as [s1 r1]. intros [= <- <-]. now apply (still_known s).
    - pose proof (still_set_dt t s) as S1. destruct (set_dtype D A J base t s) as [s1 r1]. intros [= <- <-]. now apply (still_known s).
  Qed.
  Lemma init_known i0 din dout dt s : Q [] i0 -> o_init D A I b i0 din dout dt = (s, Ok tt) -> known s /\ seen s = [] /\ iteration s = 0 /\ at_type (own s) = None /\ at_own (own s) = i0.
  Proof.
    intros Hq H. pose proof (init_oinv D A I b (l_trainable L)) as IO. pose proof has_phase as Hp. apply IO in H as G; try exact Hp. destruct G as (_ & _ & _ & G1 & G2).
    assert (Eo : own s = mkAttrs 0 None i0).
    { revert H. unfold o_init, init, bind. set (s0 := blank D A J (mkAttrs 0 None i0)). pose proof (own_set_in D A I b din s0) as O1. destruct (set_input_dim D A J base din s0) as [s1 [u1|e1]]; cbn [fst] in O1; [|discriminate].
      pose proof (own_set_out D A I b dout s1) as O2. destruct (set_output_dim D A J base dout s1) as [s2 [u2|e2]]; cbn [fst] in O2; [|discriminate]. pose proof (own_set_dt D A I b dt s2) as O3. destruct (set_dtype D A J base dt s2) as [s3 [u3|e3]]; cbn [fst] in O3; [|discriminate].
      cbn. rewrite (l_trainable L). intros [= <-]. cbn. change (own s0) with (mkAttrs 0 (@None bool) i0) in O1. congruence. }
    assert (Es : seen s = []) by (unfold seen; now rewrite G2). rewrite Eo. unfold known. rewrite Es, G1, Eo. cbn. repeat split; auto; [discriminate|]. eapply pres_init. exact H.
  Qed.
  Theorem learn_run i0 din dout dt s0 cs s rs : Q [] i0 -> o_init D A I b i0 din dout dt = (s0, Ok tt) -> orun cs s0 = (s, rs) -> Forall WF (flat_map call_data cs) -> known s.
  Proof.
    intros Hq H0. apply init_known in H0 as (K & _); [|assumption]. revert s0 K rs. induction cs as [|c cs IH]; intros s0 K rs; cbn [OnlineModel.orun flat_map]; [now intros [= <- _] _|].
    destruct (ostep c s0) as [s1 r] eqn:E. destruct (orun cs s1) as [s2 rs2] eqn:E2. intros [= <- <-] HF. apply Forall_app in HF as [H1 H2]. eapply IH; [|exact E2|exact H2]. eapply learn_step; eassumption.
  Qed.
End Learn.
