(** C58, C153-C155: OnlineNode. *)
From Coq Require Import List Arith ZArith Bool Lia.
From Verif Require Import NodeModel NodeProofs OnlineModel.
Import ListNotations.
Open Scope nat_scope.

Section Props.
  Variables D A I : Type.
  Variable row_of : nat -> D -> D.
  Variable na : A.
  Notation J := (attrs I).
  Notation array := (array D).
  Notation node := (node D A J).
  Variable b : obehaviour D A I.
  Notation base := (base D A I b).
  Notation run_hook := (run_hook D A I b).
  Notation phases := (phases D A I b).
  Notation o_train := (o_train D A I row_of b).
  Notation o_stop := (o_stop D A I b).
  Notation o_execute := (o_execute D A I row_of na b).
  Notation o_inverse := (o_inverse D A I b).
  Notation ostep := (ostep D A I row_of na b).
  Notation orun := (orun D A I row_of na b).
  Notation training := (n_training D A J).
  Notation phase := (n_phase D A J).
  Notation started := (n_started D A J).
  Notation trace := (n_trace D A J).
  Notation own := (n_int D A J).
  Notation iteration := (iteration D A I).

  (** what hooks and checks do not change *)
  Definition quiet (s s' : node) : Prop := book D A J s' = book D A J s /\ iteration s' = iteration s.
  Lemma quiet_refl s : quiet s s. Proof. now split. Qed.
  Lemma quiet_trans s1 s2 s3 : quiet s1 s2 -> quiet s2 s3 -> quiet s1 s3.
  Proof. intros [A1 A2] [B1 B2]. split; congruence. Qed.
  Lemma quiet_out s s' : quiet s s' -> training s' = training s /\ phase s' = phase s /\ started s' = started s /\ trace s' = trace s /\ iteration s' = iteration s.
  Proof. intros [H E]. unfold book in H. injection H as ? ? ? ?. auto. Qed.
  Lemma quiet_set_type t s : quiet s (set_type D A I t s). Proof. now split. Qed.
  Lemma own_p_in n (s : node) : own (fst (p_set_input_dim D A J base n s)) = own s.
  Proof. unfold p_set_input_dim. destruct (b_preserve _ _ _ base); [|reflexivity]. destruct (n_out _ _ _ s) as [o|]; [destruct (Nat.eqb o n)|]; reflexivity. Qed.
  Lemma own_set_in n (s : node) : own (fst (set_input_dim D A J base n s)) = own s.
  Proof. unfold set_input_dim. destruct n as [n|]; [|reflexivity]. destruct (n_in _ _ _ s) as [m|]; [destruct (Nat.eqb m n)|]; try reflexivity; apply own_p_in. Qed.
  Lemma own_p_out n (s : node) : own (fst (p_set_output_dim D A J base n s)) = own s.
  Proof. unfold p_set_output_dim. destruct (b_preserve _ _ _ base); [|reflexivity]. destruct (n_in _ _ _ s) as [o|]; [destruct (Nat.eqb o n)|]; reflexivity. Qed.
  Lemma own_set_out n (s : node) : own (fst (set_output_dim D A J base n s)) = own s.
  Proof. unfold set_output_dim. destruct n as [n|]; [|reflexivity]. destruct (n_out _ _ _ s) as [m|]; [destruct (Nat.eqb m n)|]; try reflexivity; apply own_p_out. Qed.
  Lemma own_set_dt t (s : node) : own (fst (set_dtype D A J base t s)) = own s.
  Proof. unfold set_dtype. destruct t as [t|]; [|reflexivity]. destruct (n_dt _ _ _ s) as [m|]; [destruct (Nat.eqb m t)|]; try destruct (b_supported _ _ _ base t); reflexivity. Qed.
  Lemma own_check_input x (s : node) : own (fst (check_input D A J base x s)) = own s.
  Proof.
    unfold check_input. destruct (negb _); [reflexivity|]. unfold bind, ret.
    assert (G : forall s1 : node, own s1 = own s -> own (fst (match match n_dt D A J s1 with None => set_dtype D A J base (Some (a_dtype x)) s1 | Some _ => (s1, Ok tt) end with
       | (s', Ok _) => match match n_in D A J s' with Some d => if Nat.eqb (a_cols x) d then (s', Ok tt) else (s', Err NodeExc) | None => (s', Err NodeExc) end with
          | (s'0, Ok _) => if Nat.eqb (a_rows x) 0 then (s'0, Err NodeExc) else (s'0, Ok tt) | (s'0, Err e) => (s'0, Err e) end
       | (s', Err e) => (s', Err e) end)) = own s).
    { intros s1 H1. assert (G2 : forall s2 : node, own s2 = own s -> own (fst (match match n_in D A J s2 with Some d => if Nat.eqb (a_cols x) d then (s2, Ok tt) else (s2, Err NodeExc) | None => (s2, Err NodeExc) end with
          | (s'0, Ok _) => if Nat.eqb (a_rows x) 0 then (s'0, Err NodeExc) else (s'0, Ok tt) | (s'0, Err e) => (s'0, Err e) end)) = own s).
      { intros s2 H2. destruct (n_in D A J s2) as [d|]; [destruct (Nat.eqb _ d); [destruct (Nat.eqb _ 0)|]|]; exact H2. }
      destruct (n_dt D A J s1) as [t|]; [apply G2, H1|]. pose proof (own_set_dt (Some (a_dtype x)) s1) as E. destruct (set_dtype _ _ _ _ _ s1) as [s2 [u|e]]; cbn [fst] in *; [apply G2|]; congruence. }
    destruct (n_in D A J s) as [d|]; [apply G; reflexivity|]. pose proof (own_set_in (Some (a_cols x)) s) as E. destruct (set_input_dim _ _ _ _ _ s) as [s1 [u|e]]; cbn [fst] in *; [now apply G|congruence].
  Qed.
  Lemma lift_frame {R} (p : prog I R) n t : forall s : node, at_iter (own s) = n -> at_type (own s) = t ->
    at_iter (own (fst (run_prog D A J base (lift I n t p) s))) = n /\ at_type (own (fst (run_prog D A J base (lift I n t p) s))) = t.
  Proof.
    induction p as [r|i k IH|q k IH]; intros s Hn Ht; cbn [lift run_prog].
    - now split.
    - now apply IH.
    - assert (E : own (fst (match q with ReqIn n => set_input_dim D A J base (Some n) | ReqOut n => set_output_dim D A J base (Some n) | ReqDtype t => set_dtype D A J base (Some t) end s)) = own s)
        by (destruct q; [apply own_set_in|apply own_set_out|apply own_set_dt]).
      match type of E with own (fst ?m) = _ => destruct m as [s1 [u|e]] end; cbn [fst] in *; [|rewrite E; now split]. apply IH; now rewrite E.
  Qed.
  Lemma hook_quiet {R} (h : view J -> prog I R) s : quiet s (fst (run_hook h s)) /\ at_type (own (fst (run_hook h s))) = at_type (own s).
  Proof. unfold OnlineModel.run_hook, quiet, OnlineModel.iteration. rewrite book_prog. unfold lifted. cbn. destruct (lift_frame (h (view_of D A J s)) (at_iter (own s)) (at_type (own s)) s eq_refl eq_refl). auto. Qed.
  Lemma check_quiet x s : quiet s (fst (check_input D A J base x s)) /\ at_type (own (fst (check_input D A J base x s))) = at_type (own s).
  Proof. unfold quiet, OnlineModel.iteration. rewrite book_check_input, own_check_input. auto. Qed.
  Lemma ocheck_quiet x s : quiet s (fst (o_check_input D A I b x s)).
  Proof.
    unfold o_check_input, bind. destruct (check_quiet x s) as [Hq _]. destruct (check_input _ _ _ _ x s) as [s1 [u|e]]; cbn [fst] in *; [|exact Hq].
    destruct (at_type (own s1)); [exact Hq|]. destruct (ob_types D A I b); [exact Hq|]. eapply quiet_trans; [exact Hq|apply quiet_set_type].
  Qed.
  Lemma outdim_quiet d (s : node) : quiet s (fst (set_output_dim D A J base d s)).
  Proof. unfold quiet, OnlineModel.iteration. now rewrite book_set_out, own_set_out. Qed.

  Definition trained_with (a : A) (s s' : node) : Prop := exists evs, trace s' = trace s ++ evs /\ Forall (fun e => exists p y, e = EvTrain D A p y a) evs.
  Lemma tw_refl a s s' : trace s' = trace s -> trained_with a s s'.
  Proof. exists []. rewrite app_nil_r. auto. Qed.
  Lemma tw_trans a s1 s2 s3 : trained_with a s1 s2 -> trained_with a s2 s3 -> trained_with a s1 s3.
  Proof. intros (e1 & E1 & F1) (e2 & E2 & F2). exists (e1 ++ e2). rewrite E2, E1, app_assoc. split; [reflexivity|]. apply Forall_app. now split. Qed.
  (** one pass through the phases: only events of training, the iteration stays *)
  Lemma pass_frame ps a : forall x s s' r, o_pass D A I b ps x a s = (s', r) ->
    training s' = training s /\ phase s' = phase s /\ started s' = started s /\ iteration s' = iteration s /\ at_type (own s') = at_type (own s) /\ trained_with a s s'.
  Proof.
    induction ps as [|p ps IH]; intros x s s' r; cbn [o_pass].
    - intros [= <- <-]. repeat split; auto. now apply tw_refl.
    - unfold bind at 1. destruct (hook_quiet (fun v => ob_train D A I b p v x a) (add_event D A J s (EvTrain D A p x a))) as [Hq Ht].
      destruct (run_hook _ _) as [s1 r1]; cbn [fst] in *; apply quiet_out in Hq as (Q1 & Q2 & Q3 & Q4 & Q5); cbn in Q1, Q2, Q3, Q4, Q5, Ht. change (iteration (add_event D A J s (EvTrain D A p x a))) with (iteration s) in Q5.
      assert (T1 : trained_with a s s1) by (exists [EvTrain D A p x a]; split; [assumption|]; constructor; [eauto|constructor]).
      destruct r1 as [u|e]; [|intros [= <- <-]; auto 10].
      assert (K : forall s2 y, quiet s1 s2 -> at_type (own s2) = at_type (own s1) -> o_pass D A I b ps y a s2 = (s', r) ->
        training s' = training s /\ phase s' = phase s /\ started s' = started s /\ iteration s' = iteration s /\ at_type (own s') = at_type (own s) /\ trained_with a s s').
      { intros s2 y Hq E5 E. apply quiet_out in Hq as (R1 & R2 & R3 & R4 & R5). apply IH in E as (F1 & F2 & F3 & F4 & F5 & F6).
        rewrite F1, F2, F3, F4, F5, R1, R2, R3, R5, E5. repeat split; auto. eapply tw_trans; [exact T1|]. eapply tw_trans; [|exact F6]. now apply tw_refl. }
      destruct (ob_channel D A I b p) as [h|]; [|intro E; eapply K; [apply quiet_refl|reflexivity|exact E]].
      unfold bind. destruct (hook_quiet (fun v => h v x a) s1) as [Hq Ht']. destruct (run_hook _ s1) as [s2 [y|e]]; cbn [fst] in *; [intro E; eapply K; eassumption|].
      intros [= <- <-]. apply quiet_out in Hq as (R1 & R2 & R3 & R4 & R5). rewrite R1, R2, R3, R5, Ht'. repeat split; auto. eapply tw_trans; [exact T1|]. now apply tw_refl.
  Qed.
  Lemma rows_frame xs a : forall s s' r, o_rows D A I b xs a s = (s', r) ->
    training s' = training s /\ phase s' = phase s /\ started s' = started s /\ at_type (own s') = at_type (own s) /\ trained_with a s s'
    /\ exists k, iteration s' = iteration s + k /\ if ok r then k = length xs else k < length xs.
  Proof.
    induction xs as [|x xs IH]; intros s s' r; cbn [o_rows].
    - intros [= <- <-]. repeat split; auto; [now apply tw_refl|exists 0; cbn; lia].
    - unfold bind at 1. destruct (o_pass D A I b phases x a s) as [s1 r1] eqn:E1. apply pass_frame in E1 as (P1 & P2 & P3 & P4 & P5 & P6).
      destruct r1 as [u|e]; [|intros [= <- <-]; repeat split; auto; exists 0; cbn; lia].
      unfold bind, count. intro E. apply IH in E as (F1 & F2 & F3 & F5 & F6 & k & F8 & F9).
      rewrite F1, F2, F3, F5, F8. cbn. repeat split; auto.
      + eapply tw_trans; [exact P6|]. eapply tw_trans; [|exact F6]. now apply tw_refl.
      + exists (S k). change (iteration (set_iteration D A I (iteration s1 + 1) s1)) with (iteration s1 + 1). split; [lia|]. destruct (ok _); lia.
  Qed.
  Lemma count_rows x : length (rows D row_of x) = a_rows x.
  Proof. unfold rows. now rewrite map_length, seq_length. Qed.
  Lemma refcast_rows t x : a_rows (refcast D t x) = a_rows x.
  Proof. unfold refcast. destruct t as [t|]; [|reflexivity]. destruct (Nat.eqb _ t); reflexivity. Qed.

  (** what happens after the checks of train *)
  Definition work (x : array) (a : A) : M D A J unit := fun s =>
    let x' := refcast D (n_dt D A J s) x in
    let s := set_n_started D A J s true in
    match at_type (own s) with
    | Some false => o_rows D A I b (rows D row_of x') a s
    | _ => bind D A J (o_pass D A I b phases x' a) (fun _ => count D A I (a_rows x')) s
    end.
  Lemma work_frame x a s s' r : work x a s = (s', r) ->
    training s' = training s /\ phase s' = phase s /\ started s' = true /\ at_type (own s') = at_type (own s) /\ trained_with a s s'
    /\ exists k, iteration s' = iteration s + k /\ if ok r then k = a_rows x else k < a_rows x \/ k = 0.
  Proof.
    unfold work. set (x' := refcast D (n_dt D A J s) x). cbv zeta. change (at_type (own (set_n_started D A J s true))) with (at_type (own s)). set (s1 := set_n_started D A J s true).
    assert (Hb : bind D A J (o_pass D A I b phases x' a) (fun _ => count D A I (a_rows x')) s1 = (s', r) -> 
       training s' = training s /\ phase s' = phase s /\ started s' = true /\ at_type (own s') = at_type (own s) /\ trained_with a s s'
       /\ exists k, iteration s' = iteration s + k /\ if ok r then k = a_rows x else k < a_rows x \/ k = 0).
    { unfold bind. destruct (o_pass D A I b phases x' a s1) as [s2 r2] eqn:E. apply pass_frame in E as (P1 & P2 & P3 & P4 & P5 & P6).
      assert (T : trained_with a s s2) by (eapply tw_trans; [|exact P6]; now apply tw_refl).
      destruct r2 as [u|e]; unfold count; intros [= <- <-]; cbn.
      - rewrite P1, P2, P3. repeat split; auto. exists (a_rows x'). unfold x'. rewrite refcast_rows. split; [|reflexivity].
        change (iteration s1) with (iteration s) in P4. unfold OnlineModel.iteration in *. cbn. lia.
      - rewrite P1, P2, P3, P4. repeat split; auto. exists 0. split; [|auto]. change (iteration s1) with (iteration s). lia. }
    destruct (at_type (own s)) as [[]|] eqn:Et; [exact Hb| |exact Hb].
    intro E. apply rows_frame in E as (P1 & P2 & P3 & P5 & P6 & k & P8 & P9). rewrite P1, P2, P3, P5, P8. split; [reflexivity|]. split; [reflexivity|]. split; [reflexivity|]. split; [exact Et|]. split.
    - eapply tw_trans; [|exact P6]. now apply tw_refl.
    - exists k. split; [reflexivity|]. unfold x' in P9. rewrite count_rows, refcast_rows in P9. destruct (ok r); auto.
  Qed.
  (** train either stops in the checks, or does the work *)
  Lemma train_cases x a s s' r : o_train x a s = (s', r) -> (quiet s s' /\ exists e, r = Err e) \/
    exists s1, quiet s s1 /\ work x a s1 = (s', r) /\ training s = true /\ ob_trainable D A I b = true.
  Proof.
    unfold OnlineModel.o_train. destruct (ob_trainable D A I b) eqn:Eb; cbn [negb]; [|intros [= <- <-]; left; split; [apply quiet_refl|eauto]].
    destruct (training s) eqn:Et; cbn [negb]; [|intros [= <- <-]; left; split; [apply quiet_refl|eauto]].
    unfold bind at 1. pose proof (ocheck_quiet x s) as H1. destruct (o_check_input D A I b x s) as [s1 [u|e]]; cbn [fst] in *; [|intros [= <- <-]; left; split; [assumption|eauto]].
    unfold bind at 1. destruct (ob_check_args D A I b (view_of D A J s1) x a) as [e|]; [intros [= <- <-]; left; split; [assumption|eauto]|].
    unfold bind at 1. destruct (hook_quiet (fun v => ob_check_params D A I b v x) s1) as [H2 _]. destruct (run_hook (fun v => ob_check_params D A I b v x) s1) as [s2 [u2|e2]]; cbn [fst] in *;
      pose proof (quiet_trans _ _ _ H1 H2) as H3; [|intros [= <- <-]; left; split; [assumption|eauto]].
    intro E. right. exists s2. auto.
  Qed.
  Lemma train_frame x a s s' r : o_train x a s = (s', r) ->
    training s' = training s /\ phase s' = phase s /\ (started s = true -> started s' = true) /\ trained_with a s s'
    /\ (exists k, iteration s' = iteration s + k /\ if ok r then k = a_rows x else k < a_rows x \/ k = 0)
    /\ (ok r = true -> started s' = true /\ training s = true /\ ob_trainable D A I b = true).
  Proof.
    intro E. apply train_cases in E as [[Hq [e ->]]|(s1 & Hq & Hw & Ht & Hb)]; apply quiet_out in Hq as (Q1 & Q2 & Q3 & Q4 & Q5).
    - rewrite Q1, Q2, Q3, Q5. repeat split; auto; try discriminate; [now apply tw_refl|exists 0; cbn; auto].
    - apply work_frame in Hw as (P1 & P2 & P3 & _ & P4 & P5). rewrite P1, P2, P3, Q1, Q2. repeat split; auto; [|now rewrite <- Q5]. eapply tw_trans; [|exact P4]. now apply tw_refl.
  Qed.

  (** stop_training *)
  Lemma stops_frame ps a : forall s s' r, o_stops D A I b ps a s = (s', r) ->
    training s' = training s /\ phase s' = phase s /\ started s' = started s /\ iteration s' = iteration s
    /\ (exists evs, trace s' = trace s ++ evs /\ Forall (fun e => exists p k, e = EvStop D A p k) evs)
    /\ (ok r = true -> trace s' = trace s ++ map (fun p => EvStop D A p true) ps).
  Proof.
    induction ps as [|p ps IH]; intros s s' r; cbn [o_stops].
    - intros [= <- <-]. repeat split; auto; [exists []|intros _]; now rewrite app_nil_r.
    - destruct (hook_quiet (fun v => ob_stop D A I b p v a) s) as [Hq _]. destruct (run_hook (fun v => ob_stop D A I b p v a) s) as [s1 [u|e]]; cbn [fst] in Hq; apply quiet_out in Hq as (Q1 & Q2 & Q3 & Q4 & Q5).
      + intro E. apply IH in E as (F1 & F2 & F3 & F4 & (evs & F5 & F6) & F7). rewrite F1, F2, F3, F4. cbn. repeat split; auto.
        * rewrite F5. cbn. rewrite Q4, <- app_assoc. exists (EvStop D A p true :: evs). split; [reflexivity|]. constructor; eauto.
        * intro H. rewrite (F7 H). cbn. now rewrite Q4, <- app_assoc.
      + intros [= <- <-]. cbn. repeat split; auto; [|discriminate]. rewrite Q4. exists [EvStop D A p false]. split; [reflexivity|]. constructor; [eauto|constructor].
  Qed.
  Lemma stop_frame a s s' r : o_stop a s = (s', r) -> iteration s' = iteration s /\
    (exists evs, trace s' = trace s ++ evs /\ Forall (fun e => exists p k, e = EvStop D A p k) evs) /\
    match r with
    | Err _ => training s' = training s /\ phase s' = phase s /\ started s' = started s
    | Ok _ => training s = true /\ phase s' = Z.of_nat (ob_phases D A I b) /\ started s' = false /\ trace s' = trace s ++ map (fun p => EvStop D A p true) phases
              /\ (ob_trainable D A I b = true -> training s' = false)
    end.
  Proof.
    unfold OnlineModel.o_stop. destruct (training s && negb (started s)) eqn:E1; [intros [= <- <-]; repeat split; auto; exists []; now rewrite app_nil_r|].
    destruct (training s) eqn:Et; cbn [negb]; [|intros [= <- <-]; repeat split; auto; exists []; now rewrite app_nil_r].
    unfold bind. destruct (o_stops D A I b phases a s) as [s1 r1] eqn:E. apply stops_frame in E as (F1 & F2 & F3 & F4 & F5 & F6). destruct r1 as [u|e].
    - unfold remaining. cbn. destruct (ob_trainable D A I b); [|destruct (0 =? 0)%Z; intros [= <- <-]; cbn; repeat split; auto; discriminate].
      rewrite Z.sub_diag. cbn. intros [= <- <-]. cbn. repeat split; auto.
    - intros [= <- <-]. rewrite F1. repeat split; auto.
  Qed.

  (** execute and inverse *)
  Lemma pre_exec_frame x s s' r : o_pre_exec D A I row_of na b x s = (s', r) -> ob_trainable D A I b = true -> training s = (phase s =? 0)%Z ->
    training s' = training s /\ phase s' = phase s /\ (started s = true -> started s' = true) /\ trained_with na s s'
    /\ (exists k, iteration s' = iteration s + k /\ if (phase s =? 0)%Z && negb (started s) then (if ok r then k = a_rows x else k <= a_rows x) else k = 0)
    /\ ((phase s =? 0)%Z && negb (started s) = false -> trace s' = trace s /\ started s' = started s).
  Proof.
    intros E Hb Ht. unfold o_pre_exec, bind at 1 in E.
    assert (K : forall s1, bind D A J (o_check_input D A I b x) (fun _ => bind D A J (run_hook (fun v => ob_check_params D A I b v x)) (fun _ s => match n_out D A J s with None => set_output_dim D A J base (n_in D A J s) s | Some _ => (s, Ok tt) end)) s1 = (s', r) -> quiet s1 s').
    { clear. intros s1. unfold bind at 1. pose proof (ocheck_quiet x s1) as H1. destruct (o_check_input D A I b x s1) as [s2 [u|e]]; cbn [fst] in *; [|intros [= <- <-]; assumption].
      unfold bind at 1. destruct (hook_quiet (fun v => ob_check_params D A I b v x) s2) as [H2 _]. destruct (run_hook (fun v => ob_check_params D A I b v x) s2) as [s3 [u2|e2]]; cbn [fst] in *;
        pose proof (quiet_trans _ _ _ H1 H2) as H3; [|intros [= <- <-]; assumption].
      destruct (n_out D A J s3); [intros [= <- <-]; assumption|]. intro E. pose proof (outdim_quiet (n_in D A J s3) s3) as H4. rewrite E in H4. cbn in H4. eapply quiet_trans; eassumption. }
    destruct ((phase s =? 0)%Z && negb (started s)) eqn:Ec.
    - destruct (o_train x na s) as [s1 r1] eqn:E1. apply train_frame in E1 as (P1 & P2 & P3 & P4 & (k & P5 & P6) & _). destruct r1 as [u|e].
      + apply K in E. apply quiet_out in E as (Q1 & Q2 & Q3 & Q4 & Q5). rewrite Q1, Q2, Q3, Q5. cbn in P6. subst k. repeat split; auto; [|exists (a_rows x); split; [assumption|destruct (ok r); lia]|discriminate|discriminate].
        eapply tw_trans; [exact P4|]. now apply tw_refl.
      + injection E as <- <-. repeat split; auto; [|discriminate|discriminate]. exists k. split; [assumption|]. cbn in *. lia.
    - apply K in E. apply quiet_out in E as (Q1 & Q2 & Q3 & Q4 & Q5). rewrite Q1, Q2, Q3, Q5. repeat split; auto; [now apply tw_refl|]. exists 0. auto.
  Qed.
  Lemma execute_frame x a s s' r : o_execute x a s = (s', r) -> ob_trainable D A I b = true -> training s = (phase s =? 0)%Z ->
    training s' = training s /\ phase s' = phase s /\ (started s = true -> started s' = true)
    /\ (exists k, iteration s' = iteration s + k /\ if (phase s =? 0)%Z && negb (started s) then (if ok r then k = a_rows x else k <= a_rows x) else k = 0)
    /\ ((phase s =? 0)%Z && negb (started s) = false -> (exists evs, trace s' = trace s ++ evs /\ Forall (fun e => exists y c, e = EvExec D A y c) evs) /\ started s' = started s).
  Proof.
    unfold OnlineModel.o_execute, bind. intros E Hb Ht. destruct (o_pre_exec D A I row_of na b x s) as [s1 r1] eqn:E1. apply pre_exec_frame in E1 as (P1 & P2 & P3 & P4 & (k & P5 & P6) & P7); [|assumption|assumption].
    destruct r1 as [u|e].
    - set (x' := refcast D (n_dt D A J s1) x) in *. destruct (hook_quiet (fun v => ob_execute D A I b v x' a) (add_event D A J s1 (EvExec D A x' a))) as [Hq _]. rewrite E in Hq. cbn [fst] in Hq.
      apply quiet_out in Hq as (Q1 & Q2 & Q3 & Q4 & Q5). cbn in Q1, Q2, Q3, Q4. change (iteration (add_event D A J s1 (EvExec D A x' a))) with (iteration s1) in Q5. rewrite Q1, Q2, Q3, Q5, Q4. split; [assumption|]. split; [assumption|]. split; [assumption|]. split.
      + exists k. split; [assumption|]. destruct (_ && _); [|assumption]. cbn in P6. destruct (ok r); lia.
      + intro H. destruct (P7 H) as [P8 P9]. rewrite P8, P9. split; [|reflexivity]. exists [EvExec D A x' a]. split; [reflexivity|]. constructor; [eauto|constructor].
    - injection E as <- <-. split; [assumption|]. split; [assumption|]. split; [assumption|]. split; [exists k; split; [assumption|]; destruct (_ && _); assumption|]. intro H. destruct (P7 H) as [P8 P9]. rewrite P8, P9. split; [|reflexivity]. exists []. rewrite app_nil_r. auto.
  Qed.
  Lemma inverse_frame y a s s' r : o_inverse y a s = (s', r) ->
    training s' = training s /\ phase s' = phase s /\ started s' = started s /\ iteration s' = iteration s /\ exists evs, trace s' = trace s ++ evs /\ Forall (fun e => exists y c, e = EvInv D A y c) evs.
  Proof.
    unfold OnlineModel.o_inverse, bind. destruct (o_pre_inv D A I b y s) as [s1 r1] eqn:E1.
    assert (Hq : quiet s s1).
    { revert E1. unfold o_pre_inv. destruct (negb _); [intros [= <- <-]; apply quiet_refl|]. unfold bind.
      assert (C : forall (s2 s3 : node) r3, quiet s s2 -> check_output D A J y s2 = (s3, r3) -> quiet s s3).
      { intros s2 s3 r3 H. unfold check_output. destruct (negb _); [intros [= <- <-]; assumption|]. destruct (n_out D A J s2) as [d|]; [destruct (Nat.eqb _ d)|]; intros [= <- <-]; assumption. }
      destruct (n_out D A J s); [apply C, quiet_refl|]. destruct (n_in D A J s) as [d|]; [|intros [= <- <-]; apply quiet_refl].
      pose proof (outdim_quiet (Some d) s) as H. destruct (set_output_dim D A J base (Some d) s) as [s2 [u|e]]; cbn [fst] in H; [now apply C|]. intros [= <- <-]. assumption. }
    apply quiet_out in Hq as (Q1 & Q2 & Q3 & Q4 & Q5). destruct r1 as [u|e].
    - set (y' := refcast D (n_dt D A J s1) y). intro E. destruct (hook_quiet (fun v => ob_inverse D A I b v y' a) (add_event D A J s1 (EvInv D A y' a))) as [Hq _]. rewrite E in Hq. cbn [fst] in Hq.
      apply quiet_out in Hq as (R1 & R2 & R3 & R4 & R5). cbn in R1, R2, R3, R4. change (iteration (add_event D A J s1 (EvInv D A y' a))) with (iteration s1) in R5. rewrite R1, R2, R3, R4, R5, Q4. repeat split; auto.
      exists [EvInv D A y' a]. split; [reflexivity|]. constructor; [eauto|constructor].
    - intros [= <- <-]. repeat split; auto. rewrite Q4. exists []. rewrite app_nil_r. auto.
  Qed.

  (** ** C58: the life of an OnlineNode *)
  Hypothesis trainable : ob_trainable D A I b = true.
  Hypothesis has_phase : 1 <= ob_phases D A I b.
  Definition oinv (s : node) : Prop := training s = (phase s =? 0)%Z /\ (training s = false -> phase s = Z.of_nat (ob_phases D A I b) /\ started s = false).
  Lemma init_oinv i0 din dout dt s : o_init D A I b i0 din dout dt = (s, Ok tt) -> oinv s /\ training s = true /\ started s = false /\ iteration s = 0 /\ trace s = [].
  Proof.
    unfold o_init, init. unfold bind. set (s0 := blank D A J _). intro H.
    assert (G : forall s1 : node, quiet s0 s1 -> (if b_trainable D A J base then (set_n_training D A J (set_n_started D A J (set_n_phase D A J s1 0) false) true, @Ok unit tt) else (set_n_started D A J (set_n_phase D A J (set_n_training D A J s1 false) (-1)) false, Ok tt)) = (s, Ok tt) ->
      oinv s /\ training s = true /\ started s = false /\ iteration s = 0 /\ trace s = []).
    { intros s1 Hq. cbn. rewrite trainable. intros [= <-]. apply quiet_out in Hq as (Q1 & Q2 & Q3 & Q4 & Q5). cbn in *. unfold oinv. cbn. repeat split; auto; discriminate. }
    pose proof (book_set_in D A J base din s0) as B1. pose proof (own_set_in din s0) as O1. destruct (set_input_dim D A J base din s0) as [t1 [u1|e1]]; [|discriminate]. cbn [fst] in *.
    pose proof (book_set_out D A J base dout t1) as B2. pose proof (own_set_out dout t1) as O2. destruct (set_output_dim D A J base dout t1) as [t2 [u2|e2]]; [|discriminate]. cbn [fst] in *.
    pose proof (book_set_dt D A J base dt t2) as B3. pose proof (own_set_dt dt t2) as O3. destruct (set_dtype D A J base dt t2) as [t3 [u3|e3]]; [|discriminate]. cbn [fst] in *.
    apply (G t3); [|exact H]. split; [congruence|]. unfold OnlineModel.iteration. congruence.
  Qed.
  Lemma finished_train x a s : training s = false -> o_train x a s = (s, Err TrainingFinished).
  Proof. intro H. unfold OnlineModel.o_train. now rewrite trainable, H. Qed.
  Lemma finished_stop a s : training s = false -> o_stop a s = (s, Err TrainingFinished).
  Proof. intro H. unfold OnlineModel.o_stop. now rewrite H. Qed.
  (** one call *)
  Lemma step_frame c s s' r : ostep c s = (s', r) -> oinv s -> oinv s' /\
    (training s' = true <-> training s = true /\ ~ (exists a, c = OStop D A a /\ r = true)) /\
    (started s = true -> training s' = true -> started s' = true) /\
    exists k, iteration s' = iteration s + k /\
      match c with
      | OTrain _ _ x _ => if r then k = a_rows x else k <= a_rows x
      | OExec _ _ x _ => if training s && negb (started s) then (if r then k = a_rows x else k <= a_rows x) else k = 0
      | _ => k = 0
      end.
  Proof.
    assert (Z : forall s s' : node, quiet s s' -> oinv s -> (forall a, c <> OStop D A a) -> oinv s' /\ (training s' = true <-> training s = true /\ ~ (exists a, c = OStop D A a /\ r = true)) /\ (started s = true -> training s' = true -> started s' = true) /\ exists k, iteration s' = iteration s + k /\ k = 0).
    { intros t t' Hq [I1 I2] Hc. apply quiet_out in Hq as (Q1 & Q2 & Q3 & Q4 & Q5). unfold oinv. rewrite Q1, Q2, Q3, Q5. split; [auto|]. split; [|split; [auto|exists 0; auto]].
      split; [|tauto]. intro H. split; [assumption|]. intros (a & -> & _). now apply (Hc a). }
    destruct c as [x a|a|x a|y a|t|n|n|t]; cbn [OnlineModel.ostep]; intros E Hi.
    - destruct (o_train x a s) as [s1 r1] eqn:E1. injection E as <- <-. cbn [fst snd]. pose proof E1 as E2. apply train_frame in E1 as (P1 & P2 & P3 & P4 & (k & P5 & P6) & P7). destruct Hi as [I1 I2]. split; [|split; [|split]].
      + unfold oinv. rewrite P1, P2. split; [assumption|]. intro H. rewrite (finished_train x a s H) in E2. injection E2 as <- _. auto.
      + rewrite P1. split; [|tauto]. intro H. split; [assumption|]. intros (? & Hc & _). discriminate.
      + auto.
      + exists k. split; [assumption|]. destruct (ok r1); [assumption|lia].
    - destruct (o_stop a s) as [s1 r1] eqn:E1. injection E as <- <-. cbn [fst snd]. apply stop_frame in E1 as (P1 & _ & P2). destruct Hi as [I1 I2]. destruct r1 as [u|e]; cbn [ok].
      + destruct P2 as (T & Ph & St & _ & Tr). specialize (Tr trainable). split; [|split; [|split]].
        * unfold oinv. rewrite Tr, Ph, St. split; [symmetry; apply Z.eqb_neq; lia|auto].
        * rewrite Tr. split; [discriminate|]. intros [_ H]. exfalso. apply H. eauto.
        * rewrite Tr. discriminate.
        * exists 0. split; [lia|reflexivity].
      + destruct P2 as (T & Ph & St). unfold oinv. rewrite T, Ph, St. split; [auto|]. split; [|split; [auto|exists 0; split; [lia|reflexivity]]].
        split; [|tauto]. intro H. split; [assumption|]. intros (? & _ & H'). discriminate.
    - destruct (o_execute x a s) as [s1 r1] eqn:E1. injection E as <- <-. cbn [fst snd]. destruct Hi as [I1 I2]. apply execute_frame in E1 as (P1 & P2 & P3 & (k & P5 & P6) & P7); [|assumption|assumption]. rewrite <- I1 in P6, P7. split; [|split; [|split]].
      + unfold oinv. rewrite P1, P2. split; [assumption|]. intro H. rewrite H in P7. destruct (P7 eq_refl) as [_ ->]. auto.
      + rewrite P1. split; [|tauto]. intro H. split; [assumption|]. intros (? & Hc & _). discriminate.
      + auto.
      + exists k. split; assumption.
    - destruct (o_inverse y a s) as [s1 r1] eqn:E1. injection E as <- <-. cbn [fst snd]. apply inverse_frame in E1 as (P1 & P2 & P3 & P4 & _). destruct Hi as [I1 I2]. unfold oinv. rewrite P1, P2, P3, P4. split; [auto|]. split; [|split; [auto|exists 0; split; [lia|reflexivity]]].
      split; [|tauto]. intro H. split; [assumption|]. intros (? & Hc & _). discriminate.
    - injection E as <- <-. apply Z; [|assumption|discriminate]. unfold o_set_type. destruct (existsb _ _); [apply quiet_set_type|apply quiet_refl].
    - injection E as <- <-. apply Z; [|assumption|discriminate]. split; [apply book_set_in|unfold OnlineModel.iteration; now rewrite own_set_in].
    - injection E as <- <-. apply Z; [|assumption|discriminate]. apply outdim_quiet.
    - injection E as <- <-. apply Z; [|assumption|discriminate]. split; [apply book_set_dt|unfold OnlineModel.iteration; now rewrite own_set_dt].
  Qed.
  Lemma run_frame cs : forall s s' rs, orun cs s = (s', rs) -> oinv s -> oinv s' /\ (training s' = true <-> training s = true /\ forall a, ~ In (OStop D A a, true) (combine cs rs)).
  Proof.
    induction cs as [|c cs IH]; intros s s' rs; cbn [OnlineModel.orun]; [intros [= <- <-] H; split; [assumption|]; cbn; tauto|].
    destruct (ostep c s) as [s1 r] eqn:E1. destruct (orun cs s1) as [s2 rs2] eqn:E2. intros [= <- <-] Hi. apply step_frame in E1 as (H1 & H2 & _); [|assumption]. apply IH in E2 as (H3 & H4); [|assumption].
    split; [assumption|]. rewrite H4, H2. cbn [combine In]. split.
    - intros [[Ht Hn] Ha]. split; [assumption|]. intros a [H|H]; [injection H as -> ->; apply Hn; eauto|now apply (Ha a)].
    - intros [Ht Ha]. repeat split; [assumption| |].
      + intros (a & -> & ->). apply (Ha a). now left.
      + intros a H. apply (Ha a). now right.
  Qed.
  (** training is open exactly until a call of stop_training returns: executing and inverting do not end it *)
  Theorem C58_open i0 din dout dt s0 cs s rs : o_init D A I b i0 din dout dt = (s0, Ok tt) -> orun cs s0 = (s, rs) ->
    (training s = true <-> forall a, ~ In (OStop D A a, true) (combine cs rs)).
  Proof. intros H0 Hr. apply init_oinv in H0 as (Hi & Ht & _). apply run_frame in Hr as [_ H]; [|assumption]. rewrite H. tauto. Qed.
  (** afterwards train and stop_training are refused without effect, and execute trains no more *)
  Theorem C58_closed i0 din dout dt s0 cs s rs : o_init D A I b i0 din dout dt = (s0, Ok tt) -> orun cs s0 = (s, rs) -> training s = false ->
    (forall x a, o_train x a s = (s, Err TrainingFinished)) /\ (forall a, o_stop a s = (s, Err TrainingFinished))
    /\ forall x a s' r, o_execute x a s = (s', r) -> exists evs, trace s' = trace s ++ evs /\ Forall (fun e => exists y c, e = EvExec D A y c) evs.
  Proof.
    intros H0 Hr Ht. apply init_oinv in H0 as (Hi & _). apply run_frame in Hr as [[I1 I2] _]; [|assumption]. split; [intros; now apply finished_train|]. split; [intros; now apply finished_stop|].
    intros x a s' r E. apply execute_frame in E as (_ & _ & _ & _ & P); [|assumption|assumption]. rewrite <- I1, Ht in P. apply P. reflexivity.
  Qed.
  (** stop_training closes every phase once, in order *)
  Theorem C58_stop a s s' : o_stop a s = (s', Ok tt) -> trace s' = trace s ++ map (fun p => EvStop D A p true) (seq 0 (ob_phases D A I b)) /\ training s' = false.
  Proof. intro E. apply stop_frame in E as (_ & _ & _ & _ & _ & H1 & H2). auto. Qed.
  (** the iteration counts the rows trained: by train, and by the first execute if nothing was trained before *)
  Theorem C58_iteration i0 din dout dt s0 cs s rs c s' r : o_init D A I b i0 din dout dt = (s0, Ok tt) -> orun cs s0 = (s, rs) -> ostep c s = (s', r) ->
    exists k, iteration s' = iteration s + k /\
      match c with
      | OTrain _ _ x _ => if r then k = a_rows x else k <= a_rows x
      | OExec _ _ x _ => if training s && negb (started s) then (if r then k = a_rows x else k <= a_rows x) else k = 0
      | _ => k = 0
      end.
  Proof. intros H0 Hr E. apply init_oinv in H0 as (Hi & _). apply run_frame in Hr as [Hi' _]; [|assumption]. now apply step_frame in E as (_ & _ & _ & H). Qed.
  Definition rows_trained (cs : list (ocall D A)) : nat := list_sum (map (fun c => match c with OTrain _ _ x _ => a_rows x | _ => 0 end) cs).
  Theorem C58_total i0 din dout dt s0 x a cs s rs : o_init D A I b i0 din dout dt = (s0, Ok tt) -> orun (OTrain D A x a :: cs) s0 = (s, rs) -> forallb (fun r => r) rs = true ->
    iteration s = rows_trained (OTrain D A x a :: cs).
  Proof.
    intros H0. apply init_oinv in H0 as (Hi & Ht & Hs & Hz & _). cbn [OnlineModel.orun]. destruct (ostep (OTrain D A x a) s0) as [s1 r] eqn:E1. destruct (orun cs s1) as [s2 rs2] eqn:E2. intros [= <- <-]. cbn [forallb].
    intro Hr. apply andb_prop in Hr as [-> Hr].
    assert (H1 : oinv s1 /\ started s1 || negb (training s1) = true /\ iteration s1 = a_rows x).
    { pose proof E1 as E3. apply step_frame in E1 as (H1 & _ & _ & k & H3 & H4); [|assumption]. split; [assumption|]. split; [|lia]. cbn in E3. destruct (o_train x a s0) as [t1 r1] eqn:E4. cbn in E3. injection E3 as <- Hk. apply train_frame in E4 as (_ & _ & _ & _ & _ & P). rewrite (proj1 (P Hk)). reflexivity. }
    change (rows_trained (OTrain D A x a :: cs)) with (a_rows x + rows_trained cs). destruct H1 as (H1 & H2 & <-). clear E1 Hi Ht Hs Hz. revert s1 rs2 s2 E2 Hr H1 H2.
    induction cs as [|c cs IH]; intros s1 rs2 s2; cbn [OnlineModel.orun]; [intros [= <- <-]; cbn; lia|].
    destruct (ostep c s1) as [t1 r] eqn:E1. destruct (orun cs t1) as [t2 rs3] eqn:E2. intros [= <- <-]. cbn [forallb]. intro Hr. apply andb_prop in Hr as [-> Hr]. intros H1 H2.
    apply step_frame in E1 as (G1 & G2 & G3 & k & G4 & G5); [|assumption]. rewrite (IH _ _ _ E2 Hr G1).
    - rewrite G4. change (rows_trained (c :: cs)) with (match c with OTrain _ _ x _ => a_rows x | _ => 0 end + rows_trained cs).
      assert (He : training s1 && negb (started s1) = false) by (destruct (training s1), (started s1); cbn in *; congruence). rewrite He in G5. destruct c; lia.
    - destruct (training t1) eqn:Et; [|apply orb_true_r]. rewrite orb_false_r. apply G3; [|reflexivity]. destruct (proj1 G2 eq_refl) as [Ht1 _]. rewrite Ht1 in H2. now rewrite orb_false_r in H2.
  Qed.

  (** ** C153: the data goes through the phases *)
  Lemma refcast_row_list t x : rows D row_of (refcast D t x) = map (refcast D t) (rows D row_of x).
  Proof.
    unfold rows. rewrite map_map, refcast_rows. apply map_ext_in. intros i _. unfold refcast. destruct t as [t|]; [|reflexivity]. cbn. destruct (Nat.eqb (a_dtype x) t); reflexivity.
  Qed.
  Lemma pass_good ps a : forall x s, good D A J base s (fst (o_pass D A I b ps x a s)).
  Proof.
    induction ps as [|p ps IH]; intros x s; cbn [o_pass]; [apply good_refl|]. unfold bind at 1.
    assert (G1 : good D A J base s (fst (run_hook (fun v => ob_train D A I b p v x a) (add_event D A J s (EvTrain D A p x a))))).
    { unfold OnlineModel.run_hook. eapply good_trans; [|apply good_prog]. apply good_dims. reflexivity. }
    destruct (run_hook _ _) as [s1 [u|e]]; cbn [fst] in *; [|exact G1].
    destruct (ob_channel D A I b p) as [h|]; [|eapply good_trans; [exact G1|apply IH]]. unfold bind.
    pose proof (good_prog D A J base (lifted I (view_of D A J s1) (h (view_of D A J s1) x a)) s1) as G2. unfold OnlineModel.run_hook. destruct (run_prog _ _ _ _ _ s1) as [s2 [y|e]]; cbn [fst] in *.
    - eapply good_trans; [eapply good_trans; [exact G1|exact G2]|apply IH].
    - eapply good_trans; [exact G1|exact G2].
  Qed.
  Lemma rows_good xs a : forall s, good D A J base s (fst (o_rows D A I b xs a s)).
  Proof.
    induction xs as [|x xs IH]; intro s; cbn [o_rows]; [apply good_refl|]. unfold bind at 1. pose proof (pass_good phases a x s) as G. destruct (o_pass D A I b phases x a s) as [s1 [u|e]]; cbn [fst] in *; [|exact G].
    unfold bind, count. eapply good_trans; [exact G|]. eapply good_trans; [|apply IH]. apply good_dims. reflexivity.
  Qed.
  (** the check of the input settles input dim, dtype and training type *)
  Definition settled (x : array) (s : node) : Prop := n_in D A J s = Some (a_cols x) /\ (exists t, n_dt D A J s = Some t) /\ (exists t, at_type (own s) = Some t).
  Lemma check_settles x s s' : o_check_input D A I b x s = (s', Ok tt) -> settled x s' /\ a_ndim x = 2 /\ 0 < a_rows x
    /\ at_type (own s') = match at_type (own s) with None => hd_error (ob_types D A I b) | t => t end.
  Proof.
    unfold o_check_input, bind at 1. destruct (check_quiet x s) as [_ Ht]. destruct (check_input D A J base x s) as [s1 [u|e]] eqn:E; [|discriminate]. cbn [fst] in Ht.
    assert (H : n_in D A J s1 = Some (a_cols x) /\ (exists t, n_dt D A J s1 = Some t) /\ a_ndim x = 2 /\ 0 < a_rows x).
    { revert E. unfold check_input. destruct (Nat.eqb_spec (a_ndim x) 2) as [En|]; cbn [negb]; [|discriminate]. unfold bind, ret.
      assert (K : forall s3 : node, (exists t, n_dt D A J s3 = Some t) -> match match n_in D A J s3 with Some d => if Nat.eqb (a_cols x) d then (s3, Ok tt) else (s3, Err NodeExc) | None => (s3, Err NodeExc) end with
          | (s'0, Ok _) => if Nat.eqb (a_rows x) 0 then (s'0, Err NodeExc) else (s'0, Ok tt) | (s'0, Err e) => (s'0, Err e) end = (s1, Ok u) ->
          n_in D A J s1 = Some (a_cols x) /\ (exists t, n_dt D A J s1 = Some t) /\ a_ndim x = 2 /\ 0 < a_rows x).
      { intros s3 Hd. destruct (n_in D A J s3) as [d|] eqn:Ed; [|discriminate]. destruct (Nat.eqb_spec (a_cols x) d) as [->|]; [|discriminate]. destruct (Nat.eqb_spec (a_rows x) 0); [discriminate|]. intros [= <- _]. rewrite Ed. repeat split; auto. lia. }
      destruct (n_in D A J s) as [d|]; [set (s2 := s)|destruct (set_input_dim D A J base (Some (a_cols x)) s) as [s2 [u2|e2]]; [|discriminate]];
        (destruct (n_dt D A J s2) as [t|] eqn:Et; [apply K; eauto|]; unfold set_dtype; rewrite Et; destruct (b_supported D A J base (a_dtype x)); [|discriminate]; apply K; cbn; eauto). }
    destruct H as (H1 & H2 & H3 & H4). unfold settled. rewrite <- Ht. destruct (at_type (own s1)) as [t|] eqn:Et; [intros [= <-]; rewrite Et; eauto 10|].
    destruct (ob_types D A I b) as [|t l]; [discriminate|]. intros [= <-]. cbn. eauto 10.
  Qed.
  Lemma check_settled x y s : settled x s -> a_cols y = a_cols x -> a_ndim y = 2 -> 0 < a_rows y -> o_check_input D A I b y s = (s, Ok tt).
  Proof.
    intros (H1 & (t & H2) & (u & H3)) Hc Hn Hr. unfold o_check_input, check_input. rewrite Hn. cbn. unfold bind, ret. rewrite H1, H2, H1, Hc, Nat.eqb_refl. destruct (Nat.eqb_spec (a_rows y) 0); [lia|]. now rewrite H3.
  Qed.

  (** what reaches phase p of an array: the channels of the phases before, in order; a phase without a channel passes its data on *)
  Variable f : nat -> array -> array.
  Definition channels : Prop := forall p x, match ob_channel D A I b p with None => f p x = x | Some h => forall v a, h v x a = PRet (Ok (f p x)) end.
  Definition through (p : nat) (x : array) : array := fold_left (fun y q => f q y) (seq 0 p) x.
  Lemma pass_events a : channels -> forall n p x s s', o_pass D A I b (seq p n) x a s = (s', Ok tt) ->
    trace s' = trace s ++ map (fun k => EvTrain D A (p + k) (fold_left (fun y q => f q y) (seq p k) x) a) (seq 0 n).
  Proof.
    intros Hf n. induction n as [|n IH]; intros p x s s'; cbn [seq o_pass].
    - intros [= <-]. now rewrite app_nil_r.
    - unfold bind at 1. destruct (hook_quiet (fun v => ob_train D A I b p v x a) (add_event D A J s (EvTrain D A p x a))) as [Hq _].
      destruct (run_hook _ _) as [s1 [u|e]]; cbn [fst] in *; [|discriminate]. apply quiet_out in Hq as (_ & _ & _ & Q4 & _). cbn in Q4.
      assert (K : o_pass D A I b (seq (S p) n) (f p x) a s1 = (s', Ok tt) -> trace s' = trace s ++ map (fun k => EvTrain D A (p + k) (fold_left (fun y q => f q y) (seq p k) x) a) (0 :: seq 1 n)).
      { intro E. apply IH in E. rewrite E, Q4, <- app_assoc. cbn [map app seq fold_left]. rewrite Nat.add_0_r. f_equal. f_equal. rewrite <- seq_shift, map_map. apply map_ext. intro k. cbn [seq fold_left]. now rewrite Nat.add_succ_r. }
      specialize (Hf p x). destruct (ob_channel D A I b p) as [h|]; [|rewrite <- Hf at 1; exact K].
      unfold bind, OnlineModel.run_hook. rewrite Hf. exact K.
  Qed.
  Definition training_of (a : A) (x : array) : list (event D A) := map (fun p => EvTrain D A p (through p x) a) (seq 0 (ob_phases D A I b)).
  Lemma rows_events a : channels -> forall xs s s', o_rows D A I b xs a s = (s', Ok tt) -> trace s' = trace s ++ flat_map (training_of a) xs.
  Proof.
    intros Hf xs. induction xs as [|x xs IH]; intros s s'; cbn [o_rows flat_map]; [intros [= <-]; now rewrite app_nil_r|].
    unfold bind at 1. destruct (o_pass D A I b phases x a s) as [s1 [[]|e]] eqn:E; [|discriminate]. apply (pass_events a Hf) in E. unfold bind, count. intro H. apply IH in H. rewrite H. cbn. rewrite E, <- app_assoc. reflexivity.
  Qed.
  Theorem C153_channels x a s s' : channels -> o_train x a s = (s', Ok tt) -> exists t, n_dt D A J s' = Some t /\
    trace s' = trace s ++ flat_map (training_of a) (match at_type (own s') with Some false => rows D row_of (refcast D (Some t) x) | _ => [refcast D (Some t) x] end).
  Proof.
    intro Hf. unfold OnlineModel.o_train. rewrite trainable. cbn [negb]. destruct (training s); cbn [negb]; [|discriminate].
    unfold bind at 1. pose proof (ocheck_quiet x s) as H1. destruct (o_check_input D A I b x s) as [s1 [[]|e]] eqn:Ec; cbn [fst] in *; [|discriminate]. apply check_settles in Ec as ((_ & (t & Hdt) & _) & _).
    unfold bind at 1. destruct (ob_check_args D A I b (view_of D A J s1) x a) as [e|]; [discriminate|].
    unfold bind at 1. destruct (hook_quiet (fun v => ob_check_params D A I b v x) s1) as [H2 _].
    pose proof (good_prog D A J base (lifted I (view_of D A J s1) (ob_check_params D A I b (view_of D A J s1) x)) s1) as G. change (run_prog D A J base _ s1) with (run_hook (fun v => ob_check_params D A I b v x) s1) in G.
    destruct (run_hook (fun v => ob_check_params D A I b v x) s1) as [s2 [u2|e2]]; cbn [fst] in *; [|discriminate]. pose proof (quiet_trans _ _ _ H1 H2) as H3. apply quiet_out in H3 as (_ & _ & _ & H4 & _).
    apply (proj1 G) in Hdt. rewrite Hdt. intro E. change (at_type (own (set_n_started D A J s2 true))) with (at_type (own s2)) in E. set (x' := refcast D (Some t) x) in *. set (s3 := set_n_started D A J s2 true) in *.
    assert (Hb : bind D A J (o_pass D A I b phases x' a) (fun _ => count D A I (a_rows x')) s3 = (s', Ok tt) -> trace s' = trace s ++ training_of a x' /\ at_type (own s') = at_type (own s2) /\ n_dt D A J s' = Some t).
    { unfold bind. pose proof (pass_good phases a x' s3) as G2. destruct (o_pass D A I b phases x' a s3) as [s4 [[]|e]] eqn:E4; [|discriminate]. cbn [fst] in G2. pose proof E4 as E5. apply (pass_events a Hf) in E4. apply pass_frame in E5 as (_ & _ & _ & _ & E5 & _).
      unfold count. intros [= <-]. cbn. rewrite E4, <- H4. repeat split; [exact E5|]. now apply (proj1 G2). }
    exists t. destruct (at_type (own s2)) as [[]|] eqn:Et.
    - apply Hb in E as (E1 & -> & ->). split; [reflexivity|]. cbn. now rewrite app_nil_r.
    - pose proof (rows_good (rows D row_of x') a s3) as G2. rewrite E in G2. cbn in G2. pose proof E as E5. apply (rows_events a Hf) in E. apply rows_frame in E5 as (_ & _ & _ & E5 & _). rewrite E5. unfold s3. cbn. rewrite Et. split; [now apply (proj1 G2)|]. rewrite E. cbn. now rewrite H4.
    - apply Hb in E as (E1 & -> & ->). split; [reflexivity|]. cbn. now rewrite app_nil_r.
  Qed.

  (** ** C154: incremental training does not depend on the chunks *)
  (** the attributes a hook that returns normally leaves *)
  Fixpoint leaves {R} (P : I -> Prop) (p : prog I R) (i : I) : Prop :=
    match p with PRet (Ok _) => P i | PRet (Err _) => True | PSet i' k => leaves P k i' | PReq _ k => leaves P k i end.
  Lemma run_leaves {R} P (p : prog I R) n t : forall s s' v, leaves P p (at_own (own s)) -> run_prog D A J base (lift I n t p) s = (s', Ok v) -> P (at_own (own s')).
  Proof.
    induction p as [r|i k IH|q k IH]; intros s s' v H; cbn [lift run_prog leaves] in *.
    - intros [= <- ->]. exact H.
    - now apply IH.
    - assert (E : own (fst (match q with ReqIn n => set_input_dim D A J base (Some n) | ReqOut n => set_output_dim D A J base (Some n) | ReqDtype t => set_dtype D A J base (Some t) end s)) = own s)
        by (destruct q; [apply own_set_in|apply own_set_out|apply own_set_dt]).
      match type of E with own (fst ?m) = _ => destruct m as [s1 [u|e]] end; cbn [fst] in *; [|discriminate]. apply IH. now rewrite E.
  Qed.
  Lemma hook_leaves {R} P (h : view J -> prog I R) s s' v : leaves P (h (view_of D A J s)) (at_own (own s)) -> run_hook h s = (s', Ok v) -> P (at_own (own s')).
  Proof. unfold OnlineModel.run_hook, lifted. apply run_leaves. Qed.
  Variable P : I -> Prop.
  (** the attributes are initialised by _check_params, which afterwards does nothing; it sees only the number of columns and the dtype of the data *)
  Definition initialised : Prop :=
    (forall v x, P (at_own (v_int J v)) -> ob_check_params D A I b v x = PRet (Ok tt)) /\
    (forall v x, leaves P (ob_check_params D A I b v x) (at_own (v_int J v))) /\
    (forall v x y, a_cols x = a_cols y -> a_dtype x = a_dtype y -> ob_check_params D A I b v x = ob_check_params D A I b v y) /\
    (forall p v x a, P (at_own (v_int J v)) -> leaves P (ob_train D A I b p v x a) (at_own (v_int J v))) /\
    (forall p h v x a, ob_channel D A I b p = Some h -> P (at_own (v_int J v)) -> leaves P (h v x a) (at_own (v_int J v))).
  Lemma pass_leaves ps a : initialised -> forall x s s', P (at_own (own s)) -> o_pass D A I b ps x a s = (s', Ok tt) -> P (at_own (own s')).
  Proof.
    intros (_ & _ & _ & It & Ic). induction ps as [|p ps IH]; intros x s s' Hp; cbn [o_pass]; [now intros [= <-]|]. unfold bind at 1.
    destruct (run_hook (fun v => ob_train D A I b p v x a) (add_event D A J s (EvTrain D A p x a))) as [s1 [u|e]] eqn:E1; [|discriminate].
    apply (hook_leaves P) in E1; [|now apply It]. specialize (Ic p). destruct (ob_channel D A I b p) as [h|]; [|now apply IH]. unfold bind.
    destruct (run_hook (fun v => h v x a) s1) as [s2 [y|e]] eqn:E2; [|discriminate]. apply (hook_leaves P) in E2; [|now apply (Ic h)]. now apply IH.
  Qed.
  Lemma rows_leaves xs a : initialised -> forall s s', P (at_own (own s)) -> o_rows D A I b xs a s = (s', Ok tt) -> P (at_own (own s')).
  Proof.
    intro Hi. induction xs as [|x xs IH]; intros s s' Hp; cbn [o_rows]; [now intros [= <-]|]. unfold bind at 1. destruct (o_pass D A I b phases x a s) as [s1 [[]|e]] eqn:E; [|discriminate]. apply (pass_leaves _ _ Hi) in E; [|assumption]. unfold bind, count. now apply IH.
  Qed.
  Lemma rows_app xs ys a s : o_rows D A I b (xs ++ ys) a s = bind D A J (o_rows D A I b xs a) (fun _ => o_rows D A I b ys a) s.
  Proof.
    revert s. induction xs as [|x xs IH]; intro s; cbn [app o_rows]; [reflexivity|]. unfold bind. destruct (o_pass D A I b phases x a s) as [s1 [u|e]]; [|reflexivity]. unfold count. rewrite IH. reflexivity.
  Qed.
  (** training on several chunks, one call each; the first exception ends it *)
  Fixpoint train_all (xs : list array) (a : A) : M D A J unit := match xs with [] => ret D A J tt | x :: xs => bind D A J (o_train x a) (fun _ => train_all xs a) end.
  Definition like (x y : array) : Prop := a_ndim y = 2 /\ a_cols y = a_cols x /\ a_dtype y = a_dtype x /\ 0 < a_rows y.
  Lemma set_started (s : node) : started s = true -> set_n_started D A J s true = s.
  Proof. destruct s. cbn. now intros ->. Qed.
  Lemma train_settled x y a s : initialised -> (forall v z, ob_check_args D A I b v z a = None) -> settled x s -> at_type (own s) = Some false -> P (at_own (own s)) -> training s = true -> like x y ->
    o_train y a s = o_rows D A I b (rows D row_of (refcast D (n_dt D A J s) y)) a (set_n_started D A J s true).
  Proof.
    intros Hi Ha Hs Ht Hp Htr (L1 & L2 & L3 & L4). unfold OnlineModel.o_train. rewrite trainable, Htr. cbn [negb]. unfold bind at 1. rewrite (check_settled x y s Hs L2 L1 L4). unfold bind at 1. rewrite Ha. unfold bind at 1, OnlineModel.run_hook. rewrite (proj1 Hi) by exact Hp. cbn [lifted lift run_prog].
    cbn. now rewrite Ht.
  Qed.
  Lemma rows_settled x xs a s s' : o_rows D A I b xs a s = (s', Ok tt) -> settled x s -> settled x s' /\ n_dt D A J s' = n_dt D A J s.
  Proof.
    intros E (H1 & (t & H2) & (u & H3)). pose proof (rows_good xs a s) as [(G1 & _ & G2) _]. rewrite E in *. cbn [fst] in *. apply rows_frame in E as (_ & _ & _ & E & _). unfold settled. rewrite (G1 _ H1), (G2 _ H2), E, H3, H2. split; [split; [reflexivity|split; [exists t|exists u]; reflexivity]|reflexivity].
  Qed.
  Lemma train_all_settled x a : initialised -> (forall v z, ob_check_args D A I b v z a = None) -> forall xs s, settled x s -> at_type (own s) = Some false -> P (at_own (own s)) -> training s = true -> started s = true -> Forall (like x) xs ->
    train_all xs a s = o_rows D A I b (flat_map (fun y => rows D row_of (refcast D (n_dt D A J s) y)) xs) a s.
  Proof.
    intros Hi Ha xs. induction xs as [|y xs IH]; intros s Hs Ht Hp Htr Hst HF; [reflexivity|]. apply Forall_cons_iff in HF as [L HF]. cbn [train_all flat_map]. rewrite rows_app. unfold bind. rewrite (train_settled x y a s Hi Ha Hs Ht Hp Htr L). rewrite set_started by exact Hst.
    destruct (o_rows D A I b (rows D row_of (refcast D (n_dt D A J s) y)) a s) as [s1 [[]|e]] eqn:E; [|reflexivity].
    pose proof (rows_settled x _ _ _ _ E Hs) as [Hs1 Hd]. pose proof (rows_leaves _ _ Hi _ _ Hp E) as Hp1. apply rows_frame in E as (F1 & _ & F3 & F4 & _). rewrite <- Hd. apply IH; congruence.
  Qed.
  Lemma train_unfold x a s : training s = true -> o_train x a s =
    match o_check_input D A I b x s with
    | (s1, Err e) => (s1, Err e)
    | (s1, Ok _) => match ob_check_args D A I b (view_of D A J s1) x a with
        | Some e => (s1, Err e)
        | None => match run_hook (fun v => ob_check_params D A I b v x) s1 with (s2, Err e) => (s2, Err e) | (s2, Ok _) => work x a s2 end
        end
    end.
  Proof.
    intro H. unfold OnlineModel.o_train. rewrite trainable, H. cbn [negb]. unfold bind at 1. destruct (o_check_input D A I b x s) as [s1 [u|e]]; [|reflexivity]. unfold bind at 1. destruct (ob_check_args _ _ _ _ _ _ _); [reflexivity|]. reflexivity.
  Qed.
  Theorem C154_chunks x x1 xs a s : initialised -> (forall v z, ob_check_args D A I b v z a = None) ->
    (at_type (own s) = Some false \/ at_type (own s) = None /\ hd_error (ob_types D A I b) = Some false) ->
    a_ndim x = 2 -> 0 < a_rows x -> Forall (like x) (x1 :: xs) -> rows D row_of x = flat_map (rows D row_of) (x1 :: xs) ->
    train_all (x1 :: xs) a s = o_train x a s.
  Proof.
    intros Hi Ha Hty Hn Hr HF Hx. apply Forall_cons_iff in HF as [L HF]. destruct L as (L1 & L2 & L3 & L4). cbn [train_all]. unfold bind.
    destruct (training s) eqn:Htr; [|now rewrite !(finished_train _ a s Htr)]. rewrite !(train_unfold _ a s Htr).
    assert (Ec : o_check_input D A I b x1 s = o_check_input D A I b x s).
    { unfold o_check_input, check_input. rewrite L1, L2, L3, Hn. unfold bind. destruct (Nat.eqb_spec (a_rows x1) 0); [lia|]. destruct (Nat.eqb_spec (a_rows x) 0); [lia|]. reflexivity. }
    rewrite Ec. pose proof (ocheck_quiet x s) as Hq. destruct (o_check_input D A I b x s) as [s1 [[]|e]] eqn:E1; [|reflexivity]. cbn [fst] in Hq. apply check_settles in E1 as (Hs & _ & _ & Hat).
    assert (Hat1 : at_type (own s1) = Some false) by (destruct Hty as [Hty|[Hty Hty2]]; rewrite Hty in Hat; congruence). clear Hat Hty.
    rewrite !Ha.
    assert (Ep : run_hook (fun v => ob_check_params D A I b v x1) s1 = run_hook (fun v => ob_check_params D A I b v x) s1).
    { unfold OnlineModel.run_hook. now rewrite (proj1 (proj2 (proj2 Hi)) _ x1 x). }
    rewrite Ep. destruct (hook_quiet (fun v => ob_check_params D A I b v x) s1) as [Hq2 Ht2].
    pose proof (good_prog D A J base (lifted I (view_of D A J s1) (ob_check_params D A I b (view_of D A J s1) x)) s1) as G. change (run_prog D A J base _ s1) with (run_hook (fun v => ob_check_params D A I b v x) s1) in G.
    destruct (run_hook (fun v => ob_check_params D A I b v x) s1) as [s2 [u2|e2]] eqn:E2; [|reflexivity]. cbn [fst] in *. destruct u2. apply (hook_leaves P) in E2; [|apply (proj1 (proj2 Hi) (view_of D A J s1))].
    pose proof (quiet_trans _ _ _ Hq Hq2) as Hq3. apply quiet_out in Hq3 as (Q1 & _).
    assert (Hs2 : settled x s2). { destruct Hs as (H1 & (t & H2) & H3). destruct G as [(G1 & _ & G2) _]. unfold settled. rewrite (G1 _ H1), (G2 _ H2), Ht2. eauto. }
    unfold work. cbv zeta. cbn [n_int set_n_started]. rewrite Ht2, Hat1. set (s3 := set_n_started D A J s2 true). rewrite !refcast_row_list, Hx. cbn [flat_map]. rewrite map_app, rows_app. unfold bind.
    destruct (o_rows D A I b (map (refcast D (n_dt D A J s2)) (rows D row_of x1)) a s3) as [s4 [[]|e]] eqn:E; [|reflexivity].
    assert (Hs3 : settled x s3) by exact Hs2. pose proof (rows_settled x _ _ _ _ E Hs3) as [Hs4 Hd]. pose proof (rows_leaves _ _ Hi s3 _ E2 E) as Hp4. apply rows_frame in E as (F1 & _ & F3 & F4 & _).
    rewrite (train_all_settled x a Hi Ha xs s4); auto.
    - rewrite Hd. change (n_dt D A J s3) with (n_dt D A J s2). f_equal. rewrite (flat_map_concat_map (rows D row_of)), concat_map, map_map, <- flat_map_concat_map. apply flat_map_ext. intro y. apply refcast_row_list.
    - rewrite F4. unfold s3. cbn. congruence.
    - rewrite F1. unfold s3. cbn. congruence.
  Qed.
End Props.

(** ** Examples, and C155 *)
Section Examples.
  (* rows of one number; the attributes are a list of (phase, number) seen in training *)
  Definition erow (i : nat) (d : list nat) : list nat := firstn 1 (skipn i d).
  Definition esee (p : nat) (v : view (attrs (list (nat * nat)))) (x : array (list nat)) : prog (list (nat * nat)) unit :=
    PSet (at_own (v_int _ v) ++ map (pair p) (a_data x)) (PRet (Ok tt)).
  Definition edouble (x : array (list nat)) : array (list nat) := mkArray (a_ndim x) (a_rows x) (a_cols x) (a_dtype x) (map (fun n => 2 * n) (a_data x)).
  (* two phases, the second of which sees the doubled data *)
  Definition ex_node (types : list bool) (stop : nat -> list (nat * nat) -> res unit) : obehaviour (list nat) unit (list (nat * nat)) :=
    mkOB _ _ _ true false false (fun _ => true) types 2 (fun _ _ _ => None) (fun _ _ => PRet (Ok tt))
      (fun p v x _ => esee p v x) (fun p v _ => PSet ((9, p) :: at_own (v_int _ v)) (PRet (stop p (at_own (v_int _ v)))))
      (fun p => if p =? 0 then Some (fun v x _ => PRet (Ok (edouble x))) else None)
      (fun v x _ => PRet (Ok x)) (fun v x _ => PRet (Ok x)).
  Definition chunk (d : list nat) : array (list nat) := mkArray 2 (length d) 1 0 d.
  Definition fine : nat -> list (nat * nat) -> res unit := fun _ _ => Ok tt.
  Definition play (b : obehaviour (list nat) unit (list (nat * nat))) (cs : list (ocall (list nat) unit)) :=
    let (s, rs) := orun _ _ _ erow tt b cs (fst (o_init _ _ _ b [] None None None)) in (rs, iteration _ _ _ s, at_own (n_int _ _ _ s), n_trace _ _ _ s).
  Notation T x := (OTrain (list nat) unit (chunk x) tt).
  Notation X x := (OExec (list nat) unit (chunk x) tt).
  Notation S := (OStop (list nat) unit tt).
  Notation Ev p x := (EvTrain (list nat) unit p (chunk x) tt).
  Notation Es p := (EvStop (list nat) unit p true).
  (** training goes on after execute, and ends with stop_training *)
  Example C58_life : play (ex_node [false] fine) [S; T [1; 2]; X [7]; T [3]; S; T [4]; X [8]; S] =
    ([false; true; true; true; true; false; true; false], 3, [(9, 1); (9, 0); (0, 1); (1, 2); (0, 2); (1, 4); (0, 3); (1, 6)],
     [Ev 0 [1]; Ev 1 [2]; Ev 0 [2]; Ev 1 [4]; EvExec _ _ (chunk [7]) tt; Ev 0 [3]; Ev 1 [6]; Es 0; Es 1; EvExec _ _ (chunk [8]) tt]).
  Proof. reflexivity. Qed.
  (** an execute before any training trains *)
  Example C58_execute_trains : play (ex_node [false] fine) [X [5; 6]; X [7]] =
    ([true; true], 2, [(0, 5); (1, 10); (0, 6); (1, 12)], [Ev 0 [5]; Ev 1 [10]; Ev 0 [6]; Ev 1 [12]; EvExec _ _ (chunk [5; 6]) tt; EvExec _ _ (chunk [7]) tt]).
  Proof. reflexivity. Qed.
  Example C153_batch : play (ex_node [true] fine) [T [1; 2]; T [3]] = ([true; true], 3, [(0, 1); (0, 2); (1, 2); (1, 4); (0, 3); (1, 6)], [Ev 0 [1; 2]; Ev 1 [2; 4]; Ev 0 [3]; Ev 1 [6]]).
  Proof. reflexivity. Qed.
  Example C153_holds types stop : channels _ _ _ (ex_node types stop) (fun p x => if p =? 0 then edouble x else x).
  Proof. intros p x. cbn. destruct (p =? 0); [reflexivity|reflexivity]. Qed.
  Lemma leaves_true {I R} (p : prog I R) : forall i, leaves I (fun _ => True) p i.
  Proof. induction p as [[]| |]; cbn; auto. Qed.
  Example C154_same_state s : o_train _ _ _ erow (ex_node [false] fine) (chunk [1; 2; 3]) tt s = train_all _ _ _ erow (ex_node [false] fine) [chunk [1; 2]; chunk [3]] tt s
    \/ at_type (n_int _ _ _ s) = Some true.
  Proof.
    assert (Hi : initialised _ _ _ (ex_node [false] fine) (fun _ => True)) by (repeat split; intros; try apply leaves_true; reflexivity).
    assert (Hl : Forall (like _ (chunk [1; 2; 3])) [chunk [1; 2]; chunk [3]]) by (repeat constructor).
    destruct (at_type (n_int _ _ _ s)) as [[]|] eqn:E; [now right|left|left]; symmetry; apply (C154_chunks _ _ _ erow (ex_node [false] fine) eq_refl (le_S _ _ (le_n 1)) (fun _ => True)); auto; cbn; lia.
  Qed.
  (** in batch mode the chunks do matter *)
  Example C154_batch_differs : play (ex_node [true] fine) [T [1; 2]] <> play (ex_node [true] fine) [T [1]; T [2]].
  Proof. discriminate. Qed.
End Examples.

(** C155: a stop_training that failed can be repeated: refuted, the phases before the failing one are closed again *)
Theorem C155_stop_twice_refuted : exists (b : obehaviour (list nat) unit (list (nat * nat))) s0 s rs,
  o_init _ _ _ b [] None None None = (s0, Ok tt) /\
  orun _ _ _ erow tt b [OTrain _ _ (chunk [1]) tt; OStop _ _ tt; OStop _ _ tt] s0 = (s, rs) /\ rs = [true; false; true] /\ n_training _ _ _ s = false /\
  n_trace _ _ _ s = [EvTrain _ _ 0 (chunk [1]) tt; EvTrain _ _ 1 (chunk [2]) tt; EvStop _ _ 0 true; EvStop _ _ 1 false; EvStop _ _ 0 true; EvStop _ _ 1 true].
Proof.
  exists (ex_node [false] (fun p i => if (p =? 1) && (length i <=? 4) then Err TrainingExc else Ok tt)).
  eexists. eexists. eexists. split; [reflexivity|]. split; [reflexivity|]. repeat split.
Qed.
