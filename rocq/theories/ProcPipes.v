(** Invariants of the process scheduler: pipes, computations and results. *)
From Coq Require Import List Arith ZArith Lia Bool Permutation.
From Verif Require Import SchedModel SchedProofs ProcModel ProcProofs.
Import ListNotations.
Open Scope nat_scope.

Section P.
  Variables (D C R : Type) (fork : C -> C) (call : C -> D -> option R) (n : nat) (caching strict : bool).
  Notation state := (state D C R). Notation step := (step D C R fork call n caching strict). Notation reachable := (reachable D C R fork call n caching strict).
  Notation thread := (thread D C R). Notation used := (used C fork caching).
  Notation st_h := (st_h D C R). Notation st_p := (st_p D C R). Notation st_c := (st_c D C R). Notation st_t := (st_t D C R). Notation st_g := (st_g D C R).
  Notation t_proc := (t_proc D C R). Notation t_data := (t_data D C R). Notation t_call := (t_call D C R). Notation t_idx := (t_idx D C R). Notation t_pc := (t_pc D C R).
  Notation h_free := (h_free C R). Notation h_open := (h_open C R). Notation h_counter := (h_counter C R). Notation h_results := (h_results C R). Notation h_last := (h_last C R). Notation h_idx := (h_idx C R).
  Notation p_in := (p_in D C R). Notation p_out := (p_out D C R). Notation p_alive := (p_alive D C R). Notation p_cache := (p_cache D C R). Notation p_tag := (p_tag D C R).
  Notation g_subs := (g_subs D C). Notation g_execs := (g_execs D C). Notation g_failed := (g_failed D C). Notation g_base := (g_base D C).
  Notation TStart := (TStart R). Notation TTag := (TTag R). Notation TSend := (TSend R). Notation TWait := (TWait R). Notation TStore := (TStore R). Notation TFree := (TFree R). Notation TFail := (TFail R).
  Notation invA := (invA D C R n). Notation act := (act D C R). Notation acts := (acts D C R). Notation cpend := (cpend D C).

  (** the result [r] of task [i] was computed by a worker *)
  Definition computed (g : ghost D C) (r : R) (i : nat) : Prop := exists c d, In (i, c, d) (g_execs g) /\ call (used c) d = Some r.
  Definition eidx (g : ghost D C) : list nat := map (fun x => fst (fst x)) (g_execs g).
  Arguments eidx : simpl never.
  Definition presend (t : thread) : Prop := t_pc t = TStart \/ t_pc t = TTag \/ exists f, t_pc t = TSend f.
  (** the two pipes of the process of a waiting thread *)
  Inductive pipe (w : procs D C R) (g : ghost D C) (t : thread) : Prop :=
  | p_sent oc : p_in w (t_proc t) = [(t_data t, oc, t_idx t)] -> p_out w (t_proc t) = [] -> p_alive w (t_proc t) = true ->
      (oc = Some (t_call t) \/ oc = None) -> ~ In (t_idx t) (eidx g) -> pipe w g t
  | p_done r : p_in w (t_proc t) = [] -> p_out w (t_proc t) = [r] -> computed g r (t_idx t) -> pipe w g t
  | p_dead : p_in w (t_proc t) = [] -> p_out w (t_proc t) = [] -> p_alive w (t_proc t) = false -> pipe w g t.

  Record invB (s : state) : Prop := {
    b_idle : forall p, (forall t, In t (st_t s) -> t_proc t = p -> t_pc t <> TWait) -> p_in (st_p s) p = [] /\ p_out (st_p s) p = [];
    b_wait : forall t, In t (st_t s) -> t_pc t = TWait -> pipe (st_p s) (st_g s) t;
    b_once : NoDup (eidx (st_g s));
    b_execs : forall i c d, In (i, c, d) (g_execs (st_g s)) -> exists c0, In (i, d, c0) (g_subs (st_g s));
    b_pend : forall i, In i (cpend (st_c s)) -> ~ In i (eidx (st_g s));
    b_pre : forall t, In t (st_t s) -> presend t -> ~ In (t_idx t) (eidx (st_g s));
    b_store : forall t r, In t (st_t s) -> t_pc t = TStore r -> computed (st_g s) r (t_idx t);
    b_results : forall r i, In (r, i) (h_results (st_h s)) -> computed (st_g s) r i }.

  Lemma invB_start : invB (start D C R n).
  Proof. constructor; cbn; intros; try tauto; try contradiction; constructor. Qed.

  Definition tw_dec (p : nat) (ts : list thread) : {t | In t ts /\ t_proc t = p /\ t_pc t = TWait} + {forall t, In t ts -> t_proc t = p -> t_pc t <> TWait}.
  Proof.
    induction ts as [|t ts IH]; [right; intros t []|]. destruct IH as [(t0 & A & B & E)|IH]; [left; exists t0; repeat split; auto; right; auto|].
    destruct (Nat.eq_dec (t_proc t) p) as [Hp|Hp].
    - destruct (t_pc t) eqn:Ht; try (left; exists t; repeat split; auto; left; reflexivity); right; intros t0 [<-|H0] H1; auto; rewrite Ht; discriminate.
    - right. intros t0 [<-|H0] H1; auto.
  Qed.
  (** a process is held by one thread *)
  Lemma holder_unique s l1 t l2 t0 : invA s -> st_t s = l1 ++ t :: l2 -> In t0 (l1 ++ l2) -> t_proc t0 <> t_proc t.
  Proof.
    intros HA E H0 Hp. pose proof (a_procs _ _ _ _ _ HA (t_proc t)) as H. rewrite E, map_app, cnt_app in H. cbn [map] in H. rewrite cnt_cons, Nat.eqb_refl in H.
    assert (0 < cnt (t_proc t) (map t_proc l1) + cnt (t_proc t) (map t_proc l2)) as Hc.
    { rewrite <- cnt_app, <- map_app. apply cnt_in. rewrite <- Hp. apply in_map. exact H0. }
    destruct (t_proc t <? n); lia.
  Qed.
  Lemma idx_unique s l1 t l2 t0 : invA s -> st_t s = l1 ++ t :: l2 -> In t0 (l1 ++ l2) -> act t = [t_idx t] -> act t0 = [t_idx t0] -> t_idx t0 <> t_idx t.
  Proof.
    intros HA E H0 Ht Ht0 Hp. pose proof (a_tasks _ _ _ _ _ HA (t_idx t)) as H. rewrite E, acts_app, acts_cons, !cnt_app, Ht, cnt_cons, Nat.eqb_refl in H.
    assert (0 < cnt (t_idx t) (acts l1) + cnt (t_idx t) (acts l2)) as Hc.
    { rewrite <- cnt_app. change (flat_map act l1 ++ flat_map act l2) with (acts l1 ++ acts l2). rewrite <- acts_app. apply cnt_in. apply in_flat_map. exists t0. split; [exact H0|]. rewrite Ht0. left. exact Hp. }
    destruct (_ && _); lia.
  Qed.
  Lemma pend_unique s t i : invA s -> In t (st_t s) -> act t = [t_idx t] -> In i (cpend (st_c s)) -> i <> t_idx t.
  Proof.
    intros HA H0 Ht Hi ->. pose proof (a_tasks _ _ _ _ _ HA (t_idx t)) as H. apply cnt_in in Hi.
    assert (0 < cnt (t_idx t) (acts (st_t s))) by (apply cnt_in; apply in_flat_map; exists t; split; [exact H0|]; rewrite Ht; left; reflexivity).
    destruct (_ && _); lia.
  Qed.
  Lemma presend_act t : presend t -> act t = [t_idx t].
  Proof. intros [H|[H|[f H]]]; unfold ProcProofs.act; rewrite H; reflexivity. Qed.
  Lemma wait_act t : t_pc t = TWait -> act t = [t_idx t].
  Proof. intros H; unfold ProcProofs.act; rewrite H; reflexivity. Qed.
  Lemma in_mid' (l1 l2 : list thread) t t' : In t' (l1 ++ t :: l2) <-> In t' (l1 ++ l2) \/ t' = t.
  Proof. apply in_mid. Qed.

  Lemma pipe_frame w w' (g g' : ghost D C) t : pipe w g t -> p_in w' (t_proc t) = p_in w (t_proc t) -> p_out w' (t_proc t) = p_out w (t_proc t) ->
    p_alive w' (t_proc t) = p_alive w (t_proc t) -> g_execs g' = g_execs g -> pipe w' g' t.
  Proof.
    intros H E1 E2 E3 E4. destruct H as [oc H1 H2 H3 H4 H5|r H1 H2 H3|H1 H2 H3].
    - eapply p_sent; rewrite ?E1, ?E2, ?E3; eauto. unfold eidx in *. rewrite E4. exact H5.
    - eapply p_done; rewrite ?E1, ?E2; eauto. unfold computed in *. rewrite E4. exact H3.
    - eapply p_dead; rewrite ?E1, ?E2, ?E3; auto.
  Qed.

  (** the state changes of a step that touches neither pipes nor computations, and moves one thread from and to states other than waiting *)
  Lemma invB_move h h' w cl l1 t l2 (g g' : ghost D C) t' : invB (mkS D C R h w cl (l1 ++ t :: l2) g) -> t_pc t <> TWait -> t_pc t' <> TWait -> t_proc t' = t_proc t -> t_idx t' = t_idx t ->
    (presend t' -> presend t) -> (forall r, t_pc t' = TStore r -> t_pc t = TStore r) -> g_execs g' = g_execs g -> g_subs g' = g_subs g ->
    (forall r i, In (r, i) (h_results h') -> In (r, i) (h_results h) \/ exists r', t_pc t = TStore r' /\ r = r' /\ i = t_idx t) ->
    forall w', p_in w' = p_in w -> p_out w' = p_out w -> p_alive w' = p_alive w -> invB (mkS D C R h' w' cl (l1 ++ t' :: l2) g').
  Proof.
    intros [B1 B2 B3 B4 B5 B6 B7 B8] Ht Ht' Ep Ei Hpre Hst Eg Es Hr w' Ew1 Ew2 Ew3. cbn in *. constructor; cbn; unfold eidx, computed in *; rewrite ?Eg, ?Es; auto.
    - intros p Hp. rewrite Ew1, Ew2. apply B1. intros t0 H0 E0. apply in_mid in H0. destruct H0 as [H0| ->]; [apply Hp; auto; apply in_mid; auto|exact Ht].
    - intros t0 H0 Hw. apply in_mid in H0. destruct H0 as [H0| ->]; [|contradiction]. eapply pipe_frame; [apply B2; [apply in_mid; auto|exact Hw]|rewrite Ew1; auto|rewrite Ew2; auto|rewrite Ew3; auto|exact Eg].
    - intros t0 H0 Hw. apply in_mid in H0. destruct H0 as [H0| ->]; [apply B6; auto; apply in_mid; auto|]. rewrite Ei. apply B6; [apply in_mid; auto|auto].
    - intros t0 r H0 Hw. apply in_mid in H0. destruct H0 as [H0| ->]; [apply B7; auto; apply in_mid; auto|]. rewrite Ei. apply B7; [apply in_mid; auto|auto].
    - intros r i Hi. apply Hr in Hi. destruct Hi as [Hi|(r' & A & -> & ->)]; [apply B8; exact Hi|]. apply B7; [apply in_mid; auto|exact A].
  Qed.
  (** a step of the client that changes neither the pipes nor the threads *)
  Lemma invB_client h h' w cl cl' ts (g g' : ghost D C) : invB (mkS D C R h w cl ts g) -> g_execs g' = g_execs g -> (forall x, In x (g_subs g) -> In x (g_subs g')) ->
    (forall i, In i (cpend cl') -> In i (cpend cl) \/ ~ In i (eidx g)) -> (forall x, In x (h_results h') -> In x (h_results h)) -> invB (mkS D C R h' w cl' ts g').
  Proof.
    intros [B1 B2 B3 B4 B5 B6 B7 B8] Eg Es Hc Hr. cbn in *. constructor; cbn; unfold eidx, computed in *; rewrite ?Eg; auto.
    - intros t0 H0 Hw. eapply pipe_frame; [apply B2; auto|auto..].
    - intros i c d H. destruct (B4 i c d H) as [c0 H0]. eauto.
    - intros i Hi. destruct (Hc i Hi) as [H|H]; auto.
  Qed.
  Lemma exec_bound s i : invA s -> invB s -> In i (eidx (st_g s)) -> i <= h_counter (st_h s).
  Proof.
    intros HA HB H. apply in_map_iff in H. destruct H as [[[j c] d] [<- H]]. destruct (b_execs _ HB _ _ _ H) as [c0 H0].
    apply (in_map (fun x => fst (fst x))) in H0. rewrite (a_subs _ _ _ _ _ HA) in H0. apply in_seq in H0. cbn in *. lia.
  Qed.
  Lemma upd_eq {X} (f : nat -> X) p v : upd f p v p = v.
  Proof. unfold upd. rewrite Nat.eqb_refl. reflexivity. Qed.
  Lemma upd_ne {X} (f : nat -> X) p v q : q <> p -> upd f p v q = f q.
  Proof. unfold upd. intros H. apply Nat.eqb_neq in H. rewrite H. reflexivity. Qed.

  Lemma invB_step s s' : step s s' -> invA s -> invB s -> invB s'.
  Proof.
    intros Hs HA HB. pose proof (fun i => exec_bound s i HA HB) as Hbound. destruct Hs as [s s' Hs|s s' Hs]; destruct Hs; cbn in Hbound.
    - eapply invB_client; [exact HB|reflexivity|cbn; intros; apply in_or_app; auto| |auto]. cbn. intros i [<-|[]]. right. intros Hi. specialize (Hbound _ Hi). lia.
    - eapply invB_client; [exact HB|reflexivity|cbn; intros; apply in_or_app; auto| |auto]. cbn. intros i [<-|[]]. right. intros Hi. specialize (Hbound _ Hi). lia.
    - eapply invB_client; [exact HB|reflexivity|auto|auto|auto].
    - eapply invB_client; [exact HB|reflexivity|auto|auto|auto].
    - eapply invB_client; [exact HB|reflexivity|auto|auto|]. intros x [].
    - eapply invB_client; [exact HB|reflexivity|auto|auto|auto].
    - eapply invB_client; [exact HB|reflexivity|auto|auto|auto].
    - eapply invB_client; [exact HB|reflexivity|auto|auto|auto].
    - eapply invB_client; [exact HB|reflexivity|auto|auto|auto].
    - (* spawn *) destruct HB as [B1 B2 B3 B4 B5 B6 B7 B8]. cbn in *. constructor; cbn; auto.
      + intros q Hq. apply B1. intros t Ht. apply Hq. apply in_or_app. auto.
      + intros t Ht Hw. apply in_app_or in Ht. destruct Ht as [Ht|[<-|[]]]; [auto|discriminate].
      + intros t Ht Hw. apply in_app_or in Ht. destruct Ht as [Ht|[<-|[]]]; [auto|]. cbn. auto.
      + intros t r Ht Hw. apply in_app_or in Ht. destruct Ht as [Ht|[<-|[]]]; [auto|discriminate].
    - (* shutdown *) pose proof (a_count _ _ _ _ _ HA) as Hc. cbn in Hc. destruct ts; [|cbn in Hc; lia]. destruct HB as [B1 B2 B3 B4 B5 B6 B7 B8]. cbn in *. constructor; cbn; auto. intros t [].
    - eapply invB_client; [exact HB|reflexivity|auto|auto|auto].
    - eapply invB_move; [exact HB|cbn; congruence|cbn; congruence|reflexivity|reflexivity| |cbn; congruence|reflexivity|reflexivity|auto|reflexivity..]. intros _. left. auto.
    - eapply invB_move; [exact HB|cbn; congruence|cbn; congruence|reflexivity|reflexivity| |cbn; congruence|reflexivity|reflexivity|auto|reflexivity..]. intros _. left. auto.
    - eapply invB_move; [exact HB|cbn; congruence|cbn; congruence|reflexivity|reflexivity| |cbn; congruence|reflexivity|reflexivity|auto|reflexivity..]. intros _. left. auto.
    - eapply invB_move; [exact HB|cbn; congruence|cbn; congruence|reflexivity|reflexivity| |cbn; congruence|reflexivity|reflexivity|auto|reflexivity..]. intros _. right. left. auto.
    - (* send *) pose proof (fun t0 => holder_unique _ l1 t l2 t0 HA eq_refl) as Hu. destruct HB as [B1 B2 B3 B4 B5 B6 B7 B8]. cbn in *.
      assert (p_in w (t_proc t) = [] /\ p_out w (t_proc t) = []) as [Ei Eo].
      { apply B1. intros t0 H1 E1. apply in_mid in H1. destruct H1 as [H1| ->]; [|congruence]. exfalso. exact (Hu t0 H1 E1). }
      constructor; cbn; auto.
      + intros p Hp. assert (p <> t_proc t) as Hne. { intros ->. apply (Hp (at_pc D C R t TWait)); [apply in_mid; auto|reflexivity|reflexivity]. }
        rewrite upd_ne by exact Hne. apply B1. intros t0 H1 E1. apply in_mid in H1. destruct H1 as [H1| ->]; [apply Hp; auto; apply in_mid; auto|congruence].
      + intros t0 H1 Hw. apply in_mid in H1. destruct H1 as [H1| ->].
        * eapply pipe_frame; [apply B2; [apply in_mid; auto|exact Hw]|cbn; apply upd_ne; auto|reflexivity..].
        * eapply p_sent; cbn; [rewrite upd_eq, Ei; reflexivity|auto|auto|destruct full; auto|]. apply B6; [apply in_mid; auto|right; right; eauto].
      + intros t0 H1 Hw. apply in_mid in H1. destruct H1 as [H1| ->]; [apply B6; auto; apply in_mid; auto|]. destruct Hw as [Hw|[Hw|[? Hw]]]; discriminate.
      + intros t0 r H1 Hw. apply in_mid in H1. destruct H1 as [H1| ->]; [apply B7; auto; apply in_mid; auto|discriminate].
    - eapply invB_move; [exact HB|cbn; congruence|cbn; congruence|reflexivity|reflexivity| |cbn; congruence|reflexivity|reflexivity|auto|reflexivity..]. intros [Hw|[Hw|[? Hw]]]; discriminate.
    - (* exec *) destruct (tw_dec p ts) as [(t & T1 & T2 & T3)|Hno]; [|destruct (b_idle _ HB p Hno) as [E _]; cbn in E; congruence].
      destruct (in_split _ _ T1) as (l1 & l2 & ->).
      pose proof (fun t0 => holder_unique _ l1 t l2 t0 HA eq_refl) as Hu.
      pose proof (fun t0 => idx_unique _ l1 t l2 t0 HA eq_refl) as Hj.
      pose proof (fun i => pend_unique _ t i HA T1 (wait_act t T3)) as Hk.
      pose proof (a_threads _ _ _ _ _ HA t T1) as Hsub. destruct HB as [B1 B2 B3 B4 B5 B6 B7 B8]. cbn in *.
      destruct (B2 t T1 T3) as [oc' P1 P2 P3 P4 P5|r P1|P1]; rewrite T2 in *; try congruence. rewrite P1 in H. injection H as <- <- <- <-.
      assert (eidx (mkG D C (g_subs g) (g_execs g ++ [(t_idx t, c, t_data t)]) (g_failed g) (g_base g)) = eidx g ++ [t_idx t]) as Ee by (unfold eidx; cbn; rewrite map_app; reflexivity).
      assert (forall r j, computed g r j -> computed (mkG D C (g_subs g) (g_execs g ++ [(t_idx t, c, t_data t)]) (g_failed g) (g_base g)) r j) as Hc.
      { intros r j (c0 & d0 & A & B). exists c0, d0. split; [apply in_or_app; auto|exact B]. }
      constructor; cbn; rewrite ?Ee; auto.
      + intros q Hq. assert (q <> p) as Hne. { intros ->. apply (Hq t); auto. }
        destruct (B1 q Hq) as [E1 E2]. rewrite upd_ne by exact Hne. split; [exact E1|]. destruct (call (used c) (t_data t)); [rewrite upd_ne by exact Hne|]; exact E2.
      + intros t0 H2 Hw. apply in_mid in H2. destruct H2 as [H2| ->].
        * pose proof (Hu t0 H2) as Hne. assert (t_idx t0 <> t_idx t) as Hi by (apply Hj; auto using wait_act).
          destruct (B2 t0) as [oc2 Q1 Q2 Q3 Q4 Q5|r Q1 Q2 Q3|Q1 Q2 Q3]; [apply in_mid; auto|exact Hw| | |].
          -- apply (p_sent _ _ _ oc2); cbn; rewrite ?upd_ne by exact Hne; auto; try (destruct (call (used c) (t_data t)); rewrite ?upd_ne by exact Hne; assumption).
             rewrite Ee; intros Hin. apply in_app_or in Hin. destruct Hin as [Hin|[Hin|[]]]; auto.
          -- apply (p_done _ _ _ r); cbn; rewrite ?upd_ne by exact Hne; auto; try (destruct (call (used c) (t_data t)); rewrite ?upd_ne by exact Hne; assumption).
          -- apply p_dead; cbn; rewrite ?upd_ne by exact Hne; auto; try (destruct (call (used c) (t_data t)); rewrite ?upd_ne by exact Hne; assumption).
        * destruct (call (used c) (t_data t)) as [r|] eqn:Er.
          -- apply (p_done _ _ _ r); cbn; rewrite ?T2, ?upd_eq; auto. { rewrite P2. reflexivity. } exists c, (t_data t). split; [apply in_or_app; right; left; reflexivity|exact Er].
          -- apply p_dead; cbn; rewrite ?T2, ?upd_eq; auto.
      + apply (Permutation_NoDup (Permutation_cons_append _ _)). constructor; assumption.
      + intros j c0 d0 Hin. apply in_app_or in Hin. destruct Hin as [Hin|[Hin|[]]]; [eauto|]. injection Hin as <- <- <-. eauto.
      + intros j Hj0 Hin. apply in_app_or in Hin. destruct Hin as [Hin|[Hin|[]]]; [exact (B5 j Hj0 Hin)|]. apply (Hk j Hj0). auto.
      + intros t0 H2 Hw Hin. apply in_app_or in Hin. destruct Hin as [Hin|[Hin|[]]]; [exact (B6 t0 H2 Hw Hin)|].
        apply in_mid in H2. destruct H2 as [H2| ->]; [|destruct Hw as [Hw|[Hw|[? Hw]]]; congruence].
        apply (Hj t0 H2); auto using wait_act, presend_act.
    - (* no callable *) destruct (tw_dec p ts) as [(t & T1 & T2 & T3)|Hno]; [|destruct (b_idle _ HB p Hno) as [E _]; cbn in E; congruence].
      destruct (in_split _ _ T1) as (l1 & l2 & ->).
      pose proof (fun t0 => holder_unique _ l1 t l2 t0 HA eq_refl) as Hu. destruct HB as [B1 B2 B3 B4 B5 B6 B7 B8]. cbn in *.
      destruct (B2 t T1 T3) as [oc' P1 P2 P3 P4 P5|r P1|P1]; rewrite T2 in *; try congruence. rewrite P1 in H. injection H as <- -> <- <-.
      constructor; cbn; auto.
      + intros q Hq. assert (q <> p) as Hne. { intros ->. apply (Hq t); auto. } rewrite upd_ne by exact Hne. auto.
      + intros t0 H2 Hw. apply in_mid in H2. destruct H2 as [H2| ->].
        * pose proof (Hu t0 H2) as Hne. eapply pipe_frame; [apply B2; [apply in_mid; auto|exact Hw]|cbn; try (apply upd_ne; auto); reflexivity..].
        * apply p_dead; cbn; rewrite ?T2, ?upd_eq; auto.
    - (* recv *) pose proof (fun t0 => holder_unique _ l1 t l2 t0 HA eq_refl) as Hu. destruct HB as [B1 B2 B3 B4 B5 B6 B7 B8]. cbn in *.
      destruct (B2 t) as [oc' P1 P2 P3 P4 P5|r' P1 P2 P3|P1 P2 P3]; [apply in_mid; auto|exact H|congruence| |congruence]. rewrite P2 in H0. injection H0 as <- <-.
      constructor; cbn; auto.
      + intros q Hq. destruct (Nat.eq_dec q (t_proc t)) as [->|Hne]; [rewrite upd_eq; auto|]. rewrite upd_ne by exact Hne. apply B1.
        intros t0 H1 E1. apply in_mid in H1. destruct H1 as [H1| ->]; [apply Hq; auto; apply in_mid; auto|congruence].
      + intros t0 H1 Hw. apply in_mid in H1. destruct H1 as [H1| ->]; [|discriminate]. pose proof (Hu t0 H1) as Hne.
        eapply pipe_frame; [apply B2; [apply in_mid; auto|exact Hw]|cbn; try (apply upd_ne; auto); reflexivity..].
      + intros t0 H1 Hw. apply in_mid in H1. destruct H1 as [H1| ->]; [apply B6; auto; apply in_mid; auto|]. destruct Hw as [Hw|[Hw|[? Hw]]]; discriminate.
      + intros t0 r0 H1 Hw. apply in_mid in H1. destruct H1 as [H1| ->]; [apply B7; auto; apply in_mid; auto|]. cbn in Hw. injection Hw as <-. exact P3.
    - (* eof *) pose proof (fun t0 => holder_unique _ l1 t l2 t0 HA eq_refl) as Hu. destruct HB as [B1 B2 B3 B4 B5 B6 B7 B8]. cbn in *.
      destruct (B2 t) as [oc' P1 P2 P3 P4 P5|r' P1 P2 P3|P1 P2 P3]; [apply in_mid; auto|exact H|congruence|congruence|].
      constructor; cbn; auto.
      + intros q Hq. destruct (Nat.eq_dec q (t_proc t)) as [->|Hne]; [auto|]. apply B1.
        intros t0 H2 E1. apply in_mid in H2. destruct H2 as [H2| ->]; [apply Hq; auto; apply in_mid; auto|congruence].
      + intros t0 H2 Hw. apply in_mid in H2. destruct H2 as [H2| ->]; [|discriminate]. eapply pipe_frame; [apply B2; [apply in_mid; auto|exact Hw]|reflexivity..].
      + intros t0 H2 Hw. apply in_mid in H2. destruct H2 as [H2| ->]; [apply B6; auto; apply in_mid; auto|]. destruct Hw as [Hw|[Hw|[? Hw]]]; discriminate.
      + intros t0 r0 H2 Hw. apply in_mid in H2. destruct H2 as [H2| ->]; [apply B7; auto; apply in_mid; auto|discriminate].
    - eapply invB_move; [exact HB|cbn; congruence|cbn; congruence|reflexivity|reflexivity| |cbn; congruence|reflexivity|reflexivity| |reflexivity..].
      + intros [Hw|[Hw|[? Hw]]]; discriminate.
      + cbn. unfold add_result. intros r0 i Hi. apply in_app_or in Hi. destruct Hi as [Hi|[Hi|[]]]; [auto|]. injection Hi as <- <-. eauto.
    - (* free *) destruct HB as [B1 B2 B3 B4 B5 B6 B7 B8]. cbn in *. constructor; cbn; auto.
      + intros q Hq. apply B1. intros t0 H2 E1. apply in_mid in H2. destruct H2 as [H2| ->]; [apply Hq; auto|destruct H; congruence].
      + intros t0 H2 Hw. apply B2; [apply in_mid; auto|exact Hw].
      + intros t0 H2 Hw. apply B6; [apply in_mid; auto|exact Hw].
      + intros t0 r H2 Hw. apply B7; [apply in_mid; auto|exact Hw].
  Qed.
  Lemma invB_reach s : reachable s -> invB s.
  Proof. induction 1; [apply invB_start|]. eapply invB_step; eauto. eapply invA_reach; eauto. Qed.
End P.
