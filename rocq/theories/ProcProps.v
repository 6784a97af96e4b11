(** Properties C31, C32 and C103-C106 (process scheduler). *)
From Coq Require Import List Arith ZArith Lia Bool Permutation Sorting.Sorted.
From Verif Require Import SchedModel SchedProofs ProcModel ProcProofs ProcPipes.
Import ListNotations.
Open Scope nat_scope.

Lemma sort_keys (R : Type) (l : list (R * nat)) a m : Permutation (map snd l) (seq a m) -> map snd (sort R l) = seq a m.
Proof.
  intros H. set (f := fun x : nat => (tt, x)). assert (map f (map snd (sort R l)) = map f (seq a m)) as E.
  { apply (sorted_unique unit).
    - apply Permutation_map. rewrite <- H. apply Permutation_map. symmetry. apply sort_perm.
    - rewrite map_map. cbn. rewrite map_id. apply (Permutation_NoDup (l := seq a m)); [|apply seq_NoDup]. rewrite <- H. apply Permutation_map. apply sort_perm.
    - pose proof (sort_sorted R l) as Hs. induction Hs as [|x s Hs IH Hf]; cbn; constructor; [exact IH|]. rewrite Forall_forall in *. intros y Hy. apply in_map_iff in Hy. destruct Hy as (z & <- & Hz). apply in_map_iff in Hz. destruct Hz as (q & <- & Hq). apply (Hf q Hq).
    - clear. revert a. induction m; intros a; cbn; constructor; [apply IHm|]. rewrite Forall_forall. intros y Hy. apply in_map_iff in Hy. destruct Hy as (z & <- & Hz). apply in_seq in Hz. unfold le_key. cbn. lia. }
  apply (f_equal (map snd)) in E. rewrite !map_map in E. cbn in E. rewrite map_id in E. exact E.
Qed.
Lemma cnt_none l : (forall x, cnt x l = 0) -> l = [].
Proof. destruct l as [|a l]; [auto|]. intros H. specialize (H a). rewrite cnt_cons, Nat.eqb_refl in H. discriminate. Qed.
Lemma skipn_seq a m k : skipn k (seq a m) = seq (a + k) (m - k).
Proof. revert a m. induction k as [|k IH]; intros a [|m]; cbn; rewrite ?Nat.add_0_r, ?Nat.sub_0_r; auto. rewrite IH. f_equal; lia. Qed.

Section P.
  Arguments Z.mul : simpl never. Arguments Z.add : simpl never. Arguments Z.of_nat : simpl never.
  Variables (D C R : Type) (fork : C -> C) (call : C -> D -> option R) (n : nat) (caching strict : bool).
  Notation state := (state D C R). Notation step := (step D C R fork call n caching strict). Notation reachable := (reachable D C R fork call n caching strict).
  Notation thread := (thread D C R). Notation used := (used C fork caching).
  Notation st_h := (st_h D C R). Notation st_p := (st_p D C R). Notation st_c := (st_c D C R). Notation st_t := (st_t D C R). Notation st_g := (st_g D C R).
  Notation t_proc := (t_proc D C R). Notation t_data := (t_data D C R). Notation t_call := (t_call D C R). Notation t_idx := (t_idx D C R). Notation t_pc := (t_pc D C R).
  Notation h_free := (h_free C R). Notation h_open := (h_open C R). Notation h_counter := (h_counter C R). Notation h_results := (h_results C R). Notation h_last := (h_last C R). Notation h_idx := (h_idx C R).
  Notation p_in := (p_in D C R). Notation p_out := (p_out D C R). Notation p_alive := (p_alive D C R). Notation p_cache := (p_cache D C R). Notation p_tag := (p_tag D C R).
  Notation g_subs := (g_subs D C). Notation g_execs := (g_execs D C). Notation g_failed := (g_failed D C). Notation g_base := (g_base D C).
  Notation TStart := (TStart R). Notation TTag := (TTag R). Notation TSend := (TSend R). Notation TWait := (TWait R). Notation TStore := (TStore R). Notation TFree := (TFree R). Notation TFail := (TFail R).
  Notation invA := (invA D C R n). Notation act := (act D C R). Notation acts := (acts D C R). Notation cpend := (cpend D C). Notation cproc := (cproc D C).
  Notation invB := (invB D C R fork call caching). Notation eidx := (eidx D C).

  (** C31, part 1.  In every reachable state: no process is used by two tasks at once or is free and in use, no task was computed twice,
      whatever was computed for a task was computed from the data submitted with it, and every submitted task is either waiting, in work, failed
      or finished, exactly one of these. *)
  Theorem C31_exclusive s : reachable s ->
    NoDup (h_free (st_h s) ++ map t_proc (st_t s) ++ cproc (st_c s)) /\
    NoDup (map (fun e => fst (fst e)) (g_execs (st_g s))) /\
    (forall i c d, In (i, c, d) (g_execs (st_g s)) -> exists c0, In (i, d, c0) (g_subs (st_g s))) /\
    map (fun x => fst (fst x)) (g_subs (st_g s)) = seq 1 (h_counter (st_h s)) /\
    Permutation (map snd (h_results (st_h s)) ++ cpend (st_c s) ++ acts (st_t s) ++ g_failed (st_g s)) (seq (S (g_base (st_g s))) (h_counter (st_h s) - g_base (st_g s))).
  Proof.
    intros Hr. pose proof (invA_reach _ _ _ _ _ _ _ _ _ Hr) as HA. pose proof (invB_reach _ _ _ _ _ _ _ _ _ Hr) as HB.
    split; [|split; [apply HB|split; [apply HB|split; [apply HA|]]]].
    - rewrite (NoDup_count_occ Nat.eq_dec). intros p. change (count_occ Nat.eq_dec ?l p) with (cnt p l). rewrite !cnt_app. pose proof (a_procs _ _ _ _ _ HA p) as H. destruct (p <? n); lia.
    - apply cnt_perm. intros x. rewrite !cnt_app, cnt_seq. pose proof (a_tasks _ _ _ _ _ HA x) as H. pose proof (a_base _ _ _ _ _ HA).
      destruct (Nat.ltb_spec (g_base (st_g s)) x), (Nat.leb_spec x (h_counter (st_h s))), (Nat.leb_spec (S (g_base (st_g s))) x), (Nat.ltb_spec x (S (g_base (st_g s)) + (h_counter (st_h s) - g_base (st_g s)))); cbn [andb] in *; lia.
  Qed.

  (** the answer of get_results in state s *)
  Definition answer (s : state) : list R := map fst (sort R (h_results (st_h s))).
  Lemma results_keys s : invA s -> h_open (st_h s) = 0 -> map snd (sort R (h_results (st_h s))) = seq (S (g_base (st_g s))) (h_counter (st_h s) - g_base (st_g s)).
  Proof.
    intros HA Ho. apply sort_keys. apply cnt_perm. intros x. rewrite cnt_seq. pose proof (a_tasks _ _ _ _ _ HA x) as H. pose proof (a_base _ _ _ _ _ HA). pose proof (a_open _ _ _ _ _ HA) as Hop. rewrite Ho in Hop.
    destruct (cpend (st_c s)); [|cbn in Hop; lia]. destruct (acts (st_t s)); [|cbn in Hop; lia]. destruct (g_failed (st_g s)); [|cbn in Hop; lia]. rewrite !cnt_nil in H.
    destruct (Nat.ltb_spec (g_base (st_g s)) x), (Nat.leb_spec x (h_counter (st_h s))), (Nat.leb_spec (S (g_base (st_g s))) x), (Nat.ltb_spec x (S (g_base (st_g s)) + (h_counter (st_h s) - g_base (st_g s)))); cbn [andb] in *; lia.
  Qed.
  Lemma Forall2_keys {X Y} (P : X -> Y -> Prop) (kx : X -> nat) (ky : Y -> nat) : forall l m, map kx l = map ky m -> (forall x y, In x l -> In y m -> kx x = ky y -> P x y) -> Forall2 P l m.
  Proof.
    induction l as [|x l IH]; intros [|y m] E H; try discriminate; [constructor|]. cbn in E. injection E as E1 E2. constructor; [apply H; cbn; auto|]. apply IH; [exact E2|]. intros; apply H; cbn; auto.
  Qed.
  Lemma subs_tail s : invA s -> map (fun x => fst (fst x)) (skipn (g_base (st_g s)) (g_subs (st_g s))) = seq (S (g_base (st_g s))) (h_counter (st_h s) - g_base (st_g s)).
  Proof. intros HA. rewrite <- skipn_map, (a_subs _ _ _ _ _ HA), skipn_seq. reflexivity. Qed.
  Lemma subs_unique s i d d' c c' : invA s -> In (i, d, c) (g_subs (st_g s)) -> In (i, d', c') (g_subs (st_g s)) -> d = d' /\ c = c'.
  Proof.
    intros HA H1 H2. assert (NoDup (map (fun x => fst (fst x)) (g_subs (st_g s)))) as Hn by (rewrite (a_subs _ _ _ _ _ HA); apply seq_NoDup).
    revert H1 H2 Hn. generalize (g_subs (st_g s)) as l. induction l as [|[[j e] f] l IH]; [intros []|]. cbn. intros H1 H2 Hn. inversion Hn as [|? ? A B]; subst.
    destruct H1 as [H1|H1], H2 as [H2|H2]; [split; congruence| | |apply IH; auto].
    - injection H1 as -> -> ->. exfalso. apply A. apply (in_map (fun x => fst (fst x))) in H2. exact H2.
    - injection H2 as -> -> ->. exfalso. apply A. apply (in_map (fun x => fst (fst x))) in H1. exact H1.
  Qed.

  (** C31, part 2.  When no task is open, get_results returns exactly one result for each task submitted since the last get_results, in the order of
      submission; each one was computed (once) by a worker from the data of that task. *)
  Theorem C31_results s : reachable s -> h_open (st_h s) = 0 ->
    Forall2 (fun r x => exists c, In (fst (fst x), c, snd (fst x)) (g_execs (st_g s)) /\ call (used c) (snd (fst x)) = Some r) (answer s) (skipn (g_base (st_g s)) (g_subs (st_g s))).
  Proof.
    intros Hr Ho. pose proof (invA_reach _ _ _ _ _ _ _ _ _ Hr) as HA. pose proof (invB_reach _ _ _ _ _ _ _ _ _ Hr) as HB.
    unfold answer. pose proof (results_keys s HA Ho) as Hk. rewrite <- (subs_tail s HA) in Hk.
    assert (Forall2 (fun ri x => exists c, In (fst (fst x), c, snd (fst x)) (g_execs (st_g s)) /\ call (used c) (snd (fst x)) = Some (fst ri)) (sort R (h_results (st_h s))) (skipn (g_base (st_g s)) (g_subs (st_g s)))) as HF.
    { apply (Forall2_keys _ snd (fun x => fst (fst x))); [exact Hk|]. intros [r i] [[j d] c0] Hx Hy. cbn. intros ->.
      apply (Permutation_in _ (Permutation_sym (sort_perm R _))) in Hx. destruct (b_results _ _ _ _ _ _ _ HB r j Hx) as (c & d' & A & B).
      destruct (b_execs _ _ _ _ _ _ _ HB _ _ _ A) as [c1 Hs]. assert (In (j, d, c0) (g_subs (st_g s))) as Hy'. { rewrite <- (firstn_skipn (g_base (st_g s))). apply in_or_app. right. exact Hy. }
      destruct (subs_unique s j d' d c1 c0 HA Hs Hy') as [-> _]. exists c. auto. }
    clear -HF. induction HF; cbn; constructor; auto.
  Qed.

  (** C32.  Without callable caching, or if the client changes the callable only while no task is open, every computation uses the callable of its task. *)
  Record invE (s : state) (est : Z) : Prop := {
    e_est : h_last (st_h s) <> None -> (est <= h_idx (st_h s))%Z;
    e_tag : forall p, (p_tag (st_p s) p <= 2 * Z.of_nat (h_counter (st_h s)))%Z;
    e_idx : (h_idx (st_h s) <= 2 * Z.of_nat (h_counter (st_h s)) + 1)%Z;
    e_open : 0 < h_open (st_h s) -> (h_idx (st_h s) <= 2 * Z.of_nat (h_counter (st_h s)))%Z;
    e_call : forall t, In t (st_t s) -> act t <> [] -> h_last (st_h s) = Some (t_call t);
    e_pend : match st_c s with Pend _ _ d c i | Sleep _ _ d c i | Spawn _ _ _ d c i => h_last (st_h s) = Some c | _ => True end;
    e_proc : forall p, (est <= p_tag (st_p s) p)%Z -> p_alive (st_p s) p = false \/ (exists t, In t (st_t s) /\ t_proc t = p /\ t_pc t = TSend true) \/
               (exists d c i rest, p_in (st_p s) p = (d, Some c, i) :: rest) \/ (p_cache (st_p s) p = h_last (st_h s) /\ h_last (st_h s) <> None);
    e_none : forall t, In t (st_t s) -> t_pc t = TSend false -> (est <= p_tag (st_p s) (t_proc t))%Z;
    e_wait : forall t d i rest, In t (st_t s) -> t_pc t = TWait -> p_in (st_p s) (t_proc t) = (d, None, i) :: rest -> (est <= p_tag (st_p s) (t_proc t))%Z;
    e_right : forall i c d, In (i, c, d) (g_execs (st_g s)) -> In (i, d, c) (g_subs (st_g s)) }.

  Lemma act_open s t : invA s -> In t (st_t s) -> act t <> [] -> 0 < h_open (st_h s).
  Proof.
    intros HA Ht Ha. pose proof (a_open _ _ _ _ _ HA) as H. assert (acts (st_t s) <> []) as Hn.
    { destruct (act t) as [|x l] eqn:E; [contradiction|]. intros E0. assert (In x (acts (st_t s))) as Hi by (apply in_flat_map; exists t; split; [exact Ht|rewrite E; left; reflexivity]). rewrite E0 in Hi. destruct Hi. }
    destruct (acts (st_t s)); [contradiction|]. cbn in H. lia.
  Qed.
  Lemma no_act s t : invA s -> h_open (st_h s) = 0 -> In t (st_t s) -> act t = [].
  Proof. intros HA H0 Ht. destruct (act t) eqn:E; [reflexivity|]. assert (0 < h_open (st_h s)) by (eapply act_open; eauto; rewrite E; discriminate). lia. Qed.
  Lemma act_start t pc : t_pc t = pc -> match pc with ProcModel.TFree _ | ProcModel.TFail _ => False | _ => True end -> act t <> [].
  Proof. intros H Hp. unfold ProcProofs.act. rewrite H. destruct pc; try discriminate; destruct Hp. Qed.

  (** the client changes the callable while no task is open *)
  Lemma invE_new h w cl ts (g : ghost D C) h' cl' g' est : invA (mkS D C R h w cl ts g) -> invE (mkS D C R h w cl ts g) est -> h_open h = 0 ->
    (2 * Z.of_nat (h_counter h) < h_idx h')%Z -> h_counter h <= h_counter h' -> (h_idx h' <= 2 * Z.of_nat (h_counter h') + 1)%Z -> (0 < h_open h' -> (h_idx h' <= 2 * Z.of_nat (h_counter h'))%Z) ->
    match cl' with Pend _ _ d c i | Sleep _ _ d c i | Spawn _ _ _ d c i => h_last h' = Some c | _ => True end ->
    g_execs g' = g_execs g -> (forall x, In x (g_subs g) -> In x (g_subs g')) -> invE (mkS D C R h' w cl' ts g') (h_idx h').
  Proof.
    intros HA [E1 E2 E3 E4 E5 E6 E7 E8 E9 E10] Ho Hi Hk Hx Hop Hc Eg Es. cbn in *.
    assert (forall t pc, In t ts -> t_pc t = pc -> match pc with ProcModel.TFree _ | ProcModel.TFail _ => False | _ => True end -> False) as Hno.
    { intros t pc Ht Hp Hm. apply (act_start t pc Hp Hm). exact (no_act _ t HA Ho Ht). }
    constructor; cbn; auto.
    - intros _. lia.
    - intros p. specialize (E2 p). lia.
    - intros t Ht Ha. exfalso. apply Ha. exact (no_act _ t HA Ho Ht).
    - intros p Hp. specialize (E2 p). lia.
    - intros t Ht Hp. exfalso. exact (Hno t _ Ht Hp I).
    - intros t d i rest Ht Hp. exfalso. exact (Hno t _ Ht Hp I).
    - intros i c d H. rewrite Eg in H. auto.
  Qed.
  (** other steps of the client *)
  Lemma invE_keep h w cl ts (g : ghost D C) h' cl' g' est : invE (mkS D C R h w cl ts g) est -> h_last h' = h_last h -> (h_last h <> None -> (est <= h_idx h')%Z) -> h_counter h <= h_counter h' ->
    (h_idx h' <= 2 * Z.of_nat (h_counter h') + 1)%Z -> (0 < h_open h' -> (h_idx h' <= 2 * Z.of_nat (h_counter h'))%Z) ->
    match cl' with Pend _ _ d c i | Sleep _ _ d c i | Spawn _ _ _ d c i => h_last h' = Some c | _ => True end ->
    g_execs g' = g_execs g -> (forall x, In x (g_subs g) -> In x (g_subs g')) -> invE (mkS D C R h' w cl' ts g') est.
  Proof.
    intros [E1 E2 E3 E4 E5 E6 E7 E8 E9 E10] El Hi Hk Hx Hop Hc Eg Es. cbn in *. constructor; cbn; rewrite ?El; auto.
    - intros p. specialize (E2 p). lia.
    - destruct cl'; auto; rewrite El in Hc; exact Hc.
    - intros i c d H. rewrite Eg in H. auto.
  Qed.
  (** a thread moves on; only the tag of its process may change *)
  Lemma invE_move h w cl l1 t l2 (g g' : ghost D C) t' w' h' est : invE (mkS D C R h w cl (l1 ++ t :: l2) g) est -> t_call t' = t_call t -> t_proc t' = t_proc t -> (act t' <> [] -> act t <> []) ->
    h_last h' = h_last h -> h_idx h' = h_idx h -> h_counter h' = h_counter h -> h_open h' <= h_open h ->
    g_execs g' = g_execs g -> g_subs g' = g_subs g -> p_in w' = p_in w -> p_cache w' = p_cache w -> p_alive w' = p_alive w ->
    (t_pc t' <> TWait) -> (t_pc t = TSend true -> p_alive w (t_proc t) = false) ->
    (forall p, p <> t_proc t -> p_tag w' p = p_tag w p) -> ((p_tag w (t_proc t) = p_tag w' (t_proc t) \/ est <= p_tag w' (t_proc t)) /\ p_tag w' (t_proc t) <= 2 * Z.of_nat (h_counter h))%Z ->
    (p_tag w' (t_proc t) <> p_tag w (t_proc t) -> t_pc t' = TSend true) -> (t_pc t' = TSend false -> (est <= p_tag w (t_proc t))%Z) ->
    (t_pc t' = TSend true -> t_pc t' = TSend true) -> invE (mkS D C R h' w' cl (l1 ++ t' :: l2) g') est.
  Proof.
    intros [E1 E2 E3 E4 E5 E6 E7 E8 E9 E10] Hc Hp Ha El Ei Ek Eo Eg Es W1 W2 W3 Hw Hdead Htag Htag1 Htag2 Hfalse _. cbn in *.
    constructor; cbn; rewrite ?El, ?Ei, ?Ek, ?Eg, ?Es, ?W1, ?W2, ?W3; auto.
    - intros p. destruct (Nat.eq_dec p (t_proc t)) as [->|Hne]; [lia|rewrite Htag by exact Hne; auto].
    - intros H. apply E4. lia.
    - intros t0 H0 Hact. apply in_mid in H0. destruct H0 as [H0| ->]; [apply E5; auto; apply in_mid; auto|]. rewrite Hc. apply E5; [apply in_mid; auto|auto].
    - intros p Hest. destruct (Nat.eq_dec p (t_proc t)) as [->|Hne].
      + destruct (Z.eq_dec (p_tag w' (t_proc t)) (p_tag w (t_proc t))) as [Heq|Hneq].
        * rewrite Heq in Hest. destruct (E7 _ Hest) as [H|[(t0 & H0 & H1 & H2)|H]]; auto.
          apply in_mid in H0. destruct H0 as [H0| ->]; [right; left; exists t0; repeat split; auto; apply in_mid; auto|]. left. auto.
        * right. left. exists t'. split; [apply in_mid; auto|]. auto.
      + rewrite Htag in Hest by exact Hne. destruct (E7 _ Hest) as [H|[(t0 & H0 & H1 & H2)|H]]; auto.
        apply in_mid in H0. destruct H0 as [H0| ->]; [right; left; exists t0; repeat split; auto; apply in_mid; auto|congruence].
    - intros t0 H0 Hpc. apply in_mid in H0. destruct H0 as [H0| ->].
      + assert (est <= p_tag w (t_proc t0))%Z as He by (apply E8; [apply in_mid; auto|exact Hpc]). destruct (Nat.eq_dec (t_proc t0) (t_proc t)) as [Heq|Hne]; [rewrite Heq in *; destruct Htag1 as [[Hq|Hq] _]; [rewrite <- Hq|]; assumption|rewrite Htag by exact Hne; exact He].
      + rewrite Hp. specialize (Hfalse Hpc). destruct Htag1 as [[Hq|Hq] _]; [rewrite <- Hq|]; assumption.
    - intros t0 d i rest H0 Hpc Hin. apply in_mid in H0. destruct H0 as [H0| ->]; [|contradiction].
      assert (est <= p_tag w (t_proc t0))%Z as He by (eapply E9; [apply in_mid; eauto|exact Hpc|exact Hin]). destruct (Nat.eq_dec (t_proc t0) (t_proc t)) as [Heq|Hne]; [rewrite Heq in *; destruct Htag1 as [[Hq|Hq] _]; [rewrite <- Hq|]; assumption|rewrite Htag by exact Hne; exact He].
  Qed.
  Lemma act_at_pc t pc : act (at_pc D C R t pc) <> [] -> t_pc t <> TFree -> t_pc t <> TFail -> act t <> [].
  Proof. unfold ProcProofs.act. intros _ A B. destruct (t_pc t); try discriminate; contradiction. Qed.

  Lemma invE_step s s' est : caching = true -> strict = true -> step s s' -> invA s -> invB s -> invE s est -> exists est', invE s' est'.
  Proof.
    intros Hca Hst Hs HA HB HE. pose proof (e_idx _ _ HE) as Hidx. pose proof (e_open _ _ HE) as Hopen. pose proof (e_est _ _ HE) as Hest0. pose proof (e_tag _ _ HE) as Htag. pose proof (e_pend _ _ HE) as Hpend.
    destruct Hs as [s s' Hs|s s' Hs]; destruct Hs; cbn in Hidx, Hopen, Hest0, Htag, Hpend; try (assert (est <= h_idx h)%Z as Hest by (apply Hest0; pose proof (e_call _ _ HE t) as Hc0; cbn in Hc0; rewrite Hc0; [discriminate|apply in_mid; auto|eapply act_start; [eassumption|exact I]])).
    - destruct (Nat.eq_dec op 0) as [->|Hop].
      + eexists. eapply (invE_new _ _ _ _ _ _ _ _ est HA HE); cbn [ProcModel.h_open ProcModel.h_idx ProcModel.h_counter ProcModel.h_last]; try reflexivity; try lia; try (intros Hl0; specialize (Hest0 Hl0); lia). cbn. intros. apply in_or_app. auto.
      + exists est. destruct (H0 Hst) as [->| ->]; [contradiction|]. assert (idx <= 2 * Z.of_nat k)%Z by (apply Hopen; lia).
        eapply (invE_keep _ _ _ _ _ _ _ _ est HE); cbn [ProcModel.h_open ProcModel.h_idx ProcModel.h_counter ProcModel.h_last]; try reflexivity; try lia; try (intros Hl0; specialize (Hest0 Hl0); lia). cbn. intros. apply in_or_app. auto.
    - exists est. eapply (invE_keep _ _ _ _ _ _ _ _ est HE); cbn [ProcModel.h_open ProcModel.h_idx ProcModel.h_counter ProcModel.h_last]; try reflexivity; try lia; try (intros Hl0; specialize (Hest0 Hl0); lia). cbn. intros. apply in_or_app. auto.
    - exists est. eapply (invE_keep _ _ _ _ _ _ _ _ est HE); cbn; auto; try lia; try (intros Hl0; specialize (Hest0 Hl0); lia).
    - rewrite (H Hst) in *. eexists. eapply (invE_new _ _ _ _ _ _ _ _ est HA HE); cbn [ProcModel.h_open ProcModel.h_idx ProcModel.h_counter ProcModel.h_last]; auto; lia.
    - exists est. eapply (invE_keep _ _ _ _ _ _ _ _ est HE); cbn; auto; try lia; try (intros Hl0; specialize (Hest0 Hl0); lia).
    - exists est. eapply (invE_keep _ _ _ _ _ _ _ _ est HE); cbn; auto; try lia; try (intros Hl0; specialize (Hest0 Hl0); lia).
    - exists est. eapply (invE_keep _ _ _ _ _ _ _ _ est HE); cbn; auto; try lia; try (intros Hl0; specialize (Hest0 Hl0); lia).
    - exists est. eapply (invE_keep _ _ _ _ _ _ _ _ est HE); cbn; auto; try lia; try (intros Hl0; specialize (Hest0 Hl0); lia).
    - exists est. eapply (invE_keep _ _ _ _ _ _ _ _ est HE); cbn; auto; try lia; try (intros Hl0; specialize (Hest0 Hl0); lia).
    - (* spawn *) exists est. destruct HE as [E1 E2 E3 E4 E5 E6 E7 E8 E9 E10]. cbn in *. constructor; cbn; auto.
      + intros t Ht Ha. apply in_app_or in Ht. destruct Ht as [Ht|[<-|[]]]; auto.
      + intros q Hq. destruct (E7 q Hq) as [H|[(t0 & H0 & H1 & H2)|H]]; auto. right. left. exists t0. repeat split; auto. apply in_or_app. auto.
      + intros t Ht Ha. apply in_app_or in Ht. destruct Ht as [Ht|[<-|[]]]; auto; discriminate.
      + intros t d' i' rest Ht Ha. apply in_app_or in Ht. destruct Ht as [Ht|[<-|[]]]; [eauto|discriminate].
    - (* shutdown *) exists est. destruct HE as [E1 E2 E3 E4 E5 E6 E7 E8 E9 E10]. cbn in *. constructor; cbn; auto.
    - exists est. eapply (invE_keep _ _ _ _ _ _ _ _ est HE); cbn; auto; try lia; try (intros Hl0; specialize (Hest0 Hl0); lia).
    - congruence.
    - exists est. eapply (invE_move _ _ _ _ _ _ _ _ _ _ _ est HE); cbn; auto; try congruence; try lia; try (intros Ha; apply (act_at_pc t TTag); [exact Ha|congruence..]). 
    - exists est. eapply (invE_move _ _ _ _ _ _ _ _ _ _ _ est HE); cbn; auto; try congruence; try lia; try (intros Ha; apply (act_at_pc t (TSend false)); [exact Ha|congruence..]); try (split; [lia|apply Htag]).
    - (* tag *) exists est. assert (h_idx h <= 2 * Z.of_nat (h_counter h))%Z as Hle by (apply Hopen; apply (act_open _ t HA); [cbn; apply in_mid; auto|apply (act_start t _ H I)]).
      eapply (invE_move _ _ _ _ _ _ _ _ _ _ _ est HE); cbn; auto; try congruence; try lia; try (intros Ha; apply (act_at_pc t (TSend true)); [exact Ha|congruence..]).
      + intros p Hp. apply upd_ne. exact Hp.
      + rewrite upd_eq. lia.
    - (* send *) exists est. pose proof (fun t0 => holder_unique _ _ _ _ _ l1 t l2 t0 HA eq_refl) as Hu. destruct HE as [E1 E2 E3 E4 E5 E6 E7 E8 E9 E10]. cbn in *. constructor; cbn; auto.
      + intros t0 H1 Ha. apply in_mid in H1. destruct H1 as [H1| ->]; [apply E5; auto; apply in_mid; auto|]. apply (E5 t); [apply in_mid; auto|apply (act_start t _ H I)].
      + intros p Hp. destruct (E7 p Hp) as [H1|[(t0 & H1 & H2 & H3)|[(d & c & i & rest & H1)|H1]]]; auto.
        * apply in_mid in H1. destruct H1 as [H1| ->]; [right; left; exists t0; repeat split; auto; apply in_mid; auto|]. rewrite H in H3. injection H3 as ->. subst p.
          assert (p_in w (t_proc t) = []) as Ein. { apply (b_idle _ _ _ _ _ _ _ HB). cbn. intros t0 H1 E0. apply in_mid in H1. destruct H1 as [H1| ->]; [|congruence]. exfalso. exact (Hu _ H1 E0). }
          right. right. left. rewrite upd_eq, Ein. cbn. eauto.
        * right. right. left. destruct (Nat.eq_dec p (t_proc t)) as [->|Hne]; [rewrite upd_eq, H1; cbn; eauto|rewrite upd_ne by exact Hne; eauto].
      + intros t0 H1 Hpc. apply in_mid in H1. destruct H1 as [H1| ->]; [|discriminate]. apply E8; [apply in_mid; auto|exact Hpc].
      + intros t0 d i rest H1 Hpc Hin. apply in_mid in H1. destruct H1 as [H1| ->].
        * rewrite upd_ne in Hin by (exact (Hu _ H1)). eapply E9; [apply in_mid; auto|exact Hpc|exact Hin].
        * cbn in *. assert (p_in w (t_proc t) = []) as Ein. { apply (b_idle _ _ _ _ _ _ _ HB). cbn. intros t0 H1 E0. apply in_mid in H1. destruct H1 as [H1| ->]; [|congruence]. exfalso. exact (Hu _ H1 E0). }
          rewrite upd_eq, Ein in Hin. cbn in Hin. destruct full; [discriminate|]. apply (E8 t); [apply in_mid; auto|exact H].
    - exists est. eapply (invE_move _ _ _ _ _ _ _ _ _ _ _ est HE); cbn; auto; try congruence; try lia; try (intros Ha; destruct (Ha eq_refl)). 
    - (* exec *) exists est. destruct (tw_dec _ _ _ p ts) as [(t & T1 & T2 & T3)|Hno]; [|destruct (b_idle _ _ _ _ _ _ _ HB p Hno) as [E _]; cbn in E; congruence].
      destruct (in_split _ _ T1) as (l1 & l2 & ->). pose proof (fun t0 => holder_unique _ _ _ _ _ l1 t l2 t0 HA eq_refl) as Hu.
      pose proof (a_threads _ _ _ _ _ HA t T1) as Hsub.
      destruct (b_wait _ _ _ _ _ _ _ HB t T1 T3) as [oc' P1 P2 P3 P4 P5|r P1|P1]; cbn in *; rewrite T2 in *; try congruence. rewrite P1 in H. injection H as <- <- <- <-.
      destruct HE as [E1 E2 E3 E4 E5 E6 E7 E8 E9 E10]. cbn in *.
      pose proof (E5 t T1 (act_start t _ T3 I)) as Hlast.
      assert (c = t_call t) as ->.
      { destruct P4 as [-> | ->]; [congruence|]. assert (est <= p_tag w p)%Z as He. { rewrite <- T2. eapply (E9 t); [exact T1|exact T3|rewrite T2; exact P1]. }
        destruct (E7 p He) as [H|[(t0 & A1 & A2 & A3)|[(? & ? & ? & ? & H)|[H _]]]]; try congruence. apply in_mid in A1. destruct A1 as [A1| ->]; [exfalso; exact (Hu _ A1 A2)|congruence]. }
      rewrite Hca. constructor; cbn; auto.
      + intros q Hq. destruct (Nat.eq_dec q p) as [->|Hne].
        * destruct (call _ (t_data t)); [|left; apply upd_eq]. right. right. right. rewrite upd_eq, Hlast. split; [reflexivity|discriminate].
        * rewrite !upd_ne by exact Hne. destruct (E7 q Hq) as [H|H]; [left; destruct (call _ (t_data t)); rewrite ?upd_ne by exact Hne; exact H|]. right. exact H.
      + intros t0 d i rest H2 Hpc Hin. destruct (Nat.eq_dec (t_proc t0) p) as [E|Hne]; [rewrite E, upd_eq in Hin; discriminate|]. rewrite upd_ne in Hin by exact Hne. eauto.
      + intros i c d Hin. apply in_app_or in Hin. destruct Hin as [Hin|[Hin|[]]]; [auto|]. injection Hin as <- <- <-. exact Hsub.
    - (* no callable *) exists est. destruct HE as [E1 E2 E3 E4 E5 E6 E7 E8 E9 E10]. cbn in *. constructor; cbn; auto.
      + intros q Hq. destruct (Nat.eq_dec q p) as [->|Hne]; [left; apply upd_eq|]. rewrite !upd_ne by exact Hne. auto.
      + intros t0 d' i' rest' H2 Hpc Hin. destruct (Nat.eq_dec (t_proc t0) p) as [E|Hne].
        * rewrite E. rewrite <- E. eapply E9; [exact H2|exact Hpc|rewrite E; exact H].
        * rewrite upd_ne in Hin by exact Hne. eauto.
    - exists est. eapply (invE_move _ _ _ _ _ _ _ _ _ _ _ est HE); cbn; auto; try congruence; try lia; try (intros Ha; apply (act_at_pc t (TStore r)); [exact Ha|congruence..]). 
    - exists est. eapply (invE_move _ _ _ _ _ _ _ _ _ _ _ est HE); cbn; auto; try congruence; try lia; try (intros Ha; destruct (Ha eq_refl)). 
    - exists est. eapply (invE_move _ _ _ _ _ _ _ _ _ _ _ est HE); cbn; auto; try congruence; try lia; try (intros Ha; destruct (Ha eq_refl)). 
    - (* free *) exists est. destruct HE as [E1 E2 E3 E4 E5 E6 E7 E8 E9 E10]. cbn in *. constructor; cbn; auto.
      + intros t0 H1 Ha. apply E5; [apply in_mid; auto|exact Ha].
      + intros p Hp. destruct (E7 p Hp) as [H1|[(t0 & H1 & H2 & H3)|H1]]; auto. apply in_mid in H1. destruct H1 as [H1| ->]; [right; left; eauto|]. destruct H; congruence.
      + intros t0 H1 Hpc. apply E8; [apply in_mid; auto|exact Hpc].
      + intros t0 d i rest H1 Hpc Hin. eapply E9; [apply in_mid; auto|exact Hpc|exact Hin].
  Qed.


  Lemma invE_start : invE (start D C R n) (-1)%Z.
  Proof. constructor; cbn; intros; try contradiction; try discriminate; try lia; auto. Qed.

  (** without caching every message carries its callable *)
  Record invN (s : state) : Prop := {
    n_pc : forall t, In t (st_t s) -> t_pc t <> TTag /\ t_pc t <> TSend false;
    n_msg : forall t d i rest, In t (st_t s) -> t_pc t = TWait -> p_in (st_p s) (t_proc t) <> (d, None, i) :: rest;
    n_right : forall i c d, In (i, c, d) (g_execs (st_g s)) -> In (i, d, c) (g_subs (st_g s)) }.
  Lemma invN_move h w cl l1 t l2 (g g' : ghost D C) t' w' h' : invN (mkS D C R h w cl (l1 ++ t :: l2) g) -> t_proc t' = t_proc t -> p_in w' = p_in w ->
    g_execs g' = g_execs g -> g_subs g' = g_subs g -> t_pc t' <> TTag -> t_pc t' <> TSend false -> t_pc t' <> TWait -> invN (mkS D C R h' w' cl (l1 ++ t' :: l2) g').
  Proof.
    intros [N1 N2 N3] Hp W Eg Es H1 H2 H3. cbn in *. constructor; cbn; rewrite ?W, ?Eg, ?Es; auto.
    - intros t0 H0. apply in_mid in H0. destruct H0 as [H0| ->]; [apply N1; apply in_mid; auto|auto].
    - intros t0 d i rest H0 Hw. apply in_mid in H0. destruct H0 as [H0| ->]; [apply N2; auto; apply in_mid; auto|contradiction].
  Qed.
  Lemma invN_step s s' : caching = false -> step s s' -> invA s -> invB s -> invN s -> invN s'.
  Proof.
    intros Hca Hs HA HB HN. destruct Hs as [s s' Hs|s s' Hs].
    - destruct HN as [N1 N2 N3]. destruct Hs; cbn in *; constructor; cbn; auto.
      + intros i c0 d0 H1. apply in_or_app. left. auto.
      + intros i c0 d0 H1. apply in_or_app. left. auto.
      + intros t Ht. apply in_app_or in Ht. destruct Ht as [Ht|[<-|[]]]; [auto|split; discriminate].
      + intros t d0 i0 rest Ht Hw. apply in_app_or in Ht. destruct Ht as [Ht|[<-|[]]]; [auto|discriminate].
    - destruct Hs; try congruence.
      + eapply (invN_move _ _ _ _ _ _ _ _ _ _ _ HN); cbn; auto; discriminate.
      + exfalso. destruct (n_pc _ HN t) as [A _]; [cbn; apply in_mid; auto|contradiction].
      + pose proof (fun t0 => holder_unique _ _ _ _ _ l1 t l2 t0 HA eq_refl) as Hu. assert (full = true) as -> by (destruct full; [auto|]; destruct (n_pc _ HN t) as [_ A]; [cbn; apply in_mid; auto|contradiction]).
        assert (p_in w (t_proc t) = []) as Ein. { apply (b_idle _ _ _ _ _ _ _ HB). cbn. intros t0 H1 E0. apply in_mid in H1. destruct H1 as [H1| ->]; [|congruence]. exfalso. exact (Hu _ H1 E0). }
        destruct HN as [N1 N2 N3]. cbn in *. constructor; cbn; auto.
        * intros t0 H1. apply in_mid in H1. destruct H1 as [H1| ->]; [apply N1; apply in_mid; auto|split; discriminate].
        * intros t0 d i rest H1 Hw. apply in_mid in H1. destruct H1 as [H1| ->]; [rewrite upd_ne by (exact (Hu _ H1)); apply N2; auto; apply in_mid; auto|]. cbn. rewrite upd_eq, Ein. discriminate.
      + eapply (invN_move _ _ _ _ _ _ _ _ _ _ _ HN); cbn; auto; discriminate.
      + destruct (tw_dec _ _ _ p ts) as [(t & T1 & T2 & T3)|Hno]; [|destruct (b_idle _ _ _ _ _ _ _ HB p Hno) as [E _]; cbn in E; congruence].
        pose proof (a_threads _ _ _ _ _ HA t T1) as Hsub. cbn in Hsub.
        destruct (b_wait _ _ _ _ _ _ _ HB t T1 T3) as [oc' P1 P2 P3 P4 P5|r P1|P1]; cbn in *; rewrite T2 in *; try congruence. rewrite P1 in H. injection H as <- <- <- <-.
        destruct HN as [N1 N2 N3]. cbn in *. destruct P4 as [-> | ->]; [|exfalso; eapply (N2 t); [exact T1|exact T3|rewrite T2; exact P1]]. injection H1 as <-. constructor; cbn; auto.
        * intros t0 d i rest H2 Hw. destruct (Nat.eq_dec (t_proc t0) p) as [->|Hne]; [rewrite upd_eq; discriminate|]. rewrite upd_ne by exact Hne. auto.
        * intros i c d Hin. apply in_app_or in Hin. destruct Hin as [Hin|[Hin|[]]]; [auto|]. injection Hin as <- <- <-. exact Hsub.
      + destruct (tw_dec _ _ _ p ts) as [(t & T1 & T2 & T3)|Hno]; [|destruct (b_idle _ _ _ _ _ _ _ HB p Hno) as [E _]; cbn in E; congruence].
        exfalso. apply (n_msg _ HN t d i rest T1 T3). cbn. rewrite T2. exact H.
      + eapply (invN_move _ _ _ _ _ _ _ _ _ _ _ HN); cbn; auto; discriminate.
      + eapply (invN_move _ _ _ _ _ _ _ _ _ _ _ HN); cbn; auto; discriminate.
      + eapply (invN_move _ _ _ _ _ _ _ _ _ _ _ HN); cbn; auto; discriminate.
      + destruct HN as [N1 N2 N3]. cbn in *. constructor; cbn; auto.
        * intros t0 H1. apply N1. apply in_mid. auto.
        * intros t0 d i rest H1. apply N2. apply in_mid. auto.
  Qed.
  Lemma reach_inv s : reachable s -> caching = false \/ strict = true -> (caching = false /\ invN s) \/ (caching = true /\ strict = true /\ exists est, invE s est).
  Proof.
    intros Hr Hor. destruct (bool_dec caching false) as [Hc|Hc].
    - left. split; [exact Hc|]. induction Hr as [|s s' Hr IH Hs].
      + constructor; cbn; intros; contradiction.
      + eapply invN_step; eauto; [eapply invA_reach; eauto|eapply invB_reach; eauto].
    - apply not_false_is_true in Hc. destruct Hor as [Hor|Hor]; [congruence|]. right. split; [exact Hc|]. split; [exact Hor|]. induction Hr as [|s s' Hr IH Hs]; [exists (-1)%Z; apply invE_start|].
      destruct IH as [est IH]. eapply invE_step; eauto; [eapply invA_reach; eauto|eapply invB_reach; eauto].
  Qed.

  Theorem C32_right_callable s : caching = false \/ strict = true -> reachable s ->
    (forall i c d, In (i, c, d) (g_execs (st_g s)) -> In (i, d, c) (g_subs (st_g s))) /\
    (h_open (st_h s) = 0 -> map Some (answer s) = map (fun x => call (used (snd x)) (snd (fst x))) (skipn (g_base (st_g s)) (g_subs (st_g s)))).
  Proof.
    intros Hor Hr. assert (forall i c d, In (i, c, d) (g_execs (st_g s)) -> In (i, d, c) (g_subs (st_g s))) as Hright by (destruct (reach_inv s Hr Hor) as [[_ H]|(_ & _ & est & H)]; [exact (n_right _ H)|exact (e_right _ _ H)]).
    split; [exact Hright|]. intros Ho. pose proof (C31_results s Hr Ho) as HF. pose proof (invA_reach _ _ _ _ _ _ _ _ _ Hr) as HA.
    assert (forall x, In x (skipn (g_base (st_g s)) (g_subs (st_g s))) -> In x (g_subs (st_g s))) as Hin. { intros x Hx. rewrite <- (firstn_skipn (g_base (st_g s))). apply in_or_app. right. exact Hx. }
    revert HF Hin. generalize (skipn (g_base (st_g s)) (g_subs (st_g s))) as l. generalize (answer s) as a. intros a l HF Hin. induction HF as [|r [[i d] c0] a l (c & A & B) HF IH]; [reflexivity|]. cbn in *. f_equal.
    - apply Hright in A. destruct (subs_unique s i d d c c0 HA A (Hin _ (or_introl eq_refl))) as [_ ->]. symmetry. exact B.
    - apply IH. auto.
  Qed.

  (** C31, part 3: the task threads and workers always finish.  Each of their steps decreases a measure, and there is one as long as a thread exists and
      the client does not hold the lock. *)
  Definition rank (t : thread) : nat := match t_pc t with ProcModel.TStart _ => 8 | ProcModel.TTag _ => 7 | ProcModel.TSend _ _ => 6 | ProcModel.TWait _ => 3 | ProcModel.TStore _ _ => 2 | _ => 1 end.
  Definition measure (s : state) : nat := list_sum (map rank (st_t s)) + list_sum (map (fun p => length (p_in (st_p s) p)) (seq 0 n)).
  Lemma sum_upd (f g : nat -> nat) p l : NoDup l -> In p l -> (forall q, q <> p -> f q = g q) -> list_sum (map f l) + g p = list_sum (map g l) + f p.
  Proof.
    intros Hn Hp Hq. induction Hn as [|a l Ha Hn IH]; [destruct Hp|]. cbn [map]. change (list_sum (?x :: ?l)) with (x + list_sum l). destruct Hp as [->|Hp].
    - assert (map f l = map g l) as ->; [|lia]. apply map_ext_in. intros q Hin. apply Hq. intros ->. contradiction.
    - specialize (IH Hp). rewrite (Hq a) by (intros ->; contradiction). lia.
  Qed.
  Lemma holder_lt s t : invA s -> In t (st_t s) -> t_proc t < n.
  Proof.
    intros HA Ht. pose proof (a_procs _ _ _ _ _ HA (t_proc t)) as H. assert (0 < cnt (t_proc t) (map t_proc (st_t s))) by (apply cnt_in; apply in_map; exact Ht). destruct (Nat.ltb_spec (t_proc t) n); [auto|lia].
  Qed.
  Lemma ranks_mid l1 t l2 : list_sum (map rank (l1 ++ t :: l2)) = list_sum (map rank (l1 ++ l2)) + rank t.
  Proof. rewrite !map_app, !list_sum_app. cbn [map]. change (list_sum (rank t :: map rank l2)) with (rank t + list_sum (map rank l2)). lia. Qed.
  Lemma rank_at t pc : rank (at_pc D C R t pc) = match pc with ProcModel.TStart _ => 8 | ProcModel.TTag _ => 7 | ProcModel.TSend _ _ => 6 | ProcModel.TWait _ => 3 | ProcModel.TStore _ _ => 2 | _ => 1 end.
  Proof. reflexivity. Qed.
  Lemma rank_eq t pc : t_pc t = pc -> rank t = match pc with ProcModel.TStart _ => 8 | ProcModel.TTag _ => 7 | ProcModel.TSend _ _ => 6 | ProcModel.TWait _ => 3 | ProcModel.TStore _ _ => 2 | _ => 1 end.
  Proof. intros <-. reflexivity. Qed.
  Lemma ins_upd (f : nat -> list (msg D C)) p v : p < n -> list_sum (map (fun q => length (upd f p v q)) (seq 0 n)) + length (f p) = list_sum (map (fun q => length (f q)) (seq 0 n)) + length v.
  Proof.
    intros Hp. pose proof (sum_upd (fun q => length (upd f p v q)) (fun q => length (f q)) p (seq 0 n) (seq_NoDup _ _)) as E. cbn beta in E. rewrite upd_eq in E. apply E; [apply in_seq; lia|].
    intros q Hq. rewrite upd_ne by exact Hq. reflexivity.
  Qed.
  Lemma wstep_decreases s s' : reachable s -> wstep D C R fork call caching s s' -> measure s' < measure s.
  Proof.
    intros Hr Hs. pose proof (invA_reach _ _ _ _ _ _ _ _ _ Hr) as HA. pose proof (invB_reach _ _ _ _ _ _ _ _ _ Hr) as HB.
    destruct Hs; unfold measure; cbn [ProcModel.st_t ProcModel.st_p set_tag set_in set_out ProcModel.p_in]; rewrite ?ranks_mid, ?rank_at; try (rewrite (rank_eq t _ H); lia).
    - rewrite (rank_eq t _ H). pose proof (ins_upd (p_in w) (t_proc t) (p_in w (t_proc t) ++ [(t_data t, if full then Some (t_call t) else None, t_idx t)])) as E. rewrite app_length in E. cbn [length] in E.
      assert (t_proc t < n) as Hn by (apply (holder_lt _ t HA); cbn; apply in_mid; auto). specialize (E Hn). lia.
    - destruct (tw_dec _ _ _ p ts) as [(t & T1 & T2 & T3)|Hno]; [|destruct (b_idle _ _ _ _ _ _ _ HB p Hno) as [E _]; cbn in E; congruence].
      pose proof (ins_upd (p_in w) p rest) as E. rewrite H in E. cbn [length] in E. rewrite <- T2 in E at 1. specialize (E (holder_lt _ t HA T1)). lia.
    - destruct (tw_dec _ _ _ p ts) as [(t & T1 & T2 & T3)|Hno]; [|destruct (b_idle _ _ _ _ _ _ _ HB p Hno) as [E _]; cbn in E; congruence].
      pose proof (ins_upd (p_in w) p rest) as E. rewrite H in E. cbn [length] in E. rewrite <- T2 in E at 1. specialize (E (holder_lt _ t HA T1)). lia.
    - assert (rank t = 1) as -> by (destruct H as [H|H]; exact (rank_eq t _ H)). lia.
  Qed.
  Lemma wstep_enabled s : reachable s -> st_t s <> [] -> h_lock C R (st_h s) = false -> exists s', wstep D C R fork call caching s s'.
  Proof.
    intros Hr Ht Hl. pose proof (invB_reach _ _ _ _ _ _ _ _ _ Hr) as HB. destruct s as [h w cl ts g]. cbn in *. destruct ts as [|t l2]; [contradiction|].
    destruct (t_pc t) eqn:Hpc.
    - destruct caching eqn:Hc; [|eexists; rewrite <- Hc; apply (t_nocache _ _ _ _ _ _ h w cl [] t l2 g Hpc); auto].
      destruct (Z_lt_le_dec (p_tag w (t_proc t)) (h_idx h)) as [Hlt|Hle]; eexists; [apply (t_old _ _ _ _ _ _ h w cl [] t l2 g Hpc); auto|apply (t_current _ _ _ _ _ _ h w cl [] t l2 g Hpc); auto].
    - eexists. apply (t_tag _ _ _ _ _ _ h w cl [] t l2 g Hpc).
    - destruct (p_alive w (t_proc t)) eqn:Ha; eexists; [apply (t_send _ _ _ _ _ _ h w cl [] t l2 g _ Hpc Ha)|apply (t_send_dead _ _ _ _ _ _ h w cl [] t l2 g _ Hpc Ha)].
    - destruct (b_wait _ _ _ _ _ _ _ HB t (or_introl eq_refl) Hpc) as [oc P1 P2 P3 P4 P5|r P1 P2 P3|P1 P2 P3]; cbn in *.
      + destruct (match oc with Some c => Some c | None => p_cache w (t_proc t) end) as [c|] eqn:Ec; eexists.
        * eapply (w_exec _ _ _ _ _ _ h w cl (t :: l2) g (t_proc t)); [exact P1|exact P3|exact Ec].
        * destruct oc as [c|]; [discriminate|]. eapply (w_nocallable _ _ _ _ _ _ h w cl (t :: l2) g (t_proc t)); [exact P1|exact P3|exact Ec].
      + eexists. apply (t_recv _ _ _ _ _ _ h w cl [] t l2 g r [] Hpc P2).
      + eexists. apply (t_eof _ _ _ _ _ _ h w cl [] t l2 g Hpc P2 P3).
    - destruct h as [lk op k last idx rs fr]. cbn in Hl. subst lk. eexists. apply (t_store _ _ _ _ _ _ op k last idx rs fr w cl [] t l2 g r Hpc).
    - destruct h as [lk op k last idx rs fr]. eexists. apply (t_free _ _ _ _ _ _ lk op k last idx rs fr w cl [] t l2 g (or_introl Hpc)).
    - destruct h as [lk op k last idx rs fr]. eexists. apply (t_free _ _ _ _ _ _ lk op k last idx rs fr w cl [] t l2 g (or_intror Hpc)).
  Qed.
  Inductive wsteps : state -> state -> Prop := w_none s : wsteps s s | w_more s s' s'' : wstep D C R fork call caching s s' -> wsteps s' s'' -> wsteps s s''.
  Lemma wstep_frame s s' : wstep D C R fork call caching s s' -> st_c s' = st_c s /\ h_lock C R (st_h s') = h_lock C R (st_h s).
  Proof. destruct 1; cbn; auto. Qed.
  Theorem C31_terminates s : reachable s ->
    (exists bound, forall l, (forall k, S k < length l -> wstep D C R fork call caching (nth k l s) (nth (S k) l s)) -> nth 0 l s = s -> length l <= bound) /\
    (h_lock C R (st_h s) = false -> exists s', wsteps s s' /\ st_t s' = [] /\ st_c s' = st_c s /\ h_lock C R (st_h s') = false).
  Proof.
    split.
    - exists (S (measure s)). intros l Hl H0. assert (forall k, k < length l -> reachable (nth k l s) /\ measure (nth k l s) + k <= measure s) as Hk.
      { induction k as [|k IH]; intros Hk; [rewrite H0; split; [assumption|lia]|]. destruct IH as [IH1 IH2]; [lia|]. specialize (Hl k Hk). split; [eapply r_step; [exact IH1|right; exact Hl]|]. pose proof (wstep_decreases _ _ IH1 Hl). lia. }
      destruct l as [|a l]; [cbn; lia|]. specialize (Hk (length l)). cbn [length] in *. destruct Hk as [_ Hk]; lia.
    - revert H. remember (measure s) as m. revert s Heqm. induction m as [m IH] using lt_wf_ind. intros s -> Hr Hlock.
      destruct (st_t s) as [|t l] eqn:Et; [exists s; repeat split; auto; constructor|].
      destruct (wstep_enabled s Hr) as [s1 H1]; [rewrite Et; discriminate|exact Hlock|]. destruct (wstep_frame _ _ H1) as [F1 F2].
      destruct (IH (measure s1)) with (s := s1) as (s' & A & B & E & F); [apply wstep_decreases; auto|reflexivity|eapply r_step; [exact Hr|right; exact H1]|congruence|].
      exists s'. split; [econstructor; eauto|]. repeat split; auto; congruence.
  Qed.

  (** If no task raises, then (with the callables right) no task fails, and once the threads have finished get_results returns *)
  Record invF (s : state) : Prop := { f_alive : st_c s <> Ended D C -> forall p, p_alive (st_p s) p = true; f_ended : st_c s = Ended D C -> st_t s = []; f_failed : g_failed (st_g s) = [] }.
  Lemma has_callable s p d i rest t : (caching = false /\ invN s) \/ (caching = true /\ strict = true /\ exists est, invE s est) -> invA s -> invB s -> In t (st_t s) -> t_proc t = p -> t_pc t = TWait ->
    p_in (st_p s) p = (d, None, i) :: rest -> p_alive (st_p s) p = true -> p_cache (st_p s) p <> None.
  Proof.
    intros [[_ HN]|(_ & _ & est & HE)] HA HB Ht Hp Hpc Hin Hal.
    - exfalso. eapply (n_msg _ HN); [exact Ht|exact Hpc|]. rewrite Hp. exact Hin.
    - assert (est <= p_tag (st_p s) p)%Z as He. { rewrite <- Hp. eapply (e_wait _ _ HE t); [exact Ht|exact Hpc|rewrite Hp; exact Hin]. }
      destruct (e_proc _ _ HE p He) as [H|[(t0 & A1 & A2 & A3)|[(? & ? & ? & ? & H)|[H H']]]]; try congruence.
      exfalso. destruct (in_split _ _ Ht) as (l1 & l2 & E). rewrite E in A1. apply in_mid in A1. destruct A1 as [A1| ->]; [|congruence]. apply (holder_unique _ _ _ _ _ l1 t l2 t0 HA E A1). congruence.
  Qed.
  Theorem C31_all_answered s : (forall c d, call c d <> None) -> caching = false \/ strict = true -> reachable s ->
    g_failed (st_g s) = [] /\ (h_lock C R (st_h s) = false -> st_c s = Idle D C -> exists s', wsteps s s' /\ st_c s' = Idle D C /\ h_lock C R (st_h s') = false /\ h_open (st_h s') = 0).
  Proof.
    intros Hcall Hor Hr. assert (forall s, reachable s -> invF s) as HF.
    { clear s Hr. intros s Hr. induction Hr as [|s s' Hr IH Hs]; [constructor; cbn; auto; discriminate|].
      pose proof (invA_reach _ _ _ _ _ _ _ _ _ Hr) as HA. pose proof (invB_reach _ _ _ _ _ _ _ _ _ Hr) as HB. pose proof (reach_inv s Hr Hor) as Hinv.
      destruct Hs as [s s' Hs|s s' Hs].
      - destruct IH as [F1 F2 F3]. destruct Hs; cbn in *; constructor; cbn; auto; try discriminate; try (intros _; apply F1; discriminate); try contradiction.
        pose proof (a_count _ _ _ _ _ HA) as Hc. cbn in Hc. intros _. destruct ts; [auto|cbn in Hc; lia].
      - assert (st_c s <> Ended D C) as Hne. { intros He. pose proof (f_ended _ IH He) as E. destruct Hs; cbn in *; try (destruct l1; discriminate); subst; destruct (b_idle _ _ _ _ _ _ _ HB p) as [E1 _]; cbn in *; try congruence; intros ? []. }
        pose proof (f_alive _ IH Hne) as Hal. pose proof (f_failed _ IH) as Hfail. destruct Hs; cbn in *; constructor; cbn; auto; try contradiction; try congruence.
        + intros _. destruct (call (used c) d) eqn:Ec; [auto|]. destruct (Hcall _ _ Ec).
        + destruct (tw_dec _ _ _ p ts) as [(t & T1 & T2 & T3)|Hno]; [|destruct (b_idle _ _ _ _ _ _ _ HB p Hno) as [E _]; cbn in E; congruence].
          exfalso. eapply (has_callable _ p d i rest t Hinv HA HB); eauto. }
    split; [apply HF; exact Hr|]. intros Hl Hc. destruct (proj2 (C31_terminates s Hr) Hl) as (s' & A & B & E & F). exists s'. split; [exact A|]. split; [congruence|]. split; [exact F|].
    assert (reachable s') as Hr'. { clear -A Hr. induction A as [|s s1 s2 H A IH]; [exact Hr|]. apply IH. eapply r_step; [exact Hr|right; exact H]. }
    rewrite (a_open _ _ _ _ _ (invA_reach _ _ _ _ _ _ _ _ _ Hr')), (f_failed _ (HF _ Hr')), B, E, Hc. reflexivity.
  Qed.

  (** C103.  Once a task has failed, some task stays open forever, so get_results never returns again. *)
  Theorem C103_failed_blocks s : reachable s -> g_failed (st_g s) <> [] -> forall s', (exists l, hd s l = s /\ last l s = s' /\ forall k, S k < length l -> step (nth k l s) (nth (S k) l s)) ->
    0 < h_open (st_h s') /\ forall rs, ~ (exists k la idx fr w ts g, s' = mkS D C R (mkH C R false 0 k la idx rs fr) w (Idle D C) ts g).
  Proof.
    intros Hr Hf s' (l & H1 & H2 & H3). assert (forall k, k < length l -> reachable (nth k l s) /\ g_failed (st_g (nth k l s)) <> []) as Hk.
    { induction k as [|k IH]; intros Hk. - destruct l; cbn in *; [lia|subst; auto]. - destruct IH as [IH1 IH2]; [lia|]. specialize (H3 k Hk). split; [eapply r_step; eauto|].
      destruct H3 as [a b H3|a b H3]; destruct H3; cbn in *; auto; destruct (g_failed g); try discriminate; contradiction. }
    assert (reachable s' /\ g_failed (st_g s') <> []) as [Hr' Hf'].
    { destruct l as [|a l]; [cbn in H2; subst; auto|]. replace s' with (nth (length l) (a :: l) s); [apply Hk; cbn; lia|]. rewrite <- H2. clear. revert a. induction l as [|b l IH]; intros a; [reflexivity|]. cbn [length nth last]. apply IH. }
    assert (0 < h_open (st_h s')) as Ho. { rewrite (a_open _ _ _ _ _ (invA_reach _ _ _ _ _ _ _ _ _ Hr')). destruct (g_failed (st_g s')); [contradiction|cbn; lia]. }
    split; [exact Ho|]. intros rs (k & la & idx & fr & w & ts & g & ->). cbn in Ho. lia.
  Qed.
End P.
Print Assumptions C31_exclusive.
Print Assumptions C31_results.
Print Assumptions C32_right_callable.
Print Assumptions C31_terminates.
Print Assumptions C31_all_answered.
Print Assumptions C103_failed_blocks.
