(** Invariants of the process scheduler. *)
From Coq Require Import List Arith ZArith Lia Bool Permutation.
From Verif Require Import SchedModel SchedProofs ProcModel.
Import ListNotations.
Open Scope nat_scope.

Definition cnt (x : nat) (l : list nat) : nat := count_occ Nat.eq_dec l x.
Arguments cnt : simpl never.
Lemma cnt_app x l m : cnt x (l ++ m) = cnt x l + cnt x m.
Proof. apply count_occ_app. Qed.
Lemma cnt_cons x a l : cnt x (a :: l) = (if a =? x then 1 else 0) + cnt x l.
Proof. unfold cnt. cbn. destruct (Nat.eq_dec a x) as [->|H]; [rewrite Nat.eqb_refl; reflexivity|]. apply Nat.eqb_neq in H. rewrite H. reflexivity. Qed.
Lemma cnt_nil x : cnt x [] = 0.
Proof. reflexivity. Qed.
Lemma cnt_in x l : In x l <-> 0 < cnt x l.
Proof. unfold cnt. rewrite (count_occ_In Nat.eq_dec l x). lia. Qed.
Lemma cnt_seq x a m : cnt x (seq a m) = if (a <=? x) && (x <? a + m) then 1 else 0.
Proof.
  revert a. induction m as [|m IH]; intros a; cbn [seq].
  - rewrite cnt_nil. destruct (Nat.leb_spec a x), (Nat.ltb_spec x (a + 0)); cbn; lia.
  - rewrite cnt_cons, IH. destruct (Nat.eqb_spec a x), (Nat.leb_spec a x), (Nat.leb_spec (S a) x), (Nat.ltb_spec x (S a + m)), (Nat.ltb_spec x (a + S m)); cbn; lia.
Qed.
Lemma cnt_perm l m : (forall x, cnt x l = cnt x m) -> Permutation l m.
Proof. intros H. apply (Permutation_count_occ Nat.eq_dec). exact H. Qed.

Section P.
  Variables (D C R : Type) (fork : C -> C) (call : C -> D -> option R) (n : nat) (caching strict : bool).
  Notation state := (state D C R). Notation step := (step D C R fork call n caching strict). Notation reachable := (reachable D C R fork call n caching strict).
  Notation thread := (thread D C R). Notation used := (used C fork caching).
  Notation st_h := (st_h D C R). Notation st_p := (st_p D C R). Notation st_c := (st_c D C R). Notation st_t := (st_t D C R). Notation st_g := (st_g D C R).
  Notation t_proc := (t_proc D C R). Notation t_data := (t_data D C R). Notation t_call := (t_call D C R). Notation t_idx := (t_idx D C R). Notation t_pc := (t_pc D C R).
  Notation h_free := (h_free C R). Notation h_open := (h_open C R). Notation h_counter := (h_counter C R). Notation h_results := (h_results C R). Notation h_last := (h_last C R). Notation h_idx := (h_idx C R).
  Notation p_in := (p_in D C R). Notation p_out := (p_out D C R). Notation p_alive := (p_alive D C R). Notation p_cache := (p_cache D C R). Notation p_tag := (p_tag D C R).
  Notation g_subs := (g_subs D C). Notation g_execs := (g_execs D C). Notation g_failed := (g_failed D C). Notation g_base := (g_base D C).
  Notation TStart := (TStart R). Notation TTag := (TTag R). Notation TSend := (TSend R). Notation TWait := (TWait R). Notation TStore := (TStore R). Notation TFree := (TFree R). Notation TFail := (TFail R).

  Definition cproc (c : client D C) : list nat := match c with Spawn _ _ p _ _ _ => [p] | _ => [] end.
  Definition cpend (c : client D C) : list nat := match c with Pend _ _ _ _ i | Sleep _ _ _ _ i | Spawn _ _ _ _ _ i => [i] | _ => [] end.
  Definition act (t : thread) : list nat := match t_pc t with ProcModel.TFree _ | ProcModel.TFail _ => [] | _ => [t_idx t] end.
  Definition acts (l : list thread) : list nat := flat_map act l.

  Record invA (s : state) : Prop := {
    a_procs : forall p, cnt p (h_free (st_h s)) + cnt p (map t_proc (st_t s)) + cnt p (cproc (st_c s)) = (if p <? n then 1 else 0);
    a_tasks : forall x, cnt x (map snd (h_results (st_h s))) + cnt x (cpend (st_c s)) + cnt x (acts (st_t s)) + cnt x (g_failed (st_g s)) =
                if (g_base (st_g s) <? x) && (x <=? h_counter (st_h s)) then 1 else 0;
    a_open : h_open (st_h s) = length (cpend (st_c s)) + length (acts (st_t s)) + length (g_failed (st_g s));
    a_base : g_base (st_g s) <= h_counter (st_h s);
    a_subs : map (fun x => fst (fst x)) (g_subs (st_g s)) = seq 1 (h_counter (st_h s));
    a_pend : match st_c s with Pend _ _ d c i | Sleep _ _ d c i | Spawn _ _ _ d c i => In (i, d, c) (g_subs (st_g s)) | _ => True end;
    a_threads : forall t, In t (st_t s) -> In (t_idx t, t_data t, t_call t) (g_subs (st_g s));
    a_count : length (h_free (st_h s)) + length (st_t s) + length (cproc (st_c s)) = n }.

  Lemma acts_app l m : acts (l ++ m) = acts l ++ acts m.
  Proof. apply flat_map_app. Qed.
  Lemma acts_cons t l : acts (t :: l) = act t ++ acts l.
  Proof. reflexivity. Qed.
  Ltac crush := repeat (rewrite ?map_app, ?app_length, ?acts_app, ?acts_cons, ?cnt_app, ?cnt_cons, ?cnt_nil in *; cbn [map length app cproc cpend ProcModel.st_h ProcModel.st_p ProcModel.st_c ProcModel.st_t ProcModel.st_g ProcModel.h_free ProcModel.h_open ProcModel.h_counter ProcModel.h_results ProcModel.h_last ProcModel.g_subs ProcModel.g_execs ProcModel.g_failed ProcModel.g_base fst snd at_pc ProcModel.t_proc ProcModel.t_idx ProcModel.t_data ProcModel.t_call ProcModel.t_pc] in * ).
  Lemma in_mid (l1 l2 : list thread) t t' : In t' (l1 ++ t :: l2) <-> In t' (l1 ++ l2) \/ t' = t.
  Proof. rewrite !in_app_iff. cbn. split; intros H; intuition congruence. Qed.

  Lemma invA_start : invA (start D C R n).
  Proof.
    constructor; cbn -[Nat.ltb Nat.leb]; try tauto.
    - intros p. rewrite cnt_seq, !cnt_nil, !Nat.add_0_r. cbn [Nat.leb Nat.add andb]. reflexivity.
    - intros x. rewrite !cnt_nil. destruct (Nat.ltb_spec 0 x), (Nat.leb_spec x 0); cbn; lia.
    - lia.
    - rewrite seq_length. lia.
  Qed.

  Ltac crush1 := repeat (rewrite ?map_app, ?app_length, ?acts_app, ?acts_cons, ?cnt_app, ?cnt_cons, ?cnt_nil; cbn [map length app cproc cpend ProcModel.st_h ProcModel.st_p ProcModel.st_c ProcModel.st_t ProcModel.st_g ProcModel.h_free ProcModel.h_open ProcModel.h_counter ProcModel.h_results ProcModel.h_last ProcModel.g_subs ProcModel.g_execs ProcModel.g_failed ProcModel.g_base fst snd at_pc ProcModel.t_proc ProcModel.t_idx ProcModel.t_data ProcModel.t_call ProcModel.t_pc]).
  Lemma act_at t pc : act (at_pc D C R t pc) = match pc with ProcModel.TFree _ | ProcModel.TFail _ => [] | _ => [t_idx t] end.
  Proof. reflexivity. Qed.
  Lemma act_eq t pc : t_pc t = pc -> act t = match pc with ProcModel.TFree _ | ProcModel.TFail _ => [] | _ => [t_idx t] end.
  Proof. intros <-. reflexivity. Qed.
  Lemma invA_step s s' : step s s' -> invA s -> invA s'.
  Proof.
    intros Hs [H1 H2 H3 H4 H5 H6 H7 H8]. destruct Hs as [s s' Hs|s s' Hs]; destruct Hs;
      try match goal with H : t_pc _ = _ |- _ => pose proof (act_eq _ _ H) as Ha end;
      try match goal with H : t_pc _ = _ \/ t_pc _ = _ |- _ => assert (act t = []) as Ha by (destruct H as [H|H]; exact (act_eq _ _ H)) end;
      crush; constructor; crush1;
      cbn iota in *; try rewrite Ha in *; rewrite ?act_at; cbn iota; crush; auto; try lia.
    all: try (intros p0; specialize (H1 p0); crush; lia).
    all: try (intros x0; specialize (H2 x0); crush; lia).
    all: try (intros t0 Ht0; apply in_mid in Ht0; destruct Ht0 as [Ht0| ->]; [apply H7; apply in_mid; auto|apply (H7 t); apply in_mid; auto]).
    all: try (intros t0 Ht0; apply in_or_app; left; apply H7; exact Ht0).
    all: try (apply in_or_app; right; left; reflexivity).
    all: try (rewrite H5; cbn; rewrite <- seq_S; reflexivity).
    all: try (rewrite H5, seq_S; reflexivity).
    - intros x. specialize (H2 x). crush. destruct (Nat.eqb_spec (S k) x), (Nat.ltb_spec (g_base g) x), (Nat.leb_spec x k), (Nat.leb_spec x (S k)); cbn [andb] in *; lia.
    - intros x. specialize (H2 x). crush. destruct (Nat.eqb_spec (S k) x), (Nat.ltb_spec (g_base g) x), (Nat.leb_spec x k), (Nat.leb_spec x (S k)); cbn [andb] in *; lia.
    - intros x. cbn in H3. assert (acts ts = []) as -> by (destruct (acts ts); [auto|cbn in H3; lia]). assert (g_failed g = []) as -> by (destruct (g_failed g); [auto|cbn in H3; lia]).
      rewrite cnt_nil. destruct (Nat.ltb_spec k x), (Nat.leb_spec x k); cbn; lia.
    - intros x. specialize (H2 x). change (act (mkT D C R p d c i TStart)) with [i]. crush. change (acts []) with (@nil nat) in *. crush. lia.
    - change (act (mkT D C R p d c i TStart)) with [i]. change (acts []) with (@nil nat). cbn. lia.
    - intros t Ht. apply in_app_or in Ht. destruct Ht as [Ht|[<-|[]]]; [auto|exact H6].
    - intros x. specialize (H2 x). unfold add_result. crush. lia.
    - intros t0 Ht0. apply H7. apply in_mid. auto.
  Qed.
  Lemma invA_reach s : reachable s -> invA s.
  Proof. induction 1; [apply invA_start|eapply invA_step; eauto]. Qed.
End P.
