(** Auxiliary facts about the model of ParallelFlow (ParallelModel.v). *)
From Coq Require Import List Arith Bool Lia Permutation.
From Verif Require Import SchedModel SchedProofs ParallelModel.
Import ListNotations.
Open Scope nat_scope.

Section P.
  Variables (N X : Type).
  Variables (training started : N -> bool) (phases : N -> nat) (trainN : N -> X -> N) (stopN : N -> N) (execN : N -> X -> X)
            (forkN : N -> option N) (joinN : N -> N -> N) (dummy : N).
  Variable order : nat -> list X -> list X.

  (** What the theorems ask of the nodes *)
  Record laws := {
    l_phases : forall a, training a = (0 <? phases a);
    l_ptrain : forall a x, phases (trainN a x) = phases a;
    l_pstop : forall a, phases (stopN a) = pred (phases a);
    l_started : forall a x, training a = true -> started (trainN a x) = true;
    l_dummy : training dummy = false;
    l_fork : forall a f, training a = true -> forkN a = Some f -> training f = true;
    (* training a fork and joining it is training the node itself *)
    l_join : forall a f xs, training a = true -> forkN a = Some f -> xs <> [] -> joinN a (fold_left trainN xs f) = fold_left trainN xs a;
    l_join2 : forall a f xs ys, training a = true -> forkN a = Some f -> xs <> [] -> ys <> [] ->
      joinN (fold_left trainN xs f) (fold_left trainN ys f) = fold_left trainN (xs ++ ys) f }.
  (** the order of the chunks does not matter for nodes that can be forked *)
  Definition commutes : Prop := forall a f xs ys,
    training a = true -> forkN a = Some f -> Permutation xs ys -> fold_left trainN xs a = fold_left trainN ys a.
  Hypothesis L : laws.
  Hypothesis Hord : forall k xs, Permutation xs (order k xs).

  Local Notation fn_train := (fn_train N X training trainN execN).
  Local Notation fn_stop := (fn_stop N training stopN).
  Local Notation fn_fork := (fn_fork N training forkN).
  Local Notation fn_join := (fn_join N training joinN).
  Local Notation fn_exec := (fn_exec N X execN).
  Local Notation purge := (purge N started dummy).
  Local Notation train_task := (train_task N X training started trainN execN forkN dummy).
  Local Notation pflow := (pflow N X).
  Local Notation next_train_phase := (next_train_phase N X training trainN stopN execN forkN).
  Local Notation bound := (bound N phases).
  Local Notation run_train := (run_train N X training started trainN execN forkN joinN dummy order).
  Local Notation train_loop := (train_loop N X training started phases trainN stopN execN forkN joinN dummy order).
  Local Notation serial_train := (serial_train N X training phases trainN stopN execN).
  Local Notation node_phases := (node_phases N X training trainN stopN).

  Definition idle (l : list N) : Prop := Forall (fun a => training a = false) l.

  Lemma t_fold xs : forall a, training (fold_left trainN xs a) = training a.
  Proof. induction xs as [|x xs IH]; intro a; cbn; [reflexivity|]. now rewrite IH, !(l_phases L), (l_ptrain L). Qed.
  Lemma p_fold xs : forall a, phases (fold_left trainN xs a) = phases a.
  Proof. induction xs as [|x xs IH]; intro a; cbn; [reflexivity|]. now rewrite IH, (l_ptrain L). Qed.

  Lemma train_at pre a post x : idle pre -> training a = true -> fn_train (pre ++ a :: post) x = pre ++ trainN a (fn_exec pre x) :: post.
  Proof.
    intros Hi Ha. revert x. induction Hi as [|p pre Hp Hi IH]; intro x; cbn; [now rewrite Ha|]. rewrite Hp, IH. reflexivity.
  Qed.
  Lemma trains_at xs : forall pre a post, idle pre -> training a = true ->
    fold_left fn_train xs (pre ++ a :: post) = pre ++ fold_left trainN (map (fn_exec pre) xs) a :: post.
  Proof.
    induction xs as [|x xs IH]; intros pre a post Hi Ha; cbn; [reflexivity|].
    rewrite train_at, IH; auto. now rewrite !(l_phases L), (l_ptrain L), <- (l_phases L).
  Qed.
  Lemma stop_at pre a post : idle pre -> training a = true -> fn_stop (pre ++ a :: post) = pre ++ stopN a :: post.
  Proof. intros Hi Ha. induction Hi as [|p pre Hp Hi IH]; cbn; [now rewrite Ha|]. now rewrite Hp, IH. Qed.
  Lemma fork_at pre a post : idle pre -> training a = true -> fn_fork (pre ++ a :: post) = option_map (fun f => pre ++ f :: post) (forkN a).
  Proof. intros Hi Ha. induction Hi as [|p pre Hp Hi IH]; cbn; [now rewrite Ha|]. rewrite Hp, IH. now destruct (forkN a). Qed.
  Lemma join_at pre a post pre' f post' : length pre' = length pre -> idle pre' -> training f = true ->
    fn_join (pre ++ a :: post) (pre' ++ f :: post') = pre ++ joinN a f :: post.
  Proof.
    revert pre'. induction pre as [|p pre IH]; intros [|q pre'] He Hi Hf; try discriminate; cbn; [now rewrite Hf|].
    inversion Hi; subst. rewrite H1, IH; auto.
  Qed.
  Lemma purge_idle pre : idle pre -> idle (purge pre) /\ length (purge pre) = length pre.
  Proof.
    intro Hi. split; [|apply map_length]. induction Hi as [|p pre Hp Hi IH]; cbn; constructor; auto.
    destruct (started p); auto. apply (l_dummy L).
  Qed.
  Lemma task_at pre a post f x : idle pre -> training a = true -> forkN a = Some f ->
    train_task (pre ++ a :: post) x = Some (purge pre ++ trainN f (fn_exec pre x) :: purge post).
  Proof.
    intros Hi Ha Hf. unfold ParallelModel.train_task. rewrite fork_at, Hf; auto. cbn [option_map].
    assert (Hfk := l_fork L _ _ Ha Hf).
    rewrite train_at; auto. unfold ParallelModel.purge. rewrite map_app. cbn [map]. now rewrite (l_started L).
  Qed.
  Lemma collect_at pre a post f : idle pre -> training a = true -> forkN a = Some f -> forall ys xs, xs <> [] ->
    fold_left (fun acc x => match train_task (pre ++ a :: post) x with Some r => add_train_result N training joinN acc r | None => acc end) ys
              (Some (purge pre ++ fold_left trainN (map (fn_exec pre) xs) f :: purge post))
    = Some (purge pre ++ fold_left trainN (map (fn_exec pre) (xs ++ ys)) f :: purge post).
  Proof.
    intros Hi Ha Hf. destruct (purge_idle _ Hi) as [Hpi Hpl].
    induction ys as [|y ys IH]; intros xs Hne; [now rewrite app_nil_r|].
    cbn [fold_left]. erewrite task_at by eassumption. cbn [add_train_result].
    rewrite join_at; auto.
    2:{ rewrite !(l_phases L), (l_ptrain L), <- (l_phases L). now apply (l_fork L a). }
    change (trainN f (fn_exec pre y)) with (fold_left trainN (map (fn_exec pre) [y]) f).
    rewrite (l_join2 L a); auto; try (destruct xs; [congruence|cbn; discriminate]); try (cbn; discriminate).
    rewrite <- map_app, IH by (destruct xs; cbn; discriminate). now rewrite <- app_assoc.
  Qed.
  (** The joined results of a phase, joined into the flow, are the flow trained on all chunks, in the order of arrival *)
  Lemma phase_at k pre a post f xs : idle pre -> training a = true -> forkN a = Some f -> xs <> [] ->
    exists r, run_train k (pre ++ a :: post) xs = Some r /\
      fn_join (pre ++ a :: post) r = pre ++ fold_left trainN (map (fn_exec pre) (order k xs)) a :: post.
  Proof.
    intros Hi Ha Hf Hne. unfold ParallelModel.run_train.
    assert (Hp := Hord k xs). destruct (order k xs) as [|y ys]; [apply Permutation_sym, Permutation_nil in Hp; congruence|].
    cbn [fold_left]. erewrite task_at by eassumption. cbn [add_train_result].
    change (trainN f (fn_exec pre y)) with (fold_left trainN (map (fn_exec pre) [y]) f).
    rewrite (collect_at pre a post f) by (auto; discriminate). eexists; split; [reflexivity|].
    destruct (purge_idle _ Hi) as [Hpi Hpl].
    rewrite join_at; auto; [|rewrite t_fold; now apply (l_fork L a)].
    rewrite (l_join L) by (auto; cbn; discriminate). reflexivity.
  Qed.
  Hypothesis Hcomm : commutes.
  Lemma phase_comm k pre a post f xs : idle pre -> training a = true -> forkN a = Some f -> xs <> [] ->
    exists r, run_train k (pre ++ a :: post) xs = Some r /\
      fn_join (pre ++ a :: post) r = pre ++ fold_left trainN (map (fn_exec pre) xs) a :: post.
  Proof.
    intros Hi Ha Hf Hne. destruct (phase_at k pre a post f xs) as (r & E & J); auto.
    exists r. split; [exact E|]. rewrite J. do 2 f_equal. apply (Hcomm a f); auto. apply Permutation_sym, Permutation_map, Hord.
  Qed.

  (** ** Serial training, one step at a time *)
  Lemma np_idle k a xs : training a = false -> node_phases k a xs = a.
  Proof. intro H. destruct k; cbn; [reflexivity|]. now rewrite H. Qed.
  Lemma np_phase a xs : training a = true ->
    node_phases (phases a) a xs = node_phases (phases (stopN (fold_left trainN xs a))) (stopN (fold_left trainN xs a)) xs.
  Proof.
    intro Ha. assert (Hp := l_phases L a). rewrite Ha in Hp. symmetry in Hp. apply Nat.ltb_lt in Hp.
    rewrite (l_pstop L), p_fold. destruct (phases a) as [|k]; [lia|]. cbn. now rewrite Ha.
  Qed.
  Lemma serial_idle pre a r d ds : training a = false -> serial_train pre (a :: r) (d :: ds) = serial_train (pre ++ [a]) r ds.
  Proof. intro Ha. cbn. now rewrite np_idle. Qed.
  Lemma serial_phase pre a r d ds : training a = true ->
    serial_train pre (a :: r) (d :: ds) = serial_train pre (stopN (fold_left trainN (map (fn_exec pre) d) a) :: r) (d :: ds).
  Proof. intro Ha. cbn. now rewrite np_phase. Qed.

  (** ** _next_train_phase *)
  Definition sump (l : list N) : nat := list_sum (map phases l).
  Lemma sump_app l1 l2 : sump (l1 ++ l2) = sump l1 + sump l2.
  Proof. unfold sump. rewrite map_app. apply list_sum_app. Qed.
  Lemma sump_cons a l : sump (a :: l) = phases a + sump l.
  Proof. reflexivity. Qed.
  Lemma t_pos a : training a = true -> 0 < phases a.
  Proof. rewrite (l_phases L). apply Nat.ltb_lt. Qed.

  (** data is given for every node that is trained *)
  Definition provided (fl : list N) (data : list (list X)) : Prop := Forall2 (fun a d => training a = true -> d <> []) fl data.

  Definition done (target : list N) (s : pflow) : Prop := pf_i N X s = None /\ pf_flow N X s = target /\ idle target.
  Definition at_phase (target : list N) (p : nat) (data : list (list X)) (s : pflow) : Prop :=
    exists pre a post dpre x r dpost f,
      pf_flow N X s = pre ++ a :: post /\ data = dpre ++ (x :: r) :: dpost /\ length dpre = length pre /\
      idle pre /\ training a = true /\ forkN a = Some f /\ pf_i N X s = Some (length pre) /\ pf_next N X s = Some x /\ pf_titer N X s = r /\
      serial_train pre (a :: post) ((x :: r) :: dpost) = target /\ sump (pf_flow N X s) <= p /\ provided post dpost.

  Lemma nth_at {A} (pre : list A) a post d : nth (length pre) (pre ++ a :: post) d = a.
  Proof. rewrite app_nth2, Nat.sub_diag by lia. reflexivity. Qed.
  Lemma nth_error_at {A} (pre : list A) a post : nth_error (pre ++ a :: post) (length pre) = Some a.
  Proof. rewrite nth_error_app2, Nat.sub_diag by lia. reflexivity. Qed.

  Lemma next_phase_ok k : forall pre post dpre dpost data target (s : pflow),
    pf_flow N X s = pre ++ post -> data = dpre ++ dpost -> length dpre = length pre -> pf_data N X s = data ->
    idle pre -> provided post dpost -> serial_train pre post dpost = target -> length post + sump (pre ++ post) < k ->
    exists s', next_train_phase k (length pre) s = (s', Ok tt) /\ pf_data N X s' = data /\ (done target s' \/ at_phase target (sump (pre ++ post)) data s').
  Proof.
    induction k as [|k IH]; intros pre post dpre dpost data target s Hfl Hd Hlen Hsd Hi Hp Ht Hk; [lia|].
    cbn [ParallelModel.next_train_phase]. rewrite Hfl.
    destruct post as [|a post].
    { rewrite app_nil_r in *. rewrite (proj2 (nth_error_None _ _)) by lia.
      eexists; split; [reflexivity|]. split; [now destruct s|]. left. inversion Hp; subst dpost. cbn in Ht. subst target.
      unfold done. cbn. auto. }
    rewrite nth_error_at. inversion Hp as [|x0 d l0 ds Hda Hps E1 E2]. subst x0 l0 dpost.
    destruct (training a) eqn:Ha; cbn [negb].
    2:{ rewrite serial_idle in Ht by exact Ha.
        assert (He : length (pre ++ [a]) = S (length pre)) by (rewrite app_length; cbn; lia).
        rewrite <- He.
        destruct (IH (pre ++ [a]) post (dpre ++ [d]) ds data target s) as (s' & E & Hds & HH); auto;
          try (rewrite <- app_assoc; cbn; assumption).
        - rewrite !app_length; cbn; lia.
        - apply Forall_app; split; auto.
        - rewrite <- app_assoc. cbn [app]. cbn [length] in Hk. lia.
        - exists s'. rewrite <- app_assoc in HH. auto. }
    specialize (Hda eq_refl).
    assert (Hnth : nth (length pre) (pf_data N X s) [] = d) by (rewrite Hsd, Hd, <- Hlen; apply nth_at). rewrite Hnth. clear Hnth.
    rewrite fork_at by auto. destruct (forkN a) as [f|] eqn:Hf; cbn [option_map].
    { destruct d as [|x r]; [congruence|]. eexists; split; [reflexivity|]. split; [cbn; congruence|]. right.
      exists pre, a, post, dpre, x, r, ds, f. cbn. repeat (split; [auto; fail|]). rewrite Hfl. split; auto. }
    destruct d as [|x r]; [congruence|].
    rewrite trains_at by auto. set (d := x :: r) in *. set (b := fold_left trainN (map (fn_exec pre) d) a).
    assert (Hb : training b = true) by (unfold b; now rewrite t_fold).
    rewrite stop_at by auto. rewrite serial_phase in Ht by exact Ha. fold b in Ht.
    rewrite nth_error_at.
    assert (Hsum : sump (pre ++ stopN b :: post) + 1 = sump (pre ++ a :: post)).
    { rewrite !sump_app, !sump_cons, (l_pstop L). unfold b at 1. rewrite p_fold. pose proof (t_pos _ Ha). lia. }
    cbn [length] in Hk.
    destruct (training (stopN b)) eqn:Hsb.
    - destruct (IH pre (stopN b :: post) dpre (d :: ds) data target (set_flow N X s (pre ++ stopN b :: post))) as (s' & E & Hds & HH);
        auto; try (now destruct s); [constructor; auto|cbn [length]; lia|].
      exists s'. rewrite E. split; [reflexivity|]. split; [exact Hds|]. destruct HH as [H|H]; [now left|right].
      destruct H as (p1 & a1 & q1 & dp1 & x1 & r1 & dq1 & f1 & H). exists p1, a1, q1, dp1, x1, r1, dq1, f1.
      repeat (split; [apply H|]). split; [etransitivity; [apply H|lia]|apply H].
    - rewrite serial_idle in Ht by exact Hsb.
      assert (He : length (pre ++ [stopN b]) = S (length pre)) by (rewrite app_length; cbn; lia).
      rewrite <- He.
      destruct (IH (pre ++ [stopN b]) post (dpre ++ [d]) ds data target (set_flow N X s (pre ++ stopN b :: post))) as (s' & E & Hds & HH);
        auto; try (now destruct s); try (rewrite <- app_assoc; cbn; auto; fail).
      + rewrite !app_length; cbn; lia.
      + apply Forall_app; split; auto.
      + rewrite <- app_assoc. cbn [app]. lia.
      + exists s'. rewrite E. split; [reflexivity|]. split; [exact Hds|]. destruct HH as [H|H]; [now left|right].
        rewrite <- app_assoc in H. cbn [app] in H.
        destruct H as (p1 & a1 & q1 & dp1 & x1 & r1 & dq1 & f1 & H). exists p1, a1, q1, dp1, x1, r1, dq1, f1.
        repeat (split; [apply H|]). split; [etransitivity; [apply H|lia]|apply H].
  Qed.

  (** ** get_task until none is left *)
  Lemma get_tasks_train i r : forall x (s : pflow), pf_i N X s = Some i -> pf_next N X s = Some x -> pf_titer N X s = r ->
    get_tasks N X (S (length r)) s = (set_next N X (set_titer N X s []) None, x :: r).
  Proof.
    induction r as [|y r IH]; intros x s Hi Hn Ht; [|cbn [length]; remember (S (length r)) as m]; cbn [length get_tasks]; unfold get_task; rewrite Hn, Hi; unfold create_train_task; rewrite Ht.
    - destruct s; cbn in *; subst; reflexivity.
    - rewrite (IH y) by (destruct s; cbn in *; auto). destruct s; reflexivity.
  Qed.
  Lemma get_tasks_exec r : forall x (s : pflow), pf_i N X s = None -> pf_next N X s = Some x -> pf_eiter N X s = Some r ->
    get_tasks N X (S (length r)) s = (set_next N X (set_eiter N X s (Some [])) None, x :: r).
  Proof.
    induction r as [|y r IH]; intros x s Hi Hn Ht; [|cbn [length]; remember (S (length r)) as m]; cbn [length get_tasks]; unfold get_task; rewrite Hn, Hi, Ht.
    - destruct s; cbn in *; subst; reflexivity.
    - rewrite (IH y) by (destruct s; cbn in *; auto). destruct s; reflexivity.
  Qed.

  Lemma loop_ok data target k : forall p (s : pflow), pf_data N X s = data -> done target s \/ at_phase target p data s -> p < k ->
    exists s', train_loop k s = (s', Ok tt) /\ done target s'.
  Proof.
    induction k as [|k IH]; intros p s Hsd H Hk; [lia|]. cbn [ParallelModel.train_loop].
    destruct H as [H|H].
    { destruct H as (H1 & H2). rewrite H1. exists s. split; [reflexivity|split; auto]. }
    destruct H as (pre & a & post & dpre & x & r & dpost & f & Hfl & Hd & Hlen & Hi & Ha & Hf & Hpi & Hn & Hti & Ht & Hp & Hpr).
    rewrite Hpi, Hti. erewrite get_tasks_train by eassumption.
    set (s1 := set_next N X (set_titer N X s []) None).
    assert (Hfl1 : pf_flow N X s1 = pre ++ a :: post) by (destruct s; exact Hfl). rewrite Hfl1.
    destruct (phase_comm k pre a post f (x :: r)) as (res & Hres & Hj); auto; [discriminate|].
    rewrite Hres. unfold use_train_results.
    assert (Hpi1 : pf_i N X s1 = Some (length pre)) by (destruct s; exact Hpi). rewrite Hpi1, Hfl1. cbn [fold_left]. rewrite Hj.
    set (b := fold_left trainN (map (fn_exec pre) (x :: r)) a).
    assert (Hb : training b = true) by (unfold b; now rewrite t_fold).
    rewrite stop_at by auto. rewrite nth_error_at. rewrite serial_phase in Ht by exact Ha. fold b in Ht.
    assert (Hsum : sump (pre ++ stopN b :: post) + 1 = sump (pre ++ a :: post)).
    { rewrite !sump_app, !sump_cons, (l_pstop L). unfold b at 1. rewrite p_fold. pose proof (t_pos _ Ha). lia. }
    rewrite Hfl in Hp.
    destruct (training (stopN b)) eqn:Hsb.
    - destruct (next_phase_ok (bound (pre ++ stopN b :: post)) pre (stopN b :: post) dpre ((x :: r) :: dpost) data target
                  (set_flow N X s1 (pre ++ stopN b :: post))) as (s' & E & Hds & HH); auto; try (destruct s; auto; fail).
      + constructor; auto. intros _; discriminate.
      + unfold ParallelModel.bound, sump. rewrite app_length. cbn [length]. lia.
      + rewrite E. apply (IH (sump (pre ++ stopN b :: post))); auto. lia.
    - rewrite serial_idle in Ht by exact Hsb.
      assert (He : length (pre ++ [stopN b]) = S (length pre)) by (rewrite app_length; cbn; lia).
      destruct (next_phase_ok (bound (pre ++ stopN b :: post)) (pre ++ [stopN b]) post (dpre ++ [x :: r]) dpost data target
                  (set_flow N X s1 (pre ++ stopN b :: post))) as (s' & E & Hds & HH); auto; try (destruct s; auto; fail).
      + rewrite <- app_assoc. destruct s; reflexivity.
      + rewrite <- app_assoc. assumption.
      + rewrite !app_length; cbn; lia.
      + apply Forall_app; split; auto.
      + rewrite <- app_assoc. cbn [app]. unfold ParallelModel.bound, sump. rewrite app_length. cbn [length]. lia.
      + rewrite <- He, E. apply (IH (sump (pre ++ stopN b :: post))); auto; [|lia].
        rewrite <- app_assoc in HH. exact HH.
  Qed.
End P.
