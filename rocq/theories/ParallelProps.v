(** Properties of ParallelFlow (C35, C36, C109-C115). *)
From Coq Require Import List Arith ZArith Bool Lia Permutation.
From Verif Require Import SchedModel SchedProofs ParallelModel ParallelProofs.
Import ListNotations.
Open Scope nat_scope.

Section Props.
  Variables (N X : Type).
  Variables (training started : N -> bool) (phases : N -> nat) (trainN : N -> X -> N) (stopN : N -> N) (execN : N -> X -> X)
            (forkN : N -> option N) (joinN : N -> N -> N) (dummy : N) (order : nat -> list X -> list X) (arrive : list (X * nat) -> list (X * nat)).
  Local Notation par_train := (par_train N X training started phases trainN stopN execN forkN joinN dummy order).
  Local Notation par_execute := (par_execute N X execN arrive).
  Local Notation serial_train := (serial_train N X training phases trainN stopN execN).
  Local Notation laws := (laws N X training started phases trainN stopN forkN joinN dummy).
  Local Notation fn_exec := (fn_exec N X execN).

  (** C35: with a scheduler that returns the results of a phase in any order, ParallelFlow.train gives the flow that Flow.train gives: the same
      trained nodes, in the same order, and no training left underway.  Nodes that cannot be forked are trained locally. *)
  Theorem C35_parallel_training :
    laws -> commutes N X training trainN forkN -> (forall k xs, Permutation xs (order k xs)) ->
    forall fl data s, length data = length fl -> (forall i a d, nth_error fl i = Some a -> nth_error data i = Some d -> training a = true -> d <> []) ->
      pf_flow N X s = fl -> pf_i N X s = None ->
      exists s', par_train data s = (s', Ok tt) /\ pf_flow N X s' = serial_train [] fl data /\ pf_i N X s' = None /\
                 forall a, In a (pf_flow N X s') -> training a = false.
  Proof.
    intros L C O fl data s Hlen Hd Hfl Hi. unfold ParallelModel.par_train, setup_training. rewrite Hi.
    assert (Hp : provided N X training fl data).
    { clear - Hlen Hd. revert data Hlen Hd. induction fl as [|a fl IH]; intros [|d data] Hlen Hd; try discriminate; constructor.
      - apply (Hd 0); reflexivity.
      - apply IH; [now injection Hlen|]. intros i. apply (Hd (S i)). }
    rewrite Hfl.
    edestruct (next_phase_ok N X training started phases trainN stopN execN forkN joinN dummy L (bound N phases fl) [] fl [] data data (serial_train [] fl data)
                (set_i N X (set_data N X s data) (Some 0))) as (s1 & E & Hds & H); auto.
    { constructor. }
    cbn [length app] in E, H. rewrite E.
    destruct (loop_ok N X training started phases trainN stopN execN forkN joinN dummy order L O C data (serial_train [] fl data)
                (bound N phases (pf_flow N X s1)) (sump N phases (pf_flow N X s1)) s1 Hds) as (s2 & E2 & D).
    { destruct H as [H|H]; [now left|right].
      destruct H as (p1 & a1 & q1 & dp1 & x1 & r1 & dq1 & f1 & H). exists p1, a1, q1, dp1, x1, r1, dq1, f1.
      repeat (split; [apply H|]). split; [lia|apply H]. }
    { unfold bound, sump. lia. }
    rewrite E2. eexists; split; [reflexivity|]. destruct D as (D1 & D2 & D3). destruct s2 as [f2 i2 d2 t2 e2 n2]. cbn in *. subst f2.
    repeat split; auto. unfold idle in D3. rewrite Forall_forall in D3. auto.
  Qed.

  (** C36: parallel execution of the whole flow is serial execution of each chunk, in the order of the chunks, for every order of arrival *)
  Theorem C36_parallel_execution :
    (forall l, Permutation l (arrive l)) ->
    forall s xs, pf_i N X s = None -> xs <> [] ->
      snd (par_execute None xs s) = Ok (map (fn_exec (pf_flow N X s)) xs) /\
      pf_flow N X (fst (par_execute None xs s)) = pf_flow N X s /\
      pf_i N X (fst (par_execute None xs s)) = None /\ pf_next N X (fst (par_execute None xs s)) = None.
  Proof.
    intros HA s xs Hi Hne. unfold ParallelModel.par_execute, setup_execution. rewrite Hi. destruct xs as [|x r]; [congruence|].
    set (s1 := set_next N X (set_eiter N X s (Some r)) (Some x)).
    assert (E : pf_eiter N X s1 = Some r) by (destruct s; reflexivity). rewrite E.
    rewrite get_tasks_exec with (x := x) by (destruct s; auto).
    cbn [snd fst].
    assert (F : pf_flow N X (set_next N X (set_eiter N X s1 (Some [])) None) = pf_flow N X s) by (destruct s; reflexivity).
    repeat split; try (destruct s; exact Hi); try (destruct s; reflexivity).
    rewrite F. f_equal. apply (sort_combine _ _ 1). rewrite map_length. apply Permutation_sym, HA.
  Qed.

  (** C110, what does hold: after a parallel training that raised because of missing data, every further call raises *)
  Theorem C110_flow_stays_underway : forall data s s' e, par_train data s = (s', Err e) -> e = Empty -> pf_i N X s = None ->
    snd (par_train data s') = Err Underway /\ (forall nr xs, snd (par_execute nr xs s') = Err Underway).
  Proof.
    intros data s s' e H -> Hi.
    assert (Hnext : forall k i t t' , next_train_phase N X training trainN stopN execN forkN k i t = (t', Err Empty) -> pf_i N X t' <> None).
    { induction k as [|k IH]; intros i t t' E; cbn in E; [congruence|].
      destruct (nth_error (pf_flow N X t) i); [|congruence]. destruct (negb _); [eapply IH; eassumption|].
      destruct (fn_fork _ _ _ _).
      - destruct (nth i (pf_data N X t) []); [|congruence]. injection E as <-. cbn. discriminate.
      - destruct (nth i (pf_data N X t) []); [injection E as <-; cbn; discriminate|]. eapply IH; eassumption. }
    assert (Hgt : forall k t, pf_i N X (fst (get_tasks N X k t)) = pf_i N X t).
    { induction k as [|k IH]; intro t; cbn; [reflexivity|]. unfold get_task. destruct (pf_next N X t) eqn:En; [|reflexivity].
      destruct (pf_i N X t) eqn:Ei.
      - specialize (IH (create_train_task N X t)). destruct (get_tasks N X k (create_train_task N X t)). cbn in *. rewrite IH.
        unfold create_train_task. destruct (pf_titer N X t); destruct t; exact Ei.
      - destruct (pf_eiter N X t) as [[|y r]|] eqn:Ee; cbn; auto.
        + specialize (IH (set_next N X t None)). destruct (get_tasks N X k _). cbn in *. rewrite IH. destruct t; exact Ei.
        + specialize (IH (set_next N X (set_eiter N X t (Some r)) (Some y))). destruct (get_tasks N X k _). cbn in *. rewrite IH. destruct t; exact Ei. }
    assert (Hloop : forall k t t', train_loop N X training started phases trainN stopN execN forkN joinN dummy order k t = (t', Err Empty) -> pf_i N X t' <> None).
    { induction k as [|k IH]; intros t t' E; cbn -[get_tasks] in E; [discriminate|].
      destruct (pf_i N X t) as [i|] eqn:Ei; [|discriminate].
      specialize (Hgt (S (length (pf_titer N X t))) t). destruct (get_tasks N X _ t) as [t1 xs]. cbn [fst] in Hgt.
      destruct (run_train _ _ _ _ _ _ _ _ _ _ _ _ _) as [r|]; [|congruence].
      destruct (use_train_results _ _ _ _ _ _ _ _ _ [r] t1) as [t2 [[]|e2]] eqn:Eu; [eapply IH; eassumption|].
      injection E as <- ->. unfold use_train_results in Eu. rewrite Hgt, Ei in Eu. eapply Hnext; eassumption. }
    assert (Hs' : exists i, pf_i N X s' = Some i).
    { enough (pf_i N X s' <> None) by (destruct (pf_i N X s'); [eauto|congruence]).
      unfold ParallelModel.par_train in H. rewrite Hi in H.
      destruct (setup_training _ _ _ _ _ _ _ _ data s) as [s1 [[]|e1]] eqn:Es.
      - destruct (train_loop _ _ _ _ _ _ _ _ _ _ _ _ _ s1) as [s2 o2] eqn:El. injection H as <- ->.
        apply Hloop in El. destruct s2; exact El.
      - injection H as <- ->. unfold setup_training in Es. rewrite Hi in Es. apply Hnext in Es. destruct s1; exact Es. }
    destruct Hs' as [i Hs']. unfold ParallelModel.par_train, ParallelModel.par_execute. rewrite Hs'. auto.
  Qed.
End Props.

(** ** Nodes with additive statistics *)
Section Add.
  Variables (M X : Type) (add : M -> M -> M) (stat : list M -> X -> M) (seqf : option M -> X -> M) (out : list M -> X -> X).
  Local Notation node := (anode M).
  Local Notation train := (a_train M X add stat seqf).
  Local Notation join := (a_join M add).
  Local Notation fork := (a_fork M).
  Hypothesis add_assoc : forall a b c, add a (add b c) = add (add a b) c.

  Definition sum_from (o : option M) (res : list M) (xs : list X) : option M :=
    fold_left (fun o x => Some (match o with None => stat res x | Some m => add m (stat res x) end)) xs o.
  Lemma train_forkable xs : forall a : node, a_forkable M a = true ->
    fold_left train xs a = mkA M true (a_ph M a) (sum_from (a_acc M a) (a_res M a) xs) (a_res M a) (match xs with [] => a_started M a | _ => true end).
  Proof.
    induction xs as [|x xs IH]; intros [f p acc res st] Hf; cbn in *; subst f; [reflexivity|].
    rewrite IH by reflexivity. cbn. destruct xs; reflexivity.
  Qed.
  Lemma sum_some xs : forall m m' res, sum_from (Some (add m m')) res xs = option_map (add m) (sum_from (Some m') res xs).
  Proof.
    induction xs as [|x xs IH]; intros m m' res; cbn; [reflexivity|]. rewrite <- add_assoc. apply IH.
  Qed.
  Lemma sum_app xs : forall o res ys, xs <> [] -> ys <> [] ->
    sum_from o res (xs ++ ys) = match sum_from o res xs, sum_from None res ys with Some m, Some m' => Some (add m m') | _, _ => None end.
  Proof.
    intros o res ys Hx Hy. unfold sum_from at 1. rewrite fold_left_app. fold (sum_from o res xs).
    assert (E : exists m, sum_from o res xs = Some m).
    { destruct xs as [|x xs]; [congruence|]. clear Hx. unfold sum_from. cbn [fold_left].
      generalize (match o with Some m => add m (stat res x) | None => stat res x end).
      induction xs as [|z xs IH]; intro m; cbn [fold_left]; [eauto|apply IH]. }
    destruct E as [m E]. rewrite E. destruct ys as [|y ys]; [congruence|]. cbn [fold_left sum_from].
    change (sum_from (Some (add m (stat res y))) res ys = match sum_from (Some (stat res y)) res ys with Some m' => Some (add m m') | None => None end).
    rewrite sum_some. destruct (sum_from _ res ys); reflexivity.
  Qed.
  Lemma additive_laws : laws node X (a_training M) (a_started M) (a_ph M) train (a_stop M) fork join (a_dummy M).
  Proof.
    constructor; try reflexivity.
    - intros a f Ha Hf. unfold a_fork in Hf. destruct (a_forkable M a); [|discriminate]. injection Hf as <-. exact Ha.
    - intros a f xs Ha Hf Hne. unfold a_fork in Hf. destruct a as [fk p acc res st]. destruct fk; cbn in Hf; [|discriminate]. injection Hf as <-.
      rewrite !train_forkable by reflexivity. destruct xs as [|x xs]; [congruence|]. unfold a_join. cbn [a_forkable a_ph a_acc a_res a_started].
      f_equal; [|now rewrite orb_true_r]. unfold sum_from. cbn [fold_left]. destruct acc as [m|]; [|reflexivity].
      change (match sum_from (Some (stat res x)) res xs with Some m' => Some (add m m') | None => Some m end = sum_from (Some (add m (stat res x))) res xs).
      rewrite sum_some. destruct (sum_from (Some (stat res x)) res xs) eqn:E; [reflexivity|].
      exfalso. clear - E. revert E. generalize (stat res x) as m. induction xs as [|y xs IH]; intros m E; cbn in E; [discriminate|]. eapply IH, E.
    - intros a f xs ys Ha Hf Hx Hy. unfold a_fork in Hf. destruct a as [fk p acc res st]. destruct fk; cbn in Hf; [|discriminate]. injection Hf as <-.
      rewrite !train_forkable by reflexivity. unfold a_join. cbn [a_forkable a_ph a_acc a_res a_started].
      rewrite sum_app by assumption. f_equal.
      + destruct (sum_from None res xs) eqn:E; [|].
        * destruct (sum_from None res ys) eqn:E2; [reflexivity|]. exfalso. destruct ys as [|y ys]; [congruence|]. clear - E2. cbn in E2.
          revert E2. generalize (stat res y) as m. induction ys as [|z ys IH]; intros m E; cbn in E; [discriminate|]. eapply IH, E.
        * exfalso. destruct xs as [|y zs]; [congruence|]. clear - E. cbn in E.
          revert E. generalize (stat res y) as m. induction zs as [|z zs IH]; intros m E; cbn in E; [discriminate|]. eapply IH, E.
      + destruct xs; [congruence|]. reflexivity.
  Qed.
  Hypothesis add_comm : forall a b, add a b = add b a.
  Lemma additive_commutes : commutes node X (a_training M) train fork.
  Proof.
    intros a f xs ys Ha Hf Hp. unfold a_fork in Hf. destruct a as [fk p acc res st]. destruct fk; [|discriminate]. clear Hf.
    cut (forall a : node, a_forkable M a = true -> fold_left train xs a = fold_left train ys a).
    { intros H. apply H. reflexivity. }
    clear p res Ha acc st. induction Hp as [|x xs ys Hp IH|x y xs|xs ys zs H1 IH1 H2 IH2]; intros a Hf; cbn.
    - reflexivity.
    - apply IH. exact Hf.
    - f_equal. unfold a_train. destruct a as [fk p acc res st]. cbn in *. subst fk. f_equal. f_equal.
      destruct acc as [m|]; [|apply add_comm]. rewrite <- !add_assoc. f_equal. apply add_comm.
    - rewrite IH1; auto.
  Qed.
End Add.

(** C35 for flows of nodes with additive statistics (exact arithmetic): parallel training is serial training *)
Theorem C35_additive_nodes : forall (M X : Type) (add : M -> M -> M) (stat : list M -> X -> M) (seqf : option M -> X -> M) (out : list M -> X -> X) order,
  (forall a b c, add a (add b c) = add (add a b) c) -> (forall a b, add a b = add b a) -> (forall k xs, Permutation xs (order k xs)) ->
  forall (fl : list (anode M)) data, length data = length fl -> Forall (fun d => d <> []) data ->
    exists s', par_train (anode M) X (a_training M) (a_started M) (a_ph M) (a_train M X add stat seqf) (a_stop M) (a_exec M X out) (a_fork M) (a_join M add) (a_dummy M)
                 order data (pf_init (anode M) X fl) = (s', Ok tt) /\
      pf_flow (anode M) X s' = serial_train (anode M) X (a_training M) (a_ph M) (a_train M X add stat seqf) (a_stop M) (a_exec M X out) [] fl data.
Proof.
  intros M X add stat seqf out order Ha Hc Ho fl data Hlen Hd.
  destruct (C35_parallel_training (anode M) X (a_training M) (a_started M) (a_ph M) (a_train M X add stat seqf) (a_stop M) (a_exec M X out) (a_fork M) (a_join M add)
              (a_dummy M) order) with (fl := fl) (data := data) (s := pf_init (anode M) X fl) as (s' & E & F & _); auto.
  - now apply additive_laws.
  - now apply additive_commutes.
  - intros i a d _ Hi _. rewrite Forall_forall in Hd. apply Hd. eapply nth_error_In; eassumption.
  - exists s'. auto.
Qed.

(** Example: three nodes; the first has two phases, the second cannot be forked and depends on the order of its data; results arrive reversed *)
Definition ex_add := Z.add.
Definition ex_stat (res : list Z) (x : Z) : Z := (x - hd 0 res)%Z.
Definition ex_seq (o : option Z) (x : Z) : Z := match o with None => x | Some m => (2 * m + x)%Z end.
Definition ex_out (res : list Z) (x : Z) : Z := (x + last res 0)%Z.
Definition ex_rev (k : nat) (xs : list Z) : list Z := rev xs.
Definition ex_flow : list (anode Z) := [mkA Z true 2 None [] false; mkA Z false 1 None [] false; mkA Z true 0 None [7%Z] false; mkA Z true 1 None [] false].
Definition ex_data : list (list Z) := [[1; 2; 3]; [4; 5]; []; [6; 7; 8]]%Z.
Example C35_example :
  let o := par_train (anode Z) Z (a_training Z) (a_started Z) (a_ph Z) (a_train Z Z ex_add ex_stat ex_seq) (a_stop Z) (a_exec Z Z ex_out) (a_fork Z) (a_join Z ex_add) (a_dummy Z)
             ex_rev ex_data (pf_init (anode Z) Z ex_flow) in
  snd o = Ok tt /\ map (a_res Z) (pf_flow (anode Z) Z (fst o)) = [[6; -12]; [-23]; [7]; [-63]]%Z.
Proof. vm_compute. auto. Qed.
Example C36_example :
  snd (par_execute (anode Z) Z (a_exec Z Z ex_out) (fun l => rev l) None [1; 2; 3]%Z (pf_init (anode Z) Z (skipn 2 ex_flow))) = Ok [8; 9; 10]%Z.
Proof. reflexivity. Qed.

(** C109 (refuted): execute with nodenr and a scheduler stops at node nodenr *)
Theorem C109_nodenr_refuted : exists fl xs nr,
  snd (par_execute (anode Z) Z (a_exec Z Z ex_out) (fun l => l) (Some nr) xs (pf_init (anode Z) Z fl))
  <> Ok (map (fn_exec (anode Z) Z (a_exec Z Z ex_out) (firstn (S nr) fl)) xs).
Proof. exists [mkA Z true 0 None [1%Z] false; mkA Z true 0 None [5%Z] false], [0%Z], 0. vm_compute. discriminate. Qed.
(** What does hold: nodenr has no effect *)
Theorem C109_nodenr_ignored : forall (N X : Type) (execN : N -> X -> X) arrive nr xs (s : pflow N X),
  par_execute N X execN arrive nr xs s = par_execute N X execN arrive None xs s.
Proof. reflexivity. Qed.

(** C110 (refuted): a flow whose parallel training raised can be trained again with complete data *)
Theorem C110_retrain_refuted : exists fl bad good s' e,
  par_train (anode Z) Z (a_training Z) (a_started Z) (a_ph Z) (a_train Z Z ex_add ex_stat ex_seq) (a_stop Z) (a_exec Z Z ex_out) (a_fork Z) (a_join Z ex_add) (a_dummy Z)
    ex_rev bad (pf_init (anode Z) Z fl) = (s', Err e) /\
  snd (par_train (anode Z) Z (a_training Z) (a_started Z) (a_ph Z) (a_train Z Z ex_add ex_stat ex_seq) (a_stop Z) (a_exec Z Z ex_out) (a_fork Z) (a_join Z ex_add) (a_dummy Z)
    ex_rev good (pf_init (anode Z) Z fl)) = Ok tt /\
  snd (par_train (anode Z) Z (a_training Z) (a_started Z) (a_ph Z) (a_train Z Z ex_add ex_stat ex_seq) (a_stop Z) (a_exec Z Z ex_out) (a_fork Z) (a_join Z ex_add) (a_dummy Z)
    ex_rev good s') <> Ok tt.
Proof. exists ex_flow, [[1; 2]; []; []; [3]]%Z, ex_data. eexists _, _. repeat split; vm_compute; try reflexivity. discriminate. Qed.

(** C111 (refuted): HistogramNode and KNNClassifier collect their samples in a list; after parallel training the list is the one of serial training *)
Definition h_node : anode (list Z) := mkA (list Z) true 1 None [] false.
Theorem C111_sample_order_refuted : exists (data : list (list (list Z))) s',
  par_train (anode (list Z)) (list Z) (a_training _) (a_started _) (a_ph _) (a_train (list Z) (list Z) (@app Z) (fun _ x => x) (fun _ x => x)) (a_stop _)
    (a_exec _ _ (fun _ x => x)) (a_fork _) (a_join _ (@app Z)) (a_dummy _) (fun _ xs => rev xs) data (pf_init _ _ [h_node]) = (s', Ok tt) /\
  pf_flow _ _ s' <> serial_train (anode (list Z)) (list Z) (a_training _) (a_ph _) (a_train (list Z) (list Z) (@app Z) (fun _ x => x) (fun _ x => x)) (a_stop _)
    (a_exec _ _ (fun _ x => x)) [] [h_node] data.
Proof. exists [[[1]; [2]]]%Z. eexists. split; [vm_compute; reflexivity|vm_compute; discriminate]. Qed.
(** What does hold: a phase collects the chunks in the order of arrival, so no sample is lost or duplicated *)
Theorem C111_sample_multiset : forall (A : Type) (order : nat -> list (list A) -> list (list A)) k (xs : list (list A)) (l : list A),
  (forall k xs, Permutation xs (order k xs)) -> xs <> [] ->
  let node := mkA (list A) true 1 (Some l) [] true in
  exists r b, run_train (anode (list A)) (list A) (a_training _) (a_started _) (a_train (list A) (list A) (@app A) (fun _ x => x) (fun _ x => x)) (a_exec _ _ (fun _ x => x))
             (a_fork _) (a_join _ (@app A)) (a_dummy _) order k [node] xs = Some r /\
    fn_join (anode (list A)) (a_training _) (a_join _ (@app A)) [node] r = [b] /\
    exists l', a_acc _ b = Some l' /\ Permutation l' (l ++ concat xs).
Proof.
  intros A order k xs l Ho Hne node.
  assert (L := additive_laws (list A) (list A) (@app A) (fun _ x => x) (fun _ x => x) (@app_assoc A)).
  destruct (phase_at _ _ _ _ _ _ _ (a_exec _ _ (fun _ x => x)) _ _ _ order L Ho k [] node [] (mkA (list A) true 1 None [] false) xs) as (r & E & J); auto; [constructor|].
  exists r. eexists. split; [exact E|]. split; [exact J|].
  cbn [app map]. replace (map (fn_exec (anode (list A)) (list A) (a_exec _ _ (fun _ x => x)) []) (order k xs)) with (order k xs) by (symmetry; apply map_id).
  rewrite train_forkable by reflexivity. cbn [a_acc].
    assert (G : forall ys m, sum_from (list A) (list A) (@app A) (fun _ x => x) (Some m) [] ys = Some (m ++ concat ys)).
    { induction ys as [|y ys IH]; intro m; cbn; [now rewrite app_nil_r|]. rewrite app_assoc. apply IH. }
    exists (l ++ concat (order k xs)). split; [apply G|]. apply Permutation_app_head.
    specialize (Ho k xs). clear - Ho. induction Ho as [|x xs ys Hp IH|x y xs|xs ys zs H1 IH1 H2 IH2]; cbn.
    + constructor.
    + now apply Permutation_app_head.
    + rewrite !app_assoc. apply Permutation_app_tail, Permutation_app_comm.
    + etransitivity; eassumption.
Qed.

(** ** Schedulers per node *)
Lemma dispose_n_nth : forall k c rs d, k <= length rs ->
  exists d', dispose_n k (c, rs, d) = Some (nth k (c :: rs) None, skipn k rs, d') /\
    d' = d ++ flat_map (fun o => match o with Some i => [i] | None => [] end) (firstn k (c :: rs)).
Proof.
  induction k as [|k IH]; intros c rs d Hk.
  - exists d. cbn. now rewrite app_nil_r.
  - destruct rs as [|r rs]; [cbn in Hk; lia|]. cbn [length] in Hk.
    destruct (IH r rs (match c with Some i => d ++ [i] | None => d end)) as (d' & E & Hd); [lia|].
    exists d'. split; [exact E|]. rewrite Hd. cbn [firstn flat_map]. destruct c; [now rewrite <- app_assoc|reflexivity].
Qed.
Definition ids (l : list (option nat)) : list nat := flat_map (fun o => match o with Some i => [i] | None => [] end) l.
(** C112: with an iterable of schedulers, node i is trained with scheduler number i, and in the end the schedulers up to that of the last trained
    node have been shut down, each once *)
Theorem C112_scheduler_per_node : forall scheds i is, (forall j, In j (i :: is) -> j < length scheds) ->
  (forall a b l1 l2, i :: is = l1 ++ a :: b :: l2 -> a <= b) ->
  exists s s' l, prepare (Some i) scheds = Ok s /\ use_scheds i (i :: is) s = Some (s', l) /\
    l = map (fun j => nth j scheds None) (i :: is) /\ shut s' = ids (firstn (S (last is i)) scheds).
Proof.
  intros scheds i is Hlt Hmono.
  assert (Hinv : forall is last s, (forall j, In j is -> j < length scheds /\ last <= j) -> (forall a b l1 l2, is = l1 ++ a :: b :: l2 -> a <= b) ->
     last < length scheds -> s = (nth last scheds None, skipn (S last) scheds, ids (firstn last scheds)) ->
     exists l, let e := List.last is last in use_scheds last is s = Some ((nth e scheds None, skipn (S e) scheds, ids (firstn e scheds)), l) /\
        l = map (fun j => nth j scheds None) is).
  { clear. induction is as [|j is IH]; intros la s Hj Hm Hla ->; cbn [use_scheds List.last].
    - exists []. auto.
    - destruct (Hj j (or_introl eq_refl)) as [Hj1 Hj2].
      assert (Hsp : skipn la scheds = nth la scheds None :: skipn (S la) scheds).
      { clear - Hla. revert la Hla. induction scheds as [|c r IH]; intros [|la] H; cbn in *; try lia; [reflexivity|]. apply IH. lia. }
      destruct (dispose_n_nth (j - la) (nth la scheds None) (skipn (S la) scheds) (ids (firstn la scheds))) as (d' & E & Hd).
      { rewrite skipn_length. lia. }
      rewrite E. rewrite <- Hsp in E, Hd |- *.
      assert (E1 : nth (j - la) (skipn la scheds) None = nth j scheds None).
      { transitivity (nth (la + (j - la)) scheds None); [|f_equal; lia]. rewrite <- (firstn_skipn la scheds) at 2. rewrite app_nth2; rewrite firstn_length, Nat.min_l by lia; [|lia]. f_equal. lia. }
      assert (E2 : skipn (j - la) (skipn (S la) scheds) = skipn (S j) scheds).
      { clear - Hj2. replace (S j) with ((j - la) + S la) by lia. generalize (j - la) as a. generalize (S la) as b. intros b a. revert b. induction scheds as [|c r IH]; intros [|b]; cbn; rewrite ?skipn_nil, ?Nat.add_0_r; auto. rewrite Nat.add_succ_r. cbn. apply IH. }
      assert (E3 : d' = ids (firstn j scheds)).
      { rewrite Hd. unfold ids. rewrite <- flat_map_app. f_equal. clear - Hj1 Hj2. replace j with (la + (j - la)) at 2 by lia. generalize (j - la) as b. intro b. revert la Hj2. 
        clear. induction scheds as [|c r IH]; intros [|la] H; cbn; rewrite ?firstn_nil; auto. f_equal. apply IH. lia. }
      rewrite E1, E2, E3.
      destruct (IH j (nth j scheds None, skipn (S j) scheds, ids (firstn j scheds))) as (l & El & Hl); auto.
      { intros j' Hj'. split; [apply Hj; now right|].
        clear - Hm Hj'. revert j Hm. induction is as [|k is IH]; intros j Hm; [destruct Hj'|].
        assert (j <= k) by (apply (Hm j k [] is); reflexivity). destruct Hj' as [->|Hj']; [assumption|].
        etransitivity; [eassumption|]. apply IH; auto. intros a b l1 l2 Hab. apply (Hm a b (j :: l1) l2). now rewrite Hab. }
      { intros a b l1 l2 Hab. apply (Hm a b (j :: l1) l2). now rewrite Hab. }
      cbn zeta in El. rewrite El. exists (nth j scheds None :: l). split; [|cbn; congruence].
      assert (El2 : List.last is j = match is with [] => j | _ :: _ => List.last is la end).
      { destruct is as [|k is]; [reflexivity|]. clear. revert k. induction is as [|m is IH]; intro k; [reflexivity|]. apply (IH m). }
      rewrite El2. reflexivity. }
  destruct scheds as [|c rs]; [exfalso; specialize (Hlt i (or_introl eq_refl)); cbn in Hlt; lia|].
  assert (Hi := Hlt i (or_introl eq_refl)). cbn [length] in Hi.
  destruct (dispose_n_nth i c rs []) as (d' & E & Hd); [lia|].
  cbn [prepare]. rewrite E.
  destruct (Hinv (i :: is) i (nth i (c :: rs) None, skipn i rs, d')) as (l & El & Hl).
  { intros j Hj. split; [now apply Hlt|]. clear - Hmono Hj. destruct Hj as [->|Hj]; [lia|]. revert i Hmono. induction is as [|k is IH]; intros i Hm; [destruct Hj|].
    assert (i <= k) by (apply (Hm i k [] is); reflexivity). destruct Hj as [->|Hj]; [assumption|].
    etransitivity; [eassumption|]. apply IH; auto. intros a b l1 l2 Hab. apply (Hm a b (i :: l1) l2). now rewrite Hab. }
  { exact Hmono. }
  { exact Hi. }
  { subst d'. reflexivity. }
  cbn zeta in El. eexists _, _, l. split; [reflexivity|]. split; [exact El|]. split; [exact Hl|].
  assert (Hlast : List.last (i :: is) i = List.last is i) by (destruct is; reflexivity). rewrite Hlast.
  set (e := List.last is i).
  assert (He : e < length (c :: rs)).
  { apply Hlt. unfold e. clear. destruct is as [|k is]; [now left|]. right. revert k. induction is as [|m is IH]; intro k; [now left|]. right. apply (IH m). }
  clearbody e. clear - He. revert e He. generalize (c :: rs) as l. intros l e He.
  assert (Hs : firstn (S e) l = firstn e l ++ [nth e l None]).
  { revert e He. induction l as [|a l IH]; intros [|e] He; cbn [length] in He; try lia; [reflexivity|]. cbn. f_equal. apply IH. lia. }
  rewrite Hs. unfold shut, ids. rewrite flat_map_app. destruct (nth e l None); cbn; now rewrite ?app_nil_r.
Qed.
Example C112_example : prepare (Some 1) [Some 10; Some 11; None; Some 13; Some 14] = Ok (Some 11, [None; Some 13; Some 14], [10]) /\
  option_map (fun p => (snd p, shut (fst p))) (use_scheds 1 [1; 1; 3] (Some 11, [None; Some 13; Some 14], [10])) = Some ([Some 11; Some 11; Some 13], [10; 11; 13]).
Proof. split; reflexivity. Qed.
(** C113 (refuted): with an iterable of schedulers, training a flow whose nodes are all trained returns (the schedulers are disposed of) *)
Theorem C113_all_trained_refuted : exists scheds, length scheds = 2 /\ prepare None scheds = Err TypeErr.
Proof. exists [Some 0; Some 1]. split; reflexivity. Qed.
Theorem C113_all_trained_raises : forall scheds, scheds <> [] -> prepare None scheds = Err TypeErr.
Proof. intros [|c rs] H; [congruence|reflexivity]. Qed.

(** C114 (refuted): ParallelCheckpointFlow.train without a scheduler trains the flow serially *)
Theorem C114_checkpoint_serial_refuted : cp_train_entry false false <> Serial.
Proof. discriminate. Qed.
(** ParallelFlow.train: without scheduler and callable class the training is serial, with a scheduler parallel *)
Theorem C114_entry : train_entry false false false = Serial /\ (forall c, train_entry false true c = Parallel) /\
  (forall u, cp_train_entry u true = if u then Raises else Parallel) /\ (forall u, cp_train_entry u false = Raises).
Proof. repeat split; intros []; reflexivity. Qed.

(** C115 (refuted): the flownode joined in an execution contains the forks of this execution only *)
Theorem C115_stale_flownode_refuted : exists (r1 r2 : list (Z * Z * nat)) m1 m2,
  let (c, _) := ec_execute Z Z Z.add (mkEC Z Z [] None) r1 m1 in
  snd (snd (ec_execute Z Z Z.add c r2 m2)) <> fold_left Z.add (map (fun r => snd (fst r)) r2) m2.
Proof. exists [(0%Z, 5%Z, 1)], [(0%Z, 7%Z, 1)], 0%Z, 0%Z. vm_compute. discriminate. Qed.
(** What does hold: with a new container, for every order of arrival, the joined statistic is that of all forks *)
Theorem C115_fresh_container : forall (Y M : Type) (add : M -> M -> M) (rs : list (Y * M * nat)) m,
  (forall a b c, add a (add b c) = add (add a b) c) ->
  snd (snd (ec_execute Y M add (mkEC Y M [] None) rs m)) = fold_left add (map (fun r => snd (fst r)) rs) m.
Proof.
  intros Y M add rs m HA. unfold ec_execute, ec_get. cbn [fst snd].
  assert (H : forall rs c, ec_fn Y M (fold_left (ec_add Y M add) rs c) =
     match rs with [] => ec_fn Y M c | r :: rs' => Some (fold_left add (map (fun r => snd (fst r)) rs') (match ec_fn Y M c with None => snd (fst r) | Some m => add m (snd (fst r)) end)) end).
  { clear. induction rs as [|r rs IH]; intro c; [reflexivity|]. cbn [fold_left]. rewrite IH. destruct rs as [|q rs]; [destruct c; reflexivity|]. reflexivity. }
  rewrite H. destruct rs as [|r rs]; [reflexivity|]. cbn [ec_fn map fold_left]. generalize (snd (fst r)) as a. clear r H. generalize (map (fun r : Y * M * nat => snd (fst r)) rs) as l. clear rs.
  induction l as [|b l IH]; intro a; cbn; [reflexivity|]. rewrite IH, HA. reflexivity.
Qed.
Example C115_example : snd (snd (ec_execute Z Z Z.add (mkEC Z Z [] None) [(3%Z, 5%Z, 2); (4%Z, 6%Z, 1)] 1%Z)) = 12%Z /\
  fst (snd (ec_execute Z Z Z.add (mkEC Z Z [] None) [(3%Z, 5%Z, 2); (4%Z, 6%Z, 1)] 1%Z)) = [4; 3]%Z.
Proof. split; reflexivity. Qed.
