(** C61, C163-C166: OnlineCenteringNode and OnlineTimeDiffNode. *)
From Coq Require Import List Arith ZArith QArith Qcanon Bool Lia.
From Verif Require Import CovModel CovProps RecModel RecProps NodeModel NodeProofs OnlineModel OnlineProps OnlineLearn StatsOnlineModel.
Import ListNotations.
Open Scope nat_scope.

Definition data_of (l : list rarray) : list row := flat_map a_data l.
Definition wf (x : rarray) : Prop := length (a_data x) = a_rows x.
Lemma total_data l : Forall wf l -> total (list row) l = length (data_of l).
Proof. induction 1 as [|x l H HF IH]; [reflexivity|]. transitivity (a_rows x + total (list row) l); [reflexivity|]. rewrite IH. unfold data_of. cbn [flat_map]. rewrite app_length. unfold wf in H. lia. Qed.
Lemma wf_cast t x : wf x -> wf (refcast _ t x).
Proof. unfold wf, refcast. destruct t as [t|]; [|auto]. destruct (Nat.eqb _ t); auto. Qed.
Lemma cast_data t (x : rarray) : a_data (refcast _ t x) = a_data x.
Proof. unfold refcast. destruct t as [t|]; [|auto]. destruct (Nat.eqb _ t); auto. Qed.
Lemma wf_rows x : wf x -> Forall wf (rows _ pick x).
Proof.
  intro H. apply Forall_forall. intros y Hy. unfold rows in Hy. apply in_map_iff in Hy as (i & <- & Hi). apply in_seq in Hi. unfold wf, pick in *. cbn [a_data a_rows]. rewrite firstn_length, skipn_length. lia.
Qed.
Lemma skipn_tl {T} : forall k (d : list T) a r, skipn k d = a :: r -> skipn (S k) d = r.
Proof. induction k as [|k IH]; intros d a r E; [cbn in E; now subst d|]. destruct d as [|b d]; [discriminate|]. cbn in E. apply IH in E. exact E. Qed.
Lemma rows_data x : wf x -> data_of (rows _ pick x) = a_data x.
Proof.
  intro H. unfold data_of, rows. rewrite flat_map_concat_map, map_map. cbn [a_data]. unfold wf in H. rewrite <- H. generalize (a_data x). intro d. clear x H. unfold pick.
  assert (G : forall k, k + length (skipn k d) = length d \/ length d <= k -> concat (map (fun i => firstn 1 (skipn i d)) (seq k (length d - k))) = skipn k d).
  { intros k _. remember (length d - k) as m eqn:Em. revert k Em. induction m as [|m IH]; intros k Em; cbn [seq map concat]; [symmetry; apply skipn_all2; lia|].
    rewrite IH by lia. destruct (skipn k d) as [|a r] eqn:E; [apply (f_equal (@length row)) in E; rewrite skipn_length in E; cbn in E; lia|]. cbn. f_equal.
    exact (skipn_tl _ _ _ _ E). }
  specialize (G 0). rewrite Nat.sub_0_r in G. apply G. left. reflexivity.
Qed.

(** ** OnlineCenteringNode *)
(** the arithmetic mean, and the exponentially weighted average with weights (1-a)^(m-1-i) a, a = 2/(k+1), the first (1-a)^(m-1) *)
Definition mean (R : list row) : row := fun j => (colsum R j / qn (length R))%Qc.
Definition decay (k : nat) : Qc := ((1 + 1) / (qn k + 1))%Qc.
Definition weight (k m i : nat) : Qc := ((1 - decay k) ^ (m - 1 - i) * (if i =? 0 then 1 else decay k))%Qc.
Definition ewma (k : nat) (R : list row) : row := fun j => qsum (map (fun i => (weight k (length R) i * nth i R zero_row j)%Qc) (seq 0 (length R))).
Definition average (n : option nat) (R : list row) : row := match n with None => mean R | Some k => ewma k R end.

Lemma qn1_ne n : (qn n + 1 <> 0)%Qc.
Proof. rewrite Qcplus_comm. exact (qn_ne n). Qed.
Lemma qsum_app l1 l2 : qsum (l1 ++ l2) = (qsum l1 + qsum l2)%Qc.
Proof. induction l1; cbn; [ring|rewrite IHl1; ring]. Qed.
Lemma qsum_scale c l : qsum (map (Qcmult c) l) = (c * qsum l)%Qc.
Proof. induction l; cbn; [ring|rewrite IHl; ring]. Qed.
Lemma mean_step R r j : mean (R ++ [r]) j = ((1 - alpha None (length R)) * mean R j + alpha None (length R) * r j)%Qc.
Proof.
  unfold mean, alpha, colsum. rewrite map_app, qsum_app, app_length, Nat.add_comm. cbn [qsum map qn length Nat.add].
  pose proof (qn1_ne (length R)) as Hp. destruct R as [|r0 R]; [cbn [length qn map qsum]; generalize (0 / 0)%Qc; intro z; field; repeat split; intro H; discriminate H|]. assert (H0 : (qn (length (r0 :: R)) <> 0)%Qc). { cbn [qn length]. rewrite Qcplus_comm. apply qn1_ne. }
  field. repeat split; first [exact H0|exact Hp|rewrite Qcplus_comm; exact Hp].
Qed.
Lemma ewma_step k R r j : ewma k (R ++ [r]) j = ((1 - alpha (Some k) (length R)) * ewma k R j + alpha (Some k) (length R) * r j)%Qc.
Proof.
  unfold ewma. rewrite app_length, Nat.add_comm. cbn [length Nat.add]. rewrite seq_S, map_app, qsum_app. cbn [map qsum Nat.add].
  rewrite app_nth2, Nat.sub_diag by lia. cbn [nth]. destruct R as [|r0 R].
  - unfold weight, alpha. cbn. ring.
  - set (m := length (r0 :: R)). assert (Hm : 0 < m) by (unfold m; cbn; lia). unfold alpha. destruct (Nat.ltb_spec 0 m); [|lia]. fold (decay k).
    rewrite (map_ext_in _ (fun i => ((1 - decay k) * (weight k m i * nth i (r0 :: R) zero_row j))%Qc)).
    + rewrite <- (map_map (fun i => (weight k m i * nth i (r0 :: R) zero_row j)%Qc) (Qcmult (1 - decay k))), qsum_scale. unfold weight at 2. replace (S m - 1 - m) with 0 by lia. destruct (Nat.eqb_spec m 0); [lia|]. cbn [Qcpower]. ring.
    + intros i Hi. apply in_seq in Hi. rewrite app_nth1 by (fold m; lia). unfold weight. replace (S m - 1 - i) with (S (m - 1 - i)) by lia. cbn [Qcpower]. ring.
Qed.
Lemma average_step n R r j : average n (R ++ [r]) j = ((1 - alpha n (length R)) * average n R j + alpha n (length R) * r j)%Qc.
Proof. destruct n; [apply ewma_step|apply mean_step]. Qed.
(** the weights sum to 1 *)
Theorem C61_weights k m : 0 < m -> qsum (map (weight k m) (seq 0 m)) = 1%Qc.
Proof.
  intro H. assert (G : forall R : list row, length R = m -> (forall j, Forall (fun r : row => r j = 1%Qc) R) -> qsum (map (weight k m) (seq 0 m)) = ewma k R 0).
  { intros R HR H1. unfold ewma. rewrite HR. f_equal. apply map_ext_in. intros i Hi. apply in_seq in Hi. specialize (H1 0). rewrite Forall_forall in H1. rewrite (H1 (nth i R zero_row)); [ring|]. apply nth_In. lia. }
  rewrite (G (repeat (fun _ => 1%Qc) m)); [|apply repeat_length|intro j; apply Forall_forall; intros r Hr; apply repeat_spec in Hr; now rewrite Hr].
  clear G. induction m as [|m IH]; [lia|]. replace (S m) with (m + 1) by lia. rewrite repeat_app. cbn [repeat]. rewrite ewma_step, repeat_length. destruct m as [|m]; [unfold alpha; cbn; ring|]. rewrite IH by lia. ring.
Qed.

Section Centering.
  Variable sup : dtype -> bool.
  Notation b := (cent_node sup).
  Notation node := (node (list row) unit (attrs cent)).
  Notation orun := (orun (list row) unit cent pick tt b).
  Notation o_execute := (o_execute (list row) unit cent pick tt b).
  Notation o_inverse := (o_inverse (list row) unit cent b).
  Notation own s := (at_own (n_int _ _ _ s)).
  Notation seen := (seen (list row) unit cent).
  Notation known := (known (list row) unit cent b wf).

  Lemma cent_learner : learner (list row) unit cent b cent_ini cent_upd.
  Proof. constructor; cbn; try reflexivity; eauto. Qed.
  Definition Qcent (n : option nat) (l : list rarray) (i : cent) : Prop := c_n i = n /\ match c_avg i with None => l = [] | Some a => forall j, a j = average n (data_of l) j end.
  Lemma cent_lesson n : lesson (list row) unit cent pick b cent_ini cent_upd wf (Qcent n).
  Proof.
    constructor.
    - intros t x. apply wf_cast.
    - intros x. apply wf_rows.
    - intros l v x i (_ & _ & _ & _ & _ & Hq1 & Hq2). unfold cent_ini. destruct (c_avg (at_own (v_int _ v))) as [a|]; [discriminate|]. intros [= <-]. split; [exact Hq1|]. cbn. subst l. intro j. destruct n; cbn; [reflexivity|]. unfold mean. cbn. unfold zero_row. symmetry. apply Qcmult_0_l.
    - intros l v x (_ & _ & Hw & Hx & Hit & Hq1 & Hq2) (t & Ht1 & Ht2 & Ht3). destruct Ht2 as [<-|[]]. specialize (Ht3 eq_refl). unfold cent_upd. split; [exact Hq1|]. cbn [c_avg]. intro j.
      unfold wf in Hx. rewrite Ht3 in Hx. destruct (a_data x) as [|r [|]] eqn:Ed; try discriminate. unfold data_of. rewrite flat_map_app. cbn [flat_map]. rewrite Ed. cbn [app hd]. fold (data_of l).
      rewrite average_step, Hq1, Hit, total_data by exact Hw. f_equal. f_equal. destruct (c_avg (at_own (v_int _ v))) as [a|]; [apply Hq2|]. subst l. destruct n; cbn; [reflexivity|]. unfold mean. cbn. unfold zero_row. symmetry. apply Qcmult_0_l.
  Qed.
  Lemma cent_start n : Qcent n [] (cent0 n). Proof. now split. Qed.

  (** after any history the average is that of all rows trained on, the iteration their number *)
  Theorem C61_average n din dout dt s0 cs s rs : o_init _ _ _ b (cent0 n) din dout dt = (s0, Ok tt) -> orun cs s0 = (s, rs) -> Forall wf (flat_map (call_data _ _) cs) ->
    iteration _ _ _ s = length (data_of (seen s)) /\ (data_of (seen s) <> [] -> exists a, c_avg (own s) = Some a /\ forall j, a j = average n (data_of (seen s)) j).
  Proof.
    intros H0 H1 H2. destruct (learn_run _ _ _ _ _ _ _ _ cent_learner _ _ (cent_lesson n) _ _ _ _ _ _ _ _ (cent_start n) H0 H1 H2) as (_ & K2 & K3 & [_ K4] & _). rewrite K3, total_data by exact K2. split; [reflexivity|].
    intro Hne. destruct (c_avg (own s)) as [a|]; [eauto|]. now rewrite K4 in Hne.
  Qed.
  (** a training call that returns adds the rows of its data, in order *)
  Theorem C61_train n din dout dt s0 cs s rs x s' : o_init _ _ _ b (cent0 n) din dout dt = (s0, Ok tt) -> orun cs s0 = (s, rs) -> Forall wf (flat_map (call_data _ _) cs) -> wf x ->
    o_train _ _ _ pick b x tt s = (s', Ok tt) -> data_of (seen s') = data_of (seen s) ++ a_data x.
  Proof.
    intros H0 H1 H2 Hx E. pose proof (learn_run _ _ _ _ _ _ _ _ cent_learner _ _ (cent_lesson n) _ _ _ _ _ _ _ _ (cent_start n) H0 H1 H2) as K.
    pose proof (learn_train _ _ _ _ _ _ _ cent_learner _ _ (cent_lesson n) _ _ _ _ _ K Hx E) as [_ (t & d & E2 & Ht)].
    assert (t = Some false) as ->. { destruct K as (_ & _ & _ & _ & K5 & _). rewrite Ht. destruct (at_type (n_int _ _ _ s)) as [u|]; [|reflexivity]. destruct (K5 _ eq_refl) as [<-|[]]; reflexivity. }
    rewrite E2. unfold data_of at 1. rewrite flat_map_app. fold (data_of (seen s)). f_equal. cbn [lessons]. fold (data_of (rows _ pick (refcast _ d x))). rewrite rows_data by now apply wf_cast. apply cast_data.
  Qed.
  Notation reached n s := (exists din dout dt s0 cs rs, o_init _ _ _ b (cent0 n) din dout dt = (s0, Ok tt) /\ orun cs s0 = (s, rs) /\ Forall wf (flat_map (call_data _ _) cs)).
  Lemma reached_known n s : reached n s -> known (Qcent n) s.
  Proof. intros (din & dout & dt & s0 & cs & rs & H0 & H1 & H2). exact (learn_run _ _ _ _ _ _ _ _ cent_learner _ _ (cent_lesson n) _ _ _ _ _ _ _ _ (cent_start n) H0 H1 H2). Qed.
  (** execute subtracts the average of what was trained on, if that is more than one row *)
  Theorem C163_execute n s x s' y : reached n s -> wf x -> o_execute x tt s = (s', Ok y) ->
    if length (data_of (seen s')) <=? 1 then a_data y = a_data x
    else Forall2 (fun r q : row => forall j, q j = (r j - average n (data_of (seen s')) j)%Qc) (a_data x) (a_data y).
  Proof.
    intros Hr Hx E. apply reached_known in Hr. pose proof (learn_execute _ _ _ _ _ _ _ _ cent_learner _ _ (cent_lesson n) _ _ _ _ _ Hr Hx E) as (K & _ & H). destruct (H y eq_refl) as (d & _ & (_ & _ & Hw & _ & Hit & Hq1 & Hq2) & Hy). clear H.
    cbn [ob_execute cent_node] in Hy. injection Hy as Hy. unfold cent_map in Hy. rewrite Hit, total_data in Hy by exact Hw. destruct (length (data_of (seen s')) <=? 1) eqn:El; [injection Hy as <-; apply cast_data|].
    destruct (c_avg (at_own (v_int _ (view_of _ _ _ s')))) as [a|]; [|discriminate]. injection Hy as <-. cbn [a_data with_data]. rewrite cast_data. clear - Hq2. induction (a_data x) as [|r l IH]; constructor; [|exact IH]. intro j. now rewrite Hq2.
  Qed.
  (** inverse undoes execute *)
  Theorem C164_inverse n s x s' y : reached n s -> wf x -> o_execute x tt s = (s', Ok y) -> exists s2 z, o_inverse y tt s' = (s2, Ok z) /\ Forall2 (fun r q : row => forall j, q j = r j) (a_data x) (a_data z).
  Proof.
    intros Hr Hx E. apply reached_known in Hr. pose proof (learn_execute _ _ _ _ _ _ _ _ cent_learner _ _ (cent_lesson n) _ _ _ _ _ Hr Hx E) as (K & _ & H). destruct (H y eq_refl) as (d & Hnd & (Hin & _ & Hw & _ & Hit & Hq1 & Hq2) & Hy). clear H.
    cbn [ob_execute cent_node] in Hy. injection Hy as Hy. destruct K as (_ & _ & _ & _ & _ & Hp). specialize (Hp eq_refl). cbn [view_of v_in] in Hin. rewrite Hin in Hp. set (x' := refcast (list row) d x) in *.
    assert (Hnd' : a_ndim x' = 2) by (unfold x', refcast; destruct d as [d|]; [destruct (Nat.eqb _ d)|]; assumption).
    assert (Hs : a_ndim y = 2 /\ a_cols y = a_cols x'). { revert Hy. unfold cent_map. destruct (_ <=? 1); [intros [= <-]; auto|]. destruct (c_avg _); [|discriminate]. intros [= <-]. auto. }
    destruct Hs as [Hs1 Hs2]. unfold OnlineModel.o_inverse, bind, o_pre_inv. cbn [ob_invertible cent_node negb]. unfold bind. rewrite <- Hp. unfold check_output. rewrite Hs1. cbn [Nat.eqb negb]. rewrite <- Hp, Hs2, Nat.eqb_refl.
    unfold run_hook, lifted. cbn [ob_inverse cent_node lift run_prog]. unfold cent_map in *. cbn [view_of v_int add_event n_int] in *. destruct (at_iter (n_int _ _ _ s') <=? 1) eqn:Ei.
    - injection Hy as <-. eexists _, _. split; [reflexivity|]. rewrite !cast_data. unfold x'. rewrite cast_data. clear. induction (a_data x); constructor; auto.
    - destruct (c_avg (at_own (n_int _ _ _ s'))) as [a|]; [|discriminate]. injection Hy as <-. eexists _, _. split; [reflexivity|]. cbn [a_data with_data]. rewrite cast_data. cbn [a_data with_data]. unfold x'. rewrite cast_data. rewrite map_map. clear. induction (a_data x) as [|r l IH]; constructor; [|exact IH]. intro j. ring.
  Qed.
End Centering.

(** ** OnlineTimeDiffNode *)
Section TimeDiff.
  Variable sup : dtype -> bool.
  Notation b := (td_node sup).
  Notation orun := (orun (list row) unit td pick tt b).
  Notation o_execute := (o_execute (list row) unit td pick tt b).
  Notation o_train := (o_train (list row) unit td pick b).
  Notation own s := (at_own (n_int _ _ _ s)).
  Notation seen := (seen (list row) unit td).
  Notation known := (known (list row) unit td b wf).
  Lemma td_learner : learner (list row) unit td b td_ini td_upd.
  Proof. constructor; cbn; try reflexivity; eauto. Qed.
  (** in every mode x_cur is the last row trained on, x_prev the last row of the call of _train before *)
  Definition Qtd (l : list rarray) (i : td) : Prop :=
    Forall (fun x => 0 < a_rows x) l -> match rev l with
    | [] => True
    | [x] => exists p, i = Some (p, last_row (a_data x)) 
    | x :: y :: _ => i = Some (last_row (a_data y), last_row (a_data x))
    end.
  Lemma td_lesson : lesson (list row) unit td pick b td_ini td_upd wf Qtd.
  Proof.
    constructor.
    - intros t x. apply wf_cast.
    - intros x. apply wf_rows.
    - intros l v x i (_ & _ & _ & _ & _ & Hq). unfold td_ini. destruct (at_own (v_int _ v)) as [p|] eqn:E; [discriminate|]. intros [= <-]. intro HF. specialize (Hq HF). destruct (rev l) as [|z [|y r]]; [exact Logic.I|destruct Hq as [p Hq]; congruence|congruence].
    - intros l v x (_ & _ & _ & _ & _ & Hq) _. intro HF. apply Forall_app in HF as [HF _]. specialize (Hq HF). rewrite rev_app_distr. cbn [rev app]. unfold td_upd. destruct (rev l) as [|z [|y r]]; [eauto| |].
      + destruct Hq as [p Hq]. now rewrite Hq.
      + now rewrite Hq.
  Qed.
  Notation reached s := (exists din dout dt s0 cs rs, o_init _ _ _ b None din dout dt = (s0, Ok tt) /\ orun cs s0 = (s, rs) /\ Forall wf (flat_map (call_data _ _) cs)).
  Lemma reached_td s : reached s -> known Qtd s.
  Proof. intros (din & dout & dt & s0 & cs & rs & H0 & H1 & H2). refine (learn_run _ _ _ _ _ _ _ _ td_learner _ _ td_lesson _ _ _ _ _ _ _ _ _ H0 H1 H2). intros _. exact Logic.I. Qed.
  (** in incremental mode (every array given to _train has one row) execute takes the differences, starting from the last but one row trained on *)
  Lemma diffs_length l : forall p, length (diffs (p :: l)) = length l.
  Proof. induction l as [|a l IH]; intros p; [reflexivity|]. cbn [diffs length]. f_equal. apply IH. Qed.
  Lemma diffs_nth l : forall p i j, i < length l -> nth i (diffs (p :: l)) zero_row j = (nth i l zero_row j - nth i (p :: l) zero_row j)%Qc.
  Proof. induction l as [|a l IH]; intros p i j Hi; [cbn in Hi; lia|]. destruct i; [reflexivity|]. change (diffs (p :: a :: l)) with ((fun j => (a j - p j)%Qc) :: diffs (a :: l)). cbn [nth]. rewrite IH; [reflexivity|cbn in Hi; lia]. Qed.
  Theorem C165_incremental s x s' y R p c : reached s -> wf x -> o_execute x tt s = (s', Ok y) -> Forall (fun z => a_rows z = 1) (seen s') -> data_of (seen s') = R ++ [p; c] ->
    length (a_data y) = length (a_data x) /\
    forall i j, i < length (a_data x) -> nth i (a_data y) zero_row j = (nth i (a_data x) zero_row j - nth i (p :: a_data x) zero_row j)%Qc.
  Proof.
    intros Hr Hx E H1 HR. enough (a_data y = diffs (p :: a_data x)) as -> by (split; [apply diffs_length|apply diffs_nth]). revert HR.
    intros HR. apply reached_td in Hr. pose proof (learn_execute _ _ _ _ _ _ _ _ td_learner _ _ td_lesson _ _ _ _ _ Hr Hx E) as (K & _ & H). destruct (H y eq_refl) as (d & _ & (_ & _ & Hw & _ & _ & Hq) & Hy). clear H.
    cbn [ob_execute td_node] in Hy. injection Hy as Hy. unfold td_exec in Hy.
    assert (HF : Forall (fun z : rarray => 0 < a_rows z) (seen s')) by (eapply Forall_impl; [|exact H1]; cbn; intros; lia). specialize (Hq HF).
    assert (G : forall l, Forall wf l -> Forall (fun z : rarray => a_rows z = 1) l -> data_of l = R ++ [p; c] -> exists l0 z1 z2, l = l0 ++ [z1; z2] /\ a_data z1 = [p] /\ a_data z2 = [c]).
    { clear. intros l. destruct (rev l) as [|z2 r2] eqn:E2; intros Hw H1 HR; [apply (f_equal (@rev _)) in E2; rewrite rev_involutive in E2; subst l; destruct R; discriminate|].
      apply (f_equal (@rev _)) in E2. rewrite rev_involutive in E2. cbn [rev] in E2. subst l. apply Forall_app in Hw as [Hw Hw2]. apply Forall_cons_iff in Hw2 as [Hw2 _]. apply Forall_app in H1 as [H1 H2]. apply Forall_cons_iff in H2 as [H2 _].
      unfold wf in Hw2. rewrite H2 in Hw2. destruct (a_data z2) as [|c2 [|]] eqn:D2; try discriminate. unfold data_of in HR. rewrite flat_map_app in HR. cbn [flat_map] in HR. rewrite D2 in HR. cbn [app] in HR. change (R ++ [p; c]) with (R ++ [p] ++ [c]) in HR. rewrite app_assoc in HR. apply app_inj_tail in HR as [HR ->].
      destruct r2 as [|z1 r1]; [destruct R; discriminate|]. cbn [rev] in *. apply Forall_app in Hw as [Hw Hw1]. apply Forall_cons_iff in Hw1 as [Hw1 _]. apply Forall_app in H1 as [H1 H3]. apply Forall_cons_iff in H3 as [H3 _].
      unfold wf in Hw1. rewrite H3 in Hw1. destruct (a_data z1) as [|c1 [|]] eqn:D1; try discriminate. rewrite flat_map_app in HR. cbn [flat_map] in HR. rewrite D1 in HR. cbn [app] in HR. apply app_inj_tail in HR as [HR ->].
      exists (rev r1), z1, z2. rewrite <- app_assoc. auto. }
    destruct (G _ Hw H1 HR) as (l0 & z1 & z2 & El & D1 & D2). rewrite El, rev_app_distr in Hq. cbn [rev app] in Hq. rewrite Hq in Hy. injection Hy as <-. cbn [a_data with_data]. rewrite cast_data, D1. reflexivity.
  Qed.
End TimeDiff.

(** ** Examples and refutations *)
Definition arr (l : list Z) : rarray := mkArray 2 (length l) 1 0 (map (fun z _ => Q2Qc (inject_Z z)) l).
Definition col (x : rarray) : list Q := map (fun r : row => this (r 0)) (a_data x).
Definition all (_ : dtype) : bool := true.
Fixpoint outs {I} (b : obehaviour (list row) unit I) (cs : list (bool * list Z)) (s : node (list row) unit (attrs I)) : list (list Q) :=
  match cs with
  | [] => []
  | (true, x) :: cs => outs b cs (fst (o_train _ _ _ pick b (arr x) tt s))
  | (false, x) :: cs => let (s', r) := o_execute _ _ _ pick tt b (arr x) tt s in match r with Ok y => col y | Err _ => [] end :: outs b cs s'
  end.
Definition fresh {I} (b : obehaviour (list row) unit I) (i : I) : node (list row) unit (attrs I) := fst (o_init _ _ _ b i None None None).
Example C61_example : outs (cent_node all) [(true, [1; 2; 6]%Z); (true, [7%Z]); (false, [4; 5]%Z)] (fresh (cent_node all) (cent0 None)) = [[0; 1]]%Q.
Proof. vm_compute. reflexivity. Qed.
Example C61_weighted : outs (cent_node all) [(true, [8; 0]%Z); (true, [4%Z]); (false, [0%Z])] (fresh (cent_node all) (cent0 (Some 3))) = [[- (4 # 1)]]%Q.
Proof. vm_compute. reflexivity. Qed.
Example C165_example : outs (td_node all) [(true, [1%Z]); (false, [1%Z]); (true, [5%Z]); (false, [5; 7]%Z)] (fresh (td_node all) None) = [[1]; [4; 2]]%Q.
Proof. vm_compute. reflexivity. Qed.
(** C163: after one row the average is that row, but execute returns its input *)
Theorem C163_first_refuted : exists x, outs (cent_node all) [(true, x); (false, x)] (fresh (cent_node all) (cent0 None)) = [[5]]%Q /\ x = [5%Z].
Proof. exists [5%Z]. vm_compute. auto. Qed.
(** C166: in batch mode x_prev is the last row of the block before; after the first block execute returns too many rows *)
Definition batch {I} (b : obehaviour (list row) unit I) (s : node (list row) unit (attrs I)) : node (list row) unit (attrs I) := fst (o_set_type _ _ _ b true s).
Theorem C166_batch_refuted : exists x y, length y = 3 /\ outs (td_node all) [(true, x); (false, y)] (batch (td_node all) (fresh (td_node all) None)) = [[0; 0; 3; 1; 1]]%Q /\ x = [1; 2; 3]%Z /\ y = [3; 4; 5]%Z.
Proof. exists [1; 2; 3]%Z, [3; 4; 5]%Z. vm_compute. auto. Qed.
Theorem C166_second_batch_refuted : exists x1 x2 y, outs (td_node all) [(true, x1); (true, x2); (false, y)] (batch (td_node all) (fresh (td_node all) None)) = [[3; 1; 1]]%Q /\ x1 = [1; 2; 3]%Z /\ x2 = [4; 5; 6]%Z /\ y = [6; 7; 8]%Z.
Proof. exists [1; 2; 3]%Z, [4; 5; 6]%Z, [6; 7; 8]%Z. vm_compute. auto. Qed.
