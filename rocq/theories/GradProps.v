(** Properties of the extension 'gradient' (GradModel.v). *)
From Coq Require Import List Arith ZArith QArith Qcanon Bool Lia Field.
From Verif Require Import OField LinAlg SymeigModel QuadModel QuadProofs ExpModel ExpProofs GradModel GradProofs.
Import ListNotations.
Open Scope of_scope.

Section Flows.
  Context {K : ofield}.
  Add Field Kgp4 : (fth K).
  Notation vec := (vec (K := K)). Notation mtx := (mtx (K := K)). Notation gnode := (gnode (K := K)). Notation data := (data (K := K)).

  Lemma Forall2_map_r {A B C} (R : A -> C -> Prop) (f : B -> C) (l : list A) (l' : list B) : Forall2 (fun a b => R a (f b)) l l' -> Forall2 R l (map f l').
  Proof. induction 1; cbn; constructor; auto. Qed.
  Lemma F2_length {A B} (R : A -> B -> Prop) l l' : Forall2 R l l' -> length l = length l'.
  Proof. induction 1; cbn; auto. Qed.
  Lemma Forall2_imp {A B} (R R' : A -> B -> Prop) l l' : (forall a b, R a b -> R' a b) -> Forall2 R l l' -> Forall2 R' l l'.
  Proof. intros H. induction 1; constructor; auto. Qed.
  Lemma Forall2_comb {A B C D} (R : A -> B -> Prop) (R' : A -> C -> Prop) (S : A -> D -> Prop) (f : B -> C -> D) l m m' :
    (forall a b c, R a b -> R' a c -> S a (f b c)) -> Forall2 R l m -> Forall2 R' l m' -> Forall2 S l (map (fun p => f (fst p) (snd p)) (combine m m')).
  Proof. intros H F. revert m'. induction F as [|a b l m Hab _ IH]; intros m' F'; inversion F'; subst; cbn; constructor; auto. Qed.

  Lemma good_dims (t : gnode) : good t = true -> in_dim t = Some (din t) /\ out_dim t = Some (dout t) /\ in_training t = false.
  Proof.
    induction t as [d|b n m s v|d|b n m s v|ts IH|ts IH|n c|k u IH|n m f] using gnode_rect'; intros G; try (apply smooth_dims; exact G).
    - repeat split.
    - cbn [good] in G. apply andb_true_iff in G. destruct G as [G _]. apply andb_true_iff in G. destruct G as [_ G]. destruct (IH G) as (I & O & T).
      unfold din, dout. cbn [in_dim out_dim in_training]. rewrite I, O. 
      assert (forall a k, osum (repeat (Some a) k) = Some (k * a)%nat) as R. { intros a. induction k0 as [|k0 IHk]; [reflexivity|]. cbn [repeat osum fold_right]. unfold osum in IHk. now rewrite IHk. }
      now rewrite !R.
  Qed.
  Lemma clone_dims k (u : gnode) : in_dim u = Some (din u) -> out_dim u = Some (dout u) -> din (GClone k u) = (k * din u)%nat /\ dout (GClone k u) = (k * dout u)%nat.
  Proof.
    intros I O. assert (forall a k, osum (repeat (Some a) k) = Some (k * a)%nat) as R. { intros a. induction k0 as [|k0 IHk]; [reflexivity|]. cbn [repeat osum fold_right]. unfold osum in IHk. now rewrite IHk. }
    unfold din at 1, dout at 1. cbn [in_dim out_dim]. rewrite I, O, !R. now split.
  Qed.
  Lemma good_clone k (u : gnode) : good (GClone k u) = true -> (k <> 0)%nat /\ good u = true /\ (din u <> 0)%nat /\ din (GClone k u) = (k * din u)%nat /\ dout (GClone k u) = (k * dout u)%nat.
  Proof.
    cbn [good]. rewrite !andb_true_iff, !negb_true_iff, !Nat.eqb_neq. intros ((N & G) & D). destruct (good_dims u G) as (I & O & _). destruct (clone_dims k u I O). now repeat split.
  Qed.
  (** a smooth node with a gradient *)
  Lemma gradient_smooth (t : gnode) n0 (h : vec -> vec) zs ms : smooth t = true -> zs <> [] -> Forall2 (fun z M => deriv n0 (din t) h z M) zs ms ->
    exists ms', gradient t (mkD (din t) (map h zs)) (Some (G3 (din t) n0 ms)) = inr (mkD (dout t) (map (fun z => fx t (h z)) zs), G3 (dout t) n0 ms') /\
      Forall2 (fun z M => deriv n0 (dout t) (fun z => fx t (h z)) z M) zs ms'.
  Proof.
    intros S NE F. destruct (smooth_dims t S) as (I & O & T).
    assert (length ms = length zs) as L by (symmetry; eapply F2_length; eassumption).
    set (js := map (fun z => jac t (h z)) zs).
    exists (map (fun p => mmul (din t) (fst p) (snd p)) (combine js ms)). split.
    - assert (gradient t (mkD (din t) (map h zs)) (Some (G3 (din t) n0 ms)) =
        match get_grad t (mkD (din t) (map h zs)) with inl e => inl e | inr ng => match product ng (G3 (din t) n0 ms) with inl e => inl e | inr g' => match raw t (mkD (din t) (map h zs)) with inl e => inl e | inr y => inr (y, g') end end end) as ->.
      { destruct t; try discriminate S; cbn [gradient]; rewrite ?T; try reflexivity; cbn [in_training] in T; subst; reflexivity. }
      rewrite grad_smooth; [|exact S|reflexivity|cbn; destruct zs; [congruence|discriminate]]. rewrite raw_smooth by (exact S || reflexivity). cbn [d_rows]. rewrite map_map. fold js.
      assert (product (G3 (dout t) (din t) js) (G3 (din t) n0 ms) = inr (G3 (dout t) n0 (map (fun p => mmul (din t) (fst p) (snd p)) (combine js ms)))) as ->.
      { unfold product. destruct js as [|j js'] eqn:E; [exfalso; unfold js in E; destruct zs; [congruence|discriminate]|]. rewrite <- E. replace (length ms <? length js) with false by (symmetry; apply Nat.ltb_ge; unfold js; rewrite map_length; lia). now rewrite Nat.eqb_refl. }
      now rewrite map_map.
    - refine (Forall2_comb (fun z M => M = jac t (h z)) _ _ (fun A B => mmul (din t) A B) zs js ms _ _ F).
      + intros z J M -> HM. apply (deriv_chain n0 (din t) (dout t) h (fx t) z M (jac t (h z)) HM). now apply node_deriv.
      + unfold js. clear. induction zs; cbn; constructor; auto.
  Qed.
  (** every node with a gradient *)
  Lemma continues : forall (t : gnode) n0 (h : vec -> vec) zs ms, good t = true -> zs <> [] -> Forall2 (fun z M => deriv n0 (din t) h z M) zs ms ->
    exists ms', gradient t (mkD (din t) (map h zs)) (Some (G3 (din t) n0 ms)) = inr (mkD (dout t) (map (fun z => fx t (h z)) zs), G3 (dout t) n0 ms') /\
      Forall2 (fun z M => deriv n0 (dout t) (fun z => fx t (h z)) z M) zs ms'.
  Proof.
    induction t as [d|b n m s v|d|b n m s v|ts IH|ts IH|n c|k u IH|n m f] using gnode_rect'; intros n0 h zs ms G NE F;
      try (match goal with |- context [gradient ?t] => exact (gradient_smooth t n0 h zs ms G NE F) end).
    - cbn [good] in G. cbn [gradient raw d_cols]. unfold din, dout in *. cbn [in_dim out_dim] in *. rewrite G. cbn [d_rows]. rewrite map_map.
      exists (map (fun (M : mtx) r => M (nth r c 0%nat)) ms). split; [reflexivity|]. apply Forall2_map_r. eapply Forall2_imp; [|exact F]. cbn beta. intros z M H. rewrite deriv_coord in *.
      intros o Ho. cbn [fx]. apply (H (nth o c 0%nat)). rewrite forallb_forall in G. apply Nat.ltb_lt, G. now apply nth_In.
    - destruct (good_clone k u G) as (Nk & Gu & Nd & DI & DO). destruct (good_dims u Gu) as (Iu & Ou & Tu). rewrite DI, DO in *. set (d := din u) in *. set (o := dout u) in *.
      cbn [gradient d_cols]. replace (k * d / k)%nat with d by (rewrite Nat.mul_comm, Nat.div_mul; [reflexivity|exact Nk]). rewrite (proj2 (Nat.eqb_neq d 0) Nd). cbn [d_rows]. rewrite map_length.
      set (x := mkD (k * d) (map h zs)).
      assert (forall m a, (a + S m <= k)%nat -> exists L ms', all_ok (map (fun j => gradient u (cut (d * j) (d * (j + 1)) x) (option_map (split_grd k j) (Some (G3 (k * d) n0 ms)))) (seq a (S m))) = inr L /\
        dsum (map (fun p => (d_cols (fst p), d_rows (fst p))) L) = (S m * o)%nat /\
        join (map (fun p => (d_cols (fst p), d_rows (fst p))) L) (length zs) = map (fun z => stackf (repeat (d, o, fx u) (S m)) (d * a) (h z)) zs /\
        stack (map snd L) = inr (G3 (S m * o) n0 ms') /\ Forall2 (fun z M => deriv n0 (S m * o) (fun z => stackf (repeat (d, o, fx u) (S m)) (d * a) (h z)) z M) zs ms') as Q.
      { assert (forall a, (a < k)%nat -> exists ms', gradient u (cut (d * a) (d * (a + 1)) x) (option_map (split_grd k a) (Some (G3 (k * d) n0 ms))) =
          inr (mkD o (map (fun z => fx u (fun c => h z (d * a + c)%nat)) zs), G3 o n0 ms') /\ Forall2 (fun z M => deriv n0 o (fun z => fx u (fun c => h z (d * a + c)%nat)) z M) zs ms') as Q1.
        { intros a Ha. specialize (IH n0 (fun z c => h z (d * a + c)%nat) zs (map (fun (M : mtx) r c => M (d * a + r)%nat c) ms) Gu NE). destruct IH as (ms' & E & F').
          - apply Forall2_map_r. eapply Forall2_imp; [|exact F]. cbn beta. intros z M H. rewrite deriv_coord in *. intros r Hr. apply (H (d * a + r)%nat). fold d in Hr. nia.
          - exists ms'. split; [|exact F']. fold d o in E. rewrite <- E. cbn [option_map split_grd]. 
            rewrite (Nat.mul_comm k d) at 1. rewrite Nat.mod_mul by exact Nk. cbn [Nat.eqb]. rewrite (Nat.mul_comm k d), Nat.div_mul by exact Nk.
            unfold cut. unfold x at 1 2 3. cbn [d_cols d_rows]. rewrite map_map. replace (Nat.min (d * (a + 1)) (k * d) - Nat.min (d * a) (k * d))%nat with d by nia. reflexivity. }
        induction m as [|m IHm]; intros a Ha.
        - destruct (Q1 a ltac:(lia)) as (ms' & E & F'). cbn [seq map all_ok]. rewrite E. exists [(mkD o (map (fun z => fx u (fun c => h z (d * a + c)%nat)) zs), G3 o n0 ms')], ms'. repeat split.
          + cbn [map join fst snd d_cols d_rows repeat stackf]. rewrite repeat_map, combine_maps, map_map. reflexivity.
          + cbn [map stack]. replace (1 * o)%nat with o by lia. reflexivity.
          + eapply Forall2_imp; [|exact F']. intros z M H. replace (1 * o)%nat with o by lia. eapply deriv_ext; [|reflexivity|exact H]. intros y r Hr. cbn [repeat stackf]. unfold hcat. now rewrite (proj2 (Nat.ltb_lt r o) Hr).
        - destruct (Q1 a ltac:(lia)) as (ms' & E & F'). destruct (IHm (a + 1)%nat ltac:(lia)) as (L & ms'' & E2 & D2 & J2 & S2 & F2). clear IHm.
          change (seq a (S (S m))) with (a :: seq (S a) (S m)). cbn [map all_ok]. rewrite E. replace (S a) with (a + 1)%nat by lia. rewrite E2.
          exists ((mkD o (map (fun z => fx u (fun c => h z (d * a + c)%nat)) zs), G3 o n0 ms') :: L). eexists. split; [reflexivity|]. cbn [map fst snd d_cols d_rows]. split; [cbn [dsum fold_right fst snd]; unfold dsum in D2; rewrite D2; lia|]. split.
          + cbn [join]. rewrite J2. rewrite combine_maps, map_map. change (repeat (d, o, fx u) (S (S m))) with ((d, o, fx u) :: repeat (d, o, fx u) (S m)). cbn [fst snd]. 
            apply map_ext. intros z. cbn [stackf]. now replace (d * (a + 1))%nat with (d * a + d)%nat by lia.
          + assert (exists g, map snd L = g :: tl (map snd L)) as [g Eg]. { destruct (map snd L) as [|g r]; [discriminate S2|]. now exists g. }
            assert (stack (G3 o n0 ms' :: map snd L) = stack2 (G3 o n0 ms') (G3 (S m * o) n0 ms'')) as ->.
            { rewrite Eg in *. cbn [stack]. cbn [stack] in S2. now rewrite S2. }
            cbn [stack2]. rewrite Nat.eqb_refl. split; [reflexivity|].
            refine (Forall2_comb _ _ _ (fun A B : mtx => fun r c => if r <? o then A r c else B (r - o)%nat c) zs ms' ms'' _ F' F2). cbn beta. intros z A B HA HB.
            change (S (S m) * o)%nat with (o + S m * o)%nat. eapply deriv_ext; [|reflexivity|exact (hcat_deriv n0 o (S m * o) _ _ z A B HA HB)]. intros y r Hr.
            change (repeat (d, o, fx u) (S (S m))) with ((d, o, fx u) :: repeat (d, o, fx u) (S m)). cbn [stackf]. now replace (d * (a + 1))%nat with (d * a + d)%nat by lia. }
      destruct k as [|k]; [congruence|]. destruct (Q k 0%nat ltac:(lia)) as (L & ms' & E & D & J & St & F'). rewrite E, D, J, St. exists ms'. cbn [fx]. fold d o. rewrite Nat.mul_0_r in *. split; [reflexivity|exact F'].
  Qed.
  Lemma raw_good (t : gnode) : good t = true -> forall x, d_cols x = din t -> raw t x = inr (mkD (dout t) (map (fx t) (d_rows x))).
  Proof.
    induction t as [d|b n m s v|d|b n m s v|ts IH|ts IH|n c|k u IH|n m f] using gnode_rect'; intros G x D; try (apply raw_smooth; [exact G|exact D]).
    - cbn [good] in G. unfold din, dout in *. cbn in *. now rewrite D, G.
    - destruct (good_clone k u G) as (Nk & Gu & Nd & DI & DO). destruct (good_dims u Gu) as (Iu & Ou & Tu). cbn [raw]. rewrite D, DI, DO.
      replace (k * din u / k)%nat with (din u) by (rewrite Nat.mul_comm, Nat.div_mul; [reflexivity|exact Nk]). rewrite (proj2 (Nat.eqb_neq (din u) 0) Nd).
      rewrite Ou.
      set (ex := fun xs => match checks u xs with Some e => inl e | None => raw u xs end).
      assert (map (fun _ : nat => (Some (din u), Some (dout u), ex)) (seq 0 k) = map (fun b : nat * nat * (vec -> vec) => (Some (fst (fst b)), Some (snd (fst b)), ex)) (repeat (din u, dout u, fx u) k)) as ->.
      { generalize 0%nat. clear. induction k as [|k IH]; intros a; [reflexivity|]. cbn. now rewrite IH. }
      assert (ins (repeat (din u, dout u, fx u) k) = (k * din u)%nat) as EI. { clear. induction k as [|k IH]; [reflexivity|]. cbn [repeat ins fold_right fst snd]. unfold ins in IH. rewrite IH. lia. }
      assert (outs (repeat (din u, dout u, fx u) k) = (k * dout u)%nat) as EO. { clear. induction k as [|k IH]; [reflexivity|]. cbn [repeat outs fold_right fst snd]. unfold outs in IH. rewrite IH. lia. }
      destruct (columns_ok (repeat (din u, dout u, fx u) k) (fun _ => ex) 0 x) as (r & E & Ds & J).
      + rewrite EI, D, DI. lia.
      + intros b Hb z Hz. apply repeat_spec in Hb. subst b. cbn [fst snd] in *. unfold ex. rewrite checks_ok by assumption. now apply IH.
      + rewrite E, Ds, J, EO. reflexivity.
  Qed.
  Lemma execute_good (t : gnode) : good t = true -> forall x, d_cols x = din t -> execute t x = inr (mkD (dout t) (map (fx t) (d_rows x))).
  Proof. intros G x D. destruct (good_dims t G) as (I & _ & T). unfold execute. rewrite checks_ok by assumption. now apply raw_good. Qed.
  Lemma touch_good (t : gnode) x : good t = true -> touch t x = t. Proof. destruct t as [[|]| |[|]| | | | | |]; try reflexivity; discriminate. Qed.

  (** ** C343: a gradient in the message is continued *)
  Theorem C343_continues : forall (t : gnode) n0 (h : vec -> vec) zs ms, good t = true -> zs <> [] -> Forall2 (fun z M => deriv n0 (din t) h z M) zs ms ->
    exists F ms', (forall x, d_cols x = din t -> execute t x = inr (mkD (dout t) (map F (d_rows x)))) /\ gradient t (mkD (din t) (map h zs)) (Some (G3 (din t) n0 ms)) = inr (mkD (dout t) (map (fun z => F (h z)) zs), G3 (dout t) n0 ms') /\ Forall2 (fun z M => deriv n0 (dout t) (fun z => F (h z)) z M) zs ms'.
  Proof.
    intros t n0 h zs ms G NE F. destruct (continues t n0 h zs ms G NE F) as (ms' & E & D). exists (fx t), ms'. split; [now apply execute_good|]. now split.
  Qed.

  (** ** C342: the gradient of a BiFlow *)
  Fixpoint linked (n : nat) (ts : list gnode) : Prop := match ts with [] => True | t :: ts => good t = true /\ din t = n /\ linked (dout t) ts end.
  Definition last_dim (n : nat) (ts : list gnode) : nat := fold_left (fun _ t => dout t) ts n.
  Definition all_fx (ts : list gnode) (v : vec) : vec := fold_left (fun v t => fx t v) ts v.
  Lemma flow_good ts : forall n, linked n ts -> forall x, d_cols x = n -> flow_execute ts x = (ts, inr (mkD (last_dim n ts) (map (all_fx ts) (d_rows x)))).
  Proof.
    induction ts as [|t ts IH]; intros n L x D; [cbn; unfold all_fx; cbn; rewrite map_id; subst; now destruct x|].
    destruct L as (G & E & L). cbn [flow_execute]. rewrite execute_good by (try assumption; now rewrite D). rewrite (IH _ L) by reflexivity. rewrite touch_good by exact G. cbn [d_rows]. rewrite map_map. reflexivity.
  Qed.
  Lemma run_good ts : forall n0 n (h : vec -> vec) zs ms, linked n ts -> zs <> [] -> Forall2 (fun z M => deriv n0 n h z M) zs ms ->
    exists ms', run (map (pair true) ts) (mkD n (map h zs)) (Some (G3 n n0 ms)) = inr (mkD (last_dim n ts) (map (fun z => all_fx ts (h z)) zs), Some (G3 (last_dim n ts) n0 ms')) /\ Forall2 (fun z M => deriv n0 (last_dim n ts) (fun z => all_fx ts (h z)) z M) zs ms'.
  Proof.
    induction ts as [|t ts IH]; intros n0 n h zs ms L NE F; [exists ms; now split|]. destruct L as (G & <- & L).
    destruct (continues t n0 h zs ms G NE F) as (ms1 & E1 & F1). cbn [map run]. rewrite E1.
    destruct (IH n0 (dout t) (fun z => fx t (h z)) zs ms1 L NE F1) as (ms2 & E2 & F2). exists ms2. split; [exact E2|exact F2].
  Qed.
  Lemma eye_deriv n (zs : list vec) : Forall2 (fun z M => deriv n n (fun v => v) z M) zs (repeat delta (length zs)).
  Proof. induction zs as [|z zs IH]; cbn; constructor; [|exact IH]. apply deriv_coord. intros o Ho. now apply deriv1_coord. Qed.
  (** with the unit matrices given *)
  Theorem C348_eye : forall n ts x, linked n ts -> d_cols x = n -> d_rows x <> [] ->
    exists F m ms, (forall z, d_cols z = n -> flow_execute ts z = (ts, inr (mkD m (map F (d_rows z))))) /\ run (map (pair true) ts) x (Some (eye n (length (d_rows x)))) = inr (mkD m (map F (d_rows x)), Some (G3 m n ms)) /\ Forall2 (fun v M => deriv n m F v M) (d_rows x) ms.
  Proof.
    intros n ts x L D NE. destruct (run_good ts n n (fun v => v) (d_rows x) _ L NE (eye_deriv n (d_rows x))) as (ms & E & F).
    exists (all_fx ts), (last_dim n ts), ms. split; [intros z Hz; now apply flow_good|]. split; [|exact F]. rewrite map_id in E. destruct x. cbn in *. subst. exact E.
  Qed.
  Definition is_clone (t : gnode) : bool := match t with GClone _ _ => true | _ => false end.
  Lemma gradient_eye (t : gnode) x : good t = true -> is_clone t = false -> gradient t x None = gradient t x (Some (eye (din t) (length (d_rows x)))).
  Proof.
    intros G C. destruct (good_dims t G) as (I & _ & _). destruct t; try discriminate; cbn [gradient]; try reflexivity; try (rewrite I; reflexivity).
  Qed.
  Theorem C342_total : forall n t ts x, linked n (t :: ts) -> is_clone t = false -> d_cols x = n -> d_rows x <> [] ->
    exists F m ms, (forall z, d_cols z = n -> flow_execute (t :: ts) z = (t :: ts, inr (mkD m (map F (d_rows z))))) /\ run (map (pair true) (t :: ts)) x None = inr (mkD m (map F (d_rows x)), Some (G3 m n ms)) /\ Forall2 (fun v M => deriv n m F v M) (d_rows x) ms.
  Proof.
    intros n t ts x L C D NE. destruct (C348_eye n (t :: ts) x L D NE) as (F & m & ms & A & B & Q). exists F, m, ms. split; [exact A|]. split; [|exact Q].
    rewrite <- B. cbn [map run]. destruct L as (G & <- & _). now rewrite gradient_eye.
  Qed.
  (** the derivative is determined by the function *)
  Theorem C342_unique : forall n m (F : vec -> vec) x J J', deriv n m F x J -> deriv n m F x J' -> forall o i, (o < m)%nat -> (i < n)%nat -> J o i = J' o i.
  Proof. intros n m F x J J' H H' o i Ho Hi. rewrite deriv_coord in H, H'. exact (deriv1_unique n _ x _ _ (H o Ho) (H' o Ho) i Hi). Qed.

  (** a gradient with another number of rows than the input_dim of an SFANode raises *)
  Theorem C342_mismatch : forall n k (sf : mtx) b x a n0 ms, a <> n -> d_rows x <> [] -> (length (d_rows x) <= length ms)%nat ->
    gradient (GSfa false n k sf b) x (Some (G3 a n0 ms)) = inl XValue.
  Proof.
    intros n k sf b x a n0 ms Ha Hr Hl. cbn [gradient in_training get_grad product]. destruct (d_rows x) as [|r rows] eqn:E; [congruence|]. cbn [map].
    replace (length ms <? length (transpose sf :: map (fun _ => transpose sf) rows)) with false.
    - destruct (Nat.eqb_spec n a); [congruence|reflexivity].
    - symmetry. apply Nat.ltb_ge. cbn [length] in *. rewrite map_length. exact Hl.
  Qed.

  (** ** C345: nodes which have not been executed *)
  Theorem C345_touched : forall (t : gnode) x, t = GId None \/ t = GQuad None ->
    (forall g, gradient t x (Some g) = inl XType) /\ gradient t x None = inl XType /\ linked (d_cols x) [touch t x] /\ is_clone (touch t x) = false.
  Proof. intros t x [-> | ->]; repeat split. Qed.

  (** ** C349: stop_gradient *)
  Theorem C349_never : forall (t : gnode) b x g, is_clone t = false -> stop_gradient t b x g = inl XTrain \/ stop_gradient t b x g = inl XFinished.
  Proof.
    intros t b x g C. unfold stop_gradient. destruct (in_training t) eqn:T; [|now right]. left. destruct b; [|reflexivity]. cbn [andb negb].
    destruct t; try discriminate C; cbn [in_training] in T; try discriminate T; cbn [gradient in_training]; rewrite T; reflexivity.
  Qed.

  (** ** C351: data of a wrong dimension *)
  Theorem C351_checked : forall (t : gnode) x, good t = true -> match t with GSfa _ _ _ _ _ | GQuad _ | GSfa2 _ _ _ _ _ => True | _ => False end -> d_cols x <> din t ->
    gradient t x None = inl XValue.
  Proof.
    intros t x G T N. apply Nat.eqb_neq in N. destruct t; try contradiction; cbn [good smooth] in G.
    - destruct training; [discriminate|]. unfold din in N. cbn [in_dim] in N. cbn [gradient in_training in_dim get_grad raw]. rewrite N. destruct (d_rows x) as [|v vs]; [reflexivity|].
      cbn [map length product eye repeat]. rewrite repeat_length, map_length, Nat.ltb_irrefl, Nat.eqb_refl. reflexivity.
    - destruct dim; [|discriminate]. unfold din in N. cbn in *. rewrite N. reflexivity.
    - destruct training; [discriminate|]. unfold din in N. cbn in *. rewrite N. reflexivity.
  Qed.
End Flows.

(** ** Concrete nodes *)
Notation qz := (fun n => Q2Qc (inject_Z n)).
Definition qv (l : list Z) : vec (K := Qc_of) := fun i => qz (nth i l 0%Z).
Definition qm (l : list (list Z)) : mtx (K := Qc_of) := fun i j => qz (nth j (nth i l []) 0%Z).
Definition sfa' (n m : nat) (sf : list (list Z)) (b : list Z) : gnode (K := Qc_of) := GSfa (K := Qc_of) false n m (qm sf) (qv b).
Definition show_m (a b : nat) (M : mtx (K := Qc_of)) : list (list Q) := map (fun i => map (fun j => this (M i j)) (seq 0 b)) (seq 0 a).
Definition show (r : gexn + data (K := Qc_of) * option (grd (K := Qc_of))) : option (list (list Q) * list (list (list Q))) :=
  match r with inr (y, Some (G3 a b ms)) => Some (map (fun v => map (fun i => this (v i)) (seq 0 (d_cols y))) (d_rows y), map (show_m a b) ms) | _ => None end.
Definition qd (c : nat) (l : list (list Z)) : data (K := Qc_of) := mkD c (map qv l).
(** a derivative found by [run] is compared with another matrix *)
Lemma not_deriv n m (F : vec (K := Qc_of) -> vec (K := Qc_of)) v M M' o i : deriv (K := Qc_of) n m F v M -> (o < m)%nat -> (i < n)%nat -> Qeq_bool (this (M o i)) (this (M' o i)) = false -> ~ deriv (K := Qc_of) n m F v M'.
Proof. intros H Ho Hi N H'. rewrite (C342_unique n m F v M M' H H' o i Ho Hi) in N. assert (Qeq_bool (this (M' o i)) (this (M' o i)) = true) by (apply Qeq_bool_iff; reflexivity). congruence. Qed.
Lemma affine_deriv n m (A : mtx (K := Qc_of)) b v : deriv (K := Qc_of) n m (mult_sf (K := Qc_of) n m A b) v (transpose A).
Proof. apply deriv_coord. intros o Ho. exact (deriv1_affine n (fun i => A i o) (b o) v). Qed.

(** C342: a layer of an expansion and a linear node, then a Switchboard and an SFA2Node *)
Definition ex_flow : list (gnode (K := Qc_of)) :=
  [GLayer [GQuad (Some 2%nat); sfa' 1 1 [[3]]%Z [5]%Z]; GSwitch 6 [3; 5; 0]%nat; GSfa2 (K := Qc_of) false 3 1 (qm [[1]; [0]; [0]; [0]; [2]; [0]; [0]; [0]; [0]]%Z) (qv [0]%Z)].
Example C342_ex : show (run (map (pair true) ex_flow) (qd 3 [[2; 7; 4]; [1; 0; 0]]%Z) None) = Some ([[210 # 1]; [0 # 1]], [[[105 # 1; 30 # 1; 84 # 1]]; [[0 # 1; -9 # 1; 0 # 1]]])%Q.
Proof. vm_compute. reflexivity. Qed.
Example C342_ex_linked : linked 3 ex_flow. Proof. repeat split. Qed.

(** C343: the gradient of an SFANode is continued by a CloneBiLayer of two SFA2Nodes *)
Example C343_ex : show (run [(true, sfa' 1 2 [[1; 2]]%Z [0; 1]%Z); (true, GClone 2 (GSfa2 (K := Qc_of) false 1 1 (qm [[1]; [1]]%Z) (qv [0]%Z)))] (qd 1 [[3]]%Z) None) = Some ([[12 # 1; 30 # 1]], [[[7 # 1]; [22 # 1]]])%Q.
Proof. vm_compute. reflexivity. Qed.

(** C344: a normal node in the BiFlow *)
Theorem C344_refuted : exists (fl : list (bool * gnode (K := Qc_of))) v y g F,
  run fl (mkD 1 [v]) None = inr (y, Some (G3 1 1 [g])) /\ (forall z, d_cols z = 1%nat -> flow_execute (map snd fl) z = (map snd fl, inr (mkD 1 (map F (d_rows z))))) /\ ~ deriv (K := Qc_of) 1 1 F v g.
Proof.
  set (a := sfa' 1 1 [[1]]%Z [0]%Z). set (b := sfa' 1 1 [[2]]%Z [0]%Z). assert (linked 1 [a; b]) as L by (repeat split).
  exists [(true, a); (false, b)], (qv [1]%Z), (mkD 1 [fx b (fx a (qv [1]%Z))]), (mmul (K := Qc_of) 1 (transpose (qm [[1]]%Z)) delta), (all_fx [a; b]). split; [reflexivity|]. split.
  - intros z Hz. exact (flow_good [a; b] 1 L z Hz).
  - destruct (run_good [a; b] 1 1 (fun v => v) [qv [1]%Z] _ L ltac:(discriminate) (eye_deriv 1 [qv [1]%Z])) as (ms & E & D). inversion D as [|? M ? ms' DM DN]; subst. inversion DN; subst.
    assert (M = mmul (K := Qc_of) 1 (transpose (qm [[2]]%Z)) (mmul (K := Qc_of) 1 (transpose (qm [[1]]%Z)) delta)) as -> by (injection E as <-; reflexivity).
    apply (not_deriv 1 1 _ _ _ _ 0 0 DM ltac:(lia) ltac:(lia)). vm_compute. reflexivity.
Qed.

(** C345: a flow which has been executed without gradient only *)
Theorem C345_refuted : exists (ts : list (gnode (K := Qc_of))) x y, snd (flow_execute ts x) = inr y /\ run (map (pair true) ts) x None = inl XType /\
  exists r, run (map (pair true) (fst (flow_execute ts x))) x None = inr r.
Proof. exists [GQuad None], (qd 1 [[3]]%Z), (mkD 2 [expand (K := Qc_of) 1 (qv [3]%Z)]). split; [reflexivity|]. split; [reflexivity|]. eexists. reflexivity. Qed.
Example C345_ex : show (run (map (pair true) (fst (flow_execute [GQuad None] (qd 1 [[3]]%Z)))) (qd 1 [[3]]%Z) None) = Some ([[3 # 1; 9 # 1]], [[[1 # 1]; [6 # 1]]])%Q.
Proof. vm_compute. reflexivity. Qed.

(** C346: a Switchboard in a Layer *)
Theorem C346_refuted : exists (u : gnode (K := Qc_of)) x, d_rows x <> [] /\ (exists r, gradient u x None = inr r) /\ (exists y, execute (GLayer [u]) x = inr y) /\ gradient (GLayer [u]) x None = inl XNotImpl.
Proof. exists (GSwitch 2 [1; 0]%nat), (qd 2 [[1; 2]]%Z). split; [discriminate|]. split; [eexists; reflexivity|]. split; [eexists; reflexivity|reflexivity]. Qed.

(** C347: SameInputLayer *)
Definition same2 (n : nat) : gnode (K := Qc_of) := GSame [GSfa (K := Qc_of) false n 1 (fun _ _ => qz 1%Z) (qv []); GSfa (K := Qc_of) false n 1 (fun _ _ => qz 2%Z) (qv [])].
Theorem C347_refuted : forall v : vec (K := Qc_of), (exists y, execute (same2 2) (mkD 2 [v]) = inr (mkD 2 [y])) /\ gradient (same2 2) (mkD 2 [v]) None = inl XValue.
Proof. intros v. split; [eexists; reflexivity|reflexivity]. Qed.
Theorem C347_refuted_silent : exists (F : vec (K := Qc_of) -> vec (K := Qc_of)) v y g, (forall z, d_cols z = 1%nat -> execute (same2 1) z = inr (mkD 2 (map F (d_rows z)))) /\
  gradient (same2 1) (mkD 1 [v]) None = inr (y, G3 2 1 [g]) /\ ~ deriv (K := Qc_of) 1 2 F v g.
Proof.
  set (f := fun c => mult_sf (K := Qc_of) 1 1 (fun _ _ => qz c) (qv [])).
  exists (fun v => hcat 1 (f 1%Z v) (hcat 1 (f 2%Z v) vzero)), (qv [1]%Z). eexists. eexists. split; [|split; [reflexivity|]].
  - intros [c rows] Hz. cbn in Hz. subst c. unfold execute, same2. cbn [checks in_training existsb orb in_dim d_cols Nat.eqb raw map columns out_dim d_rows checks].
    cbn [dsum fold_right fst snd join]. rewrite <- (map_length (f 2%Z) rows). f_equal. f_equal. clear. induction rows as [|r rows IH]; [reflexivity|]. cbn [map length repeat combine fst snd]. f_equal. exact IH.
  - eapply not_deriv with (o := 1%nat) (i := 0%nat) (M := fun o _ => qz (Z.of_nat o + 1)%Z); [|lia|lia|vm_compute; reflexivity].
    eapply deriv_ext; [| |exact (hcat_deriv 1 1 1 _ _ _ _ _ (affine_deriv 1 1 (fun _ _ => qz 1%Z) (qv []) _) (affine_deriv 1 1 (fun _ _ => qz 2%Z) (qv []) _))].
    + intros y o Ho. unfold f. unfold hcat. destruct o as [|[|o]]; [reflexivity|reflexivity|lia].
    + intros o i Ho Hi. destruct o as [|[|o]]; [reflexivity|reflexivity|lia].
Qed.

(** C348: a CloneBiLayer as the first node *)
Theorem C348_refuted : exists (u : gnode (K := Qc_of)) x y ms, good (GClone 2 u) = true /\ d_cols x = din (GClone 2 u) /\ din (GClone 2 u) = 2%nat /\ gradient (GClone 2 u) x None = inr (y, G3 2 1 ms).
Proof. exists (sfa' 1 1 [[3]]%Z [0]%Z), (qd 2 [[1; 2]]%Z). eexists. eexists. repeat split. Qed.
Example C348_ex : let t := GClone 2 (sfa' 1 1 [[3]]%Z [0]%Z) in show (run [(true, t)] (qd 2 [[1; 2]]%Z) (Some (eye 2 1))) = Some ([[3 # 1; 6 # 1]], [[[3 # 1; 0 # 1]; [0 # 1; 3 # 1]]])%Q.
Proof. vm_compute. reflexivity. Qed.

(** C349: stop_training with the method stop_gradient *)
Theorem C349_refuted : exists t : gnode (K := Qc_of), forall x g, stop_gradient t true x g = inl XTrain /\ stop_gradient t false x g = inl XTrain.
Proof. exists (GSfa (K := Qc_of) true 1 1 (qm [[1]]%Z) (qv [])). intros x g. now split. Qed.

(** C350: no samples *)
Theorem C350_refuted : exists t u : gnode (K := Qc_of), let x := mkD 1 [] in linked 1 [t; u] /\ (exists y, run [(true, t)] x None = inr (y, Some GFlat)) /\
  (exists y, flow_execute [t; u] x = ([t; u], inr y)) /\ run [(true, t); (true, u)] x None = inl XIndex.
Proof. exists (sfa' 1 1 [[1]]%Z [0]%Z), (GSwitch 1 [0]%nat). cbv zeta. split; [repeat split|]. split; [eexists; reflexivity|]. split; [eexists; reflexivity|reflexivity]. Qed.

(** C351: data of a wrong dimension *)
Theorem C351_refuted : exists (t : gnode (K := Qc_of)) x y g, linked 2 [t] /\ d_cols x = 3%nat /\ execute t x = inl XNode /\ gradient t x None = inr (y, G3 2 2 g) /\ d_cols y = 2%nat.
Proof. exists (GSwitch 2 [1; 0]%nat), (qd 3 [[1; 2; 3]]%Z). eexists. eexists. split; [repeat split|]. repeat split. Qed.
Theorem C351_refuted_identity : exists (t : gnode (K := Qc_of)) x g, linked 2 [t] /\ execute t x = inl XNode /\ gradient t x None = inr (x, G3 2 2 g) /\ d_cols x = 3%nat.
Proof. exists (GId (Some 2%nat)), (qd 3 [[1; 2; 3]]%Z). eexists. split; [repeat split|]. repeat split. Qed.
Example C351_ex : gradient (sfa' 1 1 [[1]]%Z [0]%Z) (qd 2 [[1; 2]]%Z) None = inl XValue /\ execute (sfa' 1 1 [[1]]%Z [0]%Z) (qd 2 [[1; 2]]%Z) = inl XNode.
Proof. split; reflexivity. Qed.
