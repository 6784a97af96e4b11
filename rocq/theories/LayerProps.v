(** Properties of layers: C26, C27, C91-C96. *)
From Coq Require Import List Arith Bool Lia.
From Verif Require Import LayerModel LayerProofs.
Import ListNotations.

Section Props.
  Variables (N : Type) (zero : N) (St : Type).
  Variable cls : nat -> obj N St.
  Notation mat := (mat N). Notation heap := (heap St). Notation obj := (obj N St).
  Notation cols := (cols N).
  Notation o_in := (o_in N St). Notation o_out := (o_out N St). Notation o_dtype := (o_dtype N St). Notation o_training := (o_training N St).
  Notation o_train := (o_train N St). Notation o_stop := (o_stop N St). Notation o_exec := (o_exec N St). Notation o_inv := (o_inv N St).
  Notation is_mat := (is_mat N).
  Notation layer_execute := (layer_execute N zero St cls).
  Notation layer_inverse := (layer_inverse N zero St cls).
  Notation same_execute := (same_execute N zero St cls).

  (** ** C26 *)
  (** first column of block [k] *)
  Definition start (ds : list nat) (k : nat) : nat := list_sum (firstn k ds).
  (** matrix [y] consists of the matrices [vs] (of [n] rows) side by side *)
  Definition side_by_side (n : nat) (vs : list mat) (y : mat) : Prop :=
    length y = n /\ forall i, i < n -> nth i y [] = concat (map (fun v => nth i v []) vs).
  (** what the nodes do with their blocks: node [k] has [d] input and [o] output columns and turns [blk k] into [v], going to state [s] *)
  Definition acts (op : obj -> St -> mat -> St * lres mat) (din dout : obj -> St -> option nat) (n : nat) (refs ds os : list nat) (vs : list mat)
    (ss : list St) (h : heap) (blk : nat -> nat -> mat) : Prop :=
    length ds = length refs /\ length os = length refs /\ length vs = length refs /\ length ss = length refs /\
    forall k r d o v s, nth_error refs k = Some r -> nth_error ds k = Some d -> nth_error os k = Some o -> nth_error vs k = Some v -> nth_error ss k = Some s ->
      din (cls r) (h r) = Some d /\ dout (cls r) (h r) = Some o /\ op (cls r) (h r) (blk k d) = (s, LOk v) /\ is_mat n o v.
  (** heap [h'] is [h] with the nodes [refs] in the states [ss] *)
  Definition moved (h h' : heap) (refs : list nat) (ss : list St) : Prop :=
    (forall k r s, nth_error refs k = Some r -> nth_error ss k = Some s -> h' r = s) /\ forall q, ~ In q refs -> h' q = h q.

  Lemma side_hcat n vs : side_by_side n vs (hcat N n vs).
  Proof.
    split; [unfold hcat; rewrite map_length, seq_length; reflexivity|]. intros i Hi. unfold hcat.
    apply nth_error_nth. apply (map_nth_error (fun i => concat (map (fun v => nth i v []) vs)) i). rewrite (nth_error_nth' _ 0) by (rewrite seq_length; lia). rewrite seq_nth by lia. reflexivity.
  Qed.
  Lemma side_unique n vs y : side_by_side n vs y -> y = hcat N n vs.
  Proof.
    intros [H1 H2]. unfold hcat. rewrite <- (map_nth_seq y []). rewrite H1. apply map_seq_ext. intros i Hi. apply H2. lia.
  Qed.
  Lemma moved_upds h refs ss : NoDup refs -> moved h (upds St h refs ss) refs ss.
  Proof. intros Hn. split; [intros k r s A B; eapply upds_nth; eauto|intros q Hq; apply upds_other; exact Hq]. Qed.

  Theorem C26_layer_execute n refs ds os vs ss h x : NoDup refs -> refs <> [] ->
    acts o_exec o_in o_out n refs ds os vs ss h (fun k d => cols (start ds k) (start ds k + d) x) ->
    exists y h', layer_execute refs (list_sum os) x h = (h', LOk (Some y)) /\ side_by_side n vs y /\ moved h h' refs ss.
  Proof.
    intros Hn Hne (L1 & L2 & L3 & L4 & H). exists (hcat N n vs), (upds St h refs ss). split; [|split; [apply side_hcat|apply moved_upds; exact Hn]].
    apply (blocks_ok N zero St cls _ _ _ _ n refs h ds); [|exact Hne]. eapply (ran_intro N St cls _ _ _ _ n refs 0 h ds); eauto.
  Qed.
  Theorem C26_same_input_execute n refs os vs ss h x : NoDup refs -> refs <> [] ->
    acts o_exec (fun _ _ => Some 0) o_out n refs (repeat 0 (length refs)) os vs ss h (fun _ _ => x) ->
    exists y h', same_execute refs (list_sum os) x h = (h', LOk (Some y)) /\ side_by_side n vs y /\ moved h h' refs ss.
  Proof.
    intros Hn Hne (L1 & L2 & L3 & L4 & H). exists (hcat N n vs), (upds St h refs ss). split; [|split; [apply side_hcat|apply moved_upds; exact Hn]].
    apply (blocks_ok N zero St cls _ _ _ _ n refs h (repeat 0 (length refs))); [|exact Hne]. eapply (ran_intro N St cls _ _ _ _ n refs 0 h (repeat 0 (length refs))); eauto.
  Qed.

  (** the first node that raises: its exception propagates, the nodes before it have run, the nodes after it have not *)
  Theorem C26_layer_execute_error n refs r later ds d os o rest vs ss h x s e : NoDup (refs ++ r :: later) ->
    acts o_exec o_in o_out n refs ds os vs ss h (fun k d => cols (start ds k) (start ds k + d) x) ->
    o_in (cls r) (h r) = Some d -> o_out (cls r) (h r) = Some o ->
    o_exec (cls r) (h r) (cols (list_sum ds) (list_sum ds + d) x) = (s, LErr e) ->
    exists h', layer_execute (refs ++ r :: later) (list_sum os + rest) x h = (h', LErr e) /\ moved h h' (refs ++ [r]) (ss ++ [s]).
  Proof.
    intros Hn (L1 & L2 & L3 & L4 & H) E1 E2 E3.
    assert (NoDup refs /\ ~ In r refs) as [Hn1 Hr].
    { pose proof (NoDup_remove_2 _ _ _ Hn) as Hnin. apply NoDup_remove_1 in Hn. split; [|intros C; apply Hnin; apply in_or_app; auto].
      clear -Hn. induction refs as [|a refs IH]; [constructor|]. cbn in Hn. inversion Hn; subst. constructor; [|auto]. intros C. apply H1. apply in_or_app; auto. }
    assert (ran N St cls o_exec (fun a b => cols a b x) o_in o_out n refs 0 h ds os vs (upds St h refs ss)) as HR by (eapply (ran_intro N St cls _ _ _ _ n refs 0 h ds); eauto).
    set (h1 := upds St h refs ss) in *. assert (h1 r = h r) as Eh by (apply upds_other; exact Hr).
    exists (upd St h1 r s). split.
    - destruct refs as [|r0 refs0].
      + destruct ds, os; try discriminate. cbn [app list_sum fold_right]. unfold LayerModel.layer_execute. cbn [blocks]. rewrite E2, E1. cbn in E3. cbn. rewrite E3. reflexivity.
      + unfold LayerModel.layer_execute. rewrite (blocks_prefix N zero St cls _ _ _ _ n (r :: later) rest (r0 :: refs0) h ds os vs h1 HR) by discriminate.
        cbn [blocks]. rewrite Eh, E1, E2, E3. reflexivity.
    - split.
      + intros k q t Hq Ht. destruct (Nat.lt_ge_cases k (length refs)) as [Hk|Hk].
        * rewrite nth_error_app1 in Hq, Ht by lia. rewrite upd_other by (intros ->; apply Hr; eapply nth_error_In; eauto). eapply upds_nth; eauto.
        * rewrite nth_error_app2 in Hq, Ht by lia. rewrite L4 in Ht. destruct (k - length refs) as [|m]; [|destruct m; discriminate].
          cbn in Hq, Ht. injection Hq as <-. injection Ht as <-. apply upd_same.
      + intros q Hq. rewrite upd_other by (intros ->; apply Hq; apply in_or_app; right; left; reflexivity).
        apply upds_other. intros C. apply Hq. apply in_or_app; auto.
  Qed.

  (** inverse undoes execute if the inverse of every node undoes its execution *)
  Theorem C26_layer_inverse n refs ds os vs ss ss2 h x : NoDup refs -> refs <> [] -> is_mat n (list_sum ds) x -> length ss2 = length refs ->
    acts o_exec o_in o_out n refs ds os vs ss h (fun k d => cols (start ds k) (start ds k + d) x) ->
    (forall k r d o v s s2, nth_error refs k = Some r -> nth_error ds k = Some d -> nth_error os k = Some o -> nth_error vs k = Some v ->
       nth_error ss k = Some s -> nth_error ss2 k = Some s2 ->
       o_in (cls r) s = Some d /\ o_out (cls r) s = Some o /\ o_inv (cls r) s v = (s2, LOk (cols (start ds k) (start ds k + d) x))) ->
    exists y h1 h2, layer_execute refs (list_sum os) x h = (h1, LOk (Some y)) /\ layer_inverse refs (list_sum ds) y h1 = (h2, LOk (Some x)) /\ moved h h2 refs ss2.
  Proof.
    intros Hn Hne Hx L5 (L1 & L2 & L3 & L4 & H) HI. exists (hcat N n vs), (upds St h refs ss), (upds St (upds St h refs ss) refs ss2). split; [|split].
    - apply (blocks_ok N zero St cls _ _ _ _ n refs h ds); [|exact Hne]. eapply (ran_intro N St cls _ _ _ _ n refs 0 h ds); eauto.
    - set (bs := map (fun k => cols (start ds k) (start ds k + nth k ds 0) x) (seq 0 (length ds))).
      assert (hcat N n bs = x) as Eb by (apply (hcat_blocks N n ds x Hx)). rewrite <- Eb.
      assert (forall k, k < length ds -> nth_error bs k = Some (cols (start ds k) (start ds k + nth k ds 0) x)) as Hbs.
      { intros k Hk. unfold bs. apply (map_nth_error (fun k => cols (start ds k) (start ds k + nth k ds 0) x) k).
        rewrite (nth_error_nth' _ 0) by (rewrite seq_length; lia). rewrite seq_nth by lia. reflexivity. }
      assert (length bs = length refs) as Lb by (unfold bs; rewrite map_length, seq_length; exact L1).
      apply (blocks_ok N zero St cls _ _ _ _ n refs _ os); [|exact Hne].
      apply (ran_intro N St cls _ _ _ _ n refs 0 _ os ds bs ss2); auto.
      intros k r o d b s2 K1 K2 K3 K4 K5. assert (k < length refs) as Hk by (apply nth_error_Some; congruence).
      destruct (nth_error vs k) as [v|] eqn:Ev; [|apply nth_error_None in Ev; lia]. destruct (nth_error ss k) as [s|] eqn:Es; [|apply nth_error_None in Es; lia].
      rewrite (upds_nth St refs h ss k r s Hn K1 Es). destruct (HI k r d o v s s2) as (F1 & F2 & F3); auto.
      rewrite Hbs in K4 by lia. injection K4 as <-. rewrite (nth_error_nth ds k 0 K3).
      split; [exact F2|]. split; [exact F1|]. split.
      + rewrite <- F3. f_equal. change (0 + offset os k) with (offset os k). apply (cols_hcat N n os vs k v o); auto; [lia|].
        intros j o' v' J1 J2. assert (j < length refs) as Hj by (rewrite <- L2; apply nth_error_Some; congruence).
        destruct (nth_error refs j) as [r'|] eqn:Er; [|apply nth_error_None in Er; lia]. destruct (nth_error ds j) as [d'|] eqn:Ed; [|apply nth_error_None in Ed; lia].
        destruct (nth_error ss j) as [s'|] eqn:Es'; [|apply nth_error_None in Es'; lia]. eapply H; eauto.
      + destruct Hx as [Hx1 Hx2]. split; [unfold LayerModel.cols; rewrite map_length; exact Hx1|]. unfold LayerModel.cols. apply Forall_map. eapply Forall_impl; [|exact Hx2].
        cbn. intros row Hrow. rewrite firstn_length, skipn_length, Hrow.
        assert (start ds k + d <= list_sum ds).
        { unfold start. clear -K3. revert k K3. induction ds as [|a ds IH]; intros [|k]; cbn; try discriminate; [intros [= ->]; lia|]. intros K. specialize (IH k K). unfold list_sum in *. lia. }
        lia.
    - split.
      + intros k r s A B. eapply upds_nth; eauto.
      + intros q Hq. rewrite !upds_other by assumption. reflexivity.
  Qed.

  (** construction: accepted iff all input dims are set and there is at most one dtype; dims are sums *)
  Theorem C26_layer_init refs h dt : (exists l, layer_init N St cls refs h dt = LOk l) <->
    (forall r, In r refs -> o_in (cls r) (h r) <> None) /\
    exists t, forall r t', In r refs -> o_dtype (cls r) (h r) = Some t' -> t' = t /\ (dt = None \/ dt = Some t).
  Proof.
    unfold layer_init, check_props. set (fl := flat_map _ refs).
    assert (forall t, In t (nodup Nat.eq_dec fl) <-> exists r, In r refs /\ o_dtype (cls r) (h r) = Some t) as Hfl.
    { intros t. rewrite nodup_In. unfold fl. rewrite in_flat_map. split; intros (r & A & B); exists r; split; auto.
      - destruct (o_dtype (cls r) (h r)) as [t'|]; [|destruct B]. destruct B as [->|[]]. reflexivity.
      - rewrite B. left; reflexivity. }
    assert ((forall r, In r refs -> o_in (cls r) (h r) <> None) -> exists d, in_dim N St cls refs h = Some d) as Hin.
    { clear. induction refs as [|r refs IH]; cbn; [eauto|]. intros H. destruct IH as [n En]; [auto|]. rewrite En. destruct (o_in (cls r) (h r)) eqn:E; [eauto|]. exfalso. apply (H r); auto. }
    destruct (existsb _ refs) eqn:Ex.
    - split; [intros [l [=]]|]. intros [H _]. apply existsb_exists in Ex as (r & A & B). specialize (H r A). destruct (o_in (cls r) (h r)); congruence.
    - assert (forall r, In r refs -> o_in (cls r) (h r) <> None) as Hall.
      { intros r A B. assert (existsb (fun r => match o_in (cls r) (h r) with None => true | Some _ => false end) refs = true) as C by (apply existsb_exists; exists r; rewrite B; auto). congruence. }
      destruct (Hin Hall) as [n En]. pose proof (NoDup_nodup Nat.eq_dec fl) as Hnd. destruct (nodup Nat.eq_dec fl) as [|t [|t2 tl]] eqn:Ef.
      + rewrite En. split; [|eauto]. intros _. split; [exact Hall|]. exists 0. intros r t' A B. destruct (proj2 (Hfl t')); eauto.
      + assert (forall r t', In r refs -> o_dtype (cls r) (h r) = Some t' -> t' = t) as Hu by (intros r t' A B; destruct (proj2 (Hfl t') (ex_intro _ r (conj A B))) as [->|[]]; reflexivity).
        destruct dt as [d|]; [destruct (Nat.eqb_spec t d)|].
        * rewrite En. split; [|eauto]. intros _. split; [exact Hall|]. exists t. intros r t' A B. split; [eauto|right; congruence].
        * split; [intros [l [=]]|]. intros [_ [t0 H0]]. destruct (proj1 (Hfl t) (or_introl eq_refl)) as (r & A & B). destruct (H0 r t A B) as [-> [C|C]]; congruence.
        * rewrite En. split; [|eauto]. intros _. split; [exact Hall|]. exists t. intros r t' A B. split; [eauto|left; reflexivity].
      + split; [intros [l [=]]|]. intros [_ [t0 H0]]. destruct (proj1 (Hfl t) (or_introl eq_refl)) as (r & A & B). destruct (proj1 (Hfl t2) (or_intror (or_introl eq_refl))) as (r2 & A2 & B2).
        destruct (H0 r t A B) as [-> _]. destruct (H0 r2 t2 A2 B2) as [-> _]. inversion Hnd as [|? ? Hd1 Hd2]; subst. exfalso. apply Hd1. left; reflexivity.
  Qed.
  Theorem C26_layer_dims refs h dt l ds : layer_init N St cls refs h dt = LOk l -> map (fun r => o_in (cls r) (h r)) refs = map Some ds ->
    l_in l = list_sum ds /\
    (forall os, map (fun r => o_out (cls r) (h r)) refs = map Some os -> l_out l = Some (list_sum os)) /\
    (forall r, In r refs -> o_out (cls r) (h r) = None -> l_out l = None) /\
    (forall r t, In r refs -> o_dtype (cls r) (h r) = Some t -> l_dtype l = Some t) /\
    (forall t, dt = Some t -> l_dtype l = Some t) /\
    (l_trainable l = true <-> exists r, In r refs /\ o_training (cls r) (h r) = true) /\
    (l_invertible l = true <-> forall r, In r refs -> o_invertible N St (cls r) = true) /\
    (forall r, In r refs -> o_seq N St (cls r) <= l_phases l).
  Proof.
    unfold layer_init. destruct (check_props N St cls refs h dt) as [dt'|] eqn:Ec; [|discriminate].
    destruct (in_dim N St cls refs h) as [d|] eqn:Ed; [|discriminate]. intros [= <-] Hds. cbn.
    assert ((forall r t, In r refs -> o_dtype (cls r) (h r) = Some t -> dt' = Some t) /\ (forall t, dt = Some t -> dt' = Some t)) as [Hd1 Hd2].
    { revert Ec. unfold check_props. destruct (existsb _ refs); [discriminate|]. set (fl := flat_map _ refs).
      assert (forall r t, In r refs -> o_dtype (cls r) (h r) = Some t -> In t (nodup Nat.eq_dec fl)) as Hfl.
      { intros r t A B. rewrite nodup_In. unfold fl. apply in_flat_map. exists r. rewrite B. split; [exact A|left; reflexivity]. }
      destruct (nodup Nat.eq_dec fl) as [|t [|t2 tl]].
      - intros [= <-]. split; [intros r t A B; destruct (Hfl r t A B)|auto].
      - destruct dt as [d0|]; [destruct (Nat.eqb_spec t d0); [|discriminate]|]; intros [= <-]; (split; [intros r t' A B; destruct (Hfl r t' A B) as [->|[]]; congruence|intros t' [= <-]; reflexivity]) || idtac.
      - discriminate. }
    split; [|split; [|split; [|split; [|split; [|split; [|split]]]]]]; auto.
    - clear -Ed Hds. revert ds d Ed Hds. induction refs as [|r refs IH]; intros [|d0 ds] d; cbn; try discriminate; [intros [= <-] _; reflexivity|].
      destruct (o_in (cls r) (h r)) as [a|]; [|discriminate]. destruct (in_dim N St cls refs h) as [b|]; [|discriminate]. intros [= <-] [= -> E]. f_equal. apply IH; auto.
    - clear. induction refs as [|r refs IH]; intros [|o os]; cbn; try discriminate; [reflexivity|]. intros H. injection H as H1 H2. rewrite H1. rewrite (IH os H2). reflexivity.
    - clear. induction refs as [|r0 refs IH]; intros r; cbn; [intros []|]. intros [->|A] B; [rewrite B; reflexivity|]. rewrite (IH r A B). destruct (o_out (cls r0) (h r0)); reflexivity.
    - rewrite existsb_exists. reflexivity.
    - rewrite forallb_forall. reflexivity.
    - apply seq_len_max.
  Qed.

  (** ** C91: training a layer trains every node on its own columns, and nothing else *)
  (** one call of train: the nodes still in training are trained in order; at the first exception the later ones are untouched *)
  Theorem C91_train_step refs ds h x : NoDup refs -> length ds = length refs ->
    (forall k r d, nth_error refs k = Some r -> nth_error ds k = Some d -> o_in (cls r) (h r) = Some d) ->
    let (h', res) := layer_train N St cls refs x h in
    exists k, (forall j r, j < k -> nth_error refs j = Some r -> solo_train N St (cls r) (h r) (cols (start ds j) (start ds j + nth j ds 0) x) = (h' r, LOk tt)) /\
      (forall q, ~ In q (firstn (S k) refs) -> h' q = h q) /\
      ((res = LOk tt /\ k = length refs) \/
       exists r e, nth_error refs k = Some r /\ res = LErr e /\ solo_train N St (cls r) (h r) (cols (start ds k) (start ds k + nth k ds 0) x) = (h' r, LErr e)).
  Proof.
    intros Hn Hl Hr. exact (train_step N St cls refs ds o_in (fun x a b => cols a b x) Hn Hl h x Hr).
  Qed.
  (** a whole training run *)
  Theorem C91_layer_training refs ds h data : NoDup refs -> length ds = length refs ->
    (forall r d s x, o_in (cls r) s = Some d -> o_in (cls r) (fst (o_train (cls r) s x)) = Some d) ->
    (forall r d s, o_in (cls r) s = Some d -> o_in (cls r) (fst (o_stop (cls r) s)) = Some d) ->
    (forall k r d, nth_error refs k = Some r -> nth_error ds k = Some d -> o_in (cls r) (h r) = Some d) ->
    let part k := map (map (fun x => cols (start ds k) (start ds k + nth k ds 0) x)) data in
    (forall h', layer_fit N St (layer_train N St cls refs) (layer_stop N St cls refs) data h = (h', LOk tt) ->
       (forall k r, nth_error refs k = Some r -> solo_fit N St (cls r) (part k) (h r) = (h' r, LOk tt)) /\ forall q, ~ In q refs -> h' q = h q) /\
    ((forall k r, nth_error refs k = Some r -> exists s, solo_fit N St (cls r) (part k) (h r) = (s, LOk tt)) ->
       exists h', layer_fit N St (layer_train N St cls refs) (layer_stop N St cls refs) data h = (h', LOk tt)).
  Proof.
    intros Hn Hl K1 K2 Hr part. split.
    - intros h' E. exact (fit_ok N St cls refs ds o_in (fun x a b => cols a b x) Hn Hl K1 K2 data h h' Hr E).
    - intros E. exact (fit_complete N St cls refs ds o_in (fun x a b => cols a b x) Hn Hl K1 K2 data h Hr E).
  Qed.
  (** the same for SameInputLayer: every node is trained on the whole data *)
  Theorem C91_same_input_training refs h data : NoDup refs ->
    (forall h', layer_fit N St (same_train N St cls refs) (layer_stop N St cls refs) data h = (h', LOk tt) ->
       (forall r, In r refs -> solo_fit N St (cls r) data (h r) = (h' r, LOk tt)) /\ forall q, ~ In q refs -> h' q = h q) /\
    ((forall r, In r refs -> exists s, solo_fit N St (cls r) data (h r) = (s, LOk tt)) ->
       exists h', layer_fit N St (same_train N St cls refs) (layer_stop N St cls refs) data h = (h', LOk tt)).
  Proof.
    intros Hn. set (ds := repeat 0 (length refs)). assert (length ds = length refs) as Hl by apply repeat_length.
    assert (forall k d, nth_error ds k = Some d -> d = 0) as H0 by (intros k d H; apply nth_error_In in H; eapply repeat_spec; exact H).
    assert (forall (xs : list (list mat)), map (map (fun x => x)) xs = xs) as Hid by (intros xs; rewrite <- (map_id xs) at 2; apply map_ext; intros a; apply map_id).
    split.
    - intros h' E. destruct (fit_ok N St cls refs ds (fun _ _ => Some 0) (fun x _ _ => x) Hn Hl) with (data := data) (h := h) (h' := h') as [A B]; auto.
      + intros k r d _ Hd. rewrite (H0 k d Hd). reflexivity.
      + split; [|exact B]. intros r Hr. apply In_nth_error in Hr as [k Hk]. specialize (A k r Hk). unfold block in A. rewrite Hid in A. exact A.
    - intros E. apply (fit_complete N St cls refs ds (fun _ _ => Some 0) (fun x _ _ => x) Hn Hl); auto.
      + intros k r d _ Hd. rewrite (H0 k d Hd). reflexivity.
      + intros k r Hk. unfold block. rewrite Hid. apply E. eapply nth_error_In; exact Hk.
  Qed.

  (** ** C92: the phases of a layer suffice to train all its nodes *)
  (** [rem r s]: phases object r still needs in state s *)
  Theorem C92_phases_suffice refs ds h data (rem : nat -> St -> nat) h' : NoDup refs -> length ds = length refs ->
    (forall r s, o_training (cls r) s = (0 <? rem r s)) ->
    (forall r s x s', o_train (cls r) s x = (s', LOk tt) -> rem r s' = rem r s) ->
    (forall r s s', o_stop (cls r) s = (s', LOk tt) -> rem r s' = rem r s - 1) ->
    (forall r d s x, o_in (cls r) s = Some d -> o_in (cls r) (fst (o_train (cls r) s x)) = Some d) ->
    (forall r d s, o_in (cls r) s = Some d -> o_in (cls r) (fst (o_stop (cls r) s)) = Some d) ->
    (forall k r d, nth_error refs k = Some r -> nth_error ds k = Some d -> o_in (cls r) (h r) = Some d) ->
    layer_fit N St (layer_train N St cls refs) (layer_stop N St cls refs) data h = (h', LOk tt) ->
    (forall r, In r refs -> rem r (h' r) = rem r (h r) - length data) /\
    ((forall r, In r refs -> rem r (h r) <= o_seq N St (cls r)) -> length data = seq_len N St cls refs -> forall r, In r refs -> o_training (cls r) (h' r) = false).
  Proof.
    intros Hn Hl R1 R2 R3 K1 K2 Hr E. destruct (C91_layer_training refs ds h data Hn Hl K1 K2 Hr) as [A _]. destruct (A h' E) as [B _].
    assert (forall r, In r refs -> rem r (h' r) = rem r (h r) - length data) as G.
    { intros r Hin. apply In_nth_error in Hin as [k Hk]. specialize (B k r Hk). rewrite (solo_fit_rem N St cls rem R1 R2 R3 r _ _ _ B). rewrite map_length. reflexivity. }
    split; [exact G|]. intros H1 H2 r Hin. rewrite R1, (G r Hin), H2. pose proof (seq_len_max N St cls refs r Hin). specialize (H1 r Hin).
    apply Nat.ltb_ge. lia.
  Qed.

  (** ** C27: CloneLayer against Layer([node]*k), for a node acting row by row without changing its state *)
  Definition rowwise (op : obj -> St -> mat -> St * lres mat) (r : nat) (s : St) (d o : nat) (f : list N -> list N) : Prop :=
    (forall x, Forall (fun row => length row = d) x -> op (cls r) s x = (s, LOk (map f x))) /\ forall row, length row = d -> length (f row) = o.
  Theorem C27_clone_execute r k n d o f x h : 0 < k -> 0 < d -> o_in (cls r) (h r) = Some d -> o_out (cls r) (h r) = Some o ->
    rowwise o_exec r (h r) d o f -> is_mat n (k * d) x ->
    exists y h1 h2, clone_execute N St cls r (k * o) x h = (h1, LOk y) /\ layer_execute (repeat r k) (k * o) x h = (h2, LOk (Some y)) /\
      (forall q, h1 q = h q) /\ (forall q, h2 q = h q).
  Proof.
    intros Hk Hd E1 E2 [R1 R2] Hx. destruct (clone_layer N zero St cls o_exec o_in o_out r d o (h r) f E1 E2 R1 R2 n k x h Hd Hk Hx eq_refl) as (y & h1 & h2 & A & B & C & D & _).
    exists y, h1, h2. auto.
  Qed.
  Theorem C27_clone_inverse r k n d o f x h : 0 < k -> 0 < o -> o_in (cls r) (h r) = Some d -> o_out (cls r) (h r) = Some o ->
    rowwise o_inv r (h r) o d f -> is_mat n (k * o) x ->
    exists y h1 h2, clone_inverse N St cls r (k * d) x h = (h1, LOk y) /\ layer_inverse (repeat r k) (k * d) x h = (h2, LOk (Some y)) /\
      (forall q, h1 q = h q) /\ (forall q, h2 q = h q).
  Proof.
    intros Hk Ho E1 E2 [R1 R2] Hx. destruct (clone_layer N zero St cls o_inv o_out o_in r o d (h r) f E2 E1 R1 R2 n k x h Ho Hk Hx eq_refl) as (y & h1 & h2 & A & B & C & D & _).
    exists y, h1, h2. auto.
  Qed.
  (** ** C95: training a CloneLayer trains its node on every block of every chunk in order, and closes each phase once *)
  Fixpoint fold_train (c : obj) (xs : list mat) (s : St) : St * lres unit :=
    match xs with [] => (s, LOk tt) | x :: xs => match o_train c s x with (s, LErr e) => (s, LErr e) | (s, LOk _) => fold_train c xs s end end.
  Theorem C95_clone_train r k d x h : o_in (cls r) (h r) = Some d ->
    (forall s x', o_in (cls r) s = Some d -> o_in (cls r) (fst (o_train (cls r) s x')) = Some d) ->
    (forall s x', o_training (cls r) s = true -> o_training (cls r) (fst (o_train (cls r) s x')) = true) ->
    o_training (cls r) (h r) = true ->
    let (h', res) := layer_train N St cls (repeat r k) x h in
    (h' r, res) = fold_train (cls r) (map (fun j => cols (j * d) (j * d + d) x) (seq 0 k)) (h r) /\ forall q, q <> r -> h' q = h q.
  Proof.
    intros Hd K1 K2 Ht. unfold layer_train.
    assert (forall k b h0, o_in (cls r) (h0 r) = Some d -> o_training (cls r) (h0 r) = true ->
      let (h', res) := train_loop N St cls (fun a b => cols a b x) o_in (repeat r k) (b * d) h0 in
      (h' r, res) = fold_train (cls r) (map (fun j => cols (j * d) (j * d + d) x) (seq b k)) (h0 r) /\ forall q, q <> r -> h' q = h0 q) as G.
    { clear h Hd Ht. induction k0 as [|m IH]; intros b h0 E1 E2; cbn [repeat train_loop seq map fold_train]; [auto|]. rewrite E1, E2.
      destruct (o_train (cls r) (h0 r) (cols (b * d) (b * d + d) x)) as [s [[]|e]] eqn:E.
      - replace (b * d + d) with (S b * d) by (cbn; lia). specialize (IH (S b) (upd St h0 r s)). rewrite upd_same in IH.
        pose proof (K1 (h0 r) (cols (b * d) (b * d + d) x) E1) as F1. pose proof (K2 (h0 r) (cols (b * d) (b * d + d) x) E2) as F2. rewrite E in F1, F2. specialize (IH F1 F2).
        destruct (train_loop _ _ _ _ _ _ _ _) as [h' res]. destruct IH as [A B]. split; [exact A|]. intros q Hq. rewrite B by exact Hq. apply upd_other; exact Hq.
      - rewrite upd_same. split; [reflexivity|]. intros q Hq. apply upd_other; exact Hq. }
    exact (G k 0 h Hd Ht).
  Qed.
  Theorem C95_clone_stop r h : o_training (cls r) (h r) = true ->
    let (h', res) := clone_stop N St cls r h in (h' r, res) = o_stop (cls r) (h r) /\ forall q, q <> r -> h' q = h q.
  Proof.
    intros Ht. unfold clone_stop. rewrite Ht. destruct (o_stop (cls r) (h r)) as [s res]. rewrite upd_same. split; [reflexivity|]. intros q Hq. apply upd_other; exact Hq.
  Qed.
End Props.

(** * Concrete nodes *)
(** state: phases still needed, trained in this phase?, sum of all training data *)
Record tst := mkT { t_rem : nat; t_started : bool; t_sum : nat }.
Definition sum_all (x : list (list nat)) : nat := list_sum (map list_sum x).
(** a node with [d] columns that adds its trained sum to its input; [seq] phases; stop_training raises if nothing was trained in the phase
    (signal_node.py:553-555) *)
Definition adder (d seq : nat) : obj nat tst :=
  mkObj nat tst (fun _ => Some d) (fun _ => Some d) (fun _ => None) (fun s => 0 <? t_rem s) true seq
    (fun s x => (mkT (t_rem s) true (t_sum s + sum_all x), LOk tt))
    (fun s => if t_started s then (mkT (t_rem s - 1) false (t_sum s), LOk tt) else (s, LErr (LNode 1)))
    (fun s _ => (s, LOk tt))
    (fun s x => (s, LOk (map (map (fun v => v + t_sum s)) x)))
    (fun s x => (s, LOk (map (map (fun v => v - t_sum s)) x))).
(** the node of TimeFramesNode(2) on one column: row i and row i+1 side by side *)
Fixpoint frames (x : list (list nat)) : list (list nat) :=
  match x with a :: ((b :: _) as l) => (a ++ b) :: frames l | _ => [] end.
Definition framer : obj nat tst :=
  mkObj nat tst (fun _ => Some 1) (fun _ => Some 2) (fun _ => None) (fun _ => false) false 1
    (fun s _ => (s, LErr (LNode 0))) (fun s => (s, LErr (LNode 0))) (fun s _ => (s, LOk tt)) (fun s x => (s, LOk (frames x))) (fun s _ => (s, LErr (LNode 2))).
(** a node returning the sum over all rows as a single row *)
Definition totaller : obj nat tst :=
  mkObj nat tst (fun _ => Some 1) (fun _ => Some 1) (fun _ => None) (fun _ => false) false 1
    (fun s _ => (s, LErr (LNode 0))) (fun s => (s, LErr (LNode 0))) (fun s _ => (s, LOk tt)) (fun s x => (s, LOk [[sum_all x]])) (fun s _ => (s, LErr (LNode 2))).
Definition two (a b : obj nat tst) (r : nat) : obj nat tst := match r with 0 => a | _ => b end.
Definition st0 (rem : nat) : tst := mkT rem false 0.

(** execution, inverse, training of Layer([adder 1, adder 2]) *)
Definition heap12 : heap tst := fun r => match r with 0 => mkT 0 false 10 | _ => mkT 0 false 20 end.
Example C26_example :
  snd (layer_execute nat 0 tst (two (adder 1 1) (adder 2 1)) [0;1] 3 [[1;2;3];[4;5;6]] heap12) = LOk (Some [[11;22;23];[14;25;26]]) /\
  snd (layer_inverse nat 0 tst (two (adder 1 1) (adder 2 1)) [0;1] 3 [[11;22;23];[14;25;26]] heap12) = LOk (Some [[1;2;3];[4;5;6]]) /\
  snd (same_execute nat 0 tst (two (adder 2 1) (adder 2 1)) [0;1] 4 [[1;2];[4;5]] heap12) = LOk (Some [[11;12;21;22];[14;15;24;25]]) /\
  layer_init nat tst (two (adder 1 1) (adder 2 3)) [0;1] heap12 None = LOk (mkLayer 3 (Some 3) None false 3 true).
Proof. repeat split. Qed.
(** the hypotheses of C26_layer_execute and C26_layer_inverse hold for these nodes *)
Example C26_acts : acts nat tst (two (adder 1 1) (adder 2 1)) (o_exec nat tst) (o_in nat tst) (o_out nat tst) 2 [0;1] [1;2] [1;2]
  [[[11];[14]];[[22;23];[25;26]]] [heap12 0; heap12 1] heap12 (fun k d => cols nat (start [1;2] k) (start [1;2] k + d) [[1;2;3];[4;5;6]]).
Proof.
  unfold acts. do 4 (split; [reflexivity|]). intros [|[|k]] r d o v s; cbn.
  - intros [= <-] [= <-] [= <-] [= <-] [= <-]. repeat split; repeat constructor.
  - intros [= <-] [= <-] [= <-] [= <-] [= <-]. repeat split; repeat constructor.
  - destruct k; discriminate.
Qed.
Example C91_example :
  let (h', res) := layer_fit nat tst (layer_train nat tst (two (adder 1 1) (adder 2 2)) [0;1]) (layer_stop nat tst (two (adder 1 1) (adder 2 2)) [0;1])
    [[[[1;2;3]];[[4;5;6]]];[[[7;8;9]]]] (fun r => st0 (S r)) in
  res = LOk tt /\ h' 0 = mkT 0 false 5 /\ h' 1 = mkT 0 false 33.
Proof. repeat split. Qed.
(** the machine laws of C92 hold for these nodes *)
Example C92_laws (seqs : nat -> nat) : let cls r := adder 1 (seqs r) in
  (forall r s, o_training nat tst (cls r) s = (0 <? t_rem s)) /\
  (forall r s x s', o_train nat tst (cls r) s x = (s', LOk tt) -> t_rem s' = t_rem s) /\
  (forall r s s', o_stop nat tst (cls r) s = (s', LOk tt) -> t_rem s' = t_rem s - 1).
Proof.
  cbn. split; [reflexivity|]. split; [intros r s x s' [= <-]; reflexivity|]. intros r s s'. destruct (t_started s); [intros [= <-]; reflexivity|discriminate].
Qed.
Example C27_example :
  snd (clone_execute nat tst (fun _ => adder 1 1) 0 3 [[1;2;3];[4;5;6]] heap12) = LOk [[11;12;13];[14;15;16]] /\
  snd (layer_execute nat 0 tst (fun _ => adder 1 1) [0;0;0] 3 [[1;2;3];[4;5;6]] heap12) = LOk (Some [[11;12;13];[14;15;16]]) /\
  rowwise nat tst (fun _ => adder 1 1) (o_exec nat tst) 0 (heap12 0) 1 1 (map (fun v => v + 10)).
Proof. do 2 (split; [reflexivity|]). split; [reflexivity|]. intros row H. rewrite map_length. exact H. Qed.
Example C95_example :
  let (h', res) := layer_train nat tst (fun _ => adder 1 1) (repeat 0 3) [[1;2;3];[4;5;6]] (fun _ => st0 1) in res = LOk tt /\ h' 0 = mkT 1 true 21 /\
  h' 1 = st0 1.
Proof. repeat split. Qed.

(** ** C93: a layer's is_training says whether some node is in training: refuted.  Node 0 is untrained with one phase; node 1 is
    trained already and has two phases.  After the one phase that is needed, no node is in training, but the layer has two phases. *)
Theorem C93_layer_phases_refuted : exists cls refs h data,
  let (h', res) := layer_fit nat tst (layer_train nat tst cls refs) (layer_stop nat tst cls refs) data h in
  res = LOk tt /\ (forall r, In r refs -> o_training nat tst (cls r) (h' r) = false) /\ length data < seq_len nat tst cls refs.
Proof.
  exists (two (adder 1 1) (adder 1 2)), [0;1], (fun r => match r with 0 => st0 1 | _ => mkT 0 false 7 end), [[[[1;2];[3;4]]]].
  split; [reflexivity|]. split; [|cbn; lia]. intros r [<-|[<-|[]]]; reflexivity.
Qed.
(** ** C94: CloneLayer executes like Layer([node]*n): refuted for nodes that do not act row by row (TimeFramesNode): the Layer gives a
    result, the CloneLayer raises ValueError *)
Theorem C94_clone_frames_refuted : exists cls r h x y h1 h2,
  layer_execute nat 0 tst cls [r;r] 4 x h = (h1, LOk (Some y)) /\ clone_execute nat tst cls r 4 x h = (h2, LErr LValue).
Proof. exists (fun _ => framer), 0, (fun _ => st0 0), [[1;2];[3;4];[5;6]], [[1;3;2;4];[3;5;4;6]]. do 2 eexists. split; reflexivity. Qed.
(** ** C96: a node that returns another number of rows than the first one makes Layer.execute raise: refuted, a single row is broadcast
    to all rows *)
Theorem C96_rows_refuted : exists cls refs h x h' y,
  layer_execute nat 0 tst cls refs 2 x h = (h', LOk (Some y)) /\ length (match snd (o_exec nat tst (cls 1) (h 1) (cols nat 1 2 x)) with LOk v => v | LErr _ => [] end) = 1 /\ length y = 3.
Proof. exists (two (adder 1 1) totaller), [0;1], (fun _ => st0 0), [[1;2];[3;4];[5;6]], (upd tst (upd tst (fun _ => st0 0) 0 (st0 0)) 1 (st0 0)), [[1;12];[3;12];[5;12]]. repeat split. Qed.
(** ** C97: Layer([node]*2) can be trained like CloneLayer(node, 2) (the docstring of CloneLayer mentions "a problem"): a node with one
    phase can, a node with two phases cannot *)
Theorem C97_same_node_twice_refuted : exists cls r h x h1 h2,
  layer_fit nat tst (layer_train nat tst cls [r;r]) (layer_stop nat tst cls [r;r]) [[x];[x]] h = (h1, LErr (LNode 1)) /\
  layer_fit nat tst (layer_train nat tst cls [r;r]) (clone_stop nat tst cls r) [[x];[x]] h = (h2, LOk tt) /\ o_training nat tst (cls r) (h2 r) = false.
Proof. exists (fun _ => adder 1 2), 0, (fun _ => st0 2), [[1;2];[3;4]]. do 2 eexists. split; [reflexivity|]. split; reflexivity. Qed.
Example C97_one_phase : exists h1, layer_fit nat tst (layer_train nat tst (fun _ => adder 1 1) [0;0]) (layer_stop nat tst (fun _ => adder 1 1) [0;0]) [[[[1;2];[3;4]]]] (fun _ => st0 1) = (h1, LOk tt) /\ h1 0 = mkT 0 false 10.
Proof. eexists. split; reflexivity. Qed.
