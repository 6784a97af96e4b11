(** BiFlow: when the messages given to train and execute stay as they are (the positive part of C176). *)
From Coq Require Import List Arith ZArith Bool String Lia.
From Verif Require Import BiModel BiFlowModel BiProps BiFlowProps BiFlowEx.
Import ListNotations.
Open Scope nat_scope.

Section Quiet.
  Variables X O S : Type.
  Variable truthy : O -> bool.
  Notation result := (result X O).
  Notation fnode := (fnode X O S).
  Notation world := (BiFlowModel.world X O S).
  Notation nodes := (w_nodes X O S).
  Notation hp := (w_heap X O S).
  Definition no_msg (r : result) : Prop := match r with RPair _ _ _ m => m = None | RTriple _ _ _ m _ => m = None | _ => True end.
  (** a method that neither changes nor returns a message *)
  Definition quiet_meth (f : meth X O S) : Prop := forall x a s h, snd (fst (m_run _ _ _ f x a (s, h))) = h /\ forall r, snd (m_run _ _ _ f x a (s, h)) = BOk r -> no_msg r.
  Record quiet (c : bclass X O S) : Prop := mkQ {
    q_methods : forall n f, c_methods _ _ _ c n = Some f -> quiet_meth f;
    q_execute : quiet_meth (c_execute _ _ _ c); q_inverse : quiet_meth (c_inverse _ _ _ c);
    q_phases : forall f g, In (f, g) (c_phases _ _ _ c) -> quiet_meth f /\ quiet_meth g;
    q_stop : c_stop_result _ _ _ c = [] }.
  (** no message has a key for this node, and all keys can be parsed *)
  Definition unaddressed (c : bclass X O S) (h : heap O) : Prop := forall r, get_ids X O S c (map fst (hget O h r)) = BOk [].

  Section Node.
    Variable c : bclass X O S.
    Variable h : heap O.
    Hypothesis Q : quiet c.
    Hypothesis U : unaddressed c h.
    Notation M := (M O S).
    Definition post {R} (p : M R) (P : R -> Prop) : Prop := forall w, snd w = h -> snd (fst (p w)) = h /\ forall r, snd (p w) = BOk r -> P r.
    Lemma post_bind {R T} (p : M R) (f : R -> M T) P1 P2 : post p P1 -> (forall r, P1 r -> post (f r) P2) -> post (bind _ _ p f) P2.
    Proof. intros A B w E. unfold bind. destruct (A w E) as [A1 A2]. destruct (p w) as [w' [r|e]]; cbn in *; [apply (B r (A2 r eq_refl) w' A1)|]. split; [exact A1|discriminate]. Qed.
    Lemma post_weaken {R} (p : M R) (P1 P2 : R -> Prop) : post p P1 -> (forall r, P1 r -> P2 r) -> post p P2.
    Proof. intros A B w E. destruct (A w E) as [A1 A2]. split; auto. Qed.
    Lemma post_ret {R} (r : R) (P : R -> Prop) : P r -> post (ret _ _ r) P.
    Proof. intros H w E. split; [exact E|]. intros r' [= <-]. exact H. Qed.
    Lemma post_raise {R} e (P : R -> Prop) : post (raise _ _ e) P.
    Proof. intros w E. split; [exact E|discriminate]. Qed.
    Lemma post_lift {R} (b : bres R) (P : R -> Prop) : (forall r, b = BOk r -> P r) -> post (lift _ _ b) P.
    Proof. intros H w E. split; [exact E|exact H]. Qed.
    Definition any {R} (_ : R) : Prop := True.
    Lemma post_look : post (look O S) any. Proof. intros w E. split; [exact E|constructor]. Qed.
    Lemma post_mget r : post (mget O S r) (fun m => m = hget O h r). Proof. intros w E. split; [exact E|]. intros m [= <-]. rewrite E. reflexivity. Qed.
    Lemma hset_hget (k : heap O) r : hset O k r (hget O k r) = k.
    Proof. unfold hget. revert r. induction k as [|m k IH]; intros [|r]; cbn; try reflexivity. f_equal. apply IH. Qed.
    Lemma post_mset r : post (mset O S r (hget O h r)) any. Proof. intros w E. split; [cbn; rewrite E; apply hset_hget|constructor]. Qed.
    Lemma post_own f : post (own O S f) any. Proof. intros w E. unfold own. destruct (f _). split; [exact E|constructor]. Qed.
    Lemma post_started b : post (set_started O S b) any. Proof. intros w E. split; [exact E|constructor]. Qed.
    Lemma post_call f n x a : quiet_meth f -> post (call X O S f n x a) no_msg.
    Proof.
      intros F w E. unfold call. destruct (bind_args _ _ _ f n a); [|split; [exact E|discriminate]]. destruct (F x a (n_own _ (fst w)) (snd w)) as [F1 F2].
      destruct (m_run _ _ _ f x a (n_own _ (fst w), snd w)) as [[s' h'] r]. cbn in *. split; [congruence|exact F2].
    Qed.
    Lemma post_nonempty o : post (nonempty O S o) any.
    Proof. destruct o as [r|]; cbn; [|apply post_ret; constructor]. eapply post_bind; [apply post_mget|]. intros m _. apply post_ret. constructor. Qed.
    Lemma post_merge y m : post (merge X O S y m None) any.
    Proof.
      unfold merge. eapply post_bind; [apply post_nonempty|]. intros b _. destruct m as [r|]; [|apply post_ret; constructor]. destruct b; [|apply post_ret; constructor].
      eapply post_bind; [apply post_nonempty|]. intros b' _. eapply post_bind with (P1 := any); [apply post_ret; constructor|]. intros _ _. apply post_ret. constructor.
    Qed.
    Lemma post_combine r m t : no_msg r -> post (combine X O S r m t) any.
    Proof.
      unfold combine. destruct r as [y|y mr|y mr t'|]; cbn [no_msg]; [intros _|intros ->|intros ->|intros _].
      - eapply post_bind; [apply post_nonempty|]. intros b _. apply post_ret. constructor.
      - eapply post_bind; [apply post_merge|]. intros b _. apply post_ret. constructor.
      - eapply post_bind; [apply post_merge|]. intros b _. apply post_ret. constructor.
      - apply post_ret. constructor.
    Qed.
    Lemma post_parse d r : quiet_meth d -> post (parse X O S truthy c d r) (fun p => quiet_meth (p_meth _ _ _ p)).
    Proof.
      intros D. unfold parse. eapply post_bind; [apply post_mget|]. intros m ->. eapply post_bind; [apply (post_lift _ (fun l => l = []))|]. { intros l E. rewrite (U r) in E. congruence. }
      intros l ->. cbn [extract_key dget]. eapply post_bind; [apply post_mset|]. intros _ _. eapply post_bind; [apply post_mset|]. intros _ _.
      eapply post_bind; [apply (post_lift _ (fun q => quiet_meth (fst q)))|].
      - intros [f t] E. unfold get_method in E. destruct (negb _); [injection E as <- _; exact D|]. destruct (is_str _ _ _); [injection E as <- _; exact (q_inverse c Q)|].
        destruct (oval O (dget "method" (hget O h r))) as [| | |nm|]; try discriminate. destruct (c_methods X O S c nm) as [g|] eqn:G; [|discriminate]. injection E as <- _. exact (q_methods c Q _ _ G).
      - intros [f t] F. cbn in F. eapply post_bind with (P1 := any).
        + unfold extract_args. eapply post_bind; [apply post_mget|]. intros m ->. cbn [take_ids]. eapply post_bind; [apply post_mset|]. intros _ _. destruct (existsb _ _); apply post_ret; constructor.
        + intros [mm args] _. apply post_ret. exact F.
    Qed.
    Lemma phases_quiet s : forall fs, phase_meths X O S c s = BOk fs -> quiet_meth (fst fs) /\ quiet_meth (snd fs).
    Proof. intros [f g] E. unfold phase_meths in E. destruct (nth_error _ _) as [p|] eqn:N; [|discriminate]. injection E as ->. exact (q_phases c Q _ _ (nth_error_In _ _ N)). Qed.
    Lemma post_stop om : post (stop_training X O S truthy c om) any.
    Proof.
      unfold stop_training. eapply post_bind; [apply post_look|]. intros s _. destruct (_ && _); [apply post_raise|]. destruct (negb _); [apply post_raise|].
      eapply post_bind; [apply post_lift; apply phases_quiet|]. intros fs [F1 F2]. eapply post_bind; [apply post_nonempty|]. intros b _.
      eapply post_bind with (P1 := fun q => no_msg (fst (fst q))).
      - assert (D : forall o : option ref, post (bind _ _ (call X O S (snd fs) 0 None []) (fun res => ret _ _ (res, o, VNone O))) (fun q => no_msg (fst (fst q)))).
        { intros o. eapply post_bind; [apply post_call; exact F2|]. intros q N. apply post_ret. exact N. }
        destruct om as [r|]; [|apply D]. destruct b; [|apply D]. eapply post_bind; [apply post_parse; exact F2|]. intros p P. eapply post_bind; [apply post_call; exact P|]. intros q N. apply post_ret. exact N.
      - intros [[res mm] target] N. cbn in N. eapply post_bind with (P1 := any); [intros w E; split; [exact E|constructor]|]. intros _ _. rewrite (q_stop c Q). apply post_combine. exact N.
    Qed.
    Lemma post_stop_if : post (stop_if_training X O S truthy c) any.
    Proof.
      unfold stop_if_training. eapply post_bind; [apply post_look|]. intros s _. destruct (n_training S s); [|apply post_ret; constructor]. eapply post_bind; [apply post_stop|]. intros _ _.
      eapply post_bind; [apply post_look|]. intros s' _. destruct (_ <? _); [apply post_raise|apply post_ret; constructor].
    Qed.
    Lemma post_pre_inverse x : post (pre_inverse X O S truthy c x) any.
    Proof. unfold pre_inverse. destruct (negb _); [apply post_raise|]. eapply post_bind; [apply post_stop_if|]. intros _ _. apply post_own. Qed.
    Lemma post_refcast x : post (refcast X O S c x) any.
    Proof. unfold refcast. eapply post_bind; [apply post_look|]. intros s _. apply post_ret. constructor. Qed.
    Lemma post_train_plain x : post (train_plain X O S c x) no_msg.
    Proof.
      unfold train_plain, check_args. eapply post_bind; [apply post_own|]. intros _ _. eapply post_bind; [apply post_own|]. intros _ _. eapply post_bind; [apply post_started|]. intros _ _.
      eapply post_bind; [apply post_refcast|]. intros x' _. eapply post_bind; [apply post_look|]. intros s _. eapply post_bind; [apply post_lift; apply phases_quiet|]. intros fs [F1 F2]. apply post_call. exact F1.
    Qed.
    Lemma post_train x om : post (train X O S truthy c x om) any.
    Proof.
      unfold train, guard_train. eapply post_bind with (P1 := any).
      { destruct (negb _); [apply post_raise|]. eapply post_bind; [apply post_look|]. intros s _. destruct (negb _); [apply post_raise|apply post_ret; constructor]. }
      intros _ _. destruct om as [r|]; [|destruct x as [x|]; [eapply post_weaken; [apply post_train_plain|constructor]|apply post_raise]].
      eapply post_bind; [apply post_look|]. intros s _. eapply post_bind; [apply post_lift; apply phases_quiet|]. intros fs [F1 F2]. eapply post_bind; [apply post_parse; exact F1|]. intros p P.
      eapply post_bind with (P1 := any).
      { destruct x as [x|]; [|apply post_ret; constructor]. destruct (_ || _).
        - unfold check_args. eapply post_bind; [apply post_own|]. intros _ _. eapply post_bind; [apply post_own|]. intros _ _. eapply post_bind; [apply post_started|]. intros _ _. eapply post_bind; [apply post_refcast|]. intros x' _. apply post_ret. constructor.
        - destruct (is_str _ _ _); [|apply post_ret; constructor]. eapply post_bind; [apply post_pre_inverse|]. intros _ _. apply post_ret. constructor. }
      intros x' _. eapply post_bind; [apply post_call; exact P|]. intros res N.
      assert (G : post (bind _ _ (combine X O S res (p_msg _ _ _ p) (p_target _ _ _ p)) (fun res' => ret _ _ (match res' with RPair _ _ None _ => RPlain _ _ None | r => r end))) any).
      { eapply post_bind; [apply post_combine; exact N|]. intros q _. apply post_ret. constructor. }
      destruct res as [[y|]|y m|y m t|]; try exact G. apply post_ret. constructor.
    Qed.
    Lemma post_auto n x : post (auto_train X O S truthy c n x) any.
    Proof.
      induction n as [|n IH]; cbn [auto_train]; (eapply post_bind; [apply post_train|]; intros _ _; eapply post_bind; [apply post_look|]; intros s _); [apply post_ret; constructor|].
      destruct (1 <? _); [|apply post_ret; constructor]. eapply post_bind; [apply post_stop|]. intros _ _. exact IH.
    Qed.
    Lemma post_pre_execute x : post (pre_execute X O S truthy c x) any.
    Proof.
      unfold pre_execute. eapply post_bind; [apply post_look|]. intros s _. eapply post_bind with (P1 := any); [destruct (_ && _); [apply post_auto|apply post_ret; constructor]|]. intros _ _.
      eapply post_bind; [apply post_stop_if|]. intros _ _. apply post_own.
    Qed.
    Lemma post_execute x om : post (BiModel.execute X O S truthy c x om) any.
    Proof.
      unfold BiModel.execute. destruct om as [r|].
      - eapply post_bind; [apply post_parse; exact (q_execute c Q)|]. intros p P. eapply post_bind with (P1 := any).
        { destruct x as [x|]; [|apply post_ret; constructor]. destruct (_ || _).
          - eapply post_bind; [apply post_pre_execute|]. intros _ _. eapply post_bind; [apply post_refcast|]. intros x' _. apply post_ret. constructor.
          - destruct (is_str _ _ _); [|apply post_ret; constructor]. eapply post_bind; [apply post_pre_inverse|]. intros _ _. apply post_ret. constructor. }
        intros x' _. eapply post_bind; [apply post_call; exact P|]. intros res N. apply post_combine. exact N.
      - destruct x as [x|]; [|apply post_raise]. eapply post_bind; [apply post_pre_execute|]. intros _ _. eapply post_bind; [apply post_refcast|]. intros x' _. eapply post_weaken; [apply post_call; exact (q_execute c Q)|constructor].
    Qed.
  End Node.

  Definition quiet_flow (h : heap O) (w : world) : Prop := forall c s, In (Bi X O S c s) (nodes w) -> quiet c /\ unaddressed c h.
  Lemma quiet_grows h w w' : grows X O S w w' -> quiet_flow h w -> quiet_flow h w'.
  Proof. intros G R c s I. destruct (later_in _ _ _ _ _ _ G I) as ([c' s'|p s'] & I' & L); [|destruct L]. destruct L as [<- _]. exact (R c s' I'). Qed.
  Notation seq := (BiFlowModel.seq X O S truthy).
  Notation exec_node := (BiFlowModel.exec_node X O S truthy).
  Lemma quiet_exec k x m w : quiet_flow (hp w) w -> hp (fst (exec_node k x m w)) = hp w.
  Proof.
    intros Q. unfold BiFlowModel.exec_node. destruct (nth_error (nodes w) k) as [[c s|p s]|] eqn:N; [| |reflexivity].
    - destruct (Q c s (nth_error_In _ _ N)) as [Q1 Q2]. destruct (post_execute c (hp w) Q1 Q2 x m (s, hp w) eq_refl) as [H _].
      destruct (BiModel.execute _ _ _ truthy c x m (s, hp w)) as [[s' h'] [[y|y m'|y m' t|]|e]]; exact H.
    - destruct x as [x|]; [|reflexivity]. destruct (p_exec _ _ p x s) as [s' [y|e]]; reflexivity.
  Qed.
  Lemma quiet_seq n stop : forall x m i w w' r, quiet_flow (hp w) w -> seq n x m i stop w = Some (w', r) -> hp w' = hp w.
  Proof.
    induction n as [|n IH]; intros x m i w w' r Q E; [discriminate|]. cbn [BiFlowModel.seq] in E. destruct i as [i|v]; [|injection E as <- _; reflexivity].
    destruct (match stop with Some k => _ | None => _ end); [injection E as <- _; reflexivity|]. destruct (index _ i) as [k|]; [|injection E as <- _; reflexivity].
    pose proof (grows_exec_node X O S truthy k x m w) as G. pose proof (quiet_exec k x m w Q) as H. destruct (exec_node k x m w) as [w1 [[[y m1] t]|e]]; cbn [fst] in *; [|injection E as <- _; exact H].
    assert (Q1 : quiet_flow (hp w1) w1) by (rewrite H; exact (quiet_grows _ _ _ G Q)).
    destruct (is_int _ t) as [z|]; cbv zeta in E.
    - destruct (_ =? _)%Z; [injection E as <- _; exact H|]. destruct (_ =? _)%Z; [injection E as <- _; exact H|]. rewrite <- H. eapply IH; [exact Q1|exact E].
    - destruct (target_to_index _ _ _ _ t i) as [[j|v]|e]; try (injection E as <- _; exact H). rewrite <- H. eapply IH; [exact Q1|exact E].
  Qed.
  (** what a step of the training keeps *)
  Definition kept (w w' : world) : Prop := grows X O S w w' /\ (quiet_flow (hp w) w -> hp w' = hp w).
  Lemma kept_refl w : kept w w. Proof. split; [apply grows_refl|auto]. Qed.
  Lemma kept_trans a b c : kept a b -> kept b c -> kept a c.
  Proof. intros [G H] [G' H']. split; [eapply grows_trans; eassumption|]. intros Q. rewrite H', (H Q); [reflexivity|]. rewrite (H Q). exact (quiet_grows _ _ _ G Q). Qed.
  Lemma kept_reset w : kept w (reset X O S w). Proof. split; [apply grows_reset|reflexivity]. Qed.
  Lemma kept_seq n stop x m i w w' r : seq n x m i stop w = Some (w', r) -> kept w w'.
  Proof. intros E. split; [eapply grows_seq; exact E|]. intros Q. eapply quiet_seq; eassumption. Qed.
  Lemma kept_train_call k x m w : kept w (fst (train_call X O S truthy k x m w)).
  Proof.
    split; [apply grows_train_call|]. intros Q. unfold train_call. destruct (nth_error (nodes w) k) as [[c s|p s]|] eqn:N; [| |reflexivity].
    - destruct (Q c s (nth_error_In _ _ N)) as [Q1 Q2]. destruct (post_train c (hp w) Q1 Q2 x m (s, hp w) eq_refl) as [H _]. destruct (train _ _ _ truthy c x m (s, hp w)) as [[s' h'] r]. exact H.
    - destruct x as [x|]; [|reflexivity]. destruct (p_train _ _ p x s) as [s' r]. reflexivity.
  Qed.
  Lemma kept_stop_call k sm w : kept w (fst (stop_call X O S truthy k sm w)).
  Proof.
    split; [apply grows_stop_call|]. intros Q. unfold stop_call. destruct (nth_error (nodes w) k) as [[c s|p s]|] eqn:N; [| |reflexivity].
    - destruct (Q c s (nth_error_In _ _ N)) as [Q1 Q2]. destruct (post_stop c (hp w) Q1 Q2 sm (s, hp w) eq_refl) as [H _]. destruct (stop_training _ _ _ truthy c sm (s, hp w)) as [[s' h'] r]. exact H.
    - destruct sm as [sm|]; [reflexivity|]. destruct (p_stop _ _ p s) as [s' r]. reflexivity.
  Qed.
  Lemma kept_train_chunk n k : forall x m i w w' r, train_chunk X O S truthy n k x m i w = Some (w', r) -> kept w w'.
  Proof.
    induction n as [|n IH]; intros x m i w w' r E; [discriminate|]. cbn [train_chunk] in E.
    destruct (seq n x m i (Some k) w) as [[w1 q]|] eqn:SE; [|discriminate]. apply kept_seq in SE.
    destruct q as [[y|y m1|y m1 t|]|e]; try (injection E as <- _; exact SE).
    destruct t as [|[]| | |]; try (injection E as <- _; exact SE).
    pose proof (kept_train_call k y m1 w1) as G. destruct (train_call X O S truthy k y m1 w1) as [w2 q]. cbn [fst] in G. assert (A2 := kept_trans _ _ _ SE G).
    destruct q as [[q|]|e]; try (injection E as <- _; exact A2).
    destruct q as [y0|y0 m0|y0 m0 t|]; try (injection E as <- _; exact A2);
      (destruct (target_to_index X O S (nodes w2) _ (Z.of_nat k)) as [j|e]; [|injection E as <- _; exact A2]; eapply kept_trans; [exact A2|eapply IH; exact E]).
  Qed.
  Lemma kept_train_chunks n k chs : forall w w' r, train_chunks X O S truthy n k chs w = Some (w', r) -> kept w w'.
  Proof.
    induction chs as [|[x m] chs IH]; intros w w' r E; cbn [train_chunks] in E; [injection E as <- _; apply kept_refl|].
    destruct (train_chunk X O S truthy n k x m (inl 0%Z) w) as [[w1 [u|e]]|] eqn:TC; [| |discriminate]; apply kept_train_chunk in TC; [|injection E as <- _; exact TC].
    eapply kept_trans; [exact TC|]. eapply kept_trans; [apply kept_reset|]. eapply IH. exact E.
  Qed.
  Lemma kept_stop_phase n k sm w w' r : stop_phase X O S truthy n k sm w = Some (w', r) -> kept w w'.
  Proof.
    unfold stop_phase. pose proof (kept_stop_call k sm w) as G. destruct (stop_call X O S truthy k sm w) as [w1 q]. cbn [fst] in G. destruct q as [[q|]|e]; try (intros E; injection E as <- _; exact G).
    destruct q as [y|y m|y m t|]; [| |destruct (is_str O "exit" t) eqn:IS; [intros E; injection E as <- _; exact G|]|intros E; injection E as <- _; exact G]; cbn [is_str];
      (destruct (target_to_index X O S (nodes w1) _ (Z.of_nat k)) as [i|e]; [|intros E; injection E as <- _; exact G];
       match goal with |- context [seq n ?a ?b i None w1] => destruct (seq n a b i None w1) as [[w2 q2]|] eqn:SE; [|discriminate] end;
       apply kept_seq in SE; destruct q2 as [[]|]; intros E; injection E as <- _; eapply kept_trans; eassumption).
  Qed.
  Lemma kept_phases n k chs sm : forall w w' r, train_phases X O S truthy n k chs sm w = Some (w', r) -> kept w w'.
  Proof.
    induction n as [|n IH]; intros w w' r E; [discriminate|]. cbn [train_phases] in E. destruct (nth_error (nodes w) k) as [f|] eqn:N; [|injection E as <- <-; apply kept_refl].
    destruct (f_remaining X O S f =? 0); [injection E as <- <-; apply kept_refl|].
    destruct (single_phase X O S truthy n k chs sm w) as [[w1 [u|e]]|] eqn:SP; [| |discriminate].
    - assert (K : kept w w1).
      { unfold single_phase in SP. destruct (train_chunks X O S truthy n k chs w) as [[w2 [u2|e]]|] eqn:T; [|discriminate|discriminate]. apply kept_train_chunks in T. destruct chs; [discriminate|]. apply kept_stop_phase in SP. eapply kept_trans; eassumption. }
      apply IH in E. eapply kept_trans; [exact K|]. eapply kept_trans; [apply kept_reset|exact E].
    - injection E as <- <-. unfold single_phase in SP. destruct (train_chunks X O S truthy n k chs w) as [[w2 [u2|e2]]|] eqn:T; [| |discriminate]; apply kept_train_chunks in T; [|injection SP as <- _; exact T].
      destruct chs; [injection SP as <- _; exact T|]. apply kept_stop_phase in SP. eapply kept_trans; eassumption.
  Qed.
  (** C176: if the methods neither change nor return messages, and no key is addressed to a node of the flow, the training leaves all
      messages as they are, whatever happens: every phase of every node is given the same ones *)
  Theorem C176_quiet n data w w' r : quiet_flow (hp w) w -> train_flow X O S truthy (fun _ => None) n data w = Some (w', r) -> hp w' = hp w.
  Proof.
    intros Q E. unfold train_flow in E.
    assert (G : forall data k w w' r, train_nodes X O S truthy (fun _ => None) n k data w = Some (w', r) -> kept w w').
    { clear. induction data as [|[chs sm] data IH]; intros k w w' r E; cbn [train_nodes] in E; [injection E as <- _; apply kept_refl|].
      destruct (train_node X O S truthy n k chs sm w) as [[w1 q]|] eqn:TN; [|discriminate].
      assert (K : kept w w1). { unfold train_node in TN. destruct (nth_error (nodes w) k) as [f|]; [|injection TN as <- _; apply kept_refl]. destruct (f_trainable X O S f); [eapply kept_phases; exact TN|injection TN as <- _; apply kept_refl]. }
      destruct q as [u|e]; [|injection E as <- _; exact K]. cbn in E. eapply kept_trans; [exact K|eapply IH; exact E]. }
    apply G in E. destruct (kept_trans _ _ _ (kept_reset w) E) as [_ H]. exact (H Q).
  Qed.
End Quiet.
(** the hypotheses hold for the flow of the example *)
Example C176_quiet_example : quiet_flow nat unit nat [[("a"%string, VInt unit 1)]] (w_a [("a"%string, VInt unit 1)] 2).
Proof.
  intros c s [I|[]]. injection I as <- _. split.
  - split.
    + intros n f E. cbn in E. discriminate.
    + intros x a s0 h. cbn. split; [reflexivity|]. intros r [= <-]. constructor.
    + intros x a s0 h. cbn. split; [reflexivity|]. intros r [= <-]. constructor.
    + intros f g [E|[E|[]]]; injection E as <- <-; (split; intros x a s0 h; cbn; (split; [reflexivity|]; intros r [= <-]; constructor)).
    + reflexivity.
  - intros [|[|r]]; reflexivity.
Qed.
