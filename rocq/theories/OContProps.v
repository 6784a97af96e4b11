(** C60, C158, C159, C161, C162: the container methods of OnlineFlow and CircularOnlineFlow. *)
From Coq Require Import List Arith ZArith Bool Lia.
From Verif Require Import PyList FlowListModel OContModel.
Import ListNotations.
Open Scope nat_scope.

Section Props.
  Variable dims : dimf.
  Variable kind : nat -> nkind.
  Notation ostep := (ostep dims kind).
  Notation orun := (orun dims kind).
  Notation cstep := (cstep dims kind).

  (** ** C158: OnlineFlow *)
  (** adjacent nodes fit: the output dim of one and the input dim of the next agree if both are set *)
  Definition fit (l : list value) : Prop := forall i a b, nth_error l i = Some (VNode a) -> nth_error l (S i) = Some (VNode b) ->
    match snd (dims a), fst (dims b) with Some o, Some n => o = n | _, _ => True end.
  (** only the last node may be a Node in training, and there is a last node *)
  Definition compatible (l : list value) : Prop := exists init last, l = init ++ [VNode last] /\ Forall (fun v => exists n, v = VNode n /\ kind n <> KTrainable) init.
  Lemma first_none {T} (c : T -> option pexn) l : first_exn c l = None <-> Forall (fun v => c v = None) l.
  Proof.
    induction l as [|v l IH]; cbn; [split; [constructor|auto]|]. destruct (c v) eqn:E; [split; [discriminate|]; intro H; apply Forall_cons_iff in H as [H _]; congruence|]. rewrite IH. split; [now constructor|]. now intro H; apply Forall_cons_iff in H.
  Qed.
  Lemma value_none v : check_value kind v = None <-> exists n, v = VNode n /\ kind n <> KTrainable.
  Proof.
    destruct v as [n|]; cbn; [|split; [discriminate|intros (n & H & _); discriminate]]. split.
    - intro H. exists n. split; [reflexivity|]. intro E. now rewrite E in H.
    - intros (m & [= <-] & H). destruct (kind n); congruence.
  Qed.
  Lemma compat_none l : check_compat kind l = None <-> compatible l.
  Proof.
    unfold check_compat. destruct (rev l) as [|v r] eqn:E.
    - split; [discriminate|]. intros (i & n & -> & _). rewrite rev_app_distr in E. discriminate.
    - assert (El : l = rev r ++ [v]) by (rewrite <- (rev_involutive l), E; reflexivity). split.
      + destruct (first_exn (check_value kind) (rev r)) eqn:F; [discriminate|]. apply first_none in F. destruct v as [n|]; [|discriminate]. intros _. exists (rev r), n. split; [assumption|]. eapply Forall_impl; [|exact F]. intros a Ha. now apply value_none.
      + intros (i & n & Hl & HF). rewrite Hl in El. apply app_inj_tail in El as [<- <-]. assert (F : first_exn (check_value kind) i = None) by (apply first_none; eapply Forall_impl; [|exact HF]; intros a Ha; now apply value_none). now rewrite F.
  Qed.
  Lemma nodes_fit l : check_nodes dims l = None -> fit l.
  Proof.
    induction l as [|a l IH]; intros H i x y Hx Hy; [destruct i; discriminate|]. destruct l as [|b l]; [destruct i as [|i]; cbn in Hy; [discriminate|destruct i; discriminate]|].
    cbn [check_nodes] in H. destruct a as [a|]; [|discriminate]. destruct b as [b|]; [|discriminate]. destruct (check_dims (snd (dims a)) (fst (dims b))) eqn:E; [discriminate|].
    destruct i as [|i].
    - cbn in Hx, Hy. injection Hx as <-. injection Hy as <-. unfold check_dims in E. destruct (snd (dims a)) as [o|]; [|exact Logic.I]. destruct (fst (dims b)) as [n|]; [|exact Logic.I]. destruct o, n; cbn in E; try reflexivity; try discriminate. destruct (Nat.eqb_spec o n); [congruence|discriminate].
    - apply (IH H i x y Hx Hy).
  Qed.
  Definition oinv (s : ost) : Prop := fit (o_nodes s) /\ compatible (o_nodes s) /\ o_keys s = o_nodes s.
  Lemma both_none l : both dims kind l = None -> fit l /\ compatible l.
  Proof. unfold both. destruct (check_nodes dims l) eqn:E; [discriminate|]. intro H. split; [now apply nodes_fit|now apply compat_none]. Qed.
  Lemma accept_inv s l s' r : o_accept dims kind s l = (s', r) -> match r with Some _ => s' = s | None => oinv s' /\ o_nodes s' = l end.
  Proof. unfold o_accept. destruct (both dims kind l) eqn:E; intros [= <- <-]; [reflexivity|]. apply both_none in E. unfold oinv. cbn. tauto. Qed.
  Lemma try_inv s p s' r : o_try dims kind s p = (s', r) -> match r with Some _ => s' = s | None => oinv s' /\ p = POk (o_nodes s') end.
  Proof. unfold o_try. destruct p as [l|e]; [|intros [= <- <-]; reflexivity]. intro H. apply accept_inv in H. destruct r; [assumption|]. destruct H as [H ->]. auto. Qed.
  Lemma setslice_inv s sl vs s' r : o_setslice dims kind s sl vs = (s', r) -> match r with Some _ => s' = s | None => oinv s' /\ set_slice (o_nodes s) sl vs = POk (o_nodes s') end.
  Proof. unfold o_setslice. destruct (first_exn (check_value kind) vs); [intros [= <- <-]; reflexivity|]. apply try_inv. Qed.
  Lemma again_inv s sl vs s' r : o_again dims kind (o_setslice dims kind s sl vs) = (s', r) -> match r with Some _ => s' = s | None => oinv s' /\ set_slice (o_nodes s) sl vs = POk (o_nodes s') end.
  Proof.
    destruct (o_setslice dims kind s sl vs) as [s1 r1] eqn:E. pose proof E as E0. apply setslice_inv in E. cbn. destruct r1 as [e|]; [intros [= <- <-]; exact E|]. destruct E as [E1 E2].
    assert (Hb : both dims kind (o_nodes s1) = None).
    { revert E0. unfold o_setslice, o_try, o_accept. destruct (first_exn _ vs); [discriminate|]. destruct (set_slice (o_nodes s) sl vs) as [l|e]; [|discriminate]. destruct (both dims kind l) eqn:Eb; [discriminate|]. intros [= <-]. exact Eb. }
    rewrite Hb. intros [= <- <-]. unfold oinv in *. cbn. tauto.
  Qed.
  (** what each operation does to the list if it returns *)
  Definition effect (o : oop) (l l' : list value) : Prop :=
    match o with
    | OSet i v => set_item l i v = Some l'
    | OSetSl sl vs => set_slice l sl vs = POk l'
    | ODel i | OPop i => del_item l i = Some l'
    | ODelSl sl => del_slice l sl = POk l'
    | OIadd vs | OExtend vs => l' = l ++ vs
    | OAppend v => l' = l ++ [v]
    | OInsert i v => let k := Z.to_nat (Z.max 0 (Z.min (zlen l) (if (i <? 0)%Z then (i + zlen l)%Z else i))) in l' = firstn k l ++ v :: skipn k l
    end.
  Definition is_iadd (o : oop) : bool := match o with OIadd _ => true | _ => false end.
  Theorem C158_step s o s' r : ostep s o = (s', r) ->
    match r with
    | None => oinv s' /\ effect o (o_nodes s) (o_nodes s')
    | Some _ => is_iadd o = false -> s' = s
    end.
  Proof.
    destruct o as [i v|sl vs|i|sl|vs|v|vs|i v|i]; cbn [OContModel.ostep effect is_iadd].
    - destruct (check_value kind v); [intros [= <- <-]; auto|]. intro H. apply try_inv in H. destruct r; [auto|]. destruct H as [H1 H2]. split; [assumption|]. destruct (set_item (o_nodes s) i v); [injection H2 as ->; reflexivity|discriminate].
    - intro H. apply setslice_inv in H. destruct r; auto.
    - intro H. apply try_inv in H. destruct r; [auto|]. destruct H as [H1 H2]. split; [assumption|]. destruct (del_item (o_nodes s) i); [injection H2 as ->; reflexivity|discriminate].
    - intro H. apply try_inv in H. destruct r; auto.
    - destruct (check_compat kind (o_nodes s ++ vs)) eqn:E1; [intros [= <- <-]; discriminate|]. destruct (check_nodes dims (o_nodes s ++ vs)) eqn:E2; intros [= <- <-]; [discriminate|]. split; [|reflexivity]. split; [now apply nodes_fit|]. split; [now apply compat_none|reflexivity].
    - intro H. apply again_inv in H. destruct r; [auto|]. destruct H as [H1 H2]. split; [assumption|]. unfold plain in H2. rewrite set_slice_end in H2. now injection H2 as ->.
    - intro H. apply again_inv in H. destruct r; [auto|]. destruct H as [H1 H2]. split; [assumption|]. unfold plain in H2. rewrite set_slice_end in H2. now injection H2 as ->.
    - intro H. apply again_inv in H. destruct r; [auto|]. destruct H as [H1 H2]. split; [assumption|]. unfold plain in H2. rewrite set_slice_insert in H2. now injection H2 as ->.
    - destruct (get_item (o_nodes s) i); [|intros [= <- <-]; auto]. intro H. apply try_inv in H. destruct r; [auto|]. destruct H as [H1 H2]. split; [assumption|]. destruct (del_item (o_nodes s) i); [injection H2 as ->; reflexivity|discriminate].
  Qed.
  (** after every history in which no += failed, the flow is consistent, compatible, and the needed arguments belong to its nodes *)
  Theorem C158_history l s0 os s rs : o_new dims kind l = inl s0 -> orun s0 os = (s, rs) -> (forall o, In o (combine os rs) -> is_iadd (fst o) = true -> snd o = None) -> oinv s.
  Proof.
    intro H0. assert (Hi : oinv s0). { revert H0. unfold o_new. destruct (both dims kind l) eqn:E; [discriminate|]. intros [= <-]. apply both_none in E. unfold oinv. cbn. tauto. } clear H0. revert s0 Hi rs.
    induction os as [|o os IH]; intros s0 Hi rs; cbn [OContModel.orun]; [intros [= <- <-] _; assumption|]. destruct (ostep s0 o) as [s1 r] eqn:E. destruct (orun s1 os) as [s2 rs2] eqn:E2. intros [= <- <-] Hok.
    refine (IH s1 _ rs2 _ _); [|exact E2|].
    - apply C158_step in E. destruct r as [e|]; [|tauto]. destruct (is_iadd o) eqn:Eo; [|now rewrite (E eq_refl)]. specialize (Hok (o, Some e) (or_introl eq_refl) Eo). discriminate.
    - intros p Hp. apply Hok. now right.
  Qed.

  (** ** C60: CircularOnlineFlow *)
  Definition valid_out (s : cst) : Prop := (0 <= out s < zlen (cn s))%Z.
  Definition out_node (s : cst) : option value := nth_error (cn s) (Z.to_nat (out s)).
  (** set_input_node *)
  Theorem C60_input s k : valid_out s -> (0 <= k < zlen (cn s))%Z -> let (s', r) := cstep s (CIn k) in
    r = None /\ valid_out s' /\ out_node s' = out_node s /\ forall i, i < length (cn s) -> nth_error (cn s') i = nth_error (cn s) ((Z.to_nat k + i) mod length (cn s)).
  Proof.
    intros Hv Hk. unfold valid_out, out_node, zlen in *. cbn [OContModel.cstep]. unfold c_set_input, zlen. destruct (Z.ltb_spec (Z.of_nat (length (cn s))) k); [lia|]. destruct (Z.ltb_spec k 0); [lia|]. cbn [orb]. destruct (Z.eqb_spec (Z.of_nat (length (cn s))) 0) as [|_]; [lia|]. cbn.
    set (n := length (cn s)) in *. set (q := Z.to_nat k).
    assert (Hn : n <> 0) by lia.
    assert (G : forall i, i < n -> nth_error (skipn q (cn s) ++ firstn q (cn s)) i = nth_error (cn s) ((q + i) mod n)).
    { intros i Hi. destruct (Nat.lt_ge_cases i (n - q)) as [H1|H1].
      - rewrite nth_error_app1 by (rewrite skipn_length; fold n; lia). rewrite Nat.mod_small by (unfold q; lia). rewrite <- (firstn_skipn q (cn s)) at 2. rewrite nth_error_app2; rewrite firstn_length; fold n; [f_equal; unfold q in *; lia|unfold q in *; lia].
      - rewrite nth_error_app2 by (rewrite skipn_length; fold n; lia). rewrite skipn_length. fold n. replace (q + i) with (1 * n + (q + i - n)) by (unfold q in *; lia). rewrite Nat.add_comm, Nat.mod_add by exact Hn. rewrite Nat.mod_small by (unfold q in *; lia).
        replace (i - (n - q)) with (q + i - n) by (unfold q in *; lia). rewrite <- (firstn_skipn q (cn s)) at 2. rewrite nth_error_app1; [reflexivity|]. rewrite firstn_length. fold n. unfold q in *. lia. }
    assert (Hl : length (skipn q (cn s) ++ firstn q (cn s)) = n) by (rewrite app_length, skipn_length, firstn_length; fold n; unfold q in *; lia).
    pose proof (Z.mod_pos_bound (out s - k) (Z.of_nat n) ltac:(lia)) as Hm. rewrite Hl. split; [reflexivity|]. split; [exact Hm|]. split; [|exact G].
    rewrite G by lia. f_equal. unfold q. 
    apply Nat2Z.inj. rewrite Nat2Z.inj_mod, Nat2Z.inj_add, !Z2Nat.id by lia. rewrite Zplus_mod_idemp_r. replace (k + (out s - k))%Z with (out s) by lia. now apply Z.mod_small.
  Qed.
  Definition keeps_out (s s' : cst) : Prop := valid_out s' /\ out_node s' = out_node s.
  Lemma keeps_app s vs : valid_out s -> keeps_out s (mkCs (cn s ++ vs) (out s)).
  Proof. intro H. unfold keeps_out, valid_out, out_node, zlen in *. cbn. rewrite app_length. split; [lia|]. apply nth_error_app1. lia. Qed.
  (** assigning to a plain slice after the output node *)
  Lemma try_slice s a b vs s' : valid_out s -> c_setslice0 dims kind s (mkSlice (Some a) b None) vs = (s', None) -> (out s < a)%Z -> keeps_out s s' /\ out s' = out s.
  Proof.
    intros Hv. unfold c_setslice0, c_try. destruct (first_exn _ vs); [discriminate|]. destruct (set_slice (cn s) (mkSlice (Some a) b None) vs) as [l|e] eqn:E; [|discriminate]. destruct (c_check dims kind l); [discriminate|]. intros [= <-] Ha.
    split; [|reflexivity]. revert E. unfold set_slice, adjust. cbn [sl_step sl_start sl_stop]. change (1 =? 0)%Z with false. change (1 <? 0)%Z with false. change (1 =? 1)%Z with true. cbv iota. intros [= <-].
    unfold keeps_out, valid_out, out_node, zlen in *. cbn [cn out]. set (n := length (cn s)) in *. destruct (Z.ltb_spec a 0); [lia|].
    assert (Hc : (out s < clip 0 (Z.of_nat n) a)%Z). { unfold clip. destruct (Z.ltb_spec a 0); [lia|]. destruct (Z.ltb_spec (Z.of_nat n) a); lia. }
    assert (Hcn : (clip 0 (Z.of_nat n) a <= Z.of_nat n)%Z). { unfold clip. destruct (Z.ltb_spec a 0); [lia|]. destruct (Z.ltb_spec (Z.of_nat n) a); lia. }
    set (k := Z.to_nat (clip 0 (Z.of_nat n) a)) in *. rewrite !app_length, firstn_length. fold n. split; [lia|]. rewrite nth_error_app1 by (rewrite firstn_length; fold n; lia).
    rewrite <- (firstn_skipn k (cn s)) at 2. rewrite nth_error_app1; [reflexivity|]. rewrite firstn_length. fold n. lia.
  Qed.
  Lemma setslice_out s a b vs s' : valid_out s -> c_setslice dims kind s (mkSlice (Some a) b None) vs = (s', None) -> (out s <> a)%Z -> keeps_out s s' /\ out s' = out s.
  Proof.
    intros Hv. unfold c_setslice, c_then. destruct (c_setslice0 dims kind s (mkSlice (Some a) b None) vs) as [s1 [e|]] eqn:E; [discriminate|]. cbn [sl_start].
    destruct (Z.ltb_spec a (out s1)); [discriminate|]. intros [= <-] Hne.
    assert (Ho : out s1 = out s). { revert E. unfold c_setslice0, c_try. destruct (first_exn _ vs); [discriminate|]. destruct (set_slice _ _ _); [|discriminate]. destruct (c_check dims kind _); [discriminate|]. now intros [= <-]. }
    apply (try_slice s a b vs); auto. lia.
  Qed.
  (** operations that may replace the output node: slices with a step, slices starting at the output node *)
  Definition elsewhere (s : cst) (o : cop) : Prop :=
    match o with COut k => (k <> zlen (cn s))%Z | CIn k => (k <> zlen (cn s))%Z | CSetSl sl _ => sl_step sl = None /\ sl_start sl <> Some (out s) | _ => True end.
  Theorem C60_output_kept s o s' : valid_out s -> elsewhere s o -> cstep s o = (s', None) -> valid_out s' /\
    match o with COut k => (0 <= k)%Z /\ out_node s' = nth_error (cn s) (Z.to_nat k) | CReset => out_node s' = nth_error (cn s) (length (cn s) - 1) | _ => out_node s' = out_node s end.
  Proof.
    intros Hv He. destruct o as [k|k| |i v|sl vs|i|sl|vs|v|vs|i v|i]; cbn [elsewhere] in He.
    - intro E. destruct (Z.lt_ge_cases k 0) as [H1|H1]; [|destruct (Z.lt_ge_cases k (zlen (cn s))) as [H2|H2]].
      + cbn in E. unfold c_set_input in E. destruct (Z.ltb_spec k 0); [|lia]. rewrite orb_true_r in E. discriminate.
      + pose proof (C60_input s k Hv (conj H1 H2)) as P. rewrite E in P. tauto.
      + cbn in E. unfold c_set_input in E. destruct (Z.ltb_spec (zlen (cn s)) k); [discriminate|lia].
    - cbn. unfold c_set_output. destruct (Z.ltb_spec (zlen (cn s)) k); [discriminate|]. destruct (Z.ltb_spec k 0); [discriminate|]. intros [= <-]. unfold valid_out, out_node. cbn. repeat split; auto; lia.
    - cbn. intros [= <-]. unfold valid_out, out_node, zlen in *. cbn. split; [lia|]. f_equal. lia.
    - cbn. unfold c_then. destruct (match check_value kind v with Some e => _ | None => _ end) as [s1 [e|]]; discriminate.
    - destruct He as [H1 H2]. destruct sl as [[a|] b st]; cbn in H1, H2; subst st.
      + intro E. apply setslice_out in E; [|assumption|congruence]. destruct E as [[E1 E2] _]. auto.
      + cbn. unfold c_setslice, c_then. destruct (c_setslice0 _ _ _ _ _) as [s1 [e|]]; discriminate.
    - cbn. unfold c_del, c_then. destruct (c_try _ _ _ _) as [s1 [e|]]; discriminate.
    - cbn. unfold c_then. destruct (c_try _ _ _ _) as [s1 [e|]]; discriminate.
    - cbn [OContModel.cstep cn]. destruct (check_circ kind (cn s ++ vs)); [discriminate|]. destruct (check_nodes dims (cn s ++ vs)); [discriminate|]. intros [= <-]. now apply keeps_app.
    - cbn. unfold c_then at 1. destruct (c_setslice dims kind s (plain (zlen (cn s)) (zlen (cn s))) [v]) as [s1 [e|]] eqn:E; [discriminate|]. apply setslice_out in E; [|assumption|unfold valid_out in Hv; lia]. destruct E as [E _].
      unfold c_again. destruct (c_check dims kind (cn s1)); [discriminate|]. intros [= <-]. exact E.
    - cbn. unfold c_then at 1. destruct (c_setslice dims kind s (plain (zlen (cn s)) (zlen (cn s))) vs) as [s1 [e|]] eqn:E; [discriminate|]. apply setslice_out in E; [|assumption|unfold valid_out in Hv; lia]. destruct E as [E _].
      unfold c_again. destruct (c_check dims kind (cn s1)); [discriminate|]. intros [= <-]. exact E.
    - cbn. unfold c_then at 1 2. destruct (c_setslice dims kind s (plain i i) [v]) as [s1 [e|]] eqn:E; [discriminate|]. unfold c_again. destruct (c_check dims kind (cn s1)); [discriminate|].
      destruct (Z.eq_dec i (out s)) as [->|Hne].
      + assert (E1 : s1 = mkCs (firstn (Z.to_nat (out s)) (cn s) ++ v :: skipn (Z.to_nat (out s)) (cn s)) (out s)).
        { revert E. unfold c_setslice, c_then, c_setslice0. destruct (first_exn _ [v]); [discriminate|]. unfold plain. rewrite set_slice_insert. cbn [c_try]. destruct (c_check dims kind _); [discriminate|]. cbn [sl_start out].
          rewrite Z.ltb_irrefl. intros [= <-]. unfold valid_out in Hv. destruct (Z.ltb_spec (out s) 0); [lia|]. rewrite Z.min_r, Z.max_r by lia. reflexivity. }
        subst s1. cbn [out]. rewrite Z.leb_refl. unfold c_set_output. cbn [cn out]. unfold valid_out, zlen in *. rewrite app_length, firstn_length. cbn [length]. rewrite skipn_length.
        destruct (_ || _)%bool; [discriminate|]. intros [= <-]. unfold out_node, zlen. cbn [cn out]. rewrite app_length, firstn_length. cbn [length]. rewrite skipn_length. split; [lia|].
        replace (Z.to_nat (out s + 1)) with (S (Z.to_nat (out s))) by lia. rewrite nth_error_app2 by (rewrite firstn_length; lia). rewrite firstn_length. replace (S (Z.to_nat (out s)) - Nat.min (Z.to_nat (out s)) (length (cn s))) with 1 by lia. cbn [nth_error].
        rewrite <- (firstn_skipn (Z.to_nat (out s)) (cn s)) at 2. rewrite nth_error_app2 by (rewrite firstn_length; lia). rewrite firstn_length. replace (Z.to_nat (out s) - Nat.min (Z.to_nat (out s)) (length (cn s))) with 0 by lia. reflexivity.
      + pose proof E as E0. apply setslice_out in E; [|assumption|congruence]. destruct E as [E Eo].
        assert (Hi : (out s <= i)%Z). { revert E0. unfold c_setslice, c_then. destruct (c_setslice0 _ _ _ _ _) as [s2 [e|]]; [discriminate|]. cbn. destruct (Z.ltb_spec i (out s2)) as [|H0]; [discriminate|]. intros [= ->]. lia. }
        rewrite Eo. destruct (Z.leb_spec i (out s)); [lia|]. intros [= <-]. exact E.
    - cbn. destruct (get_item (cn s) i); [|discriminate]. unfold c_del, c_then. destruct (c_try _ _ _ _) as [s1 [e|]]; discriminate.
  Qed.
  (** execute goes through the nodes up to the output node *)
  Theorem C60_execute s : valid_out s -> exists p v, c_path s = Some (p ++ [v]) /\ out_node s = Some v /\ p = firstn (Z.to_nat (out s)) (cn s).
  Proof.
    intro H. unfold valid_out, out_node, c_path, zlen in *. destruct (Z.ltb_spec (out s) (Z.of_nat (length (cn s)))); [|lia]. destruct (nth_error (cn s) (Z.to_nat (out s))) as [v|] eqn:E; [|apply nth_error_None in E; lia].
    exists (firstn (Z.to_nat (out s)) (cn s)), v. repeat split. f_equal. replace (Z.to_nat (out s + 1)) with (S (Z.to_nat (out s))) by lia. apply nth_error_split in E as (l1 & l2 & -> & <-). replace (S (length l1)) with (length l1 + 1) by lia. rewrite firstn_app_2, firstn_app, Nat.sub_diag, firstn_all. cbn. now rewrite app_nil_r.
  Qed.
End Props.

(** ** Examples and refutations *)
Definition nodim : dimf := fun _ => (None, None).
Definition kinds (n : nat) : nkind := match n with 0 => KTrainable | 1 => KDone | _ => KOnline end.
Notation V := VNode.
Example C158_run : orun nodim kinds (mkO [V 2; V 3] [V 2; V 3]) [OAppend (V 1); OAppend (V 0); OInsert 0 (V 4); ODel (-1); OIadd [V 0]; OSet 0 (V 0); OPop 0; ODelSl (mkSlice None None None)] =
  (mkO [V 2; V 3; V 0] [V 2; V 3; V 0], [None; Some PyTypeError; None; None; None; Some PyTypeError; None; Some PyIndexError]).
Proof. reflexivity. Qed.
Fixpoint crun (s : cst) (os : list cop) : cst * list (option cexn) := match os with [] => (s, []) | o :: os => let (s1, r) := cstep nodim kinds s o in let (s2, rs) := crun s1 os in (s2, r :: rs) end.
Example C60_run : crun (mkCs [V 2; V 3; V 4] 2) [CIn 1; CAppend (V 5); CInsert 1 (V 6); COut 0; CIn 3; CSetSl (mkSlice (Some 3%Z) None None) [V 7]] =
  (mkCs [V 2; V 5; V 3; V 7] 2, [None; None; None; None; None; None]).
Proof. reflexivity. Qed.

(** C60: the index len(flow) is accepted by set_output_node (the message of the exception says <), execute then fails *)
Theorem C60_output_index_refuted : exists s s', cstep nodim kinds s (COut (zlen (cn s))) = (s', None) /\ valid_out s /\ c_path s' = None.
Proof. exists (mkCs [V 2; V 3] 1). eexists. split; [reflexivity|]. split; [unfold valid_out; cbn; lia|reflexivity]. Qed.
(** replacing the output node by nothing leaves an index outside the flow *)
Theorem C60_slice_refuted : exists s sl s', cstep nodim kinds s (CSetSl sl []) = (s', None) /\ valid_out s /\ c_path s' = None.
Proof. exists (mkCs [V 2; V 3] 1), (mkSlice (Some 1%Z) (Some 2%Z) None). eexists. split; [reflexivity|]. split; [unfold valid_out; cbn; lia|reflexivity]. Qed.
(** C161: deleting always raises after having deleted, insert before the output node raises after having inserted, assigning an item raises after having assigned *)
Theorem C161_delete_fails dims kind s i s' r : cstep dims kind s (CDel i) = (s', r) -> r <> None.
Proof. cbn. unfold c_del, c_then. destruct (c_try _ _ _ _) as [s1 [e|]]; intros [= <- <-]; discriminate. Qed.
Theorem C161_delete_slice_fails dims kind s sl s' r : cstep dims kind s (CDelSl sl) = (s', r) -> r <> None.
Proof. cbn. unfold c_then. destruct (c_try _ _ _ _) as [s1 [e|]]; intros [= <- <-]; discriminate. Qed.
Theorem C161_assign_fails dims kind s i v s' r : cstep dims kind s (CSet i v) = (s', r) -> r <> None.
Proof. cbn. unfold c_then. destruct (match check_value kind v with Some e => _ | None => _ end) as [s1 [e|]]; intros [= <- <-]; discriminate. Qed.
Theorem C161_insert_fails dims kind s i v s' r : (i < out s)%Z -> cstep dims kind s (CInsert i v) = (s', r) -> r <> None.
Proof.
  intros Hi. cbn. unfold c_setslice. unfold c_then at 1 2 3. destruct (c_setslice0 dims kind s (plain i i) [v]) as [s1 [e|]] eqn:E; [intros [= <- <-]; discriminate|].
  assert (Ho : out s1 = out s). { revert E. unfold c_setslice0, c_try. destruct (first_exn _ [v]); [discriminate|]. destruct (set_slice _ _ _); [|discriminate]. destruct (c_check dims kind _); [discriminate|]. now intros [= <-]. }
  cbn. rewrite Ho. destruct (Z.ltb_spec i (out s)); [|lia]. intros [= <- <-]. discriminate.
Qed.
Theorem C161_container_refuted : exists s, valid_out s /\
  cstep nodim kinds s (CDel 0) = (mkCs [V 3; V 4] 2, Some (CPy PyAttributeError)) /\
  cstep nodim kinds s (CPop 0) = (mkCs [V 3; V 4] 2, Some (CPy PyAttributeError)) /\
  cstep nodim kinds s (CInsert 0 (V 5)) = (mkCs [V 5; V 2; V 3; V 4] 2, Some (CPy PyTypeError)) /\
  cstep nodim kinds s (CSet 0 (V 5)) = (mkCs [V 5; V 3; V 4] 2, Some (CPy PyAttributeError)).
Proof. exists (mkCs [V 2; V 3; V 4] 2). split; [unfold valid_out; cbn; lia|]. repeat split. Qed.
(** C162: inverse and the concatenation of flows always fail *)
Theorem C162_inverse_refuted : exists s, valid_out s /\ c_inverse_path s = inr PyTypeError.
Proof. exists (mkCs [V 2] 0). split; [unfold valid_out; cbn; lia|reflexivity]. Qed.
Theorem C162_add_flow_fails dims kind s : exists e, c_add_flow dims kind s = inr e.
Proof.
  unfold c_add_flow. assert (H : check_circ kind (cn s ++ [VOther]) <> None).
  { unfold check_circ. intro H. apply first_none in H. apply Forall_app in H as [_ H]. apply Forall_cons_iff in H as [H _]. discriminate. }
  destruct (check_circ kind (cn s ++ [VOther])) as [e|]; [eauto|easy].
Qed.
Theorem C162_add_flow_refuted : exists s, valid_out s /\ c_add_flow nodim kinds s = inr PyTypeError.
Proof. exists (mkCs [V 2] 0). split; [unfold valid_out; cbn; lia|reflexivity]. Qed.
(** C158: a failing += leaves an incompatible flow *)
Theorem C158_iadd_refuted : exists s s' e, oinv nodim kinds s /\ ostep nodim kinds s (OIadd [V 0; V 2]) = (s', Some e) /\ ~ compatible kinds (o_nodes s') /\ o_keys s' <> o_nodes s'.
Proof.
  exists (mkO [V 2] [V 2]). eexists. eexists. split.
  - split; [apply nodes_fit; reflexivity|]. split; [|reflexivity]. apply compat_none. reflexivity.
  - split; [reflexivity|]. split; [|discriminate]. intro H. apply compat_none in H. discriminate.
Qed.
(** C159: a Node in training can be added at the end with + but not with append *)
Theorem C159_append_refuted : exists s s', oinv nodim kinds s /\ o_add nodim kinds s (V 0) = inl s' /\ ostep nodim kinds s (OAppend (V 0)) = (s, Some PyTypeError).
Proof.
  exists (mkO [V 2] [V 2]). eexists. split; [|split; reflexivity]. split; [apply nodes_fit; reflexivity|]. split; [|reflexivity]. apply compat_none. reflexivity.
Qed.
Theorem C159_append dims kind s n : kind n <> KTrainable -> 
  match ostep dims kind s (OAppend (V n)), o_add dims kind s (V n) with (s', None), inl t => s' = t | (s', Some _), inr _ => s' = s | _, _ => False end.
Proof.
  intro Hk. cbn [ostep]. unfold o_setslice, plain. cbn [first_exn]. assert (Hc : check_value kind (V n) = None) by (apply value_none; eauto). rewrite Hc, set_slice_end. cbn [o_try]. unfold o_accept, o_add, o_new, both. cbn [isnode].
  destruct (check_nodes dims (o_nodes s ++ [V n])) eqn:E1, (check_compat kind (o_nodes s ++ [V n])) eqn:E2; cbn [o_again o_nodes]; auto. unfold both. rewrite E1, E2. reflexivity.
Qed.
