(** BiFlow: jumps (C63), flows of normal nodes (C173), the node in training (C174), resets (C180), the end of the training (C181); and
    refutations (C175-C179). *)
From Coq Require Import List Arith ZArith Bool String Lia.
From Verif Require Import BiModel BiFlowModel BiProps.
Import ListNotations.
Open Scope nat_scope.

Lemma upd_length {T} (l : list T) i f : List.length (upd l i f) = List.length l.
Proof. unfold upd. revert i. induction l as [|a l IH]; intros [|i]; cbn; auto. Qed.
Lemma upd_nth {T} (l : list T) i f j : nth_error (upd l i f) j = if (j =? i) && (i <? List.length l) then Some f else nth_error l j.
Proof.
  unfold upd. revert i j. induction l as [|a l IH]; intros [|i] [|j]; cbn; try reflexivity; [destruct (j =? i); reflexivity|].
  change (S i <? S (List.length l)) with (i <? List.length l). apply IH.
Qed.

Lemma nth_error_ext' {T} (l m : list T) : (forall j, nth_error l j = nth_error m j) -> l = m.
Proof. revert m. induction l as [|a l IH]; intros [|b m] H; [reflexivity|discriminate (H 0)|discriminate (H 0)|]. pose proof (H 0) as H0. cbn in H0. injection H0 as ->. f_equal. apply IH. intros j. apply (H (S j)). Qed.

Section Props.
  Variables X O S : Type.
  Variable truthy : O -> bool.
  Notation value := (value O).
  Notation result := (result X O).
  Notation fnode := (fnode X O S).
  Notation world := (BiFlowModel.world X O S).
  Notation seq := (BiFlowModel.seq X O S truthy).
  Notation exec_node := (exec_node X O S truthy).
  Notation nodes := (w_nodes X O S).
  Notation hp := (w_heap X O S).
  Notation log := (w_log X O S).
  Definition fid (f : fnode) : option string := match f with Bi _ _ _ c _ => c_id _ _ _ c | Plain _ _ _ _ _ => None end.
  Definition ids (w : world) : list (option string) := map fid (nodes w).

  Lemma exec_node_frame k x m w w' r : exec_node k x m w = (w', r) ->
    ids w' = ids w /\
    match r with
    | BOk (_, _, t) => log w' = log w ++ [(k, t)] /\ k < List.length (nodes w)
    | BErr _ => log w' = log w \/ exists t, log w' = log w ++ [(k, t)] /\ (t = VNone _ \/ t = VInt _ 1)
    end.
  Proof.
    unfold BiFlowModel.exec_node. destruct (nth_error (nodes w) k) as [[c s|p s]|] eqn:N; [| |intros [= <- <-]; auto].
    - assert (K : k < List.length (nodes w)) by (apply nth_error_Some; congruence).
      assert (I : forall s', map fid (upd (nodes w) k (Bi _ _ _ c s')) = ids w).
      { intros s'. apply nth_error_ext'. intros j. rewrite nth_error_map, upd_nth. unfold ids. rewrite nth_error_map. destruct (Nat.eqb_spec j k) as [->|]; [|reflexivity]. rewrite N. destruct (k <? _); reflexivity. }
      destruct (BiModel.execute _ _ _ truthy c x m (s, hp w)) as [[s' h'] [[y|y m'|y m' t|]|e]]; intros [= <- <-]; (split; [apply I|]); cbn; auto; right; eauto.
    - assert (K : k < List.length (nodes w)) by (apply nth_error_Some; congruence).
      assert (I : forall s', map fid (upd (nodes w) k (Plain _ _ _ p s')) = ids w).
      { intros s'. apply nth_error_ext'. intros j. rewrite nth_error_map, upd_nth. unfold ids. rewrite nth_error_map. destruct (Nat.eqb_spec j k) as [->|]; [|reflexivity]. rewrite N. destruct (k <? _); reflexivity. }
      destruct x as [x|]; [|intros [= <- <-]; auto]. destruct (p_exec _ _ p x s) as [s' [y|e]]; intros [= <- <-]; (split; [apply I|]); cbn; auto; right; eauto.
  Qed.

  (** ** C63: the way through the flow *)
  (** the node after node k with target t: relative index, None as 1, or the first BiNode with this id *)
  Definition next (l : list (option string)) (k : nat) (t : value) (k' : nat) : Prop :=
    k' < List.length l /\
    match t with
    | VInt _ z => Z.of_nat k' = (Z.of_nat k + z)%Z
    | VBool _ b => k' = k + (if b then 1 else 0)
    | VNone _ => k' = k + 1
    | VStr _ s => s <> "exit"%string /\ nth_error l k' = Some (Some s) /\ forall j, j < k' -> nth_error l j <> Some (Some s)
    | VObj _ _ => False
    end.
  (** leaving the flow at node k with target t *)
  Definition leaves (l : list (option string)) (k : nat) (t : value) (r : result) : Prop :=
    match t with
    | VStr _ s => (s = "exit"%string \/ ~ In (Some s) l) /\ exists y m, r = RTriple _ _ y m t
    | VObj _ _ => exists y m, r = RTriple _ _ y m t
    | VNone _ => False
    | VInt _ _ | VBool _ _ =>
        exists z, is_int O t = Some z /\
        (((Z.of_nat k + z)%Z = Z.of_nat (List.length l) /\ exists y, r = RPlain _ _ y \/ exists m, r = RPair _ _ y m) \/
         ((Z.of_nat k + z)%Z = (-1)%Z /\ exists y m, r = RTriple _ _ y m (VInt _ (-1))))
    end.
  (** the nodes executed from node k on, up to the stop node *)
  Inductive walk (l : list (option string)) (stop : option nat) : nat -> list (nat * value) -> result -> Prop :=
  | walk_stop k y m : stop = Some k -> walk l stop k [] (RTriple _ _ y m (VBool _ true))
  | walk_step k t k' tr r : stop <> Some k -> k < List.length l -> next l k t k' -> walk l stop k' tr r -> walk l stop k ((k, t) :: tr) r
  | walk_end k t r : stop <> Some k -> k < List.length l -> leaves l k t r -> walk l stop k [(k, t)] r.
  (** no jump before the position in front of the flow *)
  Definition no_wrap (tr : list (nat * value)) : Prop := forall k t z, In (k, t) tr -> is_int O t = Some z -> (-1 <= Z.of_nat k + z)%Z.
  Lemma no_wrap_cons p tr : no_wrap (p :: tr) -> no_wrap tr.
  Proof. intros H k t z I. apply H. right. exact I. Qed.
  Lemma find_id_spec s (l : list fnode) : forall i, match find_id X O S s i l with
    | Some k => i <= k /\ nth_error (map fid l) (k - i) = Some (Some s) /\ forall j, j < k - i -> nth_error (map fid l) j <> Some (Some s)
    | None => ~ In (Some s) (map fid l) end.
  Proof.
    induction l as [|f l IH]; intros i; cbn [find_id map]; [intros []|].
    assert (N : node_id_is X O S s f = true <-> fid f = Some s).
    { destruct f as [c st|p st]; cbn; [|split; discriminate]. destruct (c_id _ _ _ c) as [a|]; [|split; discriminate]. rewrite String.eqb_eq. split; congruence. }
    destruct (node_id_is X O S s f).
    - rewrite Nat.sub_diag. cbn. split; [lia|]. split; [f_equal; apply N; reflexivity|]. intros j H. lia.
    - specialize (IH (i + 1)). destruct (find_id X O S s (i + 1) l) as [k|].
      + destruct IH as (A & B & C). split; [lia|]. replace (k - i) with (Datatypes.S (k - (i + 1))) by lia. split; [exact B|]. intros [|j] H; cbn; [intros E; injection E as E; apply N in E; discriminate|]. apply C. lia.
      + intros [E|E]; [apply N in E; discriminate|]. apply IH. exact E.
  Qed.
  Lemma index_nat len k : index len (Z.of_nat k) = if k <? len then Some k else None.
  Proof.
    unfold index. destruct (Z.ltb_spec (Z.of_nat k) (- Z.of_nat len)); [lia|]. destruct (Z.ltb_spec (Z.of_nat k) 0); [lia|]. destruct (Z.ltb_spec (Z.of_nat k) (Z.of_nat len)), (Nat.ltb_spec k len); try lia; [|reflexivity]. f_equal. lia.
  Qed.
  Lemma ids_length w : List.length (ids w) = List.length (nodes w).
  Proof. apply map_length. Qed.
  (** one pass of the loop from a valid position *)
  Lemma seq_S n x m k stop w : seq (Datatypes.S n) x m (inl (Z.of_nat k)) stop w =
    if match stop with Some j => k =? j | None => false end then Some (w, BOk (RTriple _ _ x m (VBool _ true))) else
    if k <? List.length (nodes w) then
      match exec_node k x m w with
      | (w', BErr e) => Some (w', BErr e)
      | (w', BOk (y, m', t)) =>
          match is_int O t with
          | Some z =>
              let j := (Z.of_nat k + z)%Z in
              if (j =? Z.of_nat (List.length (nodes w)))%Z then Some (w', BOk (if is_empty O (hp w') m' then RPlain _ _ y else RPair _ _ y m'))
              else if (j =? -1)%Z then Some (w', BOk (RTriple _ _ y m' (VInt _ (-1))))
              else seq n y m' (inl j) stop w'
          | None =>
              match target_to_index X O S (nodes w') t (Z.of_nat k) with
              | BErr e => Some (w', BErr e)
              | BOk (inr _) => Some (w', BOk (RTriple _ _ y m' t))
              | BOk j => seq n y m' j stop w'
              end
          end
      end
    else Some (w, BErr EIndex).
  Proof.
    cbn [BiFlowModel.seq]. rewrite index_nat.
    replace (match stop with Some j => (Z.of_nat k =? Z.of_nat j)%Z | None => false end) with (match stop with Some j => k =? j | None => false end) by (destruct stop as [j|]; [|reflexivity]; destruct (Nat.eqb_spec k j), (Z.eqb_spec (Z.of_nat k) (Z.of_nat j)); try reflexivity; lia).
    destruct (match stop with Some j => k =? j | None => false end); [reflexivity|]. destruct (k <? List.length (nodes w)); reflexivity.
  Qed.
  Lemma stop_test (stop : option nat) k : (match stop with Some j => k =? j | None => false end = true /\ stop = Some k) \/ (match stop with Some j => k =? j | None => false end = false /\ stop <> Some k).
  Proof. destruct stop as [j|]; [|right; split; [reflexivity|discriminate]]. destruct (Nat.eqb_spec k j) as [->|N]; [left; auto|right; split; [reflexivity|congruence]]. Qed.
  (** where a target that is not a number leads *)
  Lemma target_spec w t k : is_int O t = None ->
    match target_to_index X O S (nodes w) t (Z.of_nat k) with
    | BOk (inl j) => exists k', j = Z.of_nat k' /\ next (ids w) k t k'
    | BOk (inr _) => forall y m, leaves (ids w) k t (RTriple _ _ y m t)
    | BErr e => e = EBiFlow /\ t = VNone _ /\ List.length (ids w) <= k + 1
    end.
  Proof.
    intros I. unfold target_to_index. destruct t as [| | |s|o]; try discriminate; cbn [is_str is_int].
    - rewrite <- ids_length. destruct (Z.ltb_spec (Z.of_nat k + 1) 0); [lia|]. rewrite Z.geb_leb. destruct (Z.leb_spec (Z.of_nat (List.length (ids w))) (Z.of_nat k + 1)); [repeat split; lia|]. exists (k + 1). split; [lia|]. split; [lia|reflexivity].
    - destruct (String.eqb_spec s "exit") as [->|N]; [intros y m; split; [left; reflexivity|eauto]|]. pose proof (find_id_spec s (nodes w) 0) as F. destruct (find_id X O S s 0 (nodes w)) as [k'|].
      + destruct F as (_ & A & B). rewrite Nat.sub_0_r in *. exists k'. split; [reflexivity|]. split; [apply nth_error_Some; unfold ids; congruence|]. auto.
      + intros y m. split; [right; exact F|eauto].
    - intros y m. cbn. eauto.
  Qed.
  (** Without a jump before the front of the flow, the nodes executed are a walk, and the result is where the walk ends. *)
  Theorem C63_walk n stop : forall x m k w w' r, (forall j, stop = Some j -> j < List.length (nodes w)) -> seq n x m (inl (Z.of_nat k)) stop w = Some (w', BOk r) ->
    exists tr, log w' = log w ++ tr /\ ids w' = ids w /\ (no_wrap tr -> walk (ids w) stop k tr r).
  Proof.
    induction n as [|n IH]; intros x m k w w' r HS E; [discriminate|]. rewrite seq_S in E. rewrite <- ids_length in HS.
    destruct (stop_test stop k) as [[T St]|[T St]]; rewrite T in E; clear T; [injection E as <- <-; exists []; rewrite app_nil_r; repeat split; intros _; apply walk_stop; exact St|].
    destruct (Nat.ltb_spec k (List.length (nodes w))) as [K|K]; [|discriminate]. rewrite <- ids_length in K.
    destruct (exec_node k x m w) as [w1 [[[y m'] t]|e]] eqn:EX; [|discriminate]. destruct (exec_node_frame _ _ _ _ _ _ EX) as [I [L _]].
    assert (GO : forall k', seq n y m' (inl (Z.of_nat k')) stop w1 = Some (w', BOk r) -> next (ids w) k t k' -> exists tr, log w' = log w ++ tr /\ ids w' = ids w /\ (no_wrap tr -> walk (ids w) stop k tr r)).
    { intros k' E' N. destruct (IH _ _ _ _ _ _ ltac:(rewrite <- ids_length, I; exact HS) E') as (tr & A & B & C). exists ((k, t) :: tr). rewrite A, L, <- app_assoc. split; [reflexivity|]. split; [congruence|]. intros W. eapply walk_step; try eassumption. rewrite <- I. apply C. eapply no_wrap_cons. exact W. }
    assert (END : w' = w1 -> leaves (ids w) k t r -> exists tr, log w' = log w ++ tr /\ ids w' = ids w /\ (no_wrap tr -> walk (ids w) stop k tr r)).
    { intros -> Lv. exists [(k, t)]. split; [exact L|]. split; [exact I|]. intros _. apply walk_end; assumption. }
    destruct (is_int O t) as [z|] eqn:IT.
    - cbv zeta in E. rewrite <- ids_length in E. destruct (Z.eqb_spec (Z.of_nat k + z) (Z.of_nat (List.length (ids w)))) as [J|J].
      + injection E as <- <-. apply END; [reflexivity|]. assert (Q : exists y0, (if is_empty O (hp w1) m' then RPlain X O y else RPair X O y m') = RPlain _ _ y0 \/ exists m, (if is_empty O (hp w1) m' then RPlain X O y else RPair X O y m') = RPair _ _ y0 m) by (exists y; destruct (is_empty O (hp w1) m'); eauto).
        destruct t; try discriminate; exists z; (split; [exact IT|left; auto]).
      + destruct (Z.eqb_spec (Z.of_nat k + z) (-1)) as [J1|J1].
        * injection E as <- <-. apply END; [reflexivity|]. destruct t; try discriminate; exists z; (split; [exact IT|right; split; [exact J1|eauto]]).
        * destruct (Z.ltb_spec (Z.of_nat k + z) 0) as [NEG|POS].
          -- (* a wrapped index: excluded by the guard *)
             assert (G : forall n x m i w w' r, seq n x m i stop w = Some (w', BOk r) -> exists tr, log w' = log w ++ tr /\ ids w' = ids w).
             { clear. induction n as [|n IH]; intros x m i w w' r E; [discriminate|]. cbn [BiFlowModel.seq] in E. destruct i as [i|v]; [|discriminate].
               destruct (match stop with Some j => (i =? Z.of_nat j)%Z | None => false end); [injection E as <- _; exists []; rewrite app_nil_r; auto|].
               destruct (index (List.length (nodes w)) i) as [j|]; [|discriminate]. destruct (exec_node j x m w) as [w1 [[[y m'] t]|e]] eqn:EX; [|discriminate]. destruct (exec_node_frame _ _ _ _ _ _ EX) as [I [L _]].
               assert (GO : forall i', seq n y m' i' stop w1 = Some (w', BOk r) -> exists tr, log w' = log w ++ tr /\ ids w' = ids w).
               { intros i' E'. destruct (IH _ _ _ _ _ _ E') as (tr & A & B). exists ((j, t) :: tr). rewrite A, L, <- app_assoc. split; [reflexivity|congruence]. }
               assert (END : w' = w1 -> exists tr, log w' = log w ++ tr /\ ids w' = ids w) by (intros ->; exists [(j, t)]; auto).
               destruct (is_int O t) as [z|]; [cbv zeta in E; destruct (_ =? _)%Z; [injection E as <- _; apply END; reflexivity|]; destruct (_ =? _)%Z; [injection E as <- _; apply END; reflexivity|]; eapply GO; exact E|].
               destruct (target_to_index X O S (nodes w1) t i) as [[q|q]|]; [eapply GO; exact E|injection E as <- _; apply END; reflexivity|discriminate]. }
             destruct (G _ _ _ _ _ _ _ E) as (tr & A & B). exists ((k, t) :: tr). rewrite A, L, <- app_assoc. split; [reflexivity|]. split; [congruence|]. intros W. specialize (W k t z (or_introl eq_refl) IT). lia.
          -- replace (Z.of_nat k + z)%Z with (Z.of_nat (Z.to_nat (Z.of_nat k + z))) in E by lia. eapply GO; [exact E|]. split.
             ++ destruct n as [|n]; [discriminate|]. rewrite seq_S in E. rewrite <- ids_length, I in E. destruct (Nat.ltb_spec (Z.to_nat (Z.of_nat k + z)) (List.length (ids w))); [assumption|]. 
                destruct (stop_test stop (Z.to_nat (Z.of_nat k + z))) as [[T St']|[T _]]; rewrite T in E; [|discriminate]. apply HS. exact St'.
             ++ destruct t as [|[]| | |]; try discriminate; injection IT as <-; lia.
    - pose proof (target_spec w1 t k IT) as TS. destruct (target_to_index X O S (nodes w1) t (Z.of_nat k)) as [[j|v]|e]; [|injection E as <- <-; apply END; [reflexivity|rewrite <- I; apply TS]|discriminate].
      destruct TS as (k' & -> & N). eapply GO; [exact E|]. rewrite <- I. exact N.
  Qed.
  (** a jump beyond the end raises an exception (IndexError from the list) *)
  Theorem C63_beyond n x m k stop w w1 y m1 z : (forall j, stop = Some j -> j < List.length (nodes w)) -> stop <> Some k ->
    exec_node k x m w = (w1, BOk (y, m1, VInt _ z)) -> (Z.of_nat (List.length (nodes w)) < Z.of_nat k + z)%Z ->
    seq (Datatypes.S (Datatypes.S n)) x m (inl (Z.of_nat k)) stop w = Some (w1, BErr EIndex).
  Proof.
    intros HS NS EX J. destruct (exec_node_frame _ _ _ _ _ _ EX) as [I [_ K]]. rewrite seq_S. destruct (stop_test stop k) as [[_ T]|[T _]]; [congruence|]. rewrite T. clear T.
    destruct (Nat.ltb_spec k (List.length (nodes w))); [|lia]. rewrite EX. cbn [is_int]. cbv zeta. destruct (Z.eqb_spec (Z.of_nat k + z) (Z.of_nat (List.length (nodes w)))); [lia|]. destruct (Z.eqb_spec (Z.of_nat k + z) (-1)); [lia|].
    replace (Z.of_nat k + z)%Z with (Z.of_nat (Z.to_nat (Z.of_nat k + z))) by lia. rewrite seq_S.
    assert (L : List.length (nodes w1) = List.length (nodes w)) by (rewrite <- !ids_length, I; reflexivity).
    destruct (stop_test stop (Z.to_nat (Z.of_nat k + z))) as [[_ T]|[T _]]; [apply HS in T; lia|]. rewrite T. rewrite L. destruct (Nat.ltb_spec (Z.to_nat (Z.of_nat k + z)) (List.length (nodes w))); [lia|reflexivity].
  Qed.

  (** ** C174: the node in training is not executed *)
  Lemma seq_log n stop : forall x m i w w' r, seq n x m i stop w = Some (w', r) -> exists tr, log w' = log w ++ tr /\ ids w' = ids w.
  Proof.
    induction n as [|n IH]; intros x m i w w' r E; [discriminate|]. cbn [BiFlowModel.seq] in E.
    assert (SAME : w' = w -> exists tr, log w' = log w ++ tr /\ ids w' = ids w) by (intros ->; exists []; rewrite app_nil_r; auto).
    destruct i as [i|v]; [|injection E as <- _; apply SAME; reflexivity].
    destruct (match stop with Some j => (i =? Z.of_nat j)%Z | None => false end); [injection E as <- _; apply SAME; reflexivity|].
    destruct (index (List.length (nodes w)) i) as [j|]; [|injection E as <- _; apply SAME; reflexivity]. clear SAME.
    destruct (exec_node j x m w) as [w1 q] eqn:EX. destruct (exec_node_frame _ _ _ _ _ _ EX) as [I L].
    assert (L' : exists tr, log w1 = log w ++ tr) by (destruct q as [[[y m'] t]|e]; [exists [(j, t)]; apply L|destruct L as [L|(t & L & _)]; [exists []; rewrite app_nil_r; exact L|exists [(j, t)]; exact L]]). clear L. destruct L' as [tr0 L].
    assert (END : w' = w1 -> exists tr, log w' = log w ++ tr /\ ids w' = ids w) by (intros ->; exists tr0; auto).
    destruct q as [[[y m'] t]|e]; [|injection E as <- _; apply END; reflexivity].
    assert (GO : forall i', seq n y m' i' stop w1 = Some (w', r) -> exists tr, log w' = log w ++ tr /\ ids w' = ids w).
    { intros i' E'. destruct (IH _ _ _ _ _ _ E') as (tr & A & B). exists (tr0 ++ tr). rewrite A, L, <- app_assoc. split; [reflexivity|congruence]. }
    destruct (is_int O t) as [z|]; [cbv zeta in E; destruct (_ =? _)%Z; [injection E as <- _; apply END; reflexivity|]; destruct (_ =? _)%Z; [injection E as <- _; apply END; reflexivity|]; eapply GO; exact E|].
    destruct (target_to_index X O S (nodes w1) t i) as [[q|q]|]; [eapply GO; exact E|injection E as <- _; apply END; reflexivity|injection E as <- _; apply END; reflexivity].
  Qed.
  (** the entries added to the log *)
  Definition since (w w' : world) (tr : list (nat * value)) : Prop := log w' = log w ++ tr.
  Lemma since_trans w1 w2 w3 a b : since w1 w2 a -> since w2 w3 b -> since w1 w3 (a ++ b).
  Proof. unfold since. intros -> ->. rewrite app_assoc. reflexivity. Qed.
  Lemma since_eq w w' a b : since w w' a -> since w w' b -> a = b.
  Proof. unfold since. intros A B. rewrite A in B. apply app_inv_head in B. exact B. Qed.
  Lemma no_wrap_app a b : no_wrap (a ++ b) -> no_wrap a /\ no_wrap b.
  Proof. intros H. split; intros k t z I; apply H; apply in_or_app; auto. Qed.
  Lemma seq_avoids n k : forall x m j w w' r tr, seq n x m (inl (Z.of_nat j)) (Some k) w = Some (w', r) -> since w w' tr -> no_wrap tr -> ~ In k (map fst tr).
  Proof.
    induction n as [|n IH]; intros x m j w w' r tr E Sn W; [discriminate|]. rewrite seq_S in E.
    destruct (Nat.eqb_spec j k) as [->|N]; [injection E as <- _; rewrite (since_eq _ _ tr [] Sn); [intros []|unfold since; rewrite app_nil_r; reflexivity]|].
    destruct (Nat.ltb_spec j (List.length (nodes w))) as [K|K]; [|injection E as <- _; rewrite (since_eq _ _ tr [] Sn); [intros []|unfold since; rewrite app_nil_r; reflexivity]].
    destruct (exec_node j x m w) as [w1 q] eqn:EX. destruct (exec_node_frame _ _ _ _ _ _ EX) as [I L].
    assert (END : forall tr0, w' = w1 -> since w w1 tr0 -> (tr0 = [] \/ exists t, tr0 = [(j, t)]) -> ~ In k (map fst tr)).
    { intros tr0 -> S0 Q. rewrite (since_eq _ _ _ _ Sn S0). destruct Q as [->|[t ->]]; cbn; [auto|]. intros [Q|[]]. congruence. }
    destruct q as [[[y m'] t]|e].
    2:{ injection E as <- _. destruct L as [L|(t & L & _)]; [apply (END [] eq_refl); [unfold since; rewrite app_nil_r; exact L|auto]|apply (END [(j, t)] eq_refl L); eauto]. }
    destruct L as [L _].
    assert (GO : forall k', seq n y m' (inl (Z.of_nat k')) (Some k) w1 = Some (w', r) -> ~ In k (map fst tr)).
    { intros k' E'. destruct (seq_log _ _ _ _ _ _ _ _ E') as (tr' & A & _). pose proof (since_eq _ _ _ _ Sn (since_trans _ _ _ _ _ L A)) as ->. destruct (no_wrap_app _ _ W) as [_ W']. intros [Q|Q]; [cbn in Q; congruence|]. exact (IH _ _ _ _ _ _ _ E' A W' Q). }
    destruct (is_int O t) as [z|] eqn:IT.
    - cbv zeta in E. destruct (_ =? _)%Z; [injection E as <- _; apply (END _ eq_refl L); eauto|]. destruct (Z.eqb_spec (Z.of_nat j + z) (-1)) as [J|J]; [injection E as <- _; apply (END _ eq_refl L); eauto|].
      destruct (seq_log _ _ _ _ _ _ _ _ E) as (tr' & A & _). pose proof (since_eq _ _ _ _ Sn (since_trans _ _ _ _ _ L A)) as Etr. assert (P : (-1 <= Z.of_nat j + z)%Z) by (apply (W j t z); [rewrite Etr; left; reflexivity|exact IT]).
      replace (Z.of_nat j + z)%Z with (Z.of_nat (Z.to_nat (Z.of_nat j + z))) in E by lia. eapply GO. exact E.
    - pose proof (target_spec w1 t j IT) as TS. destruct (target_to_index X O S (nodes w1) t (Z.of_nat j)) as [[q|v]|e]; [|injection E as <- _; apply (END _ eq_refl L); eauto|injection E as <- _; apply (END _ eq_refl L); eauto].
      destruct TS as (k' & -> & _). eapply GO. exact E.
  Qed.
  Lemma train_call_log k x m w w' r : train_call X O S truthy k x m w = (w', r) -> since w w' [] /\ ids w' = ids w.
  Proof.
    unfold train_call, since. rewrite app_nil_r. destruct (nth_error (nodes w) k) as [[c s|p s]|] eqn:N; [| |intros [= <- _]; auto].
    - destruct (train _ _ _ truthy c x m (s, hp w)) as [[s' h'] q]. intros [= <- _]. cbn. split; [reflexivity|]. apply nth_error_ext'. intros j. unfold ids. cbn. rewrite !nth_error_map, upd_nth. destruct (Nat.eqb_spec j k) as [->|]; [|reflexivity]. rewrite N. destruct (k <? _); reflexivity.
    - destruct x as [x|]; [|intros [= <- _]; auto]. destruct (p_train _ _ p x s) as [s' q]. intros [= <- _]. cbn. split; [reflexivity|]. apply nth_error_ext'. intros j. unfold ids. cbn. rewrite !nth_error_map, upd_nth. destruct (Nat.eqb_spec j k) as [->|]; [|reflexivity]. rewrite N. destruct (k <? _); reflexivity.
  Qed.
  Lemma target_nat w t k i : target_to_index X O S (nodes w) t (Z.of_nat k) = BOk (inl i) -> exists j, i = Z.of_nat j.
  Proof.
    unfold target_to_index. destruct (is_str O "exit" t); [discriminate|]. set (t' := match t with VNone _ => VInt _ 1 | t => t end). destruct (is_int O t') as [z|].
    - destruct (Z.ltb_spec (Z.of_nat k + z) 0); [discriminate|]. destruct (_ >=? _)%Z; [discriminate|]. intros [= <-]. exists (Z.to_nat (Z.of_nat k + z)). lia.
    - destruct t'; try discriminate. destruct (find_id X O S s 0 (nodes w)) as [j|]; [|discriminate]. intros [= <-]. eauto.
  Qed.
  (** what is executed while node k is trained *)
  Definition avoids (k : nat) (w w' : world) : Prop := exists tr, since w w' tr /\ (no_wrap tr -> ~ In k (map fst tr)).
  Lemma avoids_refl k w : avoids k w w.
  Proof. exists []. split; [unfold since; rewrite app_nil_r; reflexivity|intros _ []]. Qed.
  Lemma avoids_trans k w1 w2 w3 : avoids k w1 w2 -> avoids k w2 w3 -> avoids k w1 w3.
  Proof.
    intros (a & A & NA) (b & B & NB). exists (a ++ b). split; [exact (since_trans _ _ _ _ _ A B)|]. intros W. destruct (no_wrap_app _ _ W) as [W1 W2]. rewrite map_app. intros Q. apply in_app_or in Q. destruct Q as [Q|Q]; [exact (NA W1 Q)|exact (NB W2 Q)].
  Qed.
  Lemma train_chunk_avoids n k : forall x m i w w' r, train_chunk X O S truthy n k x m i w = Some (w', r) -> (forall z, i = inl z -> exists j, z = Z.of_nat j) -> avoids k w w'.
  Proof.
    induction n as [|n IH]; intros x m i w w' r E Hi; [discriminate|]. cbn [train_chunk] in E.
    destruct (seq n x m i (Some k) w) as [[w1 q]|] eqn:SE; [|discriminate].
    assert (A : avoids k w w1).
    { destruct (seq_log _ _ _ _ _ _ _ _ SE) as (tr1 & A & _). exists tr1. split; [exact A|]. intros W1. destruct i as [z|v].
      - destruct (Hi z eq_refl) as [j ->]. exact (seq_avoids _ _ _ _ _ _ _ _ _ SE A W1).
      - destruct n; [discriminate|]. cbn in SE. injection SE as <- _. rewrite (since_eq w w tr1 []); [intros []|exact A|unfold since; rewrite app_nil_r; reflexivity]. }
    destruct q as [[y|y m1|y m1 t|]|e]; try (injection E as <- _; exact A).
    destruct t as [|[]| | |]; try (injection E as <- _; exact A).
    destruct (train_call X O S truthy k y m1 w1) as [w2 q] eqn:TC. destruct (train_call_log _ _ _ _ _ _ TC) as [B I2].
    assert (A2 : avoids k w w2) by (eapply avoids_trans; [exact A|]; exists []; split; [exact B|intros _ []]).
    destruct q as [[q|]|e]; try (injection E as <- _; exact A2).
    assert (GO : forall y m t, match target_to_index X O S (nodes w2) t (Z.of_nat k) with BErr e => Some (w2, BErr e) | BOk j => train_chunk X O S truthy n k y m j w2 end = Some (w', r) -> avoids k w w').
    { intros y0 m0 t E'. destruct (target_to_index X O S (nodes w2) t (Z.of_nat k)) as [j|e] eqn:TI; [|injection E' as <- _; exact A2].
      eapply avoids_trans; [exact A2|]. eapply IH; [exact E'|]. intros z ->. eapply target_nat. exact TI. }
    destruct q as [y0|y0 m0|y0 m0 t|]; [eapply GO; exact E|eapply GO; exact E|eapply GO; exact E|injection E as <- _; exact A2].
  Qed.
  (** While the chunks are given to node k, other nodes only are executed, without a jump before the front of the flow. *)
  Theorem C174_not_executed n k chs : forall w w' r, train_chunks X O S truthy n k chs w = Some (w', r) ->
    exists tr, log w' = log w ++ tr /\ (no_wrap tr -> ~ In k (map fst tr)).
  Proof.
    induction chs as [|[x m] chs IH]; intros w w' r E; cbn [train_chunks] in E; [injection E as <- _; exact (avoids_refl k w)|].
    destruct (train_chunk X O S truthy n k x m (inl 0%Z) w) as [[w1 [u|e]]|] eqn:TC; [| |discriminate].
    - assert (A : avoids k w w1) by (eapply train_chunk_avoids; [exact TC|]; intros z [= <-]; exists 0; reflexivity). apply IH in E. exact (avoids_trans _ _ _ _ A E).
    - injection E as <- _. eapply train_chunk_avoids; [exact TC|]. intros z [= <-]. exists 0. reflexivity.
  Qed.

  (** ** C173: a flow of normal nodes is the composition of its nodes *)
  Definition plain (q : pnode X S * S) : fnode := Plain _ _ _ (fst q) (snd q).
  Fixpoint pipe (l : list (pnode X S * S)) (x : X) : list (pnode X S * S) * bres X :=
    match l with
    | [] => ([], BOk x)
    | (p, s) :: l => match p_exec _ _ p x s with
                     | (s', BErr e) => ((p, s') :: l, BErr e)
                     | (s', BOk y) => let (l', r) := pipe l y in ((p, s') :: l', r)
                     end
    end.
  Fixpoint pipes (l : list (pnode X S * S)) (xs : list X) : list (pnode X S * S) * bres (list X) :=
    match xs with
    | [] => (l, BOk [])
    | x :: xs => match pipe l x with
                 | (l', BErr e) => (l', BErr e)
                 | (l', BOk y) => let (l2, r) := pipes l' xs in (l2, match r with BOk ys => BOk (y :: ys) | BErr e => BErr e end)
                 end
    end.
  Lemma pipe_length l : forall x, List.length (fst (pipe l x)) = List.length l.
  Proof. induction l as [|[p s] l IH]; intros x; cbn; [reflexivity|]. destruct (p_exec _ _ p x s) as [s' [y|e]]; [|reflexivity]. specialize (IH y). destruct (pipe l y). cbn in *. lia. Qed.
  Lemma upd_app {T} (a : list T) b c d : upd (a ++ b :: c) (List.length a) d = a ++ d :: c.
  Proof. unfold upd. induction a as [|e a IH]; cbn; [reflexivity|]. f_equal. exact IH. Qed.
  Lemma seq_pipe l : forall n done x m h lg, l <> [] -> List.length l <= n ->
    exists lg', seq n (Some x) m (inl (Z.of_nat (List.length done))) None (mkW _ _ _ (map plain (done ++ l)) h lg) =
      Some (mkW _ _ _ (map plain (done ++ fst (pipe l x))) h lg',
            match snd (pipe l x) with BOk y => BOk (if is_empty O h m then RPlain _ _ (Some y) else RPair _ _ (Some y) m) | BErr e => BErr e end).
  Proof.
    induction l as [|[p s] l IH]; intros n done x m h lg NE L; [congruence|]. destruct n as [|n]; [cbn in L; lia|]. rewrite seq_S. cbn [w_nodes w_heap].
    rewrite map_length, app_length. cbn [List.length]. destruct (Nat.ltb_spec (List.length done) (List.length done + Datatypes.S (List.length l))); [|lia].
    unfold BiFlowModel.exec_node. cbn [w_nodes w_heap w_log]. rewrite map_app. cbn [map]. change (plain (p, s)) with (Plain X O S p s). rewrite nth_error_app2 by (rewrite map_length; lia). rewrite map_length, Nat.sub_diag. cbn [nth_error].
    cbn [pipe]. destruct (p_exec _ _ p x s) as [s' [y|e]].
    - cbn [is_int]. cbv zeta. cbn [w_heap].
      assert (U : upd (map plain done ++ Plain _ _ _ p s :: map plain l) (List.length done) (Plain _ _ _ p s') = map plain ((done ++ [(p, s')]) ++ l)) by (rewrite <- (map_length plain done), upd_app, <- app_assoc, map_app; reflexivity).
      destruct l as [|q l].
      + cbn [List.length]. destruct (Z.eqb_spec (Z.of_nat (List.length done) + 1) (Z.of_nat (List.length done + 1))); [|lia]. eexists. cbn [pipe fst snd]. rewrite U, app_nil_r. reflexivity.
      + cbn [List.length] in L. destruct (Z.eqb_spec (Z.of_nat (List.length done) + 1) (Z.of_nat (List.length done + Datatypes.S (List.length (q :: l))))) as [Q|Q]; [cbn [List.length] in Q; lia|]. destruct (Z.eqb_spec (Z.of_nat (List.length done) + 1) (-1)); [lia|].
        rewrite U. replace (Z.of_nat (List.length done) + 1)%Z with (Z.of_nat (List.length (done ++ [(p, s')]))) by (rewrite app_length; cbn; lia).
        destruct (IH n (done ++ [(p, s')]) y m h (lg ++ [(List.length done, VInt _ 1)]) ltac:(discriminate) ltac:(cbn [List.length]; lia)) as [lg' ->]. exists lg'. destruct (pipe (q :: l) y) as [l' r]. cbn [fst snd]. rewrite <- app_assoc. reflexivity.
    - eexists. cbn [fst snd]. do 3 f_equal. rewrite <- (map_length plain done), upd_app, map_app. reflexivity.
  Qed.
  Variable C : Type.
  Variable add : msg O -> C -> bres C.
  (** one chunk: the message is carried along *)
  Theorem C173_chunk n l x m h lg : l <> [] -> List.length l <= n ->
    exists lg', exec_chunk X O S truthy n (Some x, m, VNone _) (mkW _ _ _ (map plain l) h lg) =
      Some (mkW _ _ _ (map plain (fst (pipe l x))) h lg', match snd (pipe l x) with BOk y => BOk (Some y, if is_empty O h m then None else m) | BErr e => BErr e end).
  Proof.
    intros NE L. unfold exec_chunk. cbn [truth negb]. destruct (seq_pipe l n [] x m h lg NE L) as [lg' E]. cbn [List.length app] in E. change (Z.of_nat 0) with 0%Z in E. rewrite E. exists lg'. destruct (snd (pipe l x)) as [y|e]; [|reflexivity].
    assert (R : forall l h lg, reset X O S (mkW _ _ _ (map plain l) h lg) = mkW _ _ _ (map plain l) h lg) by (intros l0 h0 lg0; unfold reset; cbn; f_equal; rewrite map_map; reflexivity).
    destruct (is_empty O h m); cbn; rewrite R; reflexivity.
  Qed.
  (** all chunks, without messages: the arrays of the composition, in order, and no message *)
  Theorem C173_compose n l xs h lg acc : l <> [] -> List.length l <= n -> xs <> [] ->
    exists lg', BiFlowModel.execute X O S truthy C add n (map (fun x => (Some x, None, VNone _)) xs) acc (mkW _ _ _ (map plain l) h lg) =
      Some (mkW _ _ _ (map plain (fst (pipes l xs))) h lg', match snd (pipes l xs) with BOk ys => BOk (YList _ ys, acc) | BErr e => BErr e end).
  Proof.
    intros NE L NX. unfold BiFlowModel.execute.
    assert (R : reset X O S (mkW _ _ _ (map plain l) h lg) = mkW _ _ _ (map plain l) h lg) by (unfold reset; cbn; f_equal; rewrite map_map; reflexivity). rewrite R. clear R.
    assert (G : forall xs l lg a, l <> [] -> List.length l <= n -> a <> YFalse X ->
      exists lg', exec_chunks X O S truthy C add n (map (fun x => (Some x, None, VNone _)) xs) a acc (mkW _ _ _ (map plain l) h lg) =
        Some (mkW _ _ _ (map plain (fst (pipes l xs))) h lg', match snd (pipes l xs) with BOk ys => BOk (match ys with [] => a | _ => YList _ (match a with YList _ b => b | _ => [] end ++ ys) end, acc) | BErr e => BErr e end)).
    { clear. induction xs as [|x xs IH]; intros l lg a NE L NF; cbn [map exec_chunks pipes]; [exists lg; reflexivity|].
      destruct (C173_chunk n l x None h lg NE L) as [lg1 E]. rewrite E. clear E. pose proof (pipe_length l x) as PL. destruct (pipe l x) as [l' [y|e]]; cbn [fst snd] in *; [|exists lg1; reflexivity].
      cbn [w_heap is_empty]. assert (AY : add_y X a (Some y) = BOk (YList _ (match a with YList _ b => b | _ => [] end ++ [y]))) by (destruct a; [reflexivity|congruence|reflexivity]). rewrite AY.
      destruct (IH l' lg1 (YList _ (match a with YList _ b => b | _ => [] end ++ [y]))) as [lg2 E]; [destruct l'; [cbn in PL; destruct l; [congruence|discriminate]|discriminate]|lia|discriminate|]. rewrite E. exists lg2.
      destruct (pipes l' xs) as [l2 [ys|e]]; cbn [fst snd]; [|reflexivity]. do 4 f_equal. destruct ys; [reflexivity|]. rewrite <- app_assoc. reflexivity. }
    destruct (G xs l lg (YNone X) NE L ltac:(discriminate)) as [lg' E]. rewrite E. exists lg'.
    destruct xs as [|x xs]; [congruence|]. cbn [pipes map]. destruct (pipe l x) as [l' [y|e]]; [|reflexivity]. destruct (pipes l' xs) as [l2 [ys|e]]; reflexivity.
  Qed.

  (** ** What the operations do not undo *)
  Section Mono.
    Variable c : bclass X O S.
    Notation M := (M O S).
    Definition mono {R} (p : M R) : Prop := forall w, n_phase _ (fst w) <= n_phase _ (fst (fst (p w))).
    Lemma mono_bind {R Q} (p : M R) (f : R -> M Q) : mono p -> (forall r, mono (f r)) -> mono (bind _ _ p f).
    Proof. intros P F w. unfold bind. pose proof (P w) as H. destruct (p w) as [w' [r|e]]; [|exact H]. specialize (F r w'). cbn in *. lia. Qed.
    Lemma mono_same {R} (p : M R) : (forall w, n_phase _ (fst (fst (p w))) = n_phase _ (fst w)) -> mono p.
    Proof. intros H w. rewrite H. lia. Qed.
    Lemma mono_own f : mono (own O S f).
    Proof. intros w. unfold own. destruct (f _). cbn. lia. Qed.
    Lemma mono_call f n x a : mono (call X O S f n x a).
    Proof. intros w. unfold call. destruct (bind_args _ _ _ f n a); [|cbn; lia]. destruct (m_run _ _ _ f x a _) as [[s' h'] r]. cbn. lia. Qed.
    Ltac m1 :=
      match goal with
      | |- mono (bind _ _ _ _) => apply mono_bind; [|intros ?]
      | |- mono (own _ _ _) => apply mono_own
      | |- mono (call _ _ _ _ _ _ _) => apply mono_call
      | |- mono (if ?b then _ else _) => destruct b
      | |- mono (match ?x with _ => _ end) => destruct x
      | |- mono (fun _ => _) => intros ?; cbn; lia
      | H : mono ?p |- mono ?p => exact H
      | |- _ => apply mono_same; intros ?; reflexivity
      end.
    Lemma mono_nonempty o : mono (nonempty O S o). Proof. unfold nonempty. repeat m1. Qed.
    Lemma mono_merge y m mr : mono (merge X O S y m mr). Proof. unfold merge. repeat (apply mono_nonempty || m1). Qed.
    Lemma mono_combine r m t : mono (combine X O S r m t). Proof. unfold combine. repeat (apply mono_nonempty || apply mono_merge || m1). Qed.
    Lemma mono_extract f r l : mono (extract_args X O S f r l). Proof. unfold extract_args. repeat m1. Qed.
    Lemma mono_parse d r : mono (parse X O S truthy c d r). Proof. unfold parse. repeat (apply mono_extract || m1). Qed.
    Lemma mono_stop om : mono (stop_training X O S truthy c om).
    Proof. unfold stop_training. repeat (apply mono_nonempty || apply mono_merge || apply mono_combine || apply mono_parse || m1). Qed.
    Lemma mono_stop_if : mono (stop_if_training X O S truthy c). Proof. unfold stop_if_training. repeat (apply mono_stop || m1). Qed.
    Lemma mono_pre_inverse x : mono (pre_inverse X O S truthy c x). Proof. unfold pre_inverse. repeat (apply mono_stop_if || m1). Qed.
    Lemma mono_train_plain x : mono (train_plain X O S c x). Proof. unfold train_plain, check_args, refcast. repeat m1. Qed.
    Lemma mono_train x om : mono (train X O S truthy c x om).
    Proof. unfold train, guard_train, check_args, refcast. repeat (apply mono_train_plain || apply mono_pre_inverse || apply mono_combine || apply mono_parse || m1). Qed.
    Lemma mono_auto n x : mono (auto_train X O S truthy c n x).
    Proof. induction n; cbn [auto_train]; repeat (apply mono_train || apply mono_stop || m1). Qed.
    Lemma mono_pre_execute x : mono (pre_execute X O S truthy c x). Proof. unfold pre_execute. repeat (apply mono_auto || apply mono_stop_if || m1). Qed.
    Lemma mono_execute x om : mono (BiModel.execute X O S truthy c x om).
    Proof. unfold BiModel.execute, refcast. repeat (apply mono_pre_execute || apply mono_pre_inverse || apply mono_combine || apply mono_parse || m1). Qed.
  End Mono.
  (** a normal node that never gets training phases back *)
  Definition decent (p : pnode X S) : Prop := forall s,
    (forall x, p_remaining _ _ p (fst (p_exec _ _ p x s)) <= p_remaining _ _ p s) /\ (forall x, p_remaining _ _ p (fst (p_train _ _ p x s)) <= p_remaining _ _ p s) /\ p_remaining _ _ p (fst (p_stop _ _ p s)) <= p_remaining _ _ p s.
  Definition later (f g : fnode) : Prop :=
    match f, g with
    | Bi _ _ _ c s, Bi _ _ _ c' s' => c' = c /\ n_phase _ s <= n_phase _ s'
    | Plain _ _ _ p s, Plain _ _ _ p' s' => p' = p /\ (decent p -> p_remaining _ _ p s' <= p_remaining _ _ p s)
    | _, _ => False
    end.
  Definition grows (w w' : world) : Prop := Forall2 later (nodes w) (nodes w').
  Lemma later_refl f : later f f. Proof. destruct f; cbn; auto. Qed.
  Lemma later_trans f g h : later f g -> later g h -> later f h.
  Proof. destruct f, g, h; cbn; try tauto; intros [-> A] [-> B]; split; auto; [lia|]. intros D. specialize (A D). specialize (B D). lia. Qed.
  Lemma grows_refl w : grows w w. Proof. unfold grows. induction (nodes w); constructor; auto using later_refl. Qed.
  Lemma grows_trans a b c : grows a b -> grows b c -> grows a c.
  Proof.
    unfold grows. generalize (nodes a), (nodes b), (nodes c). clear. intros l m n H. revert n. induction H as [|f g l m A B IH]; intros n H; inversion H; subst; constructor; [eapply later_trans; eassumption|auto].
  Qed.
  Lemma grows_upd w k f g h lg : nth_error (nodes w) k = Some f -> later f g -> grows w (mkW _ _ _ (upd (nodes w) k g) h lg).
  Proof.
    unfold grows, upd. cbn. generalize (nodes w). intros l. revert k. induction l as [|a l IH]; intros [|k] N L; try discriminate; cbn in *.
    - injection N as ->. constructor; [exact L|]. clear. induction l; constructor; auto using later_refl.
    - constructor; [apply later_refl|]. exact (IH k N L).
  Qed.
  Lemma grows_reset w : grows w (reset X O S w).
  Proof. unfold grows, reset. cbn. induction (nodes w) as [|[c s|p s] l IH]; cbn; constructor; auto; cbn; auto. Qed.
  Lemma grows_exec_node k x m w : grows w (fst (exec_node k x m w)).
  Proof.
    unfold BiFlowModel.exec_node. destruct (nth_error (nodes w) k) as [[c s|p s]|] eqn:N; [| |apply grows_refl].
    - pose proof (mono_execute c x m (s, hp w)) as H. destruct (BiModel.execute _ _ _ truthy c x m (s, hp w)) as [[s' h'] [[y|y m'|y m' t|]|e]]; cbn in *; (eapply grows_upd; [exact N|cbn; auto]).
    - destruct x as [x|]; [|apply grows_refl]. destruct (p_exec _ _ p x s) as [s' [y|e]] eqn:E; cbn; (eapply grows_upd; [exact N|split; [reflexivity|]; intros D; destruct (D s) as [D1 _]; specialize (D1 x); rewrite E in D1; exact D1]).
  Qed.
  Lemma grows_seq n stop : forall x m i w w' r, seq n x m i stop w = Some (w', r) -> grows w w'.
  Proof.
    induction n as [|n IH]; intros x m i w w' r E; [discriminate|]. cbn [BiFlowModel.seq] in E. destruct i as [i|v]; [|injection E as <- _; apply grows_refl].
    destruct (match stop with Some k => _ | None => _ end); [injection E as <- _; apply grows_refl|]. destruct (index _ i) as [k|]; [|injection E as <- _; apply grows_refl].
    pose proof (grows_exec_node k x m w) as G. destruct (exec_node k x m w) as [w1 [[[y m1] t]|e]]; cbn [fst] in G; [|injection E as <- _; exact G].
    destruct (is_int _ t) as [z|]; cbv zeta in E.
    - destruct (_ =? _)%Z; [injection E as <- _; exact G|]. destruct (_ =? _)%Z; [injection E as <- _; exact G|]. eapply grows_trans; [exact G|eapply IH; exact E].
    - destruct (target_to_index _ _ _ _ t i) as [[j|v]|e]; try (injection E as <- _; exact G). eapply grows_trans; [exact G|eapply IH; exact E].
  Qed.
  Lemma grows_train_call k x m w : grows w (fst (train_call X O S truthy k x m w)).
  Proof.
    unfold train_call. destruct (nth_error (nodes w) k) as [[c s|p s]|] eqn:N; [| |apply grows_refl].
    - pose proof (mono_train c x m (s, hp w)) as H. destruct (train _ _ _ truthy c x m (s, hp w)) as [[s' h'] r]; cbn in *. eapply grows_upd; [exact N|cbn; auto].
    - destruct x as [x|]; [|apply grows_refl]. destruct (p_train _ _ p x s) as [s' r] eqn:E; cbn. eapply grows_upd; [exact N|split; [reflexivity|]]. intros D. destruct (D s) as (_ & D1 & _). specialize (D1 x). rewrite E in D1. exact D1.
  Qed.
  Lemma grows_train_chunk n k : forall x m i w w' r, train_chunk X O S truthy n k x m i w = Some (w', r) -> grows w w'.
  Proof.
    induction n as [|n IH]; intros x m i w w' r E; [discriminate|]. cbn [train_chunk] in E.
    destruct (seq n x m i (Some k) w) as [[w1 q]|] eqn:SE; [|discriminate]. apply grows_seq in SE.
    destruct q as [[y|y m1|y m1 t|]|e]; try (injection E as <- _; exact SE).
    destruct t as [|[]| | |]; try (injection E as <- _; exact SE).
    pose proof (grows_train_call k y m1 w1) as G. destruct (train_call X O S truthy k y m1 w1) as [w2 q]. cbn [fst] in G. assert (A2 := grows_trans _ _ _ SE G).
    destruct q as [[q|]|e]; try (injection E as <- _; exact A2).
    destruct q as [y0|y0 m0|y0 m0 t|]; try (injection E as <- _; exact A2);
      (destruct (target_to_index X O S (nodes w2) _ (Z.of_nat k)) as [j|e]; [|injection E as <- _; exact A2]; eapply grows_trans; [exact A2|eapply IH; exact E]).
  Qed.
  Lemma grows_train_chunks n k chs : forall w w' r, train_chunks X O S truthy n k chs w = Some (w', r) -> grows w w'.
  Proof.
    induction chs as [|[x m] chs IH]; intros w w' r E; cbn [train_chunks] in E; [injection E as <- _; apply grows_refl|].
    destruct (train_chunk X O S truthy n k x m (inl 0%Z) w) as [[w1 [u|e]]|] eqn:TC; [| |discriminate]; apply grows_train_chunk in TC; [|injection E as <- _; exact TC].
    eapply grows_trans; [exact TC|]. eapply grows_trans; [apply grows_reset|]. eapply IH. exact E.
  Qed.
  Lemma grows_stop_call k sm w : grows w (fst (stop_call X O S truthy k sm w)).
  Proof.
    unfold stop_call. destruct (nth_error (nodes w) k) as [[c s|p s]|] eqn:N; [| |apply grows_refl].
    - pose proof (mono_stop c sm (s, hp w)) as H. destruct (stop_training _ _ _ truthy c sm (s, hp w)) as [[s' h'] r]; cbn in *. eapply grows_upd; [exact N|cbn; auto].
    - destruct sm as [sm|]; [apply grows_refl|]. destruct (p_stop _ _ p s) as [s' r] eqn:E; cbn. eapply grows_upd; [exact N|split; [reflexivity|]]. intros D. destruct (D s) as (_ & _ & D1). rewrite E in D1. exact D1.
  Qed.
  Lemma grows_stop_phase n k sm w w' r : stop_phase X O S truthy n k sm w = Some (w', r) -> grows w w'.
  Proof.
    unfold stop_phase. pose proof (grows_stop_call k sm w) as G. destruct (stop_call X O S truthy k sm w) as [w1 q]. cbn [fst] in G. destruct q as [[q|]|e]; try (intros E; injection E as <- _; exact G).
    assert (GO : forall y m t, (if is_str O "exit" t then Some (w1, BOk tt) else
            match target_to_index X O S (nodes w1) t (Z.of_nat k) with
            | BErr e => Some (w1, BErr e)
            | BOk i =>
                match seq n y m i None w1 with
                | None => None
                | Some (w2, BErr e) => Some (w2, BErr e)
                | Some (w2, BOk (RTriple _ _ _ _ t)) => Some (w2, if match is_int _ t with Some z => (z =? 1)%Z || (z =? -1)%Z | None => is_str _ "exit" t end then BOk tt else BErr EBiFlow)
                | Some (w2, BOk _) => Some (w2, BOk tt)
                end
            end) = Some (w', r) -> grows w w').
    { intros y m t E. destruct (is_str O "exit" t); [injection E as <- _; exact G|]. destruct (target_to_index X O S (nodes w1) t (Z.of_nat k)) as [i|e]; [|injection E as <- _; exact G].
      destruct (seq n y m i None w1) as [[w2 q2]|] eqn:SE; [|discriminate]. apply grows_seq in SE. destruct q2 as [[]|]; injection E as <- _; eapply grows_trans; eassumption. }
    destruct q as [y|y m|y m t|]; [apply GO|apply GO|apply GO|]. intros E; injection E as <- _; exact G.
  Qed.
  Lemma grows_single n k chs sm w w' r : single_phase X O S truthy n k chs sm w = Some (w', r) -> grows w w'.
  Proof.
    unfold single_phase. destruct (train_chunks X O S truthy n k chs w) as [[w1 [u|e]]|] eqn:E; [| |discriminate]; apply grows_train_chunks in E; intros H; [|injection H as <- _; exact E].
    destruct chs; [injection H as <- _; exact E|]. apply grows_stop_phase in H. eapply grows_trans; eassumption.
  Qed.
  Lemma grows_phases n k chs sm : forall w w' r, train_phases X O S truthy n k chs sm w = Some (w', r) -> grows w w' /\ (r = BOk tt -> exists f, nth_error (nodes w') k = Some f /\ f_remaining X O S f = 0).
  Proof.
    induction n as [|n IH]; intros w w' r E; [discriminate|]. cbn [train_phases] in E. destruct (nth_error (nodes w) k) as [f|] eqn:N; [|injection E as <- <-; split; [apply grows_refl|discriminate]].
    destruct (Nat.eqb_spec (f_remaining X O S f) 0) as [Z|Z]; [injection E as <- <-; split; [apply grows_refl|eauto]|].
    destruct (single_phase X O S truthy n k chs sm w) as [[w1 [u|e]]|] eqn:SP; [| |discriminate]; apply grows_single in SP; [|injection E as <- <-; split; [exact SP|discriminate]].
    apply IH in E. destruct E as [G R]. split; [|exact R]. eapply grows_trans; [exact SP|]. eapply grows_trans; [apply grows_reset|exact G].
  Qed.

  (** ** C180: every chunk starts with reset nodes *)
  Definition resettable (w : world) : Prop := forall c s, In (Bi X O S c s) (nodes w) -> forall s, c_bi_reset _ _ _ c (c_bi_reset _ _ _ c s) = c_bi_reset _ _ _ c s.
  Definition clean (w : world) : Prop := forall f, In f (nodes w) -> match f with Bi _ _ _ c s => c_bi_reset _ _ _ c (n_own _ s) = n_own _ s | Plain _ _ _ _ _ => True end.
  Lemma later_in w w' f' : grows w w' -> In f' (nodes w') -> exists f, In f (nodes w) /\ later f f'.
  Proof. unfold grows. induction 1 as [|f g l m A B IH]; [intros []|]. intros [->|I]; [exists f; cbn; auto|]. destruct (IH I) as (h & H1 & H2). exists h. cbn. auto. Qed.
  Lemma resettable_grows w w' : grows w w' -> resettable w -> resettable w'.
  Proof. intros G R c s I. destruct (later_in _ _ _ G I) as ([c' s'|p s'] & I' & L); [|destruct L]. destruct L as [<- _]. exact (R c s' I'). Qed.
  Lemma reset_clean w : resettable w -> clean (reset X O S w).
  Proof. intros H f F. cbn in F. apply in_map_iff in F. destruct F as (g & <- & G). destruct g as [c s|p s]; cbn; [exact (H c s G _)|exact I]. Qed.
  Lemma grows_chunk n ch w w' r : exec_chunk X O S truthy n ch w = Some (w', r) -> grows w w' /\ (resettable w -> forall v, r = BOk v -> clean w').
  Proof.
    destruct ch as [[x m] t]. unfold exec_chunk. destruct (if negb (truth O truthy t) then BOk (inl 0%Z) else target_to_index X O S (nodes w) t 0) as [i|e]; [|intros [= <- <-]; split; [apply grows_refl|discriminate]].
    destruct (seq n x m i None w) as [[w1 q]|] eqn:SE; [|discriminate]. apply grows_seq in SE. assert (G2 := grows_trans _ _ _ SE (grows_reset w1)).
    assert (CL : resettable w -> clean (reset X O S w1)) by (intros R; apply reset_clean; exact (resettable_grows _ _ SE R)).
    destruct q as [[y|y m1|y m1 t1|]|e]; try (intros [= <- <-]; split; [assumption|auto; discriminate]).
    destruct (match is_int O t1 with Some z => _ | None => _ end); intros [= <- <-]; (split; [assumption|auto; discriminate]).
  Qed.
  Lemma grows_chunks n chs : forall a acc w w' r, exec_chunks X O S truthy C add n chs a acc w = Some (w', r) -> grows w w' /\ (resettable w -> clean w -> forall v, r = BOk v -> clean w').
  Proof.
    induction chs as [|ch chs IH]; intros a acc w w' r E; cbn [exec_chunks] in E; [injection E as <- <-; split; [apply grows_refl|auto]|].
    destruct (exec_chunk X O S truthy n ch w) as [[w1 [[y m]|e]]|] eqn:EC; [| |discriminate]; apply grows_chunk in EC; destruct EC as [G K]; [|injection E as <- <-; split; [exact G|discriminate]].
    destruct (if is_empty O (hp w1) m then _ else _) as [acc'|e]; [|injection E as <- <-; split; [exact G|discriminate]]. destruct (add_y X a y) as [a'|e]; [|injection E as <- <-; split; [exact G|discriminate]].
    apply IH in E. destruct E as [G' K']. split; [eapply grows_trans; eassumption|]. intros R _. apply K'; [exact (resettable_grows _ _ G R)|exact (K R _ eq_refl)].
  Qed.
  (** execute: when some chunks have been processed, the nodes are reset; the next chunk starts there *)
  Theorem C180_clean n chs acc w w' r : resettable w -> exec_chunks X O S truthy C add n chs (YNone X) acc (reset X O S w) = Some (w', BOk r) -> clean w'.
  Proof.
    intros R E. apply grows_chunks in E. destruct E as [G K]. eapply K; [exact (resettable_grows _ _ (grows_reset w) R)|exact (reset_clean _ R)|reflexivity].
  Qed.
  Theorem C180_next n chs1 chs2 : forall a acc w, exec_chunks X O S truthy C add n (chs1 ++ chs2) a acc w =
    match exec_chunks X O S truthy C add n chs1 a acc w with Some (w1, BOk (a1, acc1)) => exec_chunks X O S truthy C add n chs2 a1 acc1 w1 | o => o end.
  Proof.
    induction chs1 as [|ch chs1 IH]; intros a acc w; cbn [app exec_chunks]; [reflexivity|]. destruct (exec_chunk X O S truthy n ch w) as [[w1 [[y m]|e]]|]; [|reflexivity|reflexivity].
    destruct (if is_empty O (hp w1) m then _ else _) as [acc'|e]; [|reflexivity]. destruct (add_y X a y) as [a'|e]; [|reflexivity]. apply IH.
  Qed.
  (** train: the same for the chunks of a training phase, and between phases *)
  Theorem C180_train n k chs : forall w w' r, resettable w -> clean w -> train_chunks X O S truthy n k chs w = Some (w', BOk r) -> clean w'.
  Proof.
    induction chs as [|[x m] chs IH]; intros w w' r R K E; cbn [train_chunks] in E; [injection E as <- _; exact K|].
    destruct (train_chunk X O S truthy n k x m (inl 0%Z) w) as [[w1 [u|e]]|] eqn:TC; [|discriminate|discriminate]. apply grows_train_chunk in TC. assert (R1 := resettable_grows _ _ TC R).
    eapply IH; [exact (resettable_grows _ _ (grows_reset w1) R1)|exact (reset_clean _ R1)|exact E].
  Qed.
  Theorem C180_phases n k chs sm : forall w w' r, resettable w -> clean w -> train_phases X O S truthy n k chs sm w = Some (w', BOk r) -> clean w'.
  Proof.
    induction n as [|n IH]; intros w w' r R K E; [discriminate|]. cbn [train_phases] in E. destruct (nth_error (nodes w) k) as [f|] eqn:N; [|discriminate].
    destruct (f_remaining X O S f =? 0); [injection E as <- _; exact K|].
    destruct (single_phase X O S truthy n k chs sm w) as [[w1 [u|e]]|] eqn:SP; [|discriminate|discriminate]. apply grows_single in SP. assert (R1 := resettable_grows _ _ SP R).
    eapply IH; [exact (resettable_grows _ _ (grows_reset w1) R1)|exact (reset_clean _ R1)|exact E].
  Qed.

  (** ** C181: a trained flow is trained *)
  Variable checkpoint : nat -> option (world -> world * bres (option (list (string * value)))).
  Hypothesis check_grows : forall k f, checkpoint k = Some f -> forall w, grows w (fst (f w)).
  Definition trained (w : world) (k : nat) : Prop := exists f, nth_error (nodes w) k = Some f /\ (f_trainable X O S f = true -> f_remaining X O S f = 0).
  Lemma grows_nth w w' k f : grows w w' -> nth_error (nodes w) k = Some f -> exists g, nth_error (nodes w') k = Some g /\ later f g.
  Proof. unfold grows. intros H. revert k. induction H as [|a b l m A B IH]; intros [|k] E; try discriminate; cbn in *; [injection E as <-; eauto|eauto]. Qed.
  Lemma later_trained f g : later f g -> (forall p s, f = Plain _ _ _ p s -> decent p) -> (f_trainable X O S f = true -> f_remaining X O S f = 0) -> f_trainable X O S g = true -> f_remaining X O S g = 0.
  Proof.
    destruct f as [c s|p s], g as [c' s'|p' s']; cbn; try tauto; intros [-> L] D H T; specialize (H T).
    - unfold remaining in *. destruct (c_trainable X O S c); [lia|reflexivity].
    - specialize (L (D _ _ eq_refl)). lia.
  Qed.
  Definition all_decent (w : world) : Prop := forall p s, In (Plain X O S p s) (nodes w) -> decent p.
  Lemma decent_grows w w' : grows w w' -> all_decent w -> all_decent w'.
  Proof. intros G R p s I. destruct (later_in _ _ _ G I) as ([c' s'|p' s'] & I' & L); [destruct L|]. destruct L as [-> _]. exact (R _ _ I'). Qed.
  Lemma trained_grows w w' k : grows w w' -> all_decent w -> trained w k -> trained w' k.
  Proof.
    intros G D (f & N & H). destruct (grows_nth _ _ _ _ G N) as (g & N' & L). exists g. split; [exact N'|]. eapply later_trained; [exact L| |exact H]. intros p s ->. exact (D p s (nth_error_In _ _ N)).
  Qed.
  Lemma train_nodes_trained n data : forall k w w', train_nodes X O S truthy checkpoint n k data w = Some (w', BOk tt) -> all_decent w ->
    grows w w' /\ forall j, k <= j < k + List.length data -> trained w' j.
  Proof.
    induction data as [|[chs sm] data IH]; intros k w w' E D; cbn [train_nodes] in E; [injection E as <-; split; [apply grows_refl|cbn; intros j J; lia]|].
    destruct (train_node X O S truthy n k chs sm w) as [[w1 [u|e]]|] eqn:TN; [|discriminate|discriminate].
    assert (T : grows w w1 /\ trained w1 k).
    { unfold train_node in TN. destruct (nth_error (nodes w) k) as [f|] eqn:N; [|discriminate]. destruct (f_trainable X O S f) eqn:FT.
      - apply grows_phases in TN. destruct TN as [G H]. destruct u. destruct (H eq_refl) as (g & N' & R). split; [exact G|]. exists g. auto.
      - injection TN as <- _. split; [apply grows_refl|]. exists f. split; [exact N|congruence]. }
    destruct T as [G T]. destruct (after_node X O S checkpoint k w1) as [w2 [u2|e]] eqn:AN; [|discriminate].
    assert (G2 : grows w1 w2). { unfold after_node in AN. destruct (checkpoint k) as [f|] eqn:CK; [|injection AN as <- _; apply grows_refl]. pose proof (check_grows k f CK w1) as G2. destruct (f w1) as [w3 [[d|]|e]]; cbn [fst] in G2; injection AN as <- _; exact G2. }
    assert (D1 := decent_grows _ _ G D). assert (D2 := decent_grows _ _ G2 D1). destruct (IH _ _ _ E D2) as [G3 H]. split; [eapply grows_trans; [exact G|eapply grows_trans; eassumption]|].
    intros j J. cbn [List.length] in J. destruct (Nat.eq_dec j k) as [->|]; [|apply H; lia]. eapply trained_grows; [exact G3|exact D2|]. eapply trained_grows; [exact G2|exact D1|exact T].
  Qed.
  Theorem C181_trained n data w w' : train_flow X O S truthy checkpoint n data w = Some (w', BOk tt) -> List.length data = List.length (nodes w) -> all_decent w ->
    List.length (nodes w') = List.length (nodes w) /\ forall f, In f (nodes w') -> f_trainable X O S f = true -> f_remaining X O S f = 0.
  Proof.
    unfold train_flow. intros E L D. apply train_nodes_trained in E; [|exact (decent_grows _ _ (grows_reset w) D)]. destruct E as [G H]. assert (LL : List.length (nodes w') = List.length (nodes w)) by (transitivity (List.length (nodes (reset X O S w))); [symmetry; clear - G; unfold grows in G; induction G; cbn; congruence|cbn; apply map_length]).
    split; [exact LL|]. intros f I T. destruct (In_nth_error _ _ I) as [j N]. destruct (H j) as (g & N' & HG). { split; [lia|]. rewrite L, <- LL. apply nth_error_Some. congruence. } rewrite N in N'. injection N' as <-. auto.
  Qed.
End Props.
