(** C182-C186: OnlineFlowNode and CircularOnlineFlowNode. *)
From Coq Require Import List Arith ZArith Bool Lia.
From Verif Require Import NodeModel NodeProofs OnlineModel OnlineProps OFlowModel OFlowProps OFlowNodeModel.
Import ListNotations.
Open Scope nat_scope.

Section Props.
  Variables D A I : Type.
  Variable row_of : nat -> D -> D.
  Variable na : A.
  Notation array := (array D).
  Notation ofnode := (ofnode D A I).
  Notation flow := (list ofnode).
  Notation fnode := (fnode D A I).
  Notation f_exec := (f_exec D A I row_of na).
  Notation f_train x := (f_train D A I row_of x na).
  Notation f_trainable := (f_trainable D A I).
  Notation f_training := (f_training D A I).
  Notation visit1 x := (visit1 D A I row_of na x na).
  Notation fn_pass := (fn_pass D A I row_of na).
  Notation one_pass := (one_pass D A I row_of na).
  Notation exec_range := (exec_range D A I row_of na).
  Notation set_flow := (set_flow D A I).
  Notation fl := (fn_flow D A I).
  Notation nrs := (nrs D A I).

  (** ** What the nodes of a flow do with an array *)
  Definition has (fs : flow) : bool := existsb f_trainable fs.
  (** one after the other: trained if trainable, then executed; if not [all], then only up to the training of the last trainable one *)
  Fixpoint feed (all : bool) (i : nat) (fs : flow) (x : array) : flow * fnres array :=
    match fs with
    | [] => ([], NOk x)
    | f :: fs =>
        let next f := if negb all && negb (has fs) then (f :: fs, NOk x)
                      else match f_exec x f with
                           | (f, Err e) => (f :: fs, NBad (NCR i e))
                           | (f, Ok y) => let (fs, r) := feed all (i + 1) fs y in (f :: fs, r)
                           end in
        if f_trainable f then match f_train x f with (f, Err e) => (f :: fs, NBad (NErr e)) | (f, Ok _) => next f end else next f
    end.
  (** executed only: the first n nodes *)
  Fixpoint execs (i n : nat) (x : array) (fs : flow) : flow * fnres array :=
    match n, fs with
    | 0, _ => (fs, NOk x)
    | _, [] => ([], NBad NIndex)
    | Datatypes.S n, f :: fs => match f_exec x f with
                      | (f, Err e) => (f :: fs, NBad (NCR i e))
                      | (f, Ok y) => let (fs, r) := execs (i + 1) n y fs in (f :: fs, r)
                      end
    end.

  (** ** Technical lemmas *)
  Lemma upd_here (d : flow) f f' r : upd1 D A I (d ++ f :: r) (length d) f' = d ++ f' :: r.
  Proof. unfold upd1. rewrite firstn_app, skipn_app, Nat.sub_diag, firstn_all, skipn_all. cbn. now rewrite app_nil_r. Qed.
  Lemma nth_here (d : flow) r : nth_error (d ++ r) (length d) = nth_error r 0.
  Proof. rewrite nth_error_app2 by lia. now rewrite Nat.sub_diag. Qed.
  Lemma snoc (d : flow) f r : d ++ f :: r = (d ++ [f]) ++ r. Proof. now rewrite <- app_assoc. Qed.
  Lemma length_snoc (d : flow) f : length (d ++ [f]) = length d + 1. Proof. now rewrite app_length. Qed.
  Lemma range_execs n : forall d r x, exec_range (length d) n x (d ++ r) = let (r', z) := execs (length d) n x r in (d ++ r', z).
  Proof.
    induction n as [|n IH]; intros d r x; cbn [OFlowNodeModel.exec_range execs]; [destruct r; reflexivity|]. rewrite nth_here. destruct r as [|f r]; cbn [nth_error]; [now rewrite app_nil_r|].
    destruct (f_exec x f) as [f' [y|e]]; rewrite upd_here; [|reflexivity]. rewrite <- (length_snoc d f'), (snoc d f' r), IH, (length_snoc d f'). destruct (execs (length d + 1) n y r) as [r' z]. now rewrite <- snoc.
  Qed.
  Lemma trainable_train x f : f_trainable (fst (f_train x f)) = f_trainable f.
  Proof. destruct f; cbn; [destruct (train _ _ _ _ _ _ _)|destruct (o_train _ _ _ _ _ _ _ _)]; reflexivity. Qed.
  Lemma trainable_exec x f : f_trainable (fst (f_exec x f)) = f_trainable f.
  Proof. destruct f; cbn; [destruct (execute _ _ _ _ _ _ _ _)|destruct (o_execute _ _ _ _ _ _ _ _ _)]; reflexivity. Qed.
  Lemma trainable_feed all fs : forall i x, map f_trainable (fst (feed all i fs x)) = map f_trainable fs.
  Proof.
    induction fs as [|f fs IH]; intros i x; cbn [feed]; [reflexivity|]. cbv zeta.
    assert (N : forall g, f_trainable g = f_trainable f -> map f_trainable (fst (if negb all && negb (has fs) then (g :: fs, NOk x) else match f_exec x g with (f, Err e) => (f :: fs, NBad (NCR i e)) | (f, Ok y) => let (fs, r) := feed all (i + 1) fs y in (f :: fs, r) end)) = map f_trainable (f :: fs)).
    { intros g Hg. destruct (negb all && negb (has fs)); [cbn; now rewrite Hg|]. pose proof (trainable_exec x g) as T. destruct (f_exec x g) as [g' [y|e]]; cbn [fst] in T.
      - specialize (IH (i + 1) y). destruct (feed all (i + 1) fs y) as [fs' r]. cbn in *. now rewrite T, Hg, IH.
      - cbn. now rewrite T, Hg. }
    destruct (f_trainable f) eqn:Ef; [|apply N; assumption]. pose proof (trainable_train x f) as T. destruct (f_train x f) as [f' [u|e]]; cbn [fst] in T; [apply N; congruence|]. cbn. now rewrite T, Ef.
  Qed.
  Lemma has_map fs fs' : map f_trainable fs' = map f_trainable fs -> has fs' = has fs.
  Proof. revert fs'. induction fs as [|f fs IH]; intros [|g fs'] H; try discriminate; [reflexivity|]. injection H as H1 H2. unfold has in *. cbn. now rewrite H1, (IH _ H2). Qed.
  Lemma nrs_map fs fs' : map f_trainable fs' = map f_trainable fs -> forall i, nrs i fs' = nrs i fs.
  Proof. revert fs'. induction fs as [|f fs IH]; intros [|g fs'] H i; try discriminate; [reflexivity|]. injection H as H1 H2. cbn. now rewrite H1, (IH _ H2). Qed.
  Lemma nrs_has fs : forall i, has fs = match nrs i fs with [] => false | _ => true end.
  Proof. induction fs as [|f fs IH]; intro i; [reflexivity|]. unfold has in *. cbn. destruct (f_trainable f); [reflexivity|]. apply IH. Qed.
  Lemma nrs_lower fs : forall i j l, nrs i fs = j :: l -> i <= j.
  Proof. induction fs as [|f fs IH]; intros i j l; cbn; [discriminate|]. destruct (f_trainable f); cbn; [intros [= <- _]; lia|]. intro H. apply IH in H. lia. Qed.
  Lemma feed_execs fs : forall i x, has fs = false -> feed true i fs x = execs i (length fs) x fs.
  Proof.
    induction fs as [|f fs IH]; intros i x H; [reflexivity|]. cbn [feed execs length]. cbv zeta. unfold has in H. cbn in H. apply orb_false_iff in H as [H1 H2]. rewrite H1. cbn [negb andb]. destruct (f_exec x f) as [f' [y|e]]; [|reflexivity]. rewrite IH by exact H2. reflexivity.
  Qed.
  (** the last channel *)
  Inductive ending := EndEmpty | EndExec | EndSave.
  Definition fin_of (c : ending) (N i : nat) : channel := match c with EndEmpty => ChEmpty | EndExec => ChExec i N | EndSave => ChSave i N end.
  Definition all_of (c : ending) : bool := match c with EndEmpty => false | _ => true end.
  Definition finish (c : ending) (y : array) (s : fnode) : fnode := match c with EndSave => set_stored D A I s (Some y) | _ => s end.
  Lemma set_flow_twice s a b : set_flow (set_flow s a) b = set_flow s b. Proof. reflexivity. Qed.
  Lemma entries_feed c stop es N : forall rest done x s j l, nrs (length done) rest = j :: l -> fl s = done ++ rest -> N = length done + length rest ->
    (let (fs', r) := exec_range (length done) (j - length done) x (fl s) in
     match r with NBad e => (set_flow s fs', NBad e) | NOk y => fn_pass (entries stop (fin_of c N) (j :: l) ++ es) y (set_flow s fs') end)
    = let (rest', r) := feed (all_of c) (length done) rest x in
      match r with NBad e => (set_flow s (done ++ rest'), NBad e) | NOk y => fn_pass es y (finish c y (set_flow s (done ++ rest'))) end.
  Proof.
    induction rest as [|f r IH]; intros done x s j l Hn Hs HN; [discriminate|]. cbn [OFlowNodeModel.nrs] in Hn. cbn [feed]. cbv zeta.
    destruct (f_trainable f) eqn:Ef; cbn [app] in Hn.
    - injection Hn as <- Hl. rewrite Nat.sub_diag. cbn [OFlowNodeModel.exec_range].
      set (en := mkE (Some (length done)) (if stop then Some (length done) else None) (match l with [] => fin_of c N (length done) | j :: _ => ChExec (length done) j end) false).
      assert (He : entries stop (fin_of c N) (length done :: l) = en :: match l with [] => [] | _ => entries stop (fin_of c N) l end) by (destruct l; reflexivity).
      rewrite He. cbn [app OFlowNodeModel.fn_pass]. unfold run_train. subst en. cbn [e_ignore e_train e_chan]. change (fl (set_flow s (fl s))) with (fl s). rewrite Hs, nth_here. cbn [nth_error].
      destruct (f_train x f) as [f1 [u|e]]; rewrite !upd_here, set_flow_twice; [|reflexivity].
      assert (Hh := nrs_has r (length done + 1)). rewrite Hl in Hh.
      destruct l as [|j2 l2].
      + rewrite Hh. unfold run_chan. cbn [e_ignore e_chan]. change (fl (set_flow s (done ++ f1 :: r))) with (done ++ f1 :: r).
        assert (HN' : N - length done = Datatypes.S (length r)) by (cbn in HN; lia).
        destruct c; cbn [fin_of all_of negb andb finish app]; [reflexivity| |]; rewrite range_execs, HN'; cbn [execs]; (destruct (f_exec x f1) as [f2 [y|e]]; [|reflexivity]); rewrite (feed_execs r _ _ Hh); destruct (execs (length done + 1) (length r) y r) as [r' [z|e]]; reflexivity.
      + rewrite Hh. cbn [negb]. rewrite andb_false_r. unfold run_chan. cbn [e_ignore e_chan]. change (fl (set_flow s (done ++ f1 :: r))) with (done ++ f1 :: r).
        pose proof (nrs_lower _ _ _ _ Hl) as Hj. replace (j2 - length done) with (Datatypes.S (j2 - (length done + 1))) by lia. cbn [OFlowNodeModel.exec_range]. rewrite nth_here. cbn [nth_error].
        destruct (f_exec x f1) as [f2 [y|e]]; rewrite upd_here; [|reflexivity].
        assert (Hl' : nrs (length (done ++ [f2])) r = j2 :: l2) by (rewrite length_snoc; exact Hl).
        specialize (IH (done ++ [f2]) y (set_flow s (done ++ f2 :: r)) j2 l2 Hl' (snoc _ _ _)). rewrite length_snoc in IH. specialize (IH ltac:(cbn in HN; lia)).
        change (fl (set_flow s (done ++ f2 :: r))) with (done ++ f2 :: r) in IH. destruct (feed (all_of c) (length done + 1) r y) as [r' z] eqn:Er.
        destruct (exec_range (length done + 1) (j2 - (length done + 1)) y (done ++ f2 :: r)) as [fs' [w|e]].
        * rewrite set_flow_twice in *. rewrite IH. destruct z as [v|e1]; rewrite set_flow_twice, <- snoc; reflexivity.
        * rewrite set_flow_twice in *. rewrite IH. destruct z as [v|e1]; rewrite set_flow_twice, <- snoc; reflexivity.
    - assert (Hh := nrs_has r (length done + 1)). rewrite Hn in Hh. rewrite Hh. cbn [negb]. rewrite andb_false_r.
      pose proof (nrs_lower _ _ _ _ Hn) as Hj. replace (j - length done) with (Datatypes.S (j - (length done + 1))) by lia. cbn [OFlowNodeModel.exec_range]. rewrite Hs, nth_here. cbn [nth_error].
      destruct (f_exec x f) as [f2 [y|e]]; rewrite upd_here; [|reflexivity].
      assert (Hl' : nrs (length (done ++ [f2])) r = j :: l) by (rewrite length_snoc; exact Hn).
      specialize (IH (done ++ [f2]) y (set_flow s (done ++ f2 :: r)) j l Hl' (snoc _ _ _)). rewrite length_snoc in IH. specialize (IH ltac:(cbn in HN; lia)).
      change (fl (set_flow s (done ++ f2 :: r))) with (done ++ f2 :: r) in IH. destruct (feed (all_of c) (length done + 1) r y) as [r' z] eqn:Er.
      destruct (exec_range (length done + 1) (j - (length done + 1)) y (done ++ f2 :: r)) as [fs' w]. destruct w as [w|e]; rewrite set_flow_twice in *; rewrite IH; destruct z as [v|e1]; rewrite set_flow_twice, <- snoc; reflexivity.
  Qed.
  Lemma set_flow_same s : set_flow s (fl s) = s. Proof. destruct s; reflexivity. Qed.
  Lemma front_feed c stop es x s k l : nrs 0 (fl s) = k :: l ->
    fn_pass ((front k ++ entries stop (fin_of c (length (fl s))) (k :: l)) ++ es) x s
    = let (fs', r) := feed (all_of c) 0 (fl s) x in match r with NBad e => (set_flow s fs', NBad e) | NOk y => fn_pass es y (finish c y (set_flow s fs')) end.
  Proof.
    intro H. pose proof (entries_feed c stop es (length (fl s)) (fl s) [] x s k l H eq_refl eq_refl) as E. cbn [length app] in E. rewrite Nat.sub_0_r in E.
    transitivity (let (fs', r) := feed (all_of c) 0 (fl s) x in match r with NOk y => fn_pass es y (finish c y (set_flow s ([] ++ fs'))) | NBad e => (set_flow s ([] ++ fs'), NBad e) end); [|reflexivity].
    rewrite <- app_assoc. unfold front. destruct (Nat.ltb_spec 0 k) as [Hk|Hk].
    - cbn [app OFlowNodeModel.fn_pass run_train e_ignore e_train run_chan e_chan]. rewrite Nat.sub_0_r. etransitivity; [|exact E]. destruct (exec_range 0 k x (fl s)) as [fs' [y|e]]; reflexivity.
    - assert (k = 0) as -> by lia. cbn [OFlowNodeModel.exec_range] in E. rewrite set_flow_same in E. exact E.
  Qed.

  (** ** C182: an OnlineFlowNode trains its nodes *)
  Theorem C182_pass x s : has (fl s) = true ->
    one_pass KFlow x s = let (fs', r) := feed false 0 (fl s) x in (set_flow s fs', match r with NOk _ => NOk tt | NBad e => NBad e end).
  Proof.
    intro H. rewrite (nrs_has _ 0) in H. unfold OFlowNodeModel.one_pass, seq_of, train_seq. destruct (nrs 0 (fl s)) as [|k l] eqn:E; [discriminate|].
    pose proof (front_feed EndEmpty true [] x s k l E) as F. rewrite app_nil_r in F. etransitivity; [exact F|]. cbn [all_of]. destruct (feed false 0 (fl s) x) as [fs' [y|e]]; reflexivity.
  Qed.
  (** what OnlineFlow.train does with an element without arguments; the exceptions of train are not wrapped by the node *)
  Definition like (r : fnres array) (r' : ofres array) : Prop :=
    match r, r' with
    | NOk y, FOk y' => y = y'
    | NBad (NErr e), FErr (XCR _ (CNode e')) => e = e'
    | NBad (NCR i e), FErr (XCR j (CNode e')) => i = j /\ e = e'
    | _, _ => False
    end.
  Lemma feed_visit fs : forall i x, Forall (fun f => f_training f = f_trainable f) fs ->
    let (fs1, r1) := feed true i fs x in let (fs2, r2) := pass_with D A I (fun _ x f => visit1 x f) i fs x in fs1 = fs2 /\ like r1 r2.
  Proof.
    induction fs as [|f fs IH]; intros i x HF; cbn [feed pass_with]; [cbn; auto|]. cbv zeta. apply Forall_cons_iff in HF as [H1 H2]. unfold OFlowModel.visit1. rewrite H1. cbn [negb andb].
    assert (N : forall g, let (fs1, r1) := match f_exec x g with (f, Err e) => (f :: fs, NBad (NCR i e)) | (f, Ok y) => let (fs, r) := feed true (i + 1) fs y in (f :: fs, r) end in
      let (fs2, r2) := match match f_exec x g with (f', Ok y) => (f', inl y) | (f', Err e) => (f', inr (CNode e)) end with (f', inr c) => (f' :: fs, FErr (XCR i c)) | (f', inl y) => let (fs', r) := pass_with D A I (fun _ x f => visit1 x f) (Datatypes.S i) fs y in (f' :: fs', r) end in fs1 = fs2 /\ like r1 r2).
    { intro g. destruct (f_exec x g) as [g' [y|e]]; [|cbn; auto]. specialize (IH (i + 1) y H2). rewrite Nat.add_1_r in *. destruct (feed true (Datatypes.S i) fs y) as [fs1 r1]. destruct (pass_with _ _ _ _ (Datatypes.S i) fs y) as [fs2 r2]. destruct IH as [-> K]. auto. }
    destruct (f_trainable f); [|apply N]. destruct (f_train x f) as [f1 [u|e]]; [apply N|]. cbn. auto.
  Qed.
  Theorem C182_as_flow arglen fs x : Forall (fun f => f_training f = f_trainable f /\ f_nargs D A I f = 0) fs ->
    let (fs1, r1) := feed true 0 fs x in let (fs2, r2) := pass_elt D A I row_of na arglen fs None x in fs1 = fs2 /\ like r1 r2.
  Proof.
    intro HF. assert (H1 : Forall (fun f => f_training f = f_trainable f) fs) by (eapply Forall_impl; [|exact HF]; intros g Hg; apply Hg). pose proof (feed_visit fs 0 x H1) as F.
    assert (P : forall fs i x, Forall (fun f => f_nargs D A I f = 0) fs -> pass_with D A I (fun i x f => visit D A I row_of na arglen i None x f) i fs x = pass_with D A I (fun _ x f => visit1 x f) i fs x).
    { clear. induction fs as [|f fs IH]; intros i x HF; cbn [pass_with]; [reflexivity|]. apply Forall_cons_iff in HF as [H1 H2]. unfold visit at 1. rewrite H1. cbn. destruct (visit1 x f) as [f' [y|c]]; [|reflexivity]. now rewrite IH. }
    unfold pass_elt. rewrite P; [exact F|]. eapply Forall_impl; [|exact HF]. intros g Hg. apply Hg.
  Qed.
  (** the flow differs from the node by the execution of the last trainable node and of its successors *)
  Fixpoint last_trainable (fs : flow) : nat := match fs with [] => 0 | f :: fs => if has fs then Datatypes.S (last_trainable fs) else 0 end.
  Theorem C182_rest fs : forall i x, has fs = true ->
    feed true i fs x = match feed false i fs x with
                       | (fs', NBad e) => (fs', NBad e)
                       | (fs', NOk y) => let k := last_trainable fs in let (t, r) := execs (i + k) (length fs - k) y (skipn k fs') in (firstn k fs' ++ t, r)
                       end.
  Proof.
    induction fs as [|f fs IH]; intros i x H; [discriminate|]. cbn [feed last_trainable]. cbv zeta. cbn [negb andb].
    assert (N : forall g, has fs = true -> match f_exec x g with (f0, Err e) => (f0 :: fs, NBad (NCR i e)) | (f0, Ok y) => let (fs0, r) := feed true (i + 1) fs y in (f0 :: fs0, r) end =
      match (match f_exec x g with (f0, Err e) => (f0 :: fs, NBad (NCR i e)) | (f0, Ok y) => let (fs0, r) := feed false (i + 1) fs y in (f0 :: fs0, r) end) with
      | (fs', NBad e) => (fs', NBad e)
      | (fs', NOk y) => let (t, r) := execs (i + Datatypes.S (last_trainable fs)) (length (f :: fs) - Datatypes.S (last_trainable fs)) y (skipn (Datatypes.S (last_trainable fs)) fs') in (firstn (Datatypes.S (last_trainable fs)) fs' ++ t, r)
      end).
    { intros g Hh. destruct (f_exec x g) as [g' [y|e]]; [|reflexivity]. rewrite (IH (i + 1) y Hh). destruct (feed false (i + 1) fs y) as [fs' [z|e]]; [|reflexivity]. cbv zeta. cbn [length skipn firstn app]. replace (Datatypes.S (length fs) - Datatypes.S (last_trainable fs)) with (length fs - last_trainable fs) by lia. replace (i + Datatypes.S (last_trainable fs)) with (i + 1 + last_trainable fs) by lia.
      destruct (execs _ _ z _) as [t r]. reflexivity. }
    destruct (has fs) eqn:Hh; cbn [negb].
    - destruct (f_trainable f); [|now apply N]. destruct (f_train x f) as [f1 [u|e]]; [now apply N|reflexivity].
    - unfold has in H, Hh. cbn in H. rewrite Hh, orb_false_r in H. rewrite H. destruct (f_train x f) as [f1 [u|e]]; [|reflexivity]. cbn [skipn firstn app length]. rewrite Nat.add_0_r, Nat.sub_0_r. cbn [execs].
      destruct (f_exec x f1) as [f2 [y|e]]; [|reflexivity]. rewrite (feed_execs fs _ _ Hh). destruct (execs (i + 1) (length fs) y fs) as [t r]. reflexivity.
  Qed.
  (** train: the whole array at once, or row by row *)
  Fixpoint feeds (fs : flow) (xs : list array) : flow * fnres unit * nat :=
    match xs with
    | [] => (fs, NOk tt, 0)
    | x :: xs => match feed false 0 fs x with
                 | (fs', NBad e) => (fs', NBad e, 0)
                 | (fs', NOk _) => let '(fs2, r, n) := feeds fs' xs in (fs2, r, Datatypes.S n)
                 end
    end.
  Lemma rows_feeds xs : forall s, has (fl s) = true -> fn_rows D A I row_of na KFlow xs s = let '(fs', r, n) := feeds (fl s) xs in (add_iter D A I (set_flow s fs') n, r).
  Proof.
    induction xs as [|x xs IH]; intros s H; cbn [fn_rows feeds].
    - unfold add_iter. destruct s. cbn. now rewrite Nat.add_0_r.
    - rewrite (C182_pass x s H). pose proof (trainable_feed false (fl s) 0 x) as T. destruct (feed false 0 (fl s) x) as [fs' [y|e]]; cbn [fst] in T.
      + rewrite IH; [|change (has fs' = true); rewrite (has_map _ _ T); assumption]. change (fl (add_iter D A I (set_flow s fs') 1)) with fs'. destruct (feeds fs' xs) as [[fs2 r] n]. unfold add_iter, OFlowNodeModel.set_flow. cbn. now rewrite <- Nat.add_assoc.
      + unfold add_iter. cbn. rewrite Nat.add_0_r. reflexivity.
  Qed.
  Theorem C182_train x s : fn_trainable D A I s = true -> fn_training D A I s = true -> has (fl s) = true ->
    let s1 := fst (fn_train D A I row_of na KFlow x s) in let r1 := snd (fn_train D A I row_of na KFlow x s) in
    let batch := match fn_type D A I s with Some t => t | None => false end in
    let '(fs', r, n) := feeds (fl s) (if batch then [x] else rows D row_of x) in
    fl s1 = fs' /\ r1 = r /\ fn_training D A I s1 = true /\ fn_started D A I s1 = true /\ fn_type D A I s1 = Some batch /\ fn_iter D A I s1 = fn_iter D A I s + (if batch then n * a_rows x else n).
  Proof.
    intros H1 H2 H3. unfold fn_train. rewrite H1, H2. cbn [negb]. cbv zeta. set (s0 := mkF _ _ _ _ _ _ _ _ _ _ _).
    destruct (match fn_type D A I s with Some t => t | None => false end) eqn:Et.
    - rewrite (C182_pass x s0 H3). cbn [feeds]. change (fl s0) with (fl s). destruct (feed false 0 (fl s) x) as [fs' [y|e]]; cbn; repeat split; auto; lia.
    - rewrite (rows_feeds _ s0 H3). change (fl s0) with (fl s). destruct (feeds (fl s) _) as [[fs' r] n]. cbn. auto 10.
  Qed.

  (** ** C183: nodes that are trained already *)
  (** where the trainable nodes are still in training, training reaches all of them (C182); it stops at a trained one *)
  Theorem C183_trained_node f fs x i : f_trainable f = true -> f_training f = false -> feed false i (f :: fs) x = (f :: fs, NBad (NErr TrainingFinished)).
  Proof.
    intros H1 H2. cbn [feed]. rewrite H1. destruct f as [b k s|b k s]; cbn in *.
    - unfold train. rewrite H1, H2. reflexivity.
    - unfold o_train. rewrite H1, H2. reflexivity.
  Qed.

  (** ** C184: stop_training *)
  Fixpoint stop_all (fs : flow) : flow * fnres unit :=
    match fs with
    | [] => ([], NOk tt)
    | f :: fs => if f_trainable f
                 then match f_stop D A I na f with (f, Err e) => (f :: fs, NBad (NErr e)) | (f, Ok _) => let (fs, r) := stop_all fs in (f :: fs, r) end
                 else let (fs, r) := stop_all fs in (f :: fs, r)
    end.
  Lemma stops_all fin : forall rest done, stops D A I na (entries true fin (nrs (length done) rest)) (done ++ rest) = let (rest', r) := stop_all rest in (done ++ rest', r).
  Proof.
    induction rest as [|f r IH]; intro done; cbn [OFlowNodeModel.nrs stop_all]; [reflexivity|]. destruct (f_trainable f); cbn [app].
    - set (l := nrs (length done + 1) r) in *.
      assert (He : forall g, stops D A I na (entries true fin (length done :: l)) (done ++ g :: r) = match f_stop D A I na g with (f', Err e) => (done ++ f' :: r, NBad (NErr e)) | (f', Ok _) => stops D A I na (entries true fin l) (done ++ f' :: r) end).
      { intro g. destruct l as [|j l']; cbn [entries stops e_stop]; rewrite nth_here; cbn [nth_error]; destruct (f_stop D A I na g) as [g' [u|e]]; rewrite upd_here; reflexivity. }
      rewrite He. destruct (f_stop D A I na f) as [f' [u|e]]; [|reflexivity]. specialize (IH (done ++ [f'])). rewrite length_snoc, <- !app_assoc in IH. cbn [app] in IH. fold l in IH. rewrite IH. destruct (stop_all r) as [r' z]. now rewrite <- app_assoc.
    - specialize (IH (done ++ [f])). rewrite length_snoc, <- !app_assoc in IH. cbn [app] in IH. rewrite IH. destruct (stop_all r) as [r' z]. now rewrite <- app_assoc.
  Qed.
  Notation fn_stop := (fn_stop D A I na).
  Definition first_trainable (s : fnode) : Prop := match fl s with f :: _ => f_trainable f = true | [] => False end.
  Theorem C184_stop k s : fn_training D A I s = true -> fn_started D A I s = true -> first_trainable s -> match k with KFlow => True | KCirc n _ => n <= 1 end ->
    let (fs', r) := stop_all (fl s) in let (s', r') := fn_stop k s in
    fl s' = fs' /\ r' = r /\ fn_training D A I s' = match r with NOk _ => false | NBad _ => true end.
  Proof.
    intros H1 H2 H3 Hk. unfold OFlowNodeModel.fn_stop. rewrite H1, H2. cbn [negb andb].
    assert (Hn : exists l, nrs 0 (fl s) = 0 :: l). { unfold first_trainable in H3. destruct (fl s) as [|f r]; [destruct H3|]. cbn. rewrite H3. cbn. eauto. } destruct Hn as [l Hn].
    assert (St : exists es, seq_of D A I k (fl s) = NOk es /\ stops D A I na es (fl s) = stop_all (fl s)).
    { destruct k as [|n ig]; unfold seq_of, train_seq, circ_seq; rewrite Hn.
      - exists (entries true (fun _ => ChEmpty) (0 :: l)). split; [reflexivity|]. pose proof (stops_all (fun _ => ChEmpty) (fl s) []) as E. cbn [length app] in E. rewrite Hn in E. rewrite E. now destruct (stop_all (fl s)).
      - replace (n - 1) with 0 by lia. cbn [repeat List.concat app front Nat.ltb Nat.leb]. set (fin := fun i => ChSave i (length (fl s))). pose proof (stops_all fin (fl s) []) as E. cbn [length app] in E. rewrite Hn in E.
        assert (Ne : exists e es, entries true fin (0 :: l) = e :: es) by (destruct l; cbn; eauto). destruct Ne as (e & es & Ne). rewrite Ne in *. eexists. split; [reflexivity|].
        transitivity (stops D A I na (e :: es) (fl s)); [destruct ig; reflexivity|]. rewrite E. now destruct (stop_all (fl s)). }
    destruct St as (es & -> & ->). destruct (stop_all (fl s)) as [fs' [u|e]]; cbn; [destruct u; auto|auto].
  Qed.
  (** after it, no OnlineNode is in training *)
  Theorem C184_closed fs fs' : Forall (fun f => is_open D A I f \/ f_training f = false) fs -> stop_all fs = (fs', NOk tt) -> Forall (fun f => f_trainable f = true -> f_training f = false) fs' /\ map f_trainable fs' = map f_trainable fs.
  Proof.
    revert fs'. induction fs as [|f fs IH]; intros fs' HF; cbn [stop_all]; [intros [= <-]; auto|]. apply Forall_cons_iff in HF as [Ho HF]. destruct (f_trainable f) eqn:Ef.
    - destruct (f_stop D A I na f) as [f' [u|e]] eqn:E; [|discriminate]. destruct (stop_all fs) as [fs1 r1]. intros [= <- ->]. destruct (IH fs1 HF eq_refl) as [K1 K2].
      assert (Hc : f_training f' = false /\ f_trainable f' = f_trainable f).
      { destruct Ho as [Ho|Ho].
        - destruct f as [b k s|b k s]; [destruct Ho|]. cbn in E. destruct (o_stop D A I b na s) as [s1 r] eqn:Es. injection E as <- ->. apply stop_frame in Es as (_ & _ & _ & _ & _ & _ & Ht). cbn. split; [now apply Ht|reflexivity].
        - destruct f as [b k s|b k s]; cbn in E, Ho.
          + unfold stop_training in E. rewrite Ho in E. discriminate.
          + unfold o_stop in E. rewrite Ho in E. discriminate. }
      destruct Hc as [Hc1 Hc2]. cbn. rewrite K2, Hc2. split; [|now rewrite Ef]. constructor; auto.
    - destruct (stop_all fs) as [fs1 r1]. intros [= <- ->]. destruct (IH fs1 HF eq_refl) as [K1 K2]. cbn. rewrite K2. split; [|now rewrite Ef]. constructor; [congruence|assumption].
  Qed.
  (** in the other cases stop_training raises TypeError and stops no node *)
  Theorem C184_not_stopped k s : fn_training D A I s = true -> fn_started D A I s = true -> has (fl s) = true -> ~ first_trainable s \/ (exists n b, k = KCirc n b /\ 2 <= n) -> fn_stop k s = (s, NBad NType).
  Proof.
    intros H1 H2 H3 H4. unfold OFlowNodeModel.fn_stop. rewrite H1, H2. cbn [negb andb]. rewrite (nrs_has _ 0) in H3. destruct (nrs 0 (fl s)) as [|j l] eqn:Hn; [discriminate|].
    assert (St : exists e es, seq_of D A I k (fl s) = NOk (e :: es) /\ e_stop e = None).
    { assert (Fr : ~ first_trainable s -> front j = [mkE None None (ChExec 0 j) false]).
      { intro K. unfold front. destruct (Nat.ltb_spec 0 j); [reflexivity|]. exfalso. apply K. unfold first_trainable. destruct (fl s) as [|f r]; [discriminate|]. destruct (f_trainable f) eqn:Ef; [reflexivity|]. cbn in Hn. rewrite Ef in Hn. cbn in Hn. apply nrs_lower in Hn. lia. }
      assert (Cn : forall n b, (~ first_trainable s \/ 2 <= n) -> exists e es, circ_seq D A I n b (fl s) = NOk (e :: es) /\ e_stop e = None).
      { intros n b K. unfold circ_seq. rewrite Hn.
        assert (C : exists e es, List.concat (repeat (front j ++ entries false (fun i => ChExec i (length (fl s))) (j :: l)) (n - 1)) ++ front j ++ entries true (fun i => ChSave i (length (fl s))) (j :: l) = e :: es /\ e_stop e = None).
        { destruct (n - 1) as [|m] eqn:En.
          - destruct K as [K|K]; [|lia]. rewrite (Fr K). cbn. eauto.
          - cbn [repeat List.concat]. unfold front. destruct (0 <? j); [cbn; eauto|]. destruct l; cbn; eauto. }
        destruct C as (e & es & -> & He). destruct b; eauto. }
      destruct k as [|n b].
      - destruct H4 as [H4|(n & b & ? & _)]; [|discriminate]. unfold seq_of, train_seq. rewrite Hn, (Fr H4). cbn. eauto.
      - apply Cn. destruct H4 as [H4|(n' & b' & [= <- <-] & H5)]; auto. }
    destruct St as (e & es & -> & He). cbn [stops]. rewrite He. now rewrite set_flow_same.
  Qed.

  (** ** C185: execute *)
  Notation fn_execute := (fn_execute D A I row_of na).
  Definition exec_all (x : array) (s : fnode) : fnode * fnres array := let (fs', r) := execs 0 (length (fl s)) x (fl s) in (set_flow s fs', r).
  Lemma range_all x s : (let (fs', r) := exec_range 0 (length (fl s)) x (fl s) in (set_flow s fs', r)) = exec_all x s.
  Proof. pose proof (range_execs (length (fl s)) [] (fl s) x) as E. cbn [length app] in E. unfold exec_all. rewrite E. now destruct (execs 0 (length (fl s)) x (fl s)). Qed.
  (** during training, after a successful stop_training and for a flow without training left, the data goes through all nodes *)
  Theorem C185_execute k x s : fn_started D A I s = true \/ fn_phase D A I s <> 0%Z -> fn_execute k x s = exec_all x s.
  Proof.
    intro H. unfold OFlowNodeModel.fn_execute. replace ((fn_phase D A I s =? 0)%Z && negb (fn_started D A I s)) with false; [apply range_all|].
    destruct H as [H|H]; [rewrite H; now rewrite andb_false_r|]. apply Z.eqb_neq in H. now rewrite H.
  Qed.
  Theorem C185_no_training fs st k x : train_len D A I fs = 0%Z -> fn_execute k x (fn_new D A I fs st) = exec_all x (fn_new D A I fs st).
  Proof. intro H. apply C185_execute. right. cbn. rewrite H. discriminate. Qed.
  Theorem C185_after_stop k x s s' : fn_stop k s = (s', NOk tt) -> fn_execute k x s' = exec_all x s'.
  Proof.
    unfold OFlowNodeModel.fn_stop. destruct (fn_training D A I s && negb (fn_started D A I s)); [discriminate|]. destruct (negb (fn_training D A I s)); [discriminate|].
    destruct (seq_of D A I k (fl s)) as [es|e] eqn:Es; [|discriminate]. destruct (stops D A I na es (fl s)) as [fs' [u|e]] eqn:E; [|discriminate]. intros [= <-]. apply C185_execute. right. cbn [fn_phase].
    assert (es <> []); [|destruct es; [congruence|cbn [length]; lia]]. intros ->. revert Es. destruct k as [|n b]; unfold seq_of, train_seq, circ_seq; destruct (nrs 0 (fl s)) as [|j l]; try discriminate.
    - unfold front. destruct (0 <? j); [discriminate|]. destruct l; discriminate.
    - intros [= Es]. assert (N : entries true (fun i => ChSave i (length (fl s))) (j :: l) <> []) by (destruct l; discriminate). destruct (List.concat _ ++ _) as [|e' es'] eqn:Ec; [|destruct b; discriminate].
      apply app_eq_nil in Ec as [_ Ec]. apply app_eq_nil in Ec as [_ Ec]. auto.
  Qed.
  (** a node that was not trained is trained on the data first *)
  Theorem C185_untrained k x s : fn_phase D A I s = 0%Z -> fn_started D A I s = false ->
    fn_execute k x s = match fn_train D A I row_of na k x s with (s1, NOk _) => exec_all x s1 | (s1, NBad e) => (s1, NBad e) end.
  Proof. intros H1 H2. unfold OFlowNodeModel.fn_execute. rewrite H1, H2. cbn [Z.eqb negb andb]. destruct (fn_train D A I row_of na k x s) as [s1 [u|e]]; [apply range_all|reflexivity]. Qed.

  (** ** C186: CircularOnlineFlowNode *)
  (** open OnlineNodes and nodes without training *)
  Definition idle (f : ofnode) : Prop := f_trainable f = false /\ f_training f = false.
  Definition steady (f : ofnode) : Prop := is_open D A I f \/ idle f.
  Lemma idle_exec x f : idle f -> idle (fst (f_exec x f)).
  Proof.
    intros [H1 H2]. split; [now rewrite trainable_exec|]. destruct f as [b k s|b k s]; cbn in *.
    - destruct (execute D A I b na x na s) as [s' r] eqn:E. cbn. assert (n_training D A I s' = n_training D A I s); [|congruence].
      revert E. unfold execute, bind at 1.
      assert (P : n_training D A I (fst (pre_execution_checks D A I b na x s)) = n_training D A I s).
      { unfold pre_execution_checks. unfold bind at 1. destruct ((n_phase D A I s =? 0)%Z && negb (n_started D A I s)).
        - cbn [auto_train]. unfold bind at 1, train at 1. rewrite H1. reflexivity.
        - unfold bind at 1, if_training_stop_training. rewrite H2. unfold bind. pose proof (book_check_input D A I b x s) as B. destruct (check_input D A I b x s) as [s1 [u|e]]; cbn [fst] in B; apply book_training in B; [|cbn; congruence].
          destruct (n_out D A I s1); [cbn; congruence|]. pose proof (book_set_out D A I b (n_in D A I s1) s1) as B2. apply book_training in B2. congruence. }
      destruct (pre_execution_checks D A I b na x s) as [s1 [u|e]]; cbn [fst] in P; [|intros [= <- _]; exact P]. cbv zeta. intro E.
      pose proof (book_prog D A I b (b_execute D A I b (view_of D A I s1) (refcast D (n_dt D A I s1) x) na) (add_event D A I s1 (EvExec D A (refcast D (n_dt D A I s1) x) na))) as B.
      rewrite E in B. apply book_training in B. cbn in B. congruence.
    - destruct (o_execute D A I row_of na b x na s) as [s' r] eqn:E. cbn. assert (n_training _ _ _ s' = n_training _ _ _ s); [|congruence]. revert E. unfold o_execute, bind at 1.
      assert (P : n_training _ _ _ (fst (o_pre_exec D A I row_of na b x s)) = n_training _ _ _ s).
      { unfold o_pre_exec. unfold bind at 1. destruct ((n_phase _ _ _ s =? 0)%Z && negb (n_started _ _ _ s)).
        - unfold o_train at 1. rewrite H1. reflexivity.
        - unfold bind at 1. pose proof (ocheck_quiet D A I b x s) as Q. destruct (o_check_input D A I b x s) as [s1 [u|e]]; cbn [fst] in Q; apply quiet_out in Q as (Q & _); [|exact Q].
          unfold bind. destruct (hook_quiet D A I b (fun v => ob_check_params D A I b v x) s1) as [Q1 _]. destruct (run_hook D A I b (fun v => ob_check_params D A I b v x) s1) as [s2 [u2|e2]]; cbn [fst] in Q1; apply quiet_out in Q1 as (Q1 & _); [|cbn; congruence].
          destruct (n_out _ _ _ s2); [cbn; congruence|]. pose proof (outdim_quiet D A I b (n_in _ _ _ s2) s2) as Q2. apply quiet_out in Q2 as (Q2 & _). congruence. }
      destruct (o_pre_exec D A I row_of na b x s) as [s1 [u|e]]; cbn [fst] in P; [|intros [= <- _]; exact P]. cbv zeta. intro E. set (x' := refcast D _ x) in *.
      destruct (hook_quiet D A I b (fun v => ob_execute D A I b v x' na) (add_event _ _ _ s1 (EvExec D A x' na))) as [Q _]. rewrite E in Q. apply quiet_out in Q as (Q & _). cbn in Q. congruence.
  Qed.
  Lemma steady_agree f : steady f -> f_training f = f_trainable f.
  Proof. intros [H|[H1 H2]]; [|congruence]. destruct f as [b k s|b k s]; [destruct H|]. destruct H as (H1 & _ & _ & H2). cbn. congruence. Qed.
  Lemma steady_visit x f f' r : steady f -> visit1 x f = (f', r) -> steady f'.
  Proof.
    intros [H|H] E.
    - left. pose proof (visit_open D A I row_of na (fun _ => 0) 0 None x (match f with Plain _ _ _ b _ s => Plain D A I b 0 s | Online _ _ _ b _ s => Online D A I b 0 s end)) as V. destruct f as [b k s|b k s]; [destruct H|].
      specialize (V (match f' with Plain _ _ _ b _ s => Plain D A I b 0 s | Online _ _ _ b _ s => Online D A I b 0 s end) r H). destruct V as [V _]; [|destruct f'; exact V].
      unfold visit. cbn [f_nargs Nat.eqb]. revert E. unfold OFlowModel.visit1. cbn [OFlowModel.f_training]. destruct H as (_ & _ & _ & Ht). rewrite Ht. cbn [OFlowModel.f_train]. destruct (o_train D A I row_of b x na s) as [s1 [u|e]]; [|now intros [= <- <-]].
      cbn [OFlowModel.f_exec]. destruct (o_execute D A I row_of na b x na s1) as [s2 [y|e]]; now intros [= <- <-].
    - right. pose proof (idle_exec x f H) as K. destruct H as [_ H]. revert E. unfold OFlowModel.visit1. rewrite H. destruct (f_exec x f) as [g [y|e]]; intros [= <- <-]; exact K.
  Qed.
  Lemma steady_pass fs : forall i x, Forall steady fs -> Forall steady (fst (pass_with D A I (fun _ x f => visit1 x f) i fs x)).
  Proof.
    induction fs as [|f fs IH]; intros i x HF; cbn [pass_with]; [constructor|]. apply Forall_cons_iff in HF as [H1 H2]. destruct (visit1 x f) as [f' [y|c]] eqn:E; apply steady_visit in E; auto; [|constructor; assumption].
    specialize (IH (Datatypes.S i) y H2). destruct (pass_with _ _ _ _ _ fs y) as [fs' r]. constructor; assumption.
  Qed.
  Definition like_error (e : fnexn) (e' : ofexn) : Prop := match e, e' with NErr e, XCR _ (CNode e') => e = e' | NCR i e, XCR j (CNode e') => i = j /\ e = e' | _, _ => False end.
  Notation loops := (loops D A I row_of na).
  Lemma steady_agrees fs : Forall steady fs -> Forall (fun f => f_training f = f_trainable f) fs.
  Proof. apply Forall_impl. exact steady_agree. Qed.
  Definition circ_entries (m k : nat) (l : list nat) (N : nat) : list entry := List.concat (repeat (front k ++ entries false (fin_of EndExec N) (k :: l)) m) ++ front k ++ entries true (fin_of EndSave N) (k :: l).
  Lemma circ_pass m : forall x s st k l, nrs 0 (fl s) = k :: l -> Forall steady (fl s) ->
    match loops (Datatypes.S m) (fl s) st (Some x) with
    | (fs', st', FOk _) => fn_pass (circ_entries m k l (length (fl s))) x s = (set_stored D A I (set_flow s fs') st', NOk tt) /\ Forall steady fs' /\ nrs 0 fs' = k :: l
    | (fs', _, FErr e) => exists e', fn_pass (circ_entries m k l (length (fl s))) x s = (set_flow s fs', NBad e') /\ like_error e' e
    end.
  Proof.
    induction m as [|m IH]; intros x s st k l Hn HF.
    - change (loops 1 (fl s) st (Some x)) with (match pass_with D A I (fun _ x f => visit1 x f) 0 (fl s) x with (fs', FErr e) => (fs', st, FErr e) | (fs', FOk y) => (fs', Some y, FOk (Some y)) end).
      unfold circ_entries. cbn [repeat List.concat app]. pose proof (front_feed EndSave true [] x s k l Hn) as E. rewrite app_nil_r in E. rewrite E. cbn [all_of].
      pose proof (feed_visit (fl s) 0 x (steady_agrees _ HF)) as V. pose proof (steady_pass (fl s) 0 x HF) as S. pose proof (trainable_feed true (fl s) 0 x) as T.
      destruct (feed true 0 (fl s) x) as [fs1 r1]. destruct (pass_with _ _ _ _ 0 (fl s) x) as [fs2 r2]. cbn [fst] in *. destruct V as [-> V]. destruct r1 as [y|e1], r2 as [y2|e2]; cbn in V; try contradiction.
      + subst y2. split; [reflexivity|]. split; [assumption|]. rewrite (nrs_map _ _ T). assumption.
      + destruct e1; contradiction.
      + exists e1. split; [reflexivity|]. exact V.
    - change (loops (Datatypes.S (Datatypes.S m)) (fl s) st (Some x)) with (match pass_with D A I (fun _ x f => visit1 x f) 0 (fl s) x with (fs', FErr e) => (fs', st, FErr e) | (fs', FOk y) => loops (Datatypes.S m) fs' (Some y) (Some y) end).
      assert (Ce : circ_entries (Datatypes.S m) k l (length (fl s)) = (front k ++ entries false (fin_of EndExec (length (fl s))) (k :: l)) ++ circ_entries m k l (length (fl s))) by (unfold circ_entries; cbn [repeat List.concat]; now rewrite <- app_assoc).
      rewrite Ce, (front_feed EndExec false _ x s k l Hn). cbn [all_of].
      pose proof (feed_visit (fl s) 0 x (steady_agrees _ HF)) as V. pose proof (steady_pass (fl s) 0 x HF) as S. pose proof (trainable_feed true (fl s) 0 x) as T.
      destruct (feed true 0 (fl s) x) as [fs1 r1]. destruct (pass_with _ _ _ _ 0 (fl s) x) as [fs2 r2]. cbn [fst] in *. destruct V as [-> V]. destruct r1 as [y|e1], r2 as [y2|e2]; cbn in V; try contradiction.
      + subst y2. cbn [finish]. assert (L : length (fl s) = length fs2) by (apply (f_equal (@length bool)) in T; now rewrite !map_length in T). rewrite L.
        specialize (IH y (set_flow s fs2) (Some y) k l). cbn [fn_flow OFlowNodeModel.set_flow] in IH. rewrite (nrs_map _ _ T) in IH. specialize (IH Hn S). exact IH.
      + destruct e1; contradiction.
      + exists e1. split; [reflexivity|]. exact V.
  Qed.
  Lemma entries_plain stop fin l e es : entries stop fin l = e :: es -> e_ignore e = false.
  Proof. destruct l as [|i [|j l]]; cbn; [discriminate| |]; now intros [= <- _]. Qed.
  Lemma ignored e es x s : e_ignore e = false -> fn_pass (mkE (e_train e) (e_stop e) (e_chan e) true :: es) x s =
    match fn_stored D A I s with None => (s, NBad (NErr TrainingExc)) | Some y => fn_pass (e :: es) y s end.
  Proof.
    intro H. cbn [OFlowNodeModel.fn_pass]. unfold run_train, run_chan. cbn [e_ignore e_train e_chan]. rewrite H. destruct (fn_stored D A I s) as [y|] eqn:Es; [|reflexivity].
    destruct (e_train e) as [i|]; [|rewrite Es; reflexivity]. destruct (nth_error (fl s) i) as [f|]; [|reflexivity]. destruct (f_train y f) as [f' [u|e']]; [|reflexivity]. cbn [fn_stored OFlowNodeModel.set_flow]. rewrite Es. reflexivity.
  Qed.
  (** one element: as CircularOnlineFlow does it *)
  Theorem C186_element n ig x s : 1 <= n -> has (fl s) = true -> Forall steady (fl s) -> (ig = true -> fn_stored D A I s <> None) ->
    match loops n (fl s) (fn_stored D A I s) (if ig then fn_stored D A I s else Some x) with
    | (fs', st', FOk _) => one_pass (KCirc n ig) x s = (set_stored D A I (set_flow s fs') st', NOk tt) /\ Forall steady fs' /\ has fs' = true /\ st' <> None
    | (fs', _, FErr e) => exists e', one_pass (KCirc n ig) x s = (set_flow s fs', NBad e') /\ like_error e' e
    end.
  Proof.
    intros Hn Hh HF Hi. destruct n as [|m]; [lia|]. rewrite (nrs_has _ 0) in Hh. destruct (nrs 0 (fl s)) as [|k l] eqn:En; [discriminate|].
    set (z := if ig then match fn_stored D A I s with Some y => y | None => x end else x).
    assert (Ez : (if ig then fn_stored D A I s else Some x) = Some z). { unfold z. destruct ig; [|reflexivity]. destruct (fn_stored D A I s); [reflexivity|]. now destruct (Hi eq_refl). }
    assert (Ep : one_pass (KCirc (Datatypes.S m) ig) x s = fn_pass (circ_entries m k l (length (fl s))) z s).
    { unfold OFlowNodeModel.one_pass, seq_of, circ_seq. rewrite En. cbn [Nat.sub]. rewrite Nat.sub_0_r.
      change (List.concat (repeat _ m) ++ _) with (circ_entries m k l (length (fl s))).
      assert (Ne : exists e es, circ_entries m k l (length (fl s)) = e :: es /\ e_ignore e = false).
      { unfold circ_entries. assert (F : forall stop c, exists e es, front k ++ entries stop (fin_of c (length (fl s))) (k :: l) = e :: es /\ e_ignore e = false).
        { intros stop c. unfold front. destruct (0 <? k); [cbn; eauto|]. destruct (entries stop (fin_of c (length (fl s))) (k :: l)) as [|e es] eqn:E; [destruct l; discriminate|]. apply entries_plain in E. cbn; eauto. }
        destruct m as [|m]; [apply F|]. cbn [repeat List.concat]. destruct (F false EndExec) as (e & es & -> & He). cbn; eauto. }
      destruct Ne as (e & es & -> & He). destruct ig; [|reflexivity]. rewrite (ignored e es x s He). unfold z. destruct (fn_stored D A I s); [reflexivity|]. now destruct (Hi eq_refl). }
    rewrite Ez, Ep. pose proof (circ_pass m z s (fn_stored D A I s) k l En HF) as P. destruct (loops (Datatypes.S m) (fl s) (fn_stored D A I s) (Some z)) as [[fs' st'] [y|e]] eqn:El; [|exact P].
    destruct P as (P1 & P2 & P3). split; [exact P1|]. split; [exact P2|]. split; [rewrite (nrs_has _ 0), P3; reflexivity|].
    assert (St : forall m fs st x fs' st' y, loops (Datatypes.S m) fs st (Some x) = (fs', st', FOk y) -> st' <> None).
    { clear. induction m as [|m IH]; intros fs st x fs' st' y; cbn [OFlowModel.loops]; destruct (pass_with _ _ _ _ 0 fs x) as [fs1 [z|e]]; try discriminate; [intros [= _ <- _]; discriminate|]. apply (IH fs1 (Some z) z). }
    eapply St. exact El.
  Qed.
  (** a sequence of elements (rows, when training incrementally) *)
  Theorem C186_rows n ig xs : forall s, 1 <= n -> has (fl s) = true -> Forall steady (fl s) -> (ig = true -> fn_stored D A I s <> None) ->
    let (c, r) := circ_elts D A I row_of na (mkC D A I (fl s) n (fn_stored D A I s) ig) xs in
    let (s', r') := fn_rows D A I row_of na (KCirc n ig) xs s in
    fl s' = c_nodes D A I c /\ match r with FOk _ => r' = NOk tt /\ fn_stored D A I s' = c_stored D A I c /\ fn_iter D A I s' = fn_iter D A I s + length xs | FErr e => exists e', r' = NBad e' /\ like_error e' e end.
  Proof.
    induction xs as [|x xs IH]; intros s Hn Hh HF Hi; cbn [circ_elts fn_rows c_nodes c_iters c_stored c_ignore]; [cbn [length]; rewrite Nat.add_0_r; auto|].
    pose proof (C186_element n ig x s Hn Hh HF Hi) as P. destruct (loops n (fl s) (fn_stored D A I s) _) as [[fs' st'] [y|e]].
    - destruct P as (-> & P2 & P3 & P4). specialize (IH (add_iter D A I (set_stored D A I (set_flow s fs') st') 1) Hn P3 P2 (fun _ => P4)). cbn [fn_flow fn_stored fn_iter add_iter set_stored OFlowNodeModel.set_flow] in IH.
      destruct (circ_elts _ _ _ _ _ _ xs) as [c r]. destruct (fn_rows _ _ _ _ _ _ xs _) as [s' r']. destruct IH as [K1 K2]. split; [exact K1|]. destruct r as [u|e]; [|exact K2]. destruct K2 as (K2 & K3 & K4). cbn [length]. repeat split; auto. rewrite K4. lia.
    - destruct P as (e' & -> & P). cbn. eauto.
  Qed.
  Theorem C186_train n ig x s : 1 <= n -> has (fl s) = true -> Forall steady (fl s) -> (ig = true -> fn_stored D A I s <> None) -> fn_trainable D A I s = true -> fn_training D A I s = true ->
    let batch := match fn_type D A I s with Some t => t | None => false end in
    let (c, r) := circ_elts D A I row_of na (mkC D A I (fl s) n (fn_stored D A I s) ig) (if batch then [x] else rows D row_of x) in
    let (s', r') := fn_train D A I row_of na (KCirc n ig) x s in
    fl s' = c_nodes D A I c /\ match r with FOk _ => r' = NOk tt /\ fn_stored D A I s' = c_stored D A I c /\ fn_iter D A I s' = fn_iter D A I s + a_rows x | FErr e => exists e', r' = NBad e' /\ like_error e' e end.
  Proof.
    intros Hn Hh HF Hi Ht Htr. unfold fn_train. rewrite Ht, Htr. cbn [negb]. cbv zeta. set (s0 := mkF _ _ _ _ _ _ _ _ _ _ _).
    destruct (match fn_type D A I s with Some t => t | None => false end).
    - pose proof (C186_element n ig x s0 Hn Hh HF Hi) as P. cbn [circ_elts c_nodes c_iters c_stored c_ignore]. change (fl s0) with (fl s) in P. change (fn_stored D A I s0) with (fn_stored D A I s) in P.
      destruct (loops n (fl s) (fn_stored D A I s) _) as [[fs' st'] [y|e]]; [destruct P as (-> & P2 & P3 & P4); cbn; auto|]. destruct P as (e' & -> & P). cbn. eauto.
    - pose proof (C186_rows n ig (rows D row_of x) s0 Hn Hh HF Hi) as P. change (fl s0) with (fl s) in P. change (fn_stored D A I s0) with (fn_stored D A I s) in P. destruct (circ_elts _ _ _ _ _ _ _) as [c r]. destruct (fn_rows _ _ _ _ _ _ _ _) as [s' r']. destruct P as [P1 P2]. split; [exact P1|]. destruct r; [|exact P2]. now rewrite count_rows in P2.
  Qed.
  Theorem C186_nothing_stored n x s : 1 <= n -> has (fl s) = true -> fn_stored D A I s = None -> one_pass (KCirc n true) x s = (s, NBad (NErr TrainingExc)).
  Proof.
    intros Hn Hh Hs. destruct n as [|m]; [lia|]. rewrite (nrs_has _ 0) in Hh. unfold OFlowNodeModel.one_pass, seq_of, circ_seq. destruct (nrs 0 (fl s)) as [|k l] eqn:En; [discriminate|]. 
    destruct (List.concat _ ++ _) as [|e es] eqn:Ec.
    - exfalso. apply app_eq_nil in Ec as [_ Ec]. apply app_eq_nil in Ec as [_ Ec]. destruct l; discriminate.
    - cbn [OFlowNodeModel.fn_pass]. unfold run_train. cbn [e_ignore]. rewrite Hs. reflexivity.
  Qed.
End Props.

(** ** Examples and refutations *)
Section Examples.
  Notation I := (list (nat * nat)).
  Notation T := (ofnode (list nat) unit I).
  Definition ex_idle : behaviour (list nat) unit I :=
    mkBeh _ _ _ false false false (fun _ => true) 1 (fun _ _ _ => None) (fun p v x _ => PRet (Ok tt)) (fun p v _ => PRet (Ok tt)) (fun v x _ => PRet (Ok (edouble x))) (fun v x _ => PRet (Ok x)).
  Definition fresh_idle : T := Plain _ _ _ ex_idle 0 (fst (init _ _ _ ex_idle [] None None None)).
  Definition trained_plain : T := fst (f_stop _ _ _ tt (fst (OFlowModel.f_train _ _ _ erow (chunk [1]) tt (fresh_plain 1)))).
  Definition trained_one : T := fst (f_stop _ _ _ tt (fst (OFlowModel.f_train _ _ _ erow (chunk [1]) tt fresh_one))).
  Notation new fs st := (fn_new (list nat) unit I fs st).
  Notation train_on k d s := (fn_train (list nat) unit I erow tt k (chunk d) s).
  Notation stop_it k s := (OFlowNodeModel.fn_stop (list nat) unit I tt k s).
  Notation exec_on k d s := (OFlowNodeModel.fn_execute (list nat) unit I erow tt k (chunk d) s).
  Notation flows s := (seen (fn_flow (list nat) unit I s)).
  Notation iter := (fn_iter (list nat) unit I).
  (* the nodes double what they execute *)
  Example C182_example : let (s, r) := train_on KFlow [1; 2] (new [fresh_one; fresh_idle; fresh_one] None) in
    r = NOk tt /\ flows s = [(true, [(0, 1); (0, 2)]); (false, []); (true, [(0, 4); (0, 8)])] /\ iter s = 2.
  Proof. vm_compute. auto. Qed.
  (** C183: a flow with a trained Node, allowed by the documentation, cannot be trained *)
  Theorem C183_trained_node_refuted : exists fs x, let s := new fs None in map fst (seen fs) = [false; true] /\ fn_training _ _ _ s = true /\ snd (fn_train (list nat) unit I erow tt KFlow x s) = NBad (NErr TrainingFinished).
  Proof. exists [trained_plain; fresh_one], (chunk [1]). vm_compute. auto. Qed.
  (* OnlineFlow itself accepts it *)
  Example C183_flow : snd (oflow_train (list nat) unit I erow tt (fun _ => 0) [trained_plain; fresh_one] (elts [[1]])) = FOk tt.
  Proof. vm_compute. reflexivity. Qed.
  (** C184: stop_training raises TypeError and leaves all nodes in training, if the first node is not trainable *)
  Theorem C184_stop_refuted : exists fs x, let (s, r) := fn_train (list nat) unit I erow tt KFlow x (new fs None) in let (s', r') := stop_it KFlow s in
    r = NOk tt /\ r' = NBad NType /\ map fst (flows s') = [false; true] /\ fn_training _ _ _ s' = true.
  Proof. exists [fresh_idle; fresh_one], (chunk [1]). vm_compute. auto. Qed.
  Theorem C184_circular_refuted : exists fs x, let (s, r) := fn_train (list nat) unit I erow tt (KCirc 2 false) x (new fs None) in let (s', r') := stop_it (KCirc 2 false) s in
    r = NOk tt /\ r' = NBad NType /\ map fst (flows s') = [true] /\ fn_training _ _ _ s' = true.
  Proof. exists [fresh_one], (chunk [1]). vm_compute. auto. Qed.
  Example C184_example : let (s, r) := train_on KFlow [1] (new [fresh_one; fresh_idle; fresh_one] None) in let (s', r') := stop_it KFlow s in
    r' = NOk tt /\ map fst (flows s') = [false; false; false] /\ fn_training _ _ _ s' = false.
  Proof. vm_compute. auto. Qed.
  Definition out (r : fnres (array (list nat))) : option (list nat) := match r with NOk x => Some (a_data x) | NBad _ => None end.
  Example C185_example : out (snd (exec_on KFlow [1; 2] (new [trained_one; fresh_idle] None))) = Some [4; 8].
  Proof. vm_compute. reflexivity. Qed.
  Example C185_untrained_example : let (s, r) := exec_on KFlow [1; 2] (new [fresh_one; fresh_idle] None) in out r = Some [4; 8] /\ flows s = [(true, [(0, 1); (0, 2)]); (false, [])] /\ iter s = 2.
  Proof. vm_compute. auto. Qed.
  Example C186_three : let (s, r) := train_on (KCirc 3 false) [1; 5] (new [fresh_one] None) in
    r = NOk tt /\ flows s = [(true, [(0, 1); (0, 2); (0, 4); (0, 5); (0, 10); (0, 20)])] /\ option_map (fun x => a_data x) (fn_stored _ _ _ s) = Some [40] /\ iter s = 2.
  Proof. vm_compute. auto. Qed.
  Example C186_ignored : let (s, r) := train_on (KCirc 2 true) [7; 9] (new [fresh_one] (Some (chunk [1]))) in
    r = NOk tt /\ flows s = [(true, [(0, 1); (0, 2); (0, 4); (0, 8)])] /\ option_map (fun x => a_data x) (fn_stored _ _ _ s) = Some [16].
  Proof. vm_compute. auto. Qed.
End Examples.
