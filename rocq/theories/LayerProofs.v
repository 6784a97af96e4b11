(** Proofs about layers. *)
From Coq Require Import List Arith Bool Lia.
From Verif Require Import LayerModel.
Import ListNotations.

Section P.
  Variables (N : Type) (zero : N) (St : Type).
  Variable cls : nat -> obj N St.
  Notation mat := (mat N). Notation heap := (heap St). Notation obj := (obj N St).
  Notation cols := (cols N). Notation upd := (upd St).
  Notation o_in := (o_in N St). Notation o_out := (o_out N St). Notation o_training := (o_training N St).
  Notation o_train := (o_train N St). Notation o_stop := (o_stop N St). Notation o_exec := (o_exec N St). Notation o_inv := (o_inv N St).
  Notation blocks := (blocks N zero St cls).

  Definition is_mat (n w : nat) (m : mat) : Prop := length m = n /\ Forall (fun r => length r = w) m.
  (** matrices side by side *)
  Definition hcat (n : nat) (vs : list mat) : mat := map (fun i => concat (map (fun v => nth i v []) vs)) (seq 0 n).

  Lemma upd_same h r s : upd h r s r = s.
  Proof. unfold LayerModel.upd. rewrite Nat.eqb_refl. reflexivity. Qed.
  Lemma upd_other h r s q : q <> r -> upd h r s q = h q.
  Proof. intros H. unfold LayerModel.upd. destruct (Nat.eqb_spec q r); congruence. Qed.

  Lemma map_seq_ext {X} (f g : nat -> X) a n : (forall i, a <= i < a + n -> f i = g i) -> map f (seq a n) = map g (seq a n).
  Proof. intros H. apply map_ext_in. intros i Hi. apply in_seq in Hi. apply H. lia. Qed.
  Lemma map_nth_seq {X} (l : list X) d : map (fun i => nth i l d) (seq 0 (length l)) = l.
  Proof.
    induction l as [|a l IH]; [reflexivity|]. cbn [length seq map nth]. f_equal. rewrite <- seq_shift, map_map. cbn. exact IH.
  Qed.
  Lemma is_mat_nth n w m i : is_mat n w m -> i < n -> length (nth i m []) = w.
  Proof. intros [H1 H2] Hi. rewrite Forall_forall in H2. apply H2. apply nth_In. lia. Qed.

  (** ** Assignment of a block *)
  Lemma assign_rows_map a b (A B : nat -> list N) (C : nat -> list N) m : forall i0,
    (forall i, i0 <= i < i0 + m -> assign_row N a b (A i) (B i) = Some (C i)) ->
    assign_rows N a b (map A (seq i0 m)) (map B (seq i0 m)) = Some (map C (seq i0 m)).
  Proof.
    induction m as [|m IH]; intros i0 H; [reflexivity|]. cbn [seq map assign_rows]. rewrite H by lia. rewrite IH; [reflexivity|].
    intros i Hi. apply H. lia.
  Qed.
  Lemma assign_block n a o m (A : nat -> list N) v : is_mat n o v -> (forall i, i < n -> length (A i) = a) -> o <= m ->
    assign N a (a + o) v (map (fun i => A i ++ repeat zero m) (seq 0 n)) =
    LOk (map (fun i => (A i ++ nth i v []) ++ repeat zero (m - o)) (seq 0 n)).
  Proof.
    intros Hv HA Ho. unfold assign. rewrite map_length, seq_length. unfold fit at 1. rewrite (proj1 Hv), Nat.eqb_refl.
    rewrite <- (map_nth_seq v []) at 1. rewrite (proj1 Hv).
    rewrite (assign_rows_map a (a + o) (fun i => A i ++ repeat zero m) (fun i => nth i v []) (fun i => (A i ++ nth i v []) ++ repeat zero (m - o))); [reflexivity|].
    intros i Hi. unfold assign_row. rewrite app_length, repeat_length, (HA i) by lia.
    rewrite !Nat.min_l by lia. replace (a + o - a) with o by lia. unfold fit. rewrite (is_mat_nth n o v i Hv) by lia. rewrite Nat.eqb_refl.
    f_equal. rewrite <- app_assoc. f_equal.
    - rewrite <- (HA i) by lia. rewrite firstn_app, firstn_all, Nat.sub_diag. cbn. apply app_nil_r.
    - f_equal. rewrite <- (HA i) by lia. rewrite skipn_app. rewrite skipn_all2 by lia. cbn [app].
      replace (length (A i) + o - length (A i)) with o by lia. clear. revert m. induction o as [|o IH]; intros [|m]; cbn; auto.
  Qed.

  (** ** The loop over the nodes *)
  Fixpoint ran (op : obj -> St -> mat -> St * lres mat) (blk : nat -> nat -> mat) (din dout : obj -> St -> option nat) (n : nat)
    (refs : list nat) (in_stop : nat) (h : heap) (ds os : list nat) (vs : list mat) (h' : heap) : Prop :=
    match refs, ds, os, vs with
    | [], [], [], [] => h' = h
    | r :: refs, d :: ds, o :: os, v :: vs => exists s, din (cls r) (h r) = Some d /\ dout (cls r) (h r) = Some o /\
        op (cls r) (h r) (blk in_stop (in_stop + d)) = (s, LOk v) /\ is_mat n o v /\
        ran op blk din dout n refs (in_stop + d) (upd h r s) ds os vs h'
    | _, _, _, _ => False
    end.
  Lemma blocks_ran op blk din dout n post rest : forall refs in_stop h ds os vs h' (A : nat -> list N) out_stop m,
    ran op blk din dout n refs in_stop h ds os vs h' -> (forall i, i < n -> length (A i) = out_stop) -> m = list_sum os + rest ->
    blocks op blk din dout (out_stop + m) (refs ++ post) in_stop out_stop (Some (map (fun i => A i ++ repeat zero m) (seq 0 n))) h =
    blocks op blk din dout (out_stop + m) post (in_stop + list_sum ds) (out_stop + list_sum os)
      (Some (map (fun i => A i ++ concat (map (fun v => nth i v []) vs) ++ repeat zero rest) (seq 0 n))) h'.
  Proof.
    induction refs as [|r refs IH]; intros in_stop h ds os vs h' A out_stop m Hr HA Hm; destruct ds as [|d ds], os as [|o os], vs as [|v vs]; cbn [ran] in Hr; try contradiction.
    - subst m. cbn. subst h'. rewrite !Nat.add_0_r. reflexivity.
    - destruct Hr as (s & E1 & E2 & E3 & E4 & E5). cbn [app LayerModel.blocks]. rewrite E1, E2, E3. cbn in Hm. fold (list_sum os) in Hm.
      rewrite assign_block by (auto; lia). replace (out_stop + m) with ((out_stop + o) + (m - o)) by lia.
      rewrite (IH _ _ ds os vs h' (fun i => A i ++ nth i v []) (out_stop + o) (m - o)); auto; try lia.
      + cbn [list_sum fold_right]. fold (list_sum os). fold (list_sum ds). rewrite !Nat.add_assoc. do 2 f_equal. apply map_ext. intros i. cbn. rewrite <- !app_assoc. reflexivity.
      + intros i Hi. rewrite app_length, HA, (is_mat_nth n o v) by auto. reflexivity.
  Qed.
  Lemma blocks_prefix op blk din dout n post rest refs h ds os vs h' : ran op blk din dout n refs 0 h ds os vs h' -> refs <> [] ->
    blocks op blk din dout (list_sum os + rest) (refs ++ post) 0 0 None h =
    blocks op blk din dout (list_sum os + rest) post (list_sum ds) (list_sum os)
      (Some (map (fun i => concat (map (fun v => nth i v []) vs) ++ repeat zero rest) (seq 0 n))) h'.
  Proof.
    intros Hr Hne. destruct refs as [|r refs]; [congruence|]. destruct ds as [|d ds], os as [|o os], vs as [|v vs]; cbn [ran] in Hr; try contradiction.
    destruct Hr as (s & E1 & E2 & E3 & E4 & E5). cbn [app LayerModel.blocks]. rewrite E1, E2, E3. rewrite (proj1 E4).
    set (tot := list_sum (o :: os) + rest). assert (tot = o + list_sum os + rest) as Et by reflexivity.
    assert (zeros N zero n tot = map (fun i => [] ++ repeat zero tot) (seq 0 n)) as ->.
    { unfold zeros. clear. generalize 0. induction n as [|n IH]; intros k; cbn; [reflexivity|]. f_equal. apply IH. }
    rewrite assign_block by (auto; lia).
    replace tot with (0 + o + (tot - o)) at 1 by lia.
    rewrite (blocks_ran op blk din dout n post rest refs _ _ ds os vs h' (fun i => [] ++ nth i v []) (0 + o) (tot - o)); auto; try lia.
    - replace (0 + o + (tot - o)) with tot by lia. cbn [list_sum fold_right Nat.add]. fold (list_sum os). fold (list_sum ds). do 2 f_equal. apply map_ext. intros i. cbn. rewrite <- app_assoc. reflexivity.
    - intros i Hi. cbn. apply (is_mat_nth n o v i E4 Hi).
  Qed.
  Lemma blocks_ok op blk din dout n refs h ds os vs h' : ran op blk din dout n refs 0 h ds os vs h' -> refs <> [] ->
    blocks op blk din dout (list_sum os) refs 0 0 None h = (h', LOk (Some (hcat n vs))).
  Proof.
    intros Hr Hne. pose proof (blocks_prefix op blk din dout n [] 0 refs h ds os vs h' Hr Hne) as K. rewrite app_nil_r, Nat.add_0_r in K. rewrite K. cbn [LayerModel.blocks].
    do 3 f_equal. unfold hcat. apply map_ext. intros i. cbn. apply app_nil_r.
  Qed.

  (** ** The same with indices *)
  Definition offset (ds : list nat) (k : nat) : nat := list_sum (firstn k ds).
  Definition upds (h : heap) (rs : list nat) (ss : list St) : heap := fold_left (fun h p => upd h (fst p) (snd p)) (combine rs ss) h.
  Lemma upds_other rs : forall h ss q, ~ In q rs -> upds h rs ss q = h q.
  Proof using.
    induction rs as [|r rs IH]; intros h ss q Hq; [reflexivity|]. destruct ss as [|s ss]; [reflexivity|]. cbn in Hq. unfold upds. cbn. unfold upds in IH. rewrite IH by (intros C; apply Hq; right; exact C).
    apply upd_other. intros ->. apply Hq. left; reflexivity.
  Qed.
  Lemma upds_nth rs : forall h ss k r s, NoDup rs -> nth_error rs k = Some r -> nth_error ss k = Some s -> upds h rs ss r = s.
  Proof using.
    induction rs as [|r0 rs IH]; intros h ss [|k] r s Hn; cbn; try discriminate; destruct ss as [|s0 ss]; cbn; try discriminate; inversion Hn; subst.
    - intros [= ->] [= ->]. unfold upds. cbn. fold (upds (upd h r s) rs ss). rewrite upds_other by assumption. apply upd_same.
    - intros E1 E2. unfold upds. cbn. fold (upds (upd h r0 s0) rs ss). eauto.
  Qed.
  Lemma ran_intro op blk din dout n : forall refs in_stop h ds os vs ss, NoDup refs -> length ds = length refs -> length os = length refs ->
    length vs = length refs -> length ss = length refs ->
    (forall k r d o v s, nth_error refs k = Some r -> nth_error ds k = Some d -> nth_error os k = Some o -> nth_error vs k = Some v -> nth_error ss k = Some s ->
       din (cls r) (h r) = Some d /\ dout (cls r) (h r) = Some o /\ op (cls r) (h r) (blk (in_stop + offset ds k) (in_stop + offset ds k + d)) = (s, LOk v) /\ is_mat n o v) ->
    ran op blk din dout n refs in_stop h ds os vs (upds h refs ss).
  Proof.
    induction refs as [|r refs IH]; intros in_stop h ds os vs ss Hn L1 L2 L3 L4 H; destruct ds as [|d ds], os as [|o os], vs as [|v vs], ss as [|s ss]; try discriminate; cbn [ran]; [reflexivity|].
    inversion Hn as [|? ? Hn1 Hn2]; subst. destruct (H 0 r d o v s) as (E1 & E2 & E3 & E4); try reflexivity. unfold offset in E3; cbn in E3. rewrite Nat.add_0_r in E3.
    exists s. do 4 (split; [assumption|]). unfold upds. cbn [combine fold_left fst snd]. fold (upds (upd h r s) refs ss).
    apply (IH _ _ ds); auto. intros k r' d' o' v' s' K1 K2 K3 K4 K5. assert (r' <> r) as Hne by (intros ->; apply Hn1; eapply nth_error_In; eassumption).
    rewrite upd_other by exact Hne. destruct (H (S k) r' d' o' v' s') as (F1 & F2 & F3 & F4); auto. unfold offset in *. cbn [firstn list_sum fold_right] in F3.
    rewrite <- Nat.add_assoc. cbn in F3. fold (list_sum (firstn k ds)) in F3. auto.
  Qed.

  (** ** Columns of matrices side by side *)
  Lemma concat_slice (ls : list (list N)) (ds : list nat) k : map (@length N) ls = ds -> k < length ls ->
    firstn (offset ds k + nth k ds 0 - offset ds k) (skipn (offset ds k) (concat ls)) = nth k ls [].
  Proof.
    intros <-. revert k. induction ls as [|l ls IH]; intros k Hk; [cbn in Hk; lia|]. destruct k as [|k]; cbn [map firstn list_sum nth concat].
    - unfold offset. cbn. rewrite firstn_app, Nat.sub_0_r, firstn_all, Nat.sub_diag. cbn. apply app_nil_r.
    - assert (offset (length l :: map (@length N) ls) (S k) = length l + offset (map (@length N) ls) k) as -> by reflexivity.
      rewrite skipn_app, skipn_all2 by lia. cbn [app].
      replace (length l + offset (map (@length N) ls) k - length l) with (offset (map (@length N) ls) k) by lia.
      replace (length l + offset (map (@length N) ls) k + nth k (map (@length N) ls) 0 - (length l + offset (map (@length N) ls) k)) with
        (offset (map (@length N) ls) k + nth k (map (@length N) ls) 0 - offset (map (@length N) ls) k) by lia.
      apply IH. cbn in Hk. lia.
  Qed.
  Lemma cols_hcat n os vs k v o : length os = length vs -> (forall j o v, nth_error os j = Some o -> nth_error vs j = Some v -> is_mat n o v) ->
    nth_error vs k = Some v -> nth_error os k = Some o -> cols (offset os k) (offset os k + o) (hcat n vs) = v.
  Proof.
    intros HL HM Hv Ho. unfold LayerModel.cols, hcat. rewrite map_map. pose proof (HM k o v Ho Hv) as [Hv1 Hv2].
    transitivity (map (fun i => nth i v []) (seq 0 n)); [|rewrite <- Hv1; apply map_nth_seq]. apply map_seq_ext. intros i Hi.
    assert (map (@length N) (map (fun v => nth i v []) vs) = os) as E.
    { rewrite map_map. clear Hv Ho Hv1 Hv2. revert os HL HM. induction vs as [|v' vs IH]; intros [|o' os] HL HM; try discriminate; [reflexivity|].
      cbn. f_equal; [apply (is_mat_nth n o' v'); [apply (HM 0); reflexivity|lia]|]. apply IH; [auto|]. intros j o2 v2. apply (HM (S j)). }
    pose proof (concat_slice _ os k E) as K. rewrite (nth_error_nth os k 0 Ho) in K. rewrite K.
    - apply nth_error_nth. apply (map_nth_error (fun v => nth i v []) k vs Hv).
    - rewrite map_length. apply (nth_error_Some vs k). intros K0. rewrite K0 in Hv. discriminate.
  Qed.
  Lemma concat_all_slices (ds : list nat) : forall (row : list N), length row = list_sum ds ->
    concat (map (fun k => firstn (nth k ds 0) (skipn (offset ds k) row)) (seq 0 (length ds))) = row.
  Proof.
    induction ds as [|d ds IH]; intros row H; [destruct row; [reflexivity|discriminate]|].
    cbn [length seq map concat nth]. assert (offset (d :: ds) 0 = 0) as -> by reflexivity. cbn [skipn]. cbn in H.
    rewrite <- seq_shift, map_map. transitivity (firstn d row ++ skipn d row); [|apply firstn_skipn]. f_equal.
    transitivity (concat (map (fun k => firstn (nth k ds 0) (skipn (offset ds k) (skipn d row))) (seq 0 (length ds)))); [|apply IH; rewrite skipn_length; unfold list_sum; lia]. f_equal. apply map_ext. intros k. cbn [nth].
    assert (offset (d :: ds) (S k) = d + offset ds k) as -> by reflexivity. f_equal. clear. revert row. induction d; intros [|a row]; cbn; auto. now rewrite skipn_nil.
  Qed.
  Lemma hcat_blocks n ds (x : mat) : is_mat n (list_sum ds) x ->
    hcat n (map (fun k => cols (offset ds k) (offset ds k + nth k ds 0) x) (seq 0 (length ds))) = x.
  Proof.
    intros [H1 H2]. unfold hcat. transitivity (map (fun i => nth i x []) (seq 0 n)); [|rewrite <- H1; apply map_nth_seq]. apply map_seq_ext. intros i Hi. rewrite map_map.
    transitivity (concat (map (fun k => firstn (nth k ds 0) (skipn (offset ds k) (nth i x []))) (seq 0 (length ds)))); [|apply concat_all_slices].
    - f_equal. apply map_ext. intros k. unfold LayerModel.cols.
      rewrite (nth_indep _ [] ((fun row => firstn (offset ds k + nth k ds 0 - offset ds k) (skipn (offset ds k) row)) [])) by (rewrite map_length; lia).
      rewrite (map_nth (fun row => firstn (offset ds k + nth k ds 0 - offset ds k) (skipn (offset ds k) row)) x [] i).
      replace (offset ds k + nth k ds 0 - offset ds k) with (nth k ds 0) by lia. reflexivity.
    - rewrite Forall_forall in H2. apply H2. apply nth_In. lia.
  Qed.

  (** ** CloneLayer *)
  Lemma chunks_app w m : forall k (l l' : list N), length l = k * w -> chunks N (k + m) w (l ++ l') = chunks N k w l ++ chunks N m w l'.
  Proof.
    induction k as [|k IH]; intros l l' H; cbn in *.
    - destruct l; [reflexivity|discriminate].
    - f_equal; [rewrite firstn_app; replace (w - length l) with 0 by lia; cbn; apply app_nil_r|].
      rewrite skipn_app. replace (w - length l) with 0 by lia. apply IH. rewrite skipn_length. lia.
  Qed.
  Lemma chunks_concat k d : forall n (x : mat), is_mat n (k * d) x -> chunks N (n * k) d (concat x) = flat_map (chunks N k d) x.
  Proof.
    induction n as [|n IH]; intros x [H1 H2]; destruct x as [|r x]; try discriminate; [reflexivity|]. inversion H2; subst. cbn [concat flat_map Nat.mul].
    rewrite chunks_app by assumption. rewrite IH; [reflexivity|]. split; [cbn in H1; lia|assumption].
  Qed.
  Lemma chunks_length n w l : length (chunks N n w l) = n.
  Proof. revert l. induction n; intros l; cbn; auto. Qed.
  Lemma chunks_widths w : forall n l, length l = n * w -> Forall (fun r => length r = w) (chunks N n w l).
  Proof.
    induction n as [|n IH]; intros l H; cbn in *; constructor; [rewrite firstn_length; lia|]. apply IH. rewrite skipn_length. lia.
  Qed.
  Lemma chunks_id w : forall (x : mat) n, is_mat n w x -> chunks N n w (concat x) = x.
  Proof.
    induction x as [|r x IH]; intros n [H1 H2]; cbn in H1; subst n; [reflexivity|]. inversion H2; subst. cbn [length concat chunks].
    rewrite firstn_app, firstn_all, Nat.sub_diag, skipn_app, skipn_all, Nat.sub_diag. cbn. rewrite app_nil_r. f_equal. apply IH. split; auto.
  Qed.
  Lemma concat_length (x : mat) n w : is_mat n w x -> length (concat x) = n * w.
  Proof.
    revert n. induction x as [|r x IH]; intros n [H1 H2]; cbn in H1; subst n; [reflexivity|]. inversion H2; subst. cbn. rewrite app_length, (IH (length x)) by (split; auto). lia.
  Qed.
  Lemma chunks_nth w : forall n l j, j < n -> nth j (chunks N n w l) [] = firstn w (skipn (j * w) l).
  Proof.
    induction n as [|n IH]; intros l j Hj; [lia|]. destruct j as [|j]; cbn [chunks nth]; [reflexivity|]. rewrite IH by lia. f_equal.
    cbn. generalize (j * w). clear. intros m. revert l. induction w; intros [|a l]; cbn; auto. now rewrite skipn_nil.
  Qed.

  (** ** Training *)
  Definition solo_train (c : obj) (s : St) (x : mat) : St * lres unit := if o_training c s then o_train c s x else (s, LOk tt).
  Definition solo_stop (c : obj) (s : St) : St * lres unit := if o_training c s then o_stop c s else (s, LOk tt).
  Fixpoint solo_each (c : obj) (xs : list mat) (s : St) : St * lres unit :=
    match xs with
    | [] => (s, LOk tt)
    | x :: xs => match solo_train c s x with (s, LErr e) => (s, LErr e) | (s, LOk _) => solo_each c xs s end
    end.
  Fixpoint solo_fit (c : obj) (data : list (list mat)) (s : St) : St * lres unit :=
    match data with
    | [] => (s, LOk tt)
    | xs :: data =>
        match solo_each c xs s with
        | (s, LErr e) => (s, LErr e)
        | (s, LOk _) => match solo_stop c s with (s, LErr e) => (s, LErr e) | (s, LOk _) => solo_fit c data s end
        end
    end.

  (** a loop of local steps *)
  Fixpoint loop (f : nat -> nat -> St -> St * lres unit) (k : nat) (refs : list nat) (h : heap) : heap * lres unit :=
    match refs with
    | [] => (h, LOk tt)
    | r :: refs => match f k r (h r) with
                   | (s, LErr e) => (upd h r s, LErr e)
                   | (s, LOk _) => loop f (S k) refs (upd h r s)
                   end
    end.
  Definition outcome (f : nat -> nat -> St -> St * lres unit) (base : nat) (refs : list nat) (h h' : heap) (res : lres unit) : Prop :=
    exists k, (forall j r, j < k -> nth_error refs j = Some r -> f (base + j) r (h r) = (h' r, LOk tt)) /\
      (forall q, ~ In q (firstn (S k) refs) -> h' q = h q) /\
      ((res = LOk tt /\ k = length refs) \/ exists r e, nth_error refs k = Some r /\ res = LErr e /\ f (base + k) r (h r) = (h' r, LErr e)).
  Lemma loop_outcome f : forall refs base h, NoDup refs -> let (h', res) := loop f base refs h in outcome f base refs h h' res.
  Proof.
    induction refs as [|r refs IH]; intros base h Hn; cbn [loop].
    - exists 0. repeat split; auto. intros [|j] r Hj; [lia|]. destruct j; discriminate.
    - inversion Hn as [|? ? Hn1 Hn2]; subst. destruct (f base r (h r)) as [s [u|e]] eqn:E.
      + destruct u. specialize (IH (S base) (upd h r s) Hn2). destruct (loop f (S base) refs (upd h r s)) as [h' res].
        destruct IH as (k & K1 & K2 & K3). assert (h' r = s) as Hr.
        { rewrite K2; [apply upd_same|]. intros Hin. apply Hn1. rewrite <- (firstn_skipn (S k) refs). apply in_or_app. auto. }
        exists (S k). split; [|split].
        * intros [|j] r' Hj Hnth; cbn in Hnth.
          -- injection Hnth as <-. rewrite Nat.add_0_r, E. subst; reflexivity.
          -- replace (base + S j) with (S base + j) by lia. rewrite <- (K1 j r') by (auto; lia). rewrite upd_other; [reflexivity|].
             intros ->. apply Hn1. eapply nth_error_In; eassumption.
        * intros q Hq. cbn [firstn] in Hq. rewrite K2 by (intros C; apply Hq; right; exact C). apply upd_other. intros ->. apply Hq. left; reflexivity.
        * destruct K3 as [[-> ->]|(r' & e & A & B & C)]; [left; auto|]. right. exists r', e. repeat split; auto.
          replace (base + S k) with (S base + k) by lia. rewrite <- C. rewrite upd_other; [reflexivity|]. intros ->. apply Hn1. eapply nth_error_In; eassumption.
      + exists 0. split; [intros; lia|]. split.
        * intros q Hq. cbn in Hq. apply upd_other. intros ->. apply Hq. left; reflexivity.
        * right. exists r, e. rewrite Nat.add_0_r, E, upd_same. auto.
  Qed.
  (** pointwise equal heaps *)
  Definition heq (h1 h2 : heap) : Prop := forall q, h1 q = h2 q.
  Lemma upd_id h r : heq (upd h r (h r)) h.
  Proof. intros q. unfold LayerModel.upd. destruct (Nat.eqb_spec q r); congruence. Qed.
  Lemma upd_heq h1 h2 r s : heq h1 h2 -> heq (upd h1 r s) (upd h2 r s).
  Proof. intros H q. unfold LayerModel.upd. destruct (q =? r); auto. Qed.
  Definition same (a b : heap * lres unit) : Prop := heq (fst a) (fst b) /\ snd a = snd b.
  Lemma train_loop_loop blk din : forall refs ds base stop h1 h2 (b : nat -> mat), NoDup refs -> length ds = length refs -> heq h1 h2 ->
    (forall k r d, nth_error refs k = Some r -> nth_error ds k = Some d -> din (cls r) (h1 r) = Some d) ->
    (forall k d, nth_error ds k = Some d -> b (base + k) = blk (stop + offset ds k) (stop + offset ds k + d)) ->
    same (train_loop N St cls blk din refs stop h1) (loop (fun k r s => solo_train (cls r) s (b k)) base refs h2).
  Proof.
    induction refs as [|r refs IH]; intros ds base stop h1 h2 b Hn Hl Hh Hd Hb; destruct ds as [|d ds]; try discriminate; cbn [train_loop loop]; [split; auto|].
    inversion Hn as [|? ? Hn1 Hn2]; subst. rewrite (Hd 0 r d) by reflexivity. unfold solo_train at 1. rewrite <- (Hh r).
    pose proof (Hb 0 d eq_refl) as Hb0. unfold offset in Hb0; cbn in Hb0. rewrite !Nat.add_0_r in Hb0.
    assert (forall k d', nth_error ds k = Some d' -> b (S base + k) = blk (stop + d + offset ds k) (stop + d + offset ds k + d')) as Hb'.
    { intros k d' Hk. replace (S base + k) with (base + S k) by lia. rewrite (Hb (S k) d' Hk).
      assert (offset (d :: ds) (S k) = d + offset ds k) as -> by reflexivity. rewrite !Nat.add_assoc. reflexivity. }
    destruct (o_training (cls r) (h1 r)) eqn:Et.
    - rewrite Hb0. destruct (o_train (cls r) (h1 r) (blk stop (stop + d))) as [s [u|e]].
      + apply (IH ds (S base) (stop + d)); auto.
        * apply upd_heq; exact Hh.
        * intros k r' d' K1 K2. rewrite upd_other by (intros ->; apply Hn1; eapply nth_error_In; eassumption). apply (Hd (S k)); assumption.
      + split; [apply upd_heq; exact Hh|reflexivity].
    - apply (IH ds (S base) (stop + d)); auto.
      + intros q. rewrite (Hh r), upd_id. apply Hh.
      + intros k r' d' K1 K2. apply (Hd (S k)); assumption.
  Qed.
  Lemma stop_loop : forall refs base h1 h2, heq h1 h2 -> same (layer_stop N St cls refs h1) (loop (fun _ r s => solo_stop (cls r) s) base refs h2).
  Proof.
    induction refs as [|r refs IH]; intros base h1 h2 Hh; cbn [layer_stop loop]; [split; auto|]. unfold solo_stop at 1. rewrite <- (Hh r).
    destruct (o_training (cls r) (h1 r)).
    - destruct (o_stop (cls r) (h1 r)) as [s [u|e]]; [apply IH; apply upd_heq; exact Hh|split; [apply upd_heq; exact Hh|reflexivity]].
    - apply IH. intros q. rewrite (Hh r), upd_id. apply Hh.
  Qed.
  Lemma outcome_heq f base refs h h1 h2 res : heq h1 h2 -> outcome f base refs h h1 res -> outcome f base refs h h2 res.
  Proof.
    intros Hh (k & A & B & C). exists k. split; [|split].
    - intros j r Hj Hr. rewrite <- Hh. auto.
    - intros q Hq. rewrite <- Hh. auto.
    - destruct C as [C|(r & e & C1 & C2 & C3)]; [auto|]. right. exists r, e. rewrite <- Hh. auto.
  Qed.
  Lemma stop_outcome refs h : NoDup refs -> let (h', res) := layer_stop N St cls refs h in outcome (fun _ r s => solo_stop (cls r) s) 0 refs h h' res.
  Proof.
    intros Hn. pose proof (loop_outcome (fun _ r s => solo_stop (cls r) s) refs 0 h Hn) as H. pose proof (stop_loop refs 0 h h (fun _ => eq_refl)) as [A B].
    destruct (loop _ 0 refs h) as [h1 r1], (layer_stop N St cls refs h) as [h2 r2]. cbn in A, B. subst r2. eapply outcome_heq; [|exact H]. intros q. symmetry. apply A.
  Qed.
  Lemma train_outcome blk din refs ds h (b : nat -> mat) : NoDup refs -> length ds = length refs ->
    (forall k r d, nth_error refs k = Some r -> nth_error ds k = Some d -> din (cls r) (h r) = Some d) ->
    (forall k d, nth_error ds k = Some d -> b k = blk (offset ds k) (offset ds k + d)) ->
    let (h', res) := train_loop N St cls blk din refs 0 h in outcome (fun k r s => solo_train (cls r) s (b k)) 0 refs h h' res.
  Proof.
    intros Hn Hl Hd Hb. pose proof (loop_outcome (fun k r s => solo_train (cls r) s (b k)) refs 0 h Hn) as H.
    pose proof (train_loop_loop blk din refs ds 0 0 h h b Hn Hl (fun _ => eq_refl) Hd Hb) as [A B].
    destruct (loop _ 0 refs h) as [h1 r1], (train_loop N St cls blk din refs 0 h) as [h2 r2]. cbn in A, B. subst r2. eapply outcome_heq; [|exact H]. intros q. symmetry. apply A.
  Qed.
  (** whether a loop succeeds *)
  Lemma outcome_ok f refs h h' res : outcome f 0 refs h h' res -> res = LOk tt ->
    (forall j r, nth_error refs j = Some r -> f j r (h r) = (h' r, LOk tt)) /\ (forall q, ~ In q refs -> h' q = h q).
  Proof.
    intros (k & A & B & C) ->. destruct C as [[_ ->]|(r & e & _ & C & _)]; [|discriminate]. split.
    - intros j r Hj. apply (A j r); [apply nth_error_Some; congruence|assumption].
    - intros q Hq. apply B. rewrite firstn_all2 by lia. exact Hq.
  Qed.
  Lemma outcome_all f refs h h' res : outcome f 0 refs h h' res -> (forall j r, nth_error refs j = Some r -> exists s, f j r (h r) = (s, LOk tt)) -> res = LOk tt.
  Proof.
    intros (k & A & B & C) H. destruct C as [[C _]|(r & e & C1 & C2 & C3)]; [exact C|]. destruct (H k r C1) as [s Hs]. cbn in C3. congruence.
  Qed.

  (** *** A whole training run *)
  Section Fit.
    Variables (refs : list nat) (ds : list nat) (din : obj -> St -> option nat) (blk : mat -> nat -> nat -> mat).
    Hypothesis Hn : NoDup refs.
    Hypothesis Hl : length ds = length refs.
    Hypothesis keep_train : forall r d s x, din (cls r) s = Some d -> din (cls r) (fst (o_train (cls r) s x)) = Some d.
    Hypothesis keep_stop : forall r d s, din (cls r) s = Some d -> din (cls r) (fst (o_stop (cls r) s)) = Some d.
    Definition ready (h : heap) : Prop := forall k r d, nth_error refs k = Some r -> nth_error ds k = Some d -> din (cls r) (h r) = Some d.
    Definition block (k : nat) (x : mat) : mat := blk x (offset ds k) (offset ds k + nth k ds 0).
    Definition ltrain (x : mat) : heap -> heap * lres unit := train_loop N St cls (blk x) din refs 0.

    Lemma keep_solo_train r d s x : din (cls r) s = Some d -> din (cls r) (fst (solo_train (cls r) s x)) = Some d.
    Proof. unfold solo_train. destruct (o_training (cls r) s); auto. Qed.
    Lemma keep_solo_stop r d s : din (cls r) s = Some d -> din (cls r) (fst (solo_stop (cls r) s)) = Some d.
    Proof. unfold solo_stop. destruct (o_training (cls r) s); auto. Qed.
    Lemma nth_ref_ds k r : nth_error refs k = Some r -> exists d, nth_error ds k = Some d.
    Proof. intros H. destruct (nth_error ds k) as [d|] eqn:E; [eauto|]. apply nth_error_None in E. assert (k < length refs) by (apply nth_error_Some; congruence). lia. Qed.

    Lemma train_step h x : ready h -> let (h', res) := ltrain x h in outcome (fun k r s => solo_train (cls r) s (block k x)) 0 refs h h' res.
    Proof.
      intros Hr. unfold ltrain. apply (train_outcome (blk x) din refs ds h (fun k => block k x)); auto. intros k d Hk. unfold block. rewrite (nth_error_nth ds k 0 Hk). reflexivity.
    Qed.
    Lemma train_ready h x h' : ready h -> ltrain x h = (h', LOk tt) -> ready h'.
    Proof.
      intros Hr E. pose proof (train_step h x Hr) as H. rewrite E in H. apply outcome_ok in H as [H _]; [|reflexivity].
      intros k r d K1 K2. specialize (H k r K1). pose proof (keep_solo_train r d (h r) (block k x) (Hr k r d K1 K2)) as K. rewrite H in K. exact K.
    Qed.
    Lemma each_ok xs : forall h h', ready h -> each N St ltrain xs h = (h', LOk tt) ->
      ready h' /\ (forall k r, nth_error refs k = Some r -> solo_each (cls r) (map (block k) xs) (h r) = (h' r, LOk tt)) /\ (forall q, ~ In q refs -> h' q = h q).
    Proof.
      induction xs as [|x xs IH]; intros h h' Hr; cbn [each map solo_each].
      - intros [= <-]. auto.
      - pose proof (train_step h x Hr) as Ho. destruct (ltrain x h) as [h1 [u|e]] eqn:E; [|discriminate]. destruct u. intros Eh.
        pose proof (train_ready h x h1 Hr E) as Hr1. destruct (IH h1 h' Hr1 Eh) as (A & B & C). apply outcome_ok in Ho as [O1 O2]; [|reflexivity].
        split; [exact A|]. split.
        + intros k r Hk. rewrite (O1 k r Hk). apply B; exact Hk.
        + intros q Hq. rewrite C, O2 by assumption. reflexivity.
    Qed.
    Lemma each_complete xs : forall h, ready h -> (forall k r, nth_error refs k = Some r -> exists s, solo_each (cls r) (map (block k) xs) (h r) = (s, LOk tt)) ->
      exists h', each N St ltrain xs h = (h', LOk tt).
    Proof.
      induction xs as [|x xs IH]; intros h Hr H; cbn [each]; [eauto|]. pose proof (train_step h x Hr) as Ho. destruct (ltrain x h) as [h1 res] eqn:E.
      assert (res = LOk tt) as ->.
      { eapply outcome_all; [exact Ho|]. intros j r Hj. destruct (H j r Hj) as [s Hs]. cbn [map solo_each] in Hs. destruct (solo_train (cls r) (h r) (block j x)) as [s1 [[]|]]; [eauto|discriminate]. }
      apply IH; [eapply train_ready; eauto|]. intros k r Hk. destruct (H k r Hk) as [s Hs]. apply outcome_ok in Ho as [O1 _]; [|reflexivity].
      cbn [map solo_each] in Hs. rewrite (O1 k r Hk) in Hs. eauto.
    Qed.
    Lemma stop_ready h h' : ready h -> layer_stop N St cls refs h = (h', LOk tt) -> ready h'.
    Proof.
      intros Hr E. pose proof (stop_outcome refs h Hn) as H. rewrite E in H. apply outcome_ok in H as [H _]; [|reflexivity].
      intros k r d K1 K2. specialize (H k r K1). pose proof (keep_solo_stop r d (h r) (Hr k r d K1 K2)) as K. rewrite H in K. exact K.
    Qed.
    Lemma fit_ok data : forall h h', ready h -> layer_fit N St ltrain (layer_stop N St cls refs) data h = (h', LOk tt) ->
      (forall k r, nth_error refs k = Some r -> solo_fit (cls r) (map (map (block k)) data) (h r) = (h' r, LOk tt)) /\ (forall q, ~ In q refs -> h' q = h q).
    Proof.
      induction data as [|xs data IH]; intros h h' Hr; cbn [layer_fit map solo_fit].
      - intros [= <-]. auto.
      - destruct (each N St ltrain xs h) as [h1 [u|e]] eqn:E; [|discriminate]. destruct u. destruct (each_ok xs h h1 Hr E) as (A & B & C).
        pose proof (stop_outcome refs h1 Hn) as Ho. destruct (layer_stop N St cls refs h1) as [h2 [u|e]] eqn:E2; [|discriminate]. destruct u. intros Eh.
        destruct (IH h2 h' (stop_ready h1 h2 A E2) Eh) as (F1 & F2). apply outcome_ok in Ho as [O1 O2]; [|reflexivity]. split.
        + intros k r Hk. rewrite (B k r Hk), (O1 k r Hk). apply F1; exact Hk.
        + intros q Hq. rewrite F2, O2, C by assumption. reflexivity.
    Qed.
    Lemma fit_complete data : forall h, ready h -> (forall k r, nth_error refs k = Some r -> exists s, solo_fit (cls r) (map (map (block k)) data) (h r) = (s, LOk tt)) ->
      exists h', layer_fit N St ltrain (layer_stop N St cls refs) data h = (h', LOk tt).
    Proof.
      induction data as [|xs data IH]; intros h Hr H; cbn [layer_fit]; [eauto|].
      destruct (each_complete xs h Hr) as [h1 E1].
      { intros k r Hk. destruct (H k r Hk) as [s Hs]. cbn [map solo_fit] in Hs. destruct (solo_each _ _ _) as [s1 [[]|]]; [eauto|discriminate]. }
      rewrite E1. destruct (each_ok xs h h1 Hr E1) as (A & B & C). pose proof (stop_outcome refs h1 Hn) as Ho. destruct (layer_stop N St cls refs h1) as [h2 res] eqn:E2.
      assert (res = LOk tt) as ->.
      { eapply outcome_all; [exact Ho|]. intros j r Hj. destruct (H j r Hj) as [s Hs]. cbn [map solo_fit] in Hs. rewrite (B j r Hj) in Hs.
        destruct (solo_stop (cls r) (h1 r)) as [s1 [[]|]]; [eauto|discriminate]. }
      apply IH; [eapply stop_ready; eauto|]. intros k r Hk. destruct (H k r Hk) as [s Hs]. cbn [map solo_fit] in Hs. rewrite (B k r Hk) in Hs.
      apply outcome_ok in Ho as [O1 _]; [|reflexivity]. rewrite (O1 k r Hk) in Hs. eauto.
    Qed.
  End Fit.

  (** *** Phases *)
  Section Phases.
    Variable rem : nat -> St -> nat.
    Hypothesis rem_training : forall r s, o_training (cls r) s = (0 <? rem r s).
    Hypothesis rem_train : forall r s x s', o_train (cls r) s x = (s', LOk tt) -> rem r s' = rem r s.
    Hypothesis rem_stop : forall r s s', o_stop (cls r) s = (s', LOk tt) -> rem r s' = rem r s - 1.
    Lemma solo_each_rem r xs : forall s s', solo_each (cls r) xs s = (s', LOk tt) -> rem r s' = rem r s.
    Proof.
      induction xs as [|x xs IH]; intros s s'; cbn [solo_each]; [intros [= <-]; reflexivity|]. unfold solo_train. destruct (o_training (cls r) s).
      - destruct (o_train (cls r) s x) as [s1 [[]|]] eqn:E; [|discriminate]. intros H. rewrite (IH _ _ H). eauto.
      - apply IH.
    Qed.
    Lemma solo_fit_rem r data : forall s s', solo_fit (cls r) data s = (s', LOk tt) -> rem r s' = rem r s - length data.
    Proof.
      induction data as [|xs data IH]; intros s s'; cbn [solo_fit length]; [intros [= <-]; lia|].
      destruct (solo_each (cls r) xs s) as [s1 [[]|]] eqn:E1; [|discriminate]. apply solo_each_rem in E1. unfold solo_stop. pose proof (rem_training r s1) as Ht.
      destruct (o_training (cls r) s1).
      - destruct (o_stop (cls r) s1) as [s2 [[]|]] eqn:E2; [|discriminate]. intros H. rewrite (IH _ _ H). rewrite (rem_stop _ _ _ E2), E1. lia.
      - intros H. rewrite (IH _ _ H). symmetry in Ht. apply Nat.ltb_ge in Ht. lia.
    Qed.
  End Phases.
  Lemma seq_len_max refs : forall r, In r refs -> o_seq N St (cls r) <= seq_len N St cls refs.
  Proof.
    unfold seq_len. generalize 0 as m. induction refs as [|a refs IH]; intros m r Hr; [destruct Hr|]. cbn [fold_left].
    destruct Hr as [->|Hr]; [|apply IH; exact Hr].
    assert (forall l m, m <= fold_left (fun m r => if m <? o_seq N St (cls r) then o_seq N St (cls r) else m) l m) as G.
    { clear. induction l as [|a l IH]; intros m; cbn [fold_left]; [lia|]. etransitivity; [|apply IH]. destruct (Nat.ltb_spec m (o_seq N St (cls a))); lia. }
    etransitivity; [|apply G]. destruct (Nat.ltb_spec m (o_seq N St (cls r))); lia.
  Qed.
  Lemma seq_len_attained refs : refs <> [] -> (exists r, In r refs /\ o_seq N St (cls r) = seq_len N St cls refs).
  Proof.
    intros Hne. unfold seq_len.
    assert (forall l m, fold_left (fun m r => if m <? o_seq N St (cls r) then o_seq N St (cls r) else m) l m = m \/
      exists r, In r l /\ o_seq N St (cls r) = fold_left (fun m r => if m <? o_seq N St (cls r) then o_seq N St (cls r) else m) l m) as G.
    { clear. induction l as [|a l IH]; intros m; cbn [fold_left]; [auto|]. destruct (IH (if m <? o_seq N St (cls a) then o_seq N St (cls a) else m)) as [E|(r & A & B)].
      - rewrite E. destruct (Nat.ltb_spec m (o_seq N St (cls a))); [right; exists a; split; [left; reflexivity|reflexivity]|left; reflexivity].
      - right. exists r. split; [right; exact A|exact B]. }
    destruct (G refs 0) as [E|H]; [|exact H]. destruct refs as [|r refs]; [congruence|]. exists r. split; [left; reflexivity|]. rewrite E.
    pose proof (seq_len_max (r :: refs) r (or_introl eq_refl)) as K. unfold seq_len in K. rewrite E in K. lia.
  Qed.

  (** ** A row-by-row node *)
  Section Rowwise.
    Variables (op : obj -> St -> mat -> St * lres mat) (din dout : obj -> St -> option nat) (r d o : nat) (s0 : St) (f : list N -> list N).
    Hypothesis Hd : din (cls r) s0 = Some d.
    Hypothesis Ho : dout (cls r) s0 = Some o.
    Hypothesis Hop : forall x, Forall (fun row => length row = d) x -> op (cls r) s0 x = (s0, LOk (map f x)).
    Hypothesis Hf : forall row, length row = d -> length (f row) = o.
    Lemma ran_repeat n (x : mat) w : is_mat n w x -> forall k in_stop h, in_stop + k * d <= w -> h r = s0 -> exists h', heq h' h /\
      ran op (fun a b => cols a b x) din dout n (repeat r k) in_stop h (repeat d k) (repeat o k) (map (fun j => map f (cols (in_stop + j * d) (in_stop + j * d + d) x)) (seq 0 k)) h'.
    Proof.
      intros Hx. induction k as [|k IH]; intros in_stop h Hw Hh; cbn [repeat seq map ran]; [exists h; split; [intros q|]; reflexivity|].
      assert (Forall (fun row => length row = d) (cols in_stop (in_stop + d) x)) as Hc.
      { unfold LayerModel.cols. apply Forall_map. destruct Hx as [_ Hx]. eapply Forall_impl; [|exact Hx]. cbn. intros row Hrow. rewrite firstn_length, skipn_length. cbn in Hw. lia. }
      destruct (IH (in_stop + d) (upd h r s0)) as (h' & K1 & K2); [cbn in Hw; lia|apply upd_same|].
      exists h'. split; [intros q; rewrite K1; rewrite <- Hh; apply upd_id|].
      exists s0. rewrite Hh. split; [exact Hd|]. split; [exact Ho|]. cbn [Nat.mul]. rewrite Nat.add_0_r. split; [apply Hop; exact Hc|]. split.
      - split; [rewrite map_length; unfold LayerModel.cols; rewrite map_length; apply Hx|]. apply Forall_map. eapply Forall_impl; [|exact Hc]. auto.
      - rewrite <- seq_shift, map_map.
        erewrite map_ext; [exact K2|]. intros j. cbn. f_equal. f_equal; lia.
    Qed.
    Lemma match_pos {X} (m : nat) (a : X) (b : nat -> X) : 0 < m -> match m with 0 => a | S m' => b (S m') end = b m.
    Proof. destruct m; [lia|reflexivity]. Qed.
    Lemma clone_layer n k (x : mat) h : 0 < d -> 0 < k -> is_mat n (k * d) x -> h r = s0 -> exists y h1 h2,
      clone_op N St cls op din r (k * o) x h = (h1, LOk y) /\
      blocks op (fun a b => cols a b x) din dout (k * o) (repeat r k) 0 0 None h = (h2, LOk (Some y)) /\ heq h1 h /\ heq h2 h /\
      y = map (fun row => concat (map f (chunks N k d row))) x.
    Proof.
      intros Hd0 Hk Hx Hh. set (y := map (fun row => concat (map f (chunks N k d row))) x).
      destruct (ran_repeat n x (k * d) Hx k 0 h) as (h2 & K1 & K2); [lia|exact Hh|].
      exists y, (upd h r s0), h2. repeat split.
      - unfold clone_op. rewrite Hh, Hd. rewrite (match_pos d _ (fun d => _) Hd0). unfold reshape.
        assert (length x * width N x / d = n * k) as ->.
        { destruct Hx as [<- Hx]. destruct x as [|row x']; [cbn; apply Nat.div_0_l; lia|]. inversion Hx; subst. cbn [width]. rewrite H1, Nat.mul_assoc. apply Nat.div_mul; lia. }
        rewrite (concat_length x n (k * d) Hx). replace (n * k * d) with (n * (k * d)) by lia. rewrite Nat.eqb_refl.
        rewrite (chunks_concat k d n x Hx). rewrite Hop.
        2:{ rewrite flat_map_concat_map. apply Forall_concat. apply Forall_map. destruct Hx as [_ Hx]. eapply Forall_impl; [|exact Hx]. intros row Hrow. apply chunks_widths. exact Hrow. }
        assert (is_mat n (k * o) y) as Hy.
        { split; [unfold y; rewrite map_length; apply Hx|]. unfold y. apply Forall_map. destruct Hx as [_ Hx]. eapply Forall_impl; [|exact Hx]. cbn. intros row Hrow.
          apply (concat_length _ k o). split; [rewrite map_length, chunks_length; reflexivity|]. apply Forall_map.
          eapply Forall_impl; [|apply chunks_widths; exact Hrow]. auto. }
        assert (concat (map f (flat_map (chunks N k d) x)) = concat y) as ->.
        { unfold y. clear. induction x as [|row x IH]; [reflexivity|]. cbn. rewrite map_app, concat_app. f_equal. exact IH. }
        rewrite (concat_length y n (k * o) Hy). rewrite (proj1 Hx), Nat.eqb_refl. rewrite (chunks_id (k * o) y n Hy). reflexivity.
      - assert (list_sum (repeat o k) = k * o) as E by (clear; induction k; cbn; unfold list_sum in *; lia).
        rewrite <- E. rewrite (blocks_ok op _ din dout n (repeat r k) h (repeat d k) (repeat o k) _ h2 K2).
        2:{ destruct k; [lia|discriminate]. }
        do 3 f_equal. unfold hcat, y. destruct Hx as [Hx1 Hx2]. transitivity (map (fun row => concat (map f (chunks N k d row))) (map (fun i => nth i x []) (seq 0 n))); [|rewrite <- Hx1, map_nth_seq; reflexivity].
        rewrite map_map. apply map_seq_ext. intros i Hi. f_equal. rewrite map_map.
        rewrite <- (map_nth_seq (chunks N k d (nth i x [])) []). rewrite chunks_length, map_map. apply map_seq_ext. intros j Hj.
        rewrite chunks_nth by lia.
        rewrite (nth_error_nth _ i [] (x := f (firstn (0 + j * d + d - (0 + j * d)) (skipn (0 + j * d) (nth i x []))))).
        + f_equal. f_equal. lia.
        + apply map_nth_error. unfold LayerModel.cols. apply (map_nth_error (fun row => firstn (0 + j * d + d - (0 + j * d)) (skipn (0 + j * d) row))). apply nth_error_nth'. lia.
      - rewrite <- Hh. apply upd_id.
      - exact K1.
    Qed.
  End Rowwise.
End P.
