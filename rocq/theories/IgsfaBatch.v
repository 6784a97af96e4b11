(** Properties of iGSFANode: training in one batch, with reconstruct_with_sfa=True *)
From Coq Require Import List Arith ZArith QArith Qcanon Bool Lia Field.
From Verif Require Import OField LinAlg PCAModel PCAProofs PCAProps SymeigModel SFAModel SFAProps GSFAModel GSFAProps IgsfaModel IgsfaProps.
Import ListNotations.
Open Scope nat_scope.

Section Batch.
  Context {K : ofield}.
  Add Field Kf : (fth K).
  Notation vec := (vec (K := K)). Notation mtx := (mtx (K := K)). Notation gsfa := (gsfa (K := K)). Notation pca := (pca (K := K)). Notation targs := (targs (K := K)).
  Notation igsfa := (igsfa (K := K)).
  Variable dim : nat.
  Variable exp_ : option (nat * (vec -> vec)).
  Variable pre_class : option (targs -> option (vec -> vec)).
  Variable maxlen : option nat.
  Variable scale_m : scaling.
  Variable delta_ : threshold (K := K).
  Variable verbose : bool.
  Variable argsort : list nat -> list nat.
  Variables vunl : K.
  Variable solver : option (Z * Z) -> mtx -> mtx -> solres K vec.
  Variable eigh : option (Z * Z) -> nat -> mtx -> option (list K * list vec).
  Variable svd_ : nat -> mtx -> option (list K * list vec).
  Variable sqrt_ : K -> K.
  Variable lr_fit : list (list K) -> list vec -> option (vec * list vec).
  Variable qr : list vec -> list vec * list vec.
  Variable pinv : list vec -> list vec.
  Notation train := (i_train dim exp_ pre_class maxlen scale_m delta_ true verbose argsort vunl solver eigh svd_ sqrt_ lr_fit qr pinv).
  Notation stop := (i_stop dim exp_ maxlen scale_m delta_ true solver eigh svd_ sqrt_).
  Notation execute := (i_execute dim exp_ scale_m true).
  Notation inverse := (i_inverse dim scale_m true).
  Notation edim := (edim dim exp_). Notation expand_ := (expand_ exp_).
  Notation odim_ := (odim_ dim).
  Notation bound := (bound dim exp_ maxlen delta_).
  Notation pcstop := (pca_stop eigh svd_ sqrt_ dim false false f0 f0 None false).
  Notation gstop := (g_stop edim solver).

  (** C479-C480: the node finishes its training itself *)
  Theorem C480_finished : forall out a s, train (i_new out) a = (s, IOk tt) -> i_training s = false /\ (forall a', train s a' = (s, IErr IFinished)) /\ stop s = (s, IErr IFinished).
  Proof.
    intros out a s H. assert (F : i_training s = false).
    { unfold i_train in H. cbn [i_training i_new negb] in H. destruct (length (t_x a) =? 0); [discriminate|]. cbn [IgsfaModel.multi negb andb] in H. unfold i_batch in H.
      destruct (match pre_class with Some f => _ | None => _ end) as [pre|]; [|discriminate]. destruct (sfa_train _ _ _ _) as [g0 [[]|e]]; [|discriminate]. destruct (sfa_stop _ _ _ g0) as [g1 [[]|e]]; [|discriminate].
      destruct (slow_size _ _ _ _) as [k|e]; [|discriminate]. destruct (reduce_sfa g1 k) as [g|e]; [|discriminate]. destruct (mean_std _ _) as [m sd]. destruct (existsb _ _); [discriminate|].
      destruct (lr_fit _ _) as [b|]; [|discriminate]. destruct scale_m; try discriminate; (destruct (pca_train _ _) as [p0 [[]|e]]; [|discriminate]); (destruct (pc_stop _ _ _ _ p0) as [p1 [[]|e]]; [|discriminate]);
      (destruct (reduce_pca p1 _) as [p|e]; [|discriminate]); (destruct (match p_out p with Some po => _ | None => _ end); [discriminate|]); now injection H as <-. }
    split; [exact F|]. split; [intros a'; unfold i_train; now rewrite F|]. unfold i_stop. now rewrite F.
  Qed.

  (** the features of one row before the scaling, and the residual of the regression *)
  Definition feat (s : igsfa) (x : vec) : list K :=
    match i_sfa s, i_xmean s with
    | Some g, Some xm => normalize (i_smean s) (i_sstd s) (g_execute edim g None (expand_ (match i_pre s with None => sub x xm | Some h => h (sub x xm) end)))
    | _, _ => []
    end.
  Definition resid (s : igsfa) (x : vec) : vec := fun i => (x i - match i_xmean s with Some m => m i | None => f0 end - lr_execute (i_lr s) (feat s x) i)%of.
  Definition center (x : list vec) (i : nat) : K := (fsum (map (fun r => r i) x) / fn (length x))%of.

  Lemma batch_parts out a s : train (i_new out) a = (s, IOk tt) -> scale_m <> ScOther /\ exists g0 g1 p0 p k xm,
    t_x a <> [] /\ i_out s = Some (odim_ out) /\ i_xmean s = Some xm /\ (forall i, xm i = center (t_x a) i) /\
    (exists ex, g_train argsort vunl (gsfa_new (Some (bound (odim_ out))) BNone [MNoneG] verbose) (mkT ex (t_bs a) (t_modes a) (t_nw a) (t_ew a)) = (g0, GOk tt)) /\ gstop g0 false None = (g1, GOk tt) /\
    slow_size maxlen delta_ (g_d g1) (odim_ out) = IOk k /\ i_num s = k /\ (exists og, g_out g1 = Some og /\ k <= og) /\
    (exists g, i_sfa s = Some g /\ g_sf g = firstn k (g_sf g1) /\ g_bias g = firstn k (g_bias g1)) /\
    i_smean s = fst (mean_std sqrt_ (map (fun x => match i_sfa s with Some g => g_execute edim g None (expand_ (match i_pre s with None => sub x xm | Some h => h (sub x xm) end)) | None => [] end) (t_x a))) /\
    i_sstd s = snd (mean_std sqrt_ (map (fun x => match i_sfa s with Some g => g_execute edim g None (expand_ (match i_pre s with None => sub x xm | Some h => h (sub x xm) end)) | None => [] end) (t_x a))) /\
    (forall j, j < length (match i_sfa s with Some g => g_sf g | None => [] end) -> i_sstd s j <> f0) /\
    lr_fit (map (feat s) (t_x a)) (map (fun r => sub r xm) (t_x a)) = Some (i_lr s) /\
    (exists rm, pca_train (pca_new (OInt (Nat.max 1 (odim_ out - k)))) rm = (p0, POk tt) /\ length rm = length (t_x a) /\ rm = map (fun x => sub (sub x xm) (lr_execute (i_lr s) (feat s x))) (t_x a)) /\ pcstop p0 = (p, POk tt) /\
    (exists p', i_pca s = Some p' /\ p_v p' = firstn (odim_ out - k) (p_v p) /\ p_d p' = firstn (odim_ out - k) (p_d p) /\ p_avg p' = p_avg p /\ p_out p' = Some (odim_ out - k)) /\
    (scale_m = ScQR -> i_R s = snd (qr (snd (i_lr s))) /\ i_Rpinv s = pinv (i_R s)) /\
    (scale_m = ScSens -> forall j, i_magn s j = sqrt_ (dot dim (nth j (snd (i_lr s)) vzero) (nth j (snd (i_lr s)) vzero))) /\
    (scale_m = ScNone -> forall j, i_magn s j = f1) /\
    i_evar s = (let total := fsum (map (fun r => dot dim (sub r xm) (sub r xm)) (t_x a)) in
                if fltb f0 total || fltb total f0 then Some (fsum (map (fun x => match scaled scale_m true (i_R s) (i_magn s) (feat s x) with
                  Some sc => sqsum (firstn (odim_ out) (sc ++ match i_pca s with Some p' => pca_execute dim p' None (sub (sub x xm) (lr_execute (i_lr s) (feat s x))) | None => [] end)) | None => f0 end) (t_x a)) / total)%of else None).
  Proof.
    intros H. unfold i_train in H. cbn [i_training i_new negb] in H. destruct (Nat.eqb_spec (length (t_x a)) 0) as [|L0]; [discriminate|]. cbn [IgsfaModel.multi negb andb] in H. unfold i_batch in H.
    cbn [begin_ i_new out_ i_out set_mean i_xmean i_pre i_sfa i_lr i_R i_Rpinv i_magn i_pca i_num i_evar i_started i_training] in H. change (match out with Some o => o | None => dim end) with (odim_ out) in H.
    set (xm := fun i : nat => mean_ (length (t_x a)) (fun t => nth t (t_x a) vzero i)) in *.
    destruct (match pre_class with Some f => _ | None => _ end) as [pre|]; [|discriminate].
    destruct (sfa_train _ _ _ _) as [g0 [[]|e]] eqn:Gt; [|discriminate]. destruct (sfa_stop _ _ _ g0) as [g1 [[]|e]] eqn:Gs; [|discriminate].
    destruct (slow_size _ _ _ _) as [k|e] eqn:Sz; [|discriminate]. destruct (reduce_sfa g1 k) as [g|e] eqn:Rg; [|discriminate]. destruct (mean_std _ _) as [m sd] eqn:Ms. destruct (existsb _ _) eqn:Z0; [discriminate|].
    destruct (lr_fit _ _) as [b|] eqn:Lr; [|discriminate].
    assert (Sc : scale_m <> ScOther) by (intros E; rewrite E in H; discriminate). split; [exact Sc|].
    assert (HH : forall (A : Type) (u v : A), match scale_m with ScOther => u | _ => v end = v) by (intros A u v; destruct scale_m; [reflexivity..|contradiction]). rewrite HH in H. clear HH.
    destruct (pca_train _ _) as [p0 [[]|e]] eqn:Pt; [|discriminate]. destruct (pc_stop _ _ _ _ p0) as [p [[]|e]] eqn:Ps; [|discriminate].
    destruct (reduce_pca p _) as [p'|e] eqn:Rp; [|discriminate]. destruct (match p_out p' with Some po => _ | None => _ end); [discriminate|].
    unfold reduce_sfa in Rg. destruct (g_out g1) as [og|] eqn:Og; [|discriminate]. destruct (Nat.ltb_spec og k) as [|Lk]; [discriminate|].
    unfold reduce_pca in Rp. destruct (p_out p) as [po|] eqn:Op; [|discriminate]. destruct (po <? odim_ out - k); [discriminate|].
    injection H as <-. exists g0, g1, p0, p, k, xm. unfold feat. cbn [i_out i_xmean i_pre i_sfa i_smean i_sstd i_lr i_R i_Rpinv i_magn i_pca i_num i_evar].
    assert (E1 : map (sfa_execute dim exp_ g) (map (fun r => expand_ (match pre with Some h => h r | None => r end)) (map (fun r => sub r xm) (t_x a))) =
                 map (fun x => g_execute edim g None (expand_ (match pre with None => sub x xm | Some h => h (sub x xm) end))) (t_x a)) by (rewrite !map_map; reflexivity).
    rewrite E1 in *.
    assert (E2 : map (normalize m sd) (map (fun x => g_execute edim g None (expand_ (match pre with None => sub x xm | Some h => h (sub x xm) end))) (t_x a)) =
                 map (fun x => normalize m sd (g_execute edim g None (expand_ (match pre with None => sub x xm | Some h => h (sub x xm) end)))) (t_x a)) by (apply map_map).
    rewrite E2 in *.
    assert (C0 : forall {A B C} (f : A -> B) (h : A -> C) l, combine (map f l) (map h l) = map (fun z => (f z, h z)) l) by (intros A B C f h l; induction l; cbn; [reflexivity|now f_equal]).
    rewrite C0, map_map in Pt. cbn [fst snd] in Pt.
    split; [destruct (t_x a); [cbn in L0; lia|discriminate]|]. split; [reflexivity|]. split; [reflexivity|]. split.
    { intros i. unfold xm, mean_, center. f_equal. symmetry. apply (fsum_map_nth (t_x a) (fun r => r i) vzero). }
    split; [eexists; exact Gt|]. split; [exact Gs|]. split; [exact Sz|]. split; [reflexivity|]. split; [exists og; auto|].
    split; [exists g; injection Rg as <-; auto|]. rewrite Ms. split; [reflexivity|]. split; [reflexivity|]. split.
    { intros j Hj E. assert (X : existsb (fun k => negb (fltb f0 (sd k) || fltb (sd k) f0)) (seq 0 (length (g_sf g))) = true).
      { apply existsb_exists. exists j. split; [apply in_seq; lia|]. rewrite E, flt_irrefl. reflexivity. } cbn [snd] in E. congruence. }
    split; [exact Lr|]. split; [eexists; split; [exact Pt|]; split; [apply map_length|reflexivity]|]. split; [exact Ps|].
    split; [exists p'; split; [reflexivity|]; injection Rp as <-; auto|].
    split; [intros E; rewrite E; auto|]. split; [intros E; rewrite E; auto|]. split; [intros E; rewrite E; auto|].
    cbv zeta. rewrite C0, (map_map _ (fun p => sub (fst p) _)). cbn [fst snd]. rewrite C0, !map_map. cbn [fst snd].
    match goal with |- (if ?b then _ else _) = (if ?c then _ else _) => change c with b; destruct b end; [|reflexivity]. f_equal. f_equal. f_equal. apply map_ext. intros x. unfold pc_execute. destruct (scaled _ _ _ _ _); reflexivity.
  Qed.

  Hypothesis eigh_ok : forall rng c D V, symmetric dim c -> psd dim c -> eigh rng dim c = Some (D, V) -> eigensystem dim c D V.
  Hypothesis edim_pos : 1 <= edim.
  Hypothesis maxlen_pos : forall m, maxlen = Some m -> 1 <= m.
  Hypothesis solver_len : forall k A B fc d u, 1 <= k <= edim -> solver (Some (1, Z.of_nat k)%Z) A B = SolOk fc d u -> length d = k /\ length u = k.
  (** one row of coefficients for each feature *)
  Hypothesis lr_len : forall n xz b k, n <> [] -> Forall (fun r => length r = k) n -> lr_fit n xz = Some b -> length (snd b) = k.
  Let no_svd : forall c D V, symmetric dim c -> psd dim c -> (fun _ _ => None : option (list K * list vec)) dim c = Some (D, V) -> eigensystem dim c D V.
  Proof. discriminate. Qed.

  Lemma mapi_seq {B} (f : nat -> K -> B) (y : list K) : forall i, mapi_from f i y = map (fun j => f (i + j) (nth j y f0)) (seq 0 (length y)).
  Proof.
    induction y as [|c y IH]; intros i; [reflexivity|]. cbn [mapi_from length seq map nth]. rewrite Nat.add_0_r. f_equal. rewrite IH, <- seq_shift, map_map. apply map_ext. intros j. cbn [nth]. f_equal. lia.
  Qed.
  Lemma mapi_len {B} (f : nat -> K -> B) (y : list K) : length (mapi f y) = length y.
  Proof. unfold mapi. now rewrite mapi_seq, map_length, seq_length. Qed.
  Lemma mapi_nth {B} (f : nat -> K -> B) (y : list K) j d : j < length y -> nth j (mapi f y) d = f j (nth j y f0).
  Proof. intros H. unfold mapi. rewrite mapi_seq. rewrite (nth_indep _ d (f (0 + 0) (nth 0 y f0))) by (now rewrite map_length, seq_length). rewrite (map_nth (fun j => f (0 + j) (nth j y f0))), seq_nth by exact H. reflexivity. Qed.
  Lemma mapi_sum (f : nat -> K -> K) (y : list K) : fsum (mapi f y) = fsumn (length y) (fun j => f j (nth j y f0)).
  Proof. unfold mapi. rewrite mapi_seq. reflexivity. Qed.
  Lemma comb_sum (y : list K) (B : list vec) i : length y = length B -> fsum (map (fun p : K * vec => (fst p * snd p i)%of) (combine y B)) = fsumn (length B) (fun j => (nth j y f0 * nth j B vzero i)%of).
  Proof.
    intros L. rewrite (fsum_map_nth _ _ (f0, vzero)), combine_length, L, Nat.min_id. apply fsumn_ext. intros j Hj. now rewrite combine_nth by exact L.
  Qed.
  Lemma list_eq (y z : list K) : length y = length z -> (forall j, j < length y -> nth j y f0 = nth j z f0) -> y = z.
  Proof. intros L H. apply (nth_ext _ _ f0 f0 L H). Qed.

  Lemma batch_shape out a s : train (i_new out) a = (s, IOk tt) -> 2 <= length (t_x a) -> odim_ out <> 0 -> exists p xm,
    i_pca s = Some p /\ p_out p = Some (odim_ out - i_num s) /\ orthonormal dim (p_v p) /\ length (p_v p) = Nat.min (odim_ out - i_num s) dim /\ (forall i, p_avg p i = dmean (map (resid s) (t_x a)) i) /\
    (dim <= odim_ out - i_num s -> forall u i, i < dim -> comb (p_v p) (fun j => dot dim u (nth j (p_v p) vzero)) i = u i) /\
    i_xmean s = Some xm /\ (forall i, xm i = center (t_x a) i) /\ i_out s = Some (odim_ out) /\ i_num s <= odim_ out /\ (forall x, length (feat s x) = i_num s) /\ length (snd (i_lr s)) = i_num s /\ (exists g, i_sfa s = Some g).
  Proof.
    intros H N O. destruct (batch_parts out a s H) as [_ (g0 & g1 & p0 & p & k & xm & Nx & Eo & Ex & Cx & [ex Gt] & Gs & Sz & En & (og & Og & Lk) & (g & Eg & G1 & G2) & Sm & Ss & Nz & Lr & (rm & Pt & Lrm & Erm) & Ps & (p' & P' & P1 & P2 & P3 & P4) & _)].
    rewrite En.
    assert (Gt' : g_trains argsort vunl (gsfa_new (Some (bound (odim_ out))) BNone [MNoneG] verbose) [mkT ex (t_bs a) (t_modes a) (t_nw a) (t_ew a)] = (g0, GOk tt)) by (cbn [g_trains]; now rewrite Gt).
    destruct (trains_out argsort vunl _ _ _ Gt') as [O0 _]. destruct (gstop_ok dim exp_ solver g0 g1 Gs) as (_ & _ & k0 & rng & fc & A & B & So & Lb & Og1 & Le & Rg). destruct (Rg _ O0) as [-> ->].
    destruct (solver_len _ _ _ _ _ _ (conj (bound_pos dim exp_ maxlen delta_ edim_pos maxlen_pos _ O) Le) So) as [Ld Lu]. rewrite Og1 in Og. injection Og as <-.
    assert (Bo : bound (odim_ out) <= odim_ out) by (unfold IgsfaProps.bound, sfa_dim; destruct maxlen, delta_; lia).
    assert (Lf : forall x, length (feat s x) = k).
    { intros x. unfold feat. rewrite Eg, Ex. unfold normalize, g_execute. rewrite mapi_len, map_length, combine_length. cbn [upto]. rewrite G1, G2, !firstn_length. rewrite Lb, Lu. lia. }
    assert (Ll : length (snd (i_lr s)) = k).
    { apply (lr_len _ _ _ k) in Lr; [exact Lr|destruct (t_x a); [contradiction|discriminate]|]. apply Forall_forall. intros r Hr. apply in_map_iff in Hr. destruct Hr as [x [<- _]]. apply Lf. }
    assert (T : PCAProps.trained eigh (fun _ _ => None) sqrt_ dim false false f0 f0 None false (OInt (Nat.max 1 (odim_ out - k))) [rm] p).
    { exists p0. split; [cbn [pca_trains]; now rewrite Pt|]. exact Ps. }
    assert (Nr : 2 <= length (concat [rm])) by (cbn [concat]; rewrite app_nil_r, Lrm; exact N).
    destruct (PCAProps.trained_ok eigh (fun _ _ => None) sqrt_ dim false false f0 f0 None false eigh_ok no_svd (fun E => False_ind _ (Bool.diff_false_true E)) _ _ _ T Nr)
      as (C & D & V & md & mv & raw & HC & _ & ES & L1 & L2 & Hd & Hr & Av & Vt & Wh & E1 & E2 & _ & _ & _).
    specialize (E1 eq_refl). specialize (E2 eq_refl eq_refl). subst mv raw. unfold asked, kept in E2. destruct (Nat.eqb_spec (Nat.max 1 (odim_ out - k)) 0); [lia|].
    assert (Em : md = Nat.min (Nat.max 1 (odim_ out - k)) dim) by (destruct (Nat.leb_spec (Nat.max 1 (odim_ out - k)) dim); cbn [andb] in E2; lia). pose proof ES as (LD & LV & ON & _).
    assert (Pv : p_v p' = firstn (Nat.min (odim_ out - k) dim) (rev V)). { rewrite P1, Wh, firstn_firstn. f_equal. lia. }
    exists p', xm. split; [exact P'|]. split; [exact P4|]. split.
    { rewrite Pv. intros i j Hi Hj. rewrite firstn_length, rev_length, LV in Hi, Hj. rewrite !nth_firstn_lt by lia. rewrite !rev_nth by (rewrite LV; lia). rewrite ON by (rewrite LV; lia).
      unfold delta. destruct (Nat.eqb_spec (length V - S i) (length V - S j)), (Nat.eqb_spec i j); try reflexivity; lia. }
    split; [rewrite Pv, firstn_length, rev_length, LV; lia|]. split.
    { intros i. rewrite P3, Av. cbn [concat]. rewrite app_nil_r, Erm. unfold dmean. rewrite !map_length, !map_map. f_equal. apply fsum_map_ext. intros x _. unfold resid, sub. now rewrite Ex. }
    split.
    { intros Hdim u i Hi. rewrite Nat.min_r in Pv by exact Hdim. rewrite firstn_all2 in Pv by (rewrite rev_length; lia). rewrite Pv.
      rewrite <- (expand dim C D V ES u i Hi). unfold comb.
      rewrite <- (fsum_map_nth (rev V) (fun v => dot dim u v * v i)%of vzero), <- (fsum_map_nth V (fun v => dot dim u v * v i)%of vzero), map_rev. apply fsum_rev. }
    split; [exact Ex|]. split; [exact Cx|]. split; [exact Eo|]. split; [lia|]. split; [exact Lf|]. split; [exact Ll|]. eauto.
  Qed.
  Lemma exec_form out a s x p xm : train (i_new out) a = (s, IOk tt) -> i_pca s = Some p -> p_out p = Some (odim_ out - i_num s) -> length (p_v p) = Nat.min (odim_ out - i_num s) dim -> i_xmean s = Some xm -> (exists g, i_sfa s = Some g) ->
    execute s x = match scaled scale_m true (i_R s) (i_magn s) (feat s x) with None => IErr IValue | Some sc => IOk (sc ++ map (fun v => dot dim (sub (resid s x) (p_avg p)) v) (p_v p)) end.
  Proof.
    intros H Ep Po Lv Ex [g Eg]. unfold i_execute. rewrite Eg, Ep, Ex. unfold sfa_execute.
    assert (F : feat s x = normalize (i_smean s) (i_sstd s) (g_execute edim g None (expand_ (match i_pre s with None => sub x xm | Some h => h (sub x xm) end)))) by (unfold feat; now rewrite Eg, Ex).
    cbv zeta. rewrite <- F. destruct (scaled _ _ _ _ _) as [sc|]; [|reflexivity]. f_equal. f_equal. rewrite Po. unfold pc_execute, pca_execute.
    assert (R : forall v, dot dim (sub (sub (sub x xm) (lr_execute (i_lr s) (feat s x))) (p_avg p)) v = dot dim (sub (resid s x) (p_avg p)) v).
    { intros v. apply dot_ext; [|reflexivity]. intros i _. unfold resid, sub. now rewrite Ex. }
    destruct (Nat.ltb_spec 0 (odim_ out - i_num s)) as [L|L]; [apply map_ext; intros v; apply R|]. replace (odim_ out - i_num s) with 0 in Lv by lia. cbn in Lv. destruct (p_v p); [reflexivity|discriminate].
  Qed.

  (** numx.linalg.qr of a matrix with at least as many rows as columns, and numx.linalg.pinv of a square matrix *)
  Hypothesis qr_ok : forall B Q R, length B <= dim -> qr B = (Q, R) -> length Q = length B /\ length R = length B /\ orthonormal dim Q /\
    forall k i, k < length B -> i < dim -> nth k B vzero i = fsumn (length B) (fun r => nth r Q vzero i * nth r R vzero k)%of.
  Hypothesis pinv_ok : forall R, length (pinv R) = length R /\ forall r k, r < length R -> k < length R ->
    fsumn (length R) (fun j => nth r R vzero j * fsumn (length R) (fun q => nth j (pinv R) vzero q * nth q R vzero k))%of = nth r R vzero k.

  Lemma dotT_nth (W : list vec) y r : r < length W -> nth r (dotT W y) f0 = fsumn (length y) (fun j => nth j y f0 * nth r W vzero j)%of.
  Proof. intros H. unfold dotT. rewrite (nth_indep _ f0 (fsum (mapi (fun k c => (c * vzero k)%of) y))) by (now rewrite map_length). rewrite (map_nth (fun w : vec => fsum (mapi (fun k c => (c * w k)%of) y))). apply mapi_sum. Qed.
  Lemma qr_apply (B Q R : list vec) (y : list K) i : length B <= dim -> qr B = (Q, R) -> length y = length B -> i < dim ->
    fsumn (length B) (fun j => nth j y f0 * nth j B vzero i)%of = fsumn (length B) (fun r => nth r Q vzero i * nth r (dotT R y) f0)%of.
  Proof.
    intros L E Ly Hi. destruct (qr_ok B Q R L E) as (LQ & LR & _ & M).
    transitivity (fsumn (length B) (fun j => fsumn (length B) (fun r => nth r Q vzero i * (nth j y f0 * nth r R vzero j))))%of.
    - apply fsumn_ext. intros j Hj. rewrite (M j i Hj Hi), <- fsumn_mul. apply fsumn_ext. intros. ring.
    - rewrite fsumn_swap. apply fsumn_ext. intros r Hr. rewrite fsumn_mul, dotT_nth, Ly by lia. reflexivity.
  Qed.
  Lemma pinv_apply (R : list vec) (y : list K) r : length y = length R -> r < length R -> nth r (dotT R (dotT (pinv R) (dotT R y))) f0 = nth r (dotT R y) f0.
  Proof.
    intros Ly Hr. destruct (pinv_ok R) as [LP PR]. set (m := length R) in *.
    assert (L1 : length (dotT R y) = m) by apply map_length. assert (L2 : length (dotT (pinv R) (dotT R y)) = m) by (unfold dotT at 1; rewrite map_length; exact LP).
    rewrite !dotT_nth by exact Hr. rewrite L2, Ly.
    transitivity (fsumn m (fun j => fsumn m (fun l => nth l y f0 * (nth r R vzero j * fsumn m (fun q => nth j (pinv R) vzero q * nth q R vzero l)))))%of.
    - apply fsumn_ext. intros j Hj. rewrite dotT_nth by lia. rewrite L1.
      transitivity (fsumn m (fun q => fsumn m (fun l => nth l y f0 * (nth r R vzero j * (nth j (pinv R) vzero q * nth q R vzero l)))))%of.
      + rewrite <- fsumn_mulr. apply fsumn_ext. intros q Hq. rewrite dotT_nth, Ly by exact Hq. rewrite <- !fsumn_mulr. apply fsumn_ext. intros. ring.
      + rewrite fsumn_swap. apply fsumn_ext. intros l Hl. now rewrite !fsumn_mul.
    - rewrite fsumn_swap. apply fsumn_ext. intros l Hl. rewrite fsumn_mul, PR by (auto; exact Hr). ring.
  Qed.

  (** the scaling can be undone: not more slow features than inputs for QR_decomposition, no factor zero for the others *)
  Definition scale_ok (s : igsfa) : Prop := match scale_m with ScQR => i_num s <= dim | _ => forall j, j < i_num s -> i_magn s j <> f0 end.

  Lemma batch_core out a s x : train (i_new out) a = (s, IOk tt) -> 2 <= length (t_x a) -> odim_ out <> 0 -> odim_ out <= dim + i_num s -> scale_ok s -> exists p sc r,
    i_pca s = Some p /\ scaled scale_m true (i_R s) (i_magn s) (feat s x) = Some sc /\ length sc = i_num s /\
    let y := sc ++ map (fun v => dot dim (sub (resid s x) (p_avg p)) v) (p_v p) in
    execute s x = IOk y /\ length y = odim_ out /\ inverse s y = IOk r /\
    forall i, i < dim -> r i = (x i - (resid s x i - (if i_num s <? odim_ out then p_avg p i + comb (p_v p) (fun j => dot dim (sub (resid s x) (p_avg p)) (nth j (p_v p) vzero)) i else 0)))%of.
  Proof.
    intros H N O Hd So. destruct (batch_shape out a s H N O) as (p & xm & Ep & Po & ON & Lv & Av & _ & Ex & Cx & Eo & Lk & Lf & Ll & Eg).
    destruct (batch_parts out a s H) as [Sc (g0 & g1 & p0 & p1 & k & xm' & _ & _ & _ & _ & _ & _ & _ & _ & _ & _ & _ & _ & _ & _ & _ & _ & _ & Rq & _ & _ & _)]. clear g0 g1 p0 p1 k xm'.
    set (k := i_num s) in *. set (o := odim_ out) in *. rewrite Nat.min_l in Lv by lia.
    assert (Sx : exists sc, scaled scale_m true (i_R s) (i_magn s) (feat s x) = Some sc /\ length sc = k /\
      exists n, match scale_m with ScQR => if length (i_R s) =? length sc then Some (dotT (i_Rpinv s) sc) else None | _ => Some (over (i_magn s) sc) end = Some n /\
        forall i, i < dim -> lr_execute (i_lr s) n i = lr_execute (i_lr s) (feat s x) i).
    { assert (TO : (forall j, j < k -> i_magn s j <> f0) -> over (i_magn s) (times (i_magn s) (feat s x)) = feat s x).
      { intros Nz. apply list_eq; [unfold over, times; now rewrite !mapi_len|]. intros j Hj. unfold over in *. rewrite mapi_len in Hj. unfold times in *. rewrite mapi_nth by exact Hj. rewrite mapi_len in Hj. rewrite mapi_nth by exact Hj.
        rewrite Lf in Hj. field. now apply Nz. }
      assert (TL : length (times (i_magn s) (feat s x)) = k) by (unfold times; now rewrite mapi_len).
      unfold scale_ok in So. fold k in So. unfold scaled. destruct scale_m; [| | | |contradiction];
        try (exists (times (i_magn s) (feat s x)); split; [reflexivity|]; split; [exact TL|]; eexists; split; [reflexivity|]; intros i _; rewrite TO by exact So; reflexivity).
      destruct (Rq eq_refl) as [ER EP]. destruct (qr (snd (i_lr s))) as [Q R] eqn:Eq. cbn [snd] in ER. rewrite EP, ER.
      destruct (qr_ok _ _ _ ltac:(rewrite Ll; exact So) Eq) as (LQ & LR & OQ & M). rewrite Ll in *.
      assert (L1 : length (dotT R (feat s x)) = k) by (unfold dotT; now rewrite map_length).
      exists (dotT R (feat s x)). split; [reflexivity|]. split; [exact L1|]. rewrite L1, LR, Nat.eqb_refl. eexists. split; [reflexivity|].
      intros i Hi. unfold lr_execute. f_equal. destruct (pinv_ok R) as [LP _]. rewrite !comb_sum by (rewrite ?Lf; unfold dotT; rewrite ?map_length; lia).
      rewrite !(qr_apply _ Q R) by (rewrite ?Ll, ?Lf; unfold dotT; rewrite ?map_length; try lia; exact Eq). rewrite Ll. apply fsumn_ext. intros r Hr. f_equal. apply pinv_apply; [rewrite Lf|]; lia. }
    destruct Sx as (sc & Es & Ls & n & En & An). set (u := sub (resid s x) (p_avg p)). set (pc := map (fun v => dot dim u v) (p_v p)).
    assert (Lp : length pc = o - k) by (unfold pc; now rewrite map_length).
    assert (Ly : length (sc ++ pc) = o) by (rewrite app_length; lia).
    assert (Iv : exists z, (if 0 <? length pc then pc_inverse dim p pc else POk vzero) = POk z /\ forall i, z i = (if k <? o then p_avg p i + comb (p_v p) (fun j => dot dim u (nth j (p_v p) vzero)) i else 0)%of).
    { rewrite Lp. destruct (Nat.ltb_spec 0 (o - k)) as [L|L], (Nat.ltb_spec k o) as [L'|L']; try lia; [|exists vzero; split; [reflexivity|]; reflexivity].
      unfold pc_inverse, pca_inverse, recmatrix. rewrite Po, Lp. destruct (Nat.eqb_spec (o - k) 0); [lia|]. cbn [orb]. rewrite Nat.ltb_irrefl. rewrite firstn_all2 by lia. rewrite Lv, Nat.eqb_refl.
      eexists. split; [reflexivity|]. intros i. cbv beta. rewrite comb_sum by lia. unfold comb.
      rewrite (fsumn_ext _ (fun j => nth j pc f0 * nth j (p_v p) vzero i)%of (fun j => dot dim u (nth j (p_v p) vzero) * nth j (p_v p) vzero i)%of); [ring|].
      intros j Hj. f_equal. unfold pc. rewrite (nth_indep _ f0 (dot dim u vzero)) by (now rewrite map_length). apply (map_nth (fun v => dot dim u v)). }
    destruct Iv as [z [Iz Ez]].
    exists p, sc, (fun i => z i + lr_execute (i_lr s) n i + xm i)%of. split; [exact Ep|]. split; [exact Es|]. split; [exact Ls|]. cbv zeta. fold u. fold pc.
    split; [rewrite (exec_form out a s x p xm H Ep Po ltac:(lia) Ex Eg), Es; reflexivity|]. split; [exact Ly|]. split.
    - unfold i_inverse, out_. rewrite Eo, Ly, Nat.eqb_refl, Ep, Ex, Po. cbn [negb]. fold k. destruct (Nat.ltb_spec (o - k + k) o); [lia|]. replace (o - k + k - o) with 0 by lia. cbn [repeat]. rewrite app_nil_r.
      rewrite firstn_app, skipn_app, Ls, Nat.sub_diag, firstn_all2, skipn_all2 by lia. cbn [firstn skipn app]. rewrite app_nil_r, Iz. rewrite En; reflexivity.
    - intros i Hi. cbv beta. rewrite Ez, An by exact Hi. unfold resid. rewrite Ex. ring.
  Qed.

  (** ** C481: the inverse gives back the input up to the part of the residual outside of the kept components *)
  Theorem C481_exact : forall out a s x, train (i_new out) a = (s, IOk tt) -> 2 <= length (t_x a) -> odim_ out <> 0 -> odim_ out = dim + i_num s -> scale_ok s ->
    exists y r, execute s x = IOk y /\ length y = odim_ out /\ inverse s y = IOk r /\ forall i, i < dim -> r i = x i.
  Proof.
    intros out a s x H N O Hd So. destruct (batch_core out a s x H N O ltac:(lia) So) as (p & sc & r & Ep & _ & _ & E1 & E2 & E3 & E4).
    eexists. exists r. split; [exact E1|]. split; [exact E2|]. split; [exact E3|]. intros i Hi. rewrite E4 by exact Hi.
    destruct (batch_shape out a s H N O) as (p' & xm & Ep' & _ & _ & _ & _ & Cm & _). rewrite Ep in Ep'. injection Ep' as <-. rewrite Cm by lia. destruct (Nat.ltb_spec (i_num s) (odim_ out)); [|lia]. unfold sub. ring.
  Qed.
  Theorem C481_error : forall out a s x, train (i_new out) a = (s, IOk tt) -> 2 <= length (t_x a) -> odim_ out <> 0 -> i_num s < odim_ out -> odim_ out <= dim + i_num s -> scale_ok s ->
    let u := sub (resid s x) (dmean (map (resid s) (t_x a))) in
    exists W y r, orthonormal dim W /\ length W = odim_ out - i_num s /\ execute s x = IOk y /\ length y = odim_ out /\ skipn (i_num s) y = map (dot dim u) W /\ inverse s y = IOk r /\
      forall i, i < dim -> r i = (x i - (u i - fsumn (length W) (fun j => dot dim u (nth j W vzero) * nth j W vzero i)))%of.
  Proof.
    intros out a s x H N O Hk Hd So u. destruct (batch_core out a s x H N O Hd So) as (p & sc & r & Ep & _ & Ls & E1 & E2 & E3 & E4).
    destruct (batch_shape out a s H N O) as (p' & xm & Ep' & _ & ON & Lv & Av & _). rewrite Ep in Ep'. injection Ep' as <-.
    assert (U : forall v, dot dim (sub (resid s x) (p_avg p)) v = dot dim u v) by (intros v; apply dot_ext; [|reflexivity]; intros i _; unfold u, sub; now rewrite Av).
    exists (p_v p). eexists. exists r. split; [exact ON|]. split; [lia|]. split; [exact E1|]. split; [exact E2|]. split.
    { rewrite skipn_app, Ls, Nat.sub_diag, skipn_all2 by lia. cbn [skipn app]. apply map_ext. intros v. apply U. }
    split; [exact E3|]. intros i Hi. rewrite E4 by exact Hi. destruct (Nat.ltb_spec (i_num s) (odim_ out)); [|lia]. unfold comb.
    rewrite (fsumn_ext _ _ (fun j => dot dim u (nth j (p_v p) vzero) * nth j (p_v p) vzero i)%of) by (intros j Hj; f_equal; apply U). unfold u, sub. rewrite Av. ring.
  Qed.
  (** without PCA components the inverse is the regression *)
  Theorem C481_regression : forall out a s x, train (i_new out) a = (s, IOk tt) -> 2 <= length (t_x a) -> odim_ out <> 0 -> i_num s = odim_ out -> scale_ok s ->
    exists y r, execute s x = IOk y /\ length y = odim_ out /\ inverse s y = IOk r /\ forall i, i < dim -> r i = (x i - resid s x i)%of.
  Proof.
    intros out a s x H N O Hk So. destruct (batch_core out a s x H N O ltac:(lia) So) as (p & sc & r & Ep & _ & Ls & E1 & E2 & E3 & E4).
    eexists. exists r. split; [exact E1|]. split; [exact E2|]. split; [exact E3|]. intros i Hi. rewrite E4 by exact Hi. destruct (Nat.ltb_spec (i_num s) (odim_ out)); [lia|]. ring.
  Qed.

  (** ** C482: explained_var *)
  (** LinearRegressionNode: the normal equations of the regression with a constant *)
  Hypothesis lr_normal : forall (x : list vec) (f : vec -> list K) (h : vec -> vec) b, lr_fit (map f x) (map h x) = Some b -> forall i, i < dim ->
    fsum (map (fun r => h r i - lr_execute b (f r) i)%of x) = f0 /\ forall k, k < length (snd b) -> fsum (map (fun r => (h r i - lr_execute b (f r) i) * nth k (f r) f0)%of x) = f0.
  Hypothesis sqrt_ok : forall a, (0 <= a)%of -> (sqrt_ a * sqrt_ a = a)%of.

  Lemma resid_normal out a s : train (i_new out) a = (s, IOk tt) -> forall i, i < dim -> fsum (map (fun x => resid s x i) (t_x a)) = f0 /\
    forall k, k < length (snd (i_lr s)) -> fsum (map (fun x => resid s x i * nth k (feat s x) f0)%of (t_x a)) = f0.
  Proof.
    intros H i Hi. destruct (batch_parts out a s H) as [_ (g0 & g1 & p0 & p & k & xm & _ & _ & Ex & _ & _ & _ & _ & _ & _ & _ & _ & _ & _ & Lr & _)].
    destruct (lr_normal _ _ _ _ Lr i Hi) as [A B]. split.
    - etransitivity; [|exact A]. apply fsum_map_ext. intros x _. unfold resid, sub. now rewrite Ex.
    - intros j Hj. etransitivity; [|exact (B j Hj)]. apply fsum_map_ext. intros x _. unfold resid, sub. now rewrite Ex.
  Qed.
  (** the features of the training data have mean zero *)
  Lemma feat_mean out a s : train (i_new out) a = (s, IOk tt) -> 2 <= length (t_x a) -> odim_ out <> 0 -> forall j, j < i_num s -> fsum (map (fun x => nth j (feat s x) f0) (t_x a)) = f0.
  Proof.
    intros H N O j Hj. destruct (batch_shape out a s H N O) as (p & xm' & _ & _ & _ & _ & _ & _ & _ & _ & _ & _ & Lf & _).
    destruct (batch_parts out a s H) as [_ (g0 & g1 & p0 & p1 & k & xm & Nx & _ & Ex & _ & _ & _ & _ & En & _ & (g & Eg & G1 & G2) & Sm & Ss & Nz & _)].
    set (y := fun x => g_execute edim g None (expand_ (match i_pre s with None => sub x xm | Some h => h (sub x xm) end))) in *.
    assert (Sm' : i_smean s = fst (mean_std sqrt_ (map y (t_x a)))) by (rewrite Sm, Eg; reflexivity).
    assert (Fx : forall x, feat s x = normalize (i_smean s) (i_sstd s) (y x)) by (intros x; unfold feat; now rewrite Eg, Ex).
    assert (Ly : forall x, length (y x) = i_num s) by (intros x; rewrite <- (Lf x), Fx; unfold normalize; now rewrite mapi_len).
    assert (Lg : j < length (g_sf g)). { specialize (Ly vzero). unfold y, g_execute in Ly. rewrite map_length, combine_length in Ly. cbn [upto] in Ly. lia. }
    rewrite Eg in Nz. specialize (Nz j Lg).
    assert (Me : (fn (length (t_x a)) * i_smean s j = fsum (map (fun x => nth j (y x) f0) (t_x a)))%of).
    { rewrite Sm'. cbn [fst mean_std]. unfold mean_std, mean_. cbn [fst]. rewrite map_length. assert (Nn : (fn (length (t_x a)) <> (0 : K))%of) by (apply fn_ne; destruct (t_x a); [contradiction|discriminate]).
      transitivity (fsumn (length (t_x a)) (col (map y (t_x a)) j)); [field; exact Nn|]. rewrite (fsum_map_nth (t_x a) _ vzero). apply fsumn_ext. intros t Ht. unfold col.
      rewrite (nth_indep _ [] (y vzero)) by (now rewrite map_length). now rewrite map_nth. }
    rewrite (fsum_map_ext _ _ (fun x => (nth j (y x) f0 - i_smean s j) * (1 / i_sstd s j))%of).
    - rewrite fsum_map_mulr, fsum_map_sub, fsum_map_const, <- Me. ring.
    - intros x _. rewrite Fx. unfold normalize. rewrite mapi_nth by (rewrite Ly; exact Hj). field. exact Nz.
  Qed.

  (** the part of the centered data that the regression gives *)
  Definition approx (s : igsfa) (x : vec) : vec := fun i => fsumn (i_num s) (fun j => nth j (feat s x) f0 * nth j (snd (i_lr s)) vzero i)%of.
  Lemma lr_const out a s : train (i_new out) a = (s, IOk tt) -> 2 <= length (t_x a) -> odim_ out <> 0 -> forall i, i < dim -> fst (i_lr s) i = f0 /\ forall x xm, i_xmean s = Some xm -> (sub x xm i = approx s x i + resid s x i)%of.
  Proof.
    intros H N O i Hi. destruct (batch_shape out a s H N O) as (p & xm & _ & _ & _ & _ & _ & _ & Ex & Cx & _ & _ & Lf & Ll & _).
    assert (LE : forall x, lr_execute (i_lr s) (feat s x) i = (fst (i_lr s) i + approx s x i)%of).
    { intros x. unfold lr_execute, approx. f_equal. rewrite comb_sum by (now rewrite Lf, Ll). now rewrite Ll. }
    destruct (resid_normal out a s H i Hi) as [A _]. assert (Nn : (fn (length (t_x a)) <> (0 : K))%of) by (apply fn_ne; lia).
    assert (B0 : (fn (length (t_x a)) * fst (i_lr s) i = 0)%of).
    { assert (E : (fsum (map (fun x => resid s x i) (t_x a)) = fsum (map (fun x => x i) (t_x a)) - fn (length (t_x a)) * xm i - fn (length (t_x a)) * fst (i_lr s) i - fsum (map (fun x => approx s x i) (t_x a)))%of).
      { rewrite <- !fsum_map_const, <- !fsum_map_sub. apply fsum_map_ext. intros x _. unfold resid. rewrite Ex, LE. ring. }
      assert (M : (fn (length (t_x a)) * xm i = fsum (map (fun x => x i) (t_x a)))%of) by (rewrite Cx; unfold center; field; exact Nn).
      assert (Z : fsum (map (fun x => approx s x i) (t_x a)) = f0).
      { unfold approx. rewrite <- (fsumn_fsum (i_num s) (t_x a) (fun j x => nth j (feat s x) f0 * nth j (snd (i_lr s)) vzero i)%of). apply fsumn_zero. intros j Hj. rewrite fsum_map_mulr, (feat_mean out a s H N O j Hj). ring. }
      rewrite A, M, Z in E. transitivity (0 - (fsum (map (fun x => x i) (t_x a)) - fsum (map (fun x => x i) (t_x a)) - fn (length (t_x a)) * fst (i_lr s) i - 0))%of; [ring|]. rewrite <- E. ring. }
    assert (B1 : fst (i_lr s) i = f0) by (transitivity (fn (length (t_x a)) * fst (i_lr s) i / fn (length (t_x a)))%of; [field; exact Nn|rewrite B0; field; exact Nn]).
    split; [exact B1|]. intros x xm' Ex'. rewrite Ex in Ex'. injection Ex' as <-. unfold resid, sub. rewrite Ex, LE, B1. ring.
  Qed.
  (** squared error of the inverse on the training data *)
  Definition sqdist (x r : vec) : K := dot dim (sub x r) (sub x r).
  Lemma pythagoras out a s xm : train (i_new out) a = (s, IOk tt) -> 2 <= length (t_x a) -> odim_ out <> 0 -> i_xmean s = Some xm ->
    (fsum (map (fun x => dot dim (sub x xm) (sub x xm)) (t_x a)) = fsum (map (fun x => dot dim (approx s x) (approx s x)) (t_x a)) + fsum (map (fun x => dot dim (resid s x) (resid s x)) (t_x a)))%of.
  Proof.
    intros H N O Ex. assert (Cross : fsum (map (fun x => dot dim (approx s x) (resid s x)) (t_x a)) = f0).
    { unfold dot. rewrite <- (fsumn_fsum dim (t_x a) (fun i x => approx s x i * resid s x i)%of). apply fsumn_zero. intros i Hi. destruct (resid_normal out a s H i Hi) as [_ B].
      destruct (batch_shape out a s H N O) as (p & xm' & _ & _ & _ & _ & _ & _ & _ & _ & _ & _ & _ & Ll & _).
      rewrite (fsum_map_ext _ _ (fun x => fsumn (i_num s) (fun j => (resid s x i * nth j (feat s x) f0) * nth j (snd (i_lr s)) vzero i))%of).
      - rewrite <- (fsumn_fsum (i_num s) (t_x a) (fun j x => resid s x i * nth j (feat s x) f0 * nth j (snd (i_lr s)) vzero i)%of). apply fsumn_zero. intros j Hj. rewrite fsum_map_mulr, B by lia. ring.
      - intros x _. unfold approx. rewrite <- fsumn_mulr. apply fsumn_ext. intros. ring. }
    transitivity (fsum (map (fun x => dot dim (approx s x) (approx s x) + dot dim (resid s x) (resid s x) + (dot dim (approx s x) (resid s x) + dot dim (approx s x) (resid s x)))%of (t_x a))).
    - apply fsum_map_ext. intros x _. unfold dot. rewrite <- !fsumn_add. apply fsumn_ext. intros i Hi. rewrite (proj2 (lr_const out a s H N O i Hi) x xm Ex). ring.
    - rewrite !fsum_map_add, Cross. ring.
  Qed.
  (** if the scaled features carry as much variance as the regression gives *)
  Lemma evar_core out a s e rec : train (i_new out) a = (s, IOk tt) -> 2 <= length (t_x a) -> odim_ out <> 0 -> odim_ out <= dim + i_num s -> scale_ok s ->
    fsum (map (fun x => match scaled scale_m true (i_R s) (i_magn s) (feat s x) with Some sc => sqsum sc | None => f0 end) (t_x a)) = fsum (map (fun x => dot dim (approx s x) (approx s x)) (t_x a)) ->
    (forall x, In x (t_x a) -> exists y, execute s x = IOk y /\ inverse s y = IOk (rec x)) -> i_evar s = Some e ->
    (e * fsum (map (fun x => sqdist x (center (t_x a))) (t_x a)) = fsum (map (fun x => sqdist x (center (t_x a))) (t_x a)) - fsum (map (fun x => sqdist x (rec x)) (t_x a)))%of.
  Proof.
    intros H N O Hd So Sa Hr He. destruct (batch_shape out a s H N O) as (p & xm & Ep & Po & ON & Lv & Av & _ & Ex & Cx & _).
    destruct (batch_parts out a s H) as [_ (g0 & g1 & p0 & p1 & k & xm' & _ & _ & Ex' & _ & _ & _ & _ & _ & _ & _ & _ & _ & _ & _ & _ & _ & _ & _ & _ & _ & Ev)]. rewrite Ex in Ex'. injection Ex' as <-.
    assert (A0 : forall i, i < dim -> p_avg p i = f0).
    { intros i Hi. rewrite Av. unfold dmean. rewrite map_map, (proj1 (resid_normal out a s H i Hi)), map_length. assert (Nn : (fn (length (t_x a)) <> (0 : K))%of) by (apply fn_ne; lia). field. exact Nn. }
    assert (Tot : fsum (map (fun x => sqdist x (center (t_x a))) (t_x a)) = fsum (map (fun r => dot dim (sub r xm) (sub r xm)) (t_x a))).
    { apply fsum_map_ext. intros x _. unfold sqdist. apply dot_ext; intros i _; unfold sub; now rewrite Cx. }
    rewrite Tot. set (total := fsum (map (fun r => dot dim (sub r xm) (sub r xm)) (t_x a))) in *. cbv zeta in Ev. rewrite Ev in He. clear Ev.
    destruct (fltb f0 total || fltb total f0) eqn:T0; [|discriminate]. injection He as <-.
    assert (Tn : (total <> 0)%of) by (intros E; rewrite E, flt_irrefl in T0; discriminate).
    set (pcx := fun x => map (fun v => dot dim (sub (resid s x) (p_avg p)) v) (p_v p)).
    assert (Err : forall x, In x (t_x a) -> (sqdist x (rec x) = dot dim (resid s x) (resid s x) - sqsum (pcx x))%of).
    { intros x Hx. destruct (batch_core out a s x H N O Hd So) as (p' & sc & r & Ep' & _ & _ & E1 & E2 & E3 & E4). rewrite Ep in Ep'. injection Ep' as <-. destruct (Hr x Hx) as (y & Y1 & Y2). rewrite E1 in Y1. injection Y1 as <-. rewrite E3 in Y2. injection Y2 as Y2.
      assert (D : forall v, dot dim (sub (resid s x) (p_avg p)) v = dot dim (resid s x) v) by (intros v; apply dot_ext; [|reflexivity]; intros i Hi; unfold sub; rewrite A0 by exact Hi; ring).
      assert (Sq : sqsum (pcx x) = fsumn (length (p_v p)) (fun j => dot dim (resid s x) (nth j (p_v p) vzero) * dot dim (resid s x) (nth j (p_v p) vzero))%of).
      { unfold sqsum, pcx. rewrite map_map, (fsum_map_nth _ _ vzero). apply fsumn_ext. intros j _. now rewrite D. }
      rewrite Sq. set (c := fun j => dot dim (resid s x) (nth j (p_v p) vzero)).
      assert (R0 : forall i, i < dim -> sub x (rec x) i = (resid s x i - comb (p_v p) c i)%of).
      { intros i Hi. unfold sub. rewrite <- Y2, E4 by exact Hi. destruct (Nat.ltb_spec (i_num s) (odim_ out)) as [L|L].
        - rewrite A0 by exact Hi. unfold comb. rewrite (fsumn_ext _ _ (fun j => c j * nth j (p_v p) vzero i)%of) by (intros j _; unfold c; now rewrite <- D). ring.
        - replace (odim_ out - i_num s) with 0 in Lv by lia. cbn in Lv. unfold comb. rewrite Lv. cbn. ring. }
      unfold sqdist. rewrite (dot_ext dim _ (fun i => resid s x i - comb (p_v p) c i)%of _ (fun i => resid s x i - comb (p_v p) c i)%of R0 R0).
      rewrite (dist_comb dim (p_v p) c (resid s x) ON). rewrite (fsumn_zero _ (fun k => (c k - _) * _)%of) by (intros; unfold c; ring). unfold c. ring. }
    assert (Nu : (fsum (map (fun x => match scaled scale_m true (i_R s) (i_magn s) (feat s x) with Some sc => sqsum (firstn (odim_ out) (sc ++ match i_pca s with Some p' => pca_execute dim p' None (sub (sub x xm) (lr_execute (i_lr s) (feat s x))) | None => [] end)) | None => f0 end) (t_x a))
      = fsum (map (fun x => dot dim (approx s x) (approx s x)) (t_x a)) + fsum (map (fun x => sqsum (pcx x)) (t_x a)))%of).
    { rewrite <- Sa, <- fsum_map_add. apply fsum_map_ext. intros x _. destruct (batch_core out a s x H N O Hd So) as (p' & sc & r & Ep' & Es & Ls & E1 & E2 & _). rewrite Ep in Ep'. injection Ep' as <-. rewrite Es, Ep.
      assert (Px : pca_execute dim p None (sub (sub x xm) (lr_execute (i_lr s) (feat s x))) = pcx x).
      { unfold pca_execute, pcx. apply map_ext. intros v. apply dot_ext; [|reflexivity]. intros i _. unfold resid, sub. now rewrite Ex. }
      rewrite Px, firstn_all2 by (fold (pcx x) in E2; lia). unfold sqsum. now rewrite map_app, fsum_app. }
    rewrite Nu, (fsum_map_ext _ _ _ Err), fsum_map_sub. pose proof (pythagoras out a s xm H N O Ex) as Py. fold total in Py.
    transitivity (fsum (map (fun x => dot dim (approx s x) (approx s x)) (t_x a)) + fsum (map (fun x => sqsum (pcx x)) (t_x a)))%of; [field; exact Tn|]. rewrite Py. ring.
  Qed.

  (** QR_decomposition: explained_var is one minus the relative squared error of the inverse on the training data *)
  Theorem C482_qr : forall out a s e rec, scale_m = ScQR -> train (i_new out) a = (s, IOk tt) -> 2 <= length (t_x a) -> odim_ out <> 0 -> odim_ out <= dim + i_num s -> i_num s <= dim ->
    (forall x, In x (t_x a) -> exists y, execute s x = IOk y /\ inverse s y = IOk (rec x)) -> i_evar s = Some e ->
    (e * fsum (map (fun x => sqdist x (center (t_x a))) (t_x a)) = fsum (map (fun x => sqdist x (center (t_x a))) (t_x a)) - fsum (map (fun x => sqdist x (rec x)) (t_x a)))%of.
  Proof.
    intros out a s e rec Sq H N O Hd Hk Hr He. assert (So : scale_ok s) by (unfold scale_ok; now rewrite Sq). apply (evar_core out a s e rec H N O Hd So); [|exact Hr|exact He].
    destruct (batch_shape out a s H N O) as (p & xm & _ & _ & _ & _ & _ & _ & _ & _ & _ & _ & Lf & Ll & _).
    destruct (batch_parts out a s H) as [_ (g0 & g1 & p0 & p1 & k & xm' & _ & _ & _ & _ & _ & _ & _ & _ & _ & _ & _ & _ & _ & _ & _ & _ & _ & Rq & _)]. destruct (Rq Sq) as [ER _].
    destruct (qr (snd (i_lr s))) as [Q R] eqn:Eq. cbn [snd] in ER. destruct (qr_ok _ _ _ ltac:(rewrite Ll; exact Hk) Eq) as (LQ & LR & OQ & M).
    apply fsum_map_ext. intros x _. unfold scaled. rewrite Sq, ER.
    rewrite (dot_ext dim (approx s x) (comb Q (fun r => nth r (dotT R (feat s x)) f0)) (approx s x) (comb Q (fun r => nth r (dotT R (feat s x)) f0))).
    - rewrite (norm_comb dim Q _ OQ). unfold sqsum. rewrite (fsum_map_nth _ _ f0). unfold dotT at 1. rewrite map_length, LR, LQ. reflexivity.
    - intros i Hi. unfold approx, comb. rewrite <- Ll, (qr_apply _ Q R) by (rewrite ?Ll, ?Lf; auto). rewrite LQ. apply fsumn_ext. intros. ring.
    - intros i Hi. unfold approx, comb. rewrite <- Ll, (qr_apply _ Q R) by (rewrite ?Ll, ?Lf; auto). rewrite LQ. apply fsumn_ext. intros. ring.
  Qed.
  (** sensitivity_based: the same, if the slow features are uncorrelated on the training data *)
  Theorem C482_sensitivity : forall out a s e rec, scale_m = ScSens -> train (i_new out) a = (s, IOk tt) -> 2 <= length (t_x a) -> odim_ out <> 0 -> odim_ out <= dim + i_num s ->
    (forall j, j < i_num s -> i_magn s j <> f0) ->
    (forall j l, j < i_num s -> l < i_num s -> j <> l -> fsum (map (fun x => nth j (feat s x) f0 * nth l (feat s x) f0)%of (t_x a)) = f0) ->
    (forall x, In x (t_x a) -> exists y, execute s x = IOk y /\ inverse s y = IOk (rec x)) -> i_evar s = Some e ->
    (e * fsum (map (fun x => sqdist x (center (t_x a))) (t_x a)) = fsum (map (fun x => sqdist x (center (t_x a))) (t_x a)) - fsum (map (fun x => sqdist x (rec x)) (t_x a)))%of.
  Proof.
    intros out a s e rec Sq H N O Hd Hk Dc Hr He. assert (So : scale_ok s) by (unfold scale_ok; now rewrite Sq). apply (evar_core out a s e rec H N O Hd So); [|exact Hr|exact He].
    destruct (batch_shape out a s H N O) as (p & xm & _ & _ & _ & _ & _ & _ & _ & _ & _ & _ & Lf & Ll & _).
    destruct (batch_parts out a s H) as [_ (g0 & g1 & p0 & p1 & k & xm' & _ & _ & _ & _ & _ & _ & _ & _ & _ & _ & _ & _ & _ & _ & _ & _ & _ & _ & Mg & _)]. specialize (Mg Sq).
    set (B := snd (i_lr s)) in *. set (m := i_num s) in *.
    transitivity (fsum (map (fun x => fsumn m (fun j => (nth j (feat s x) f0 * nth j (feat s x) f0) * dot dim (nth j B vzero) (nth j B vzero)))%of (t_x a))).
    - apply fsum_map_ext. intros x _. unfold scaled. rewrite Sq. unfold sqsum. rewrite (fsum_map_nth _ _ f0). unfold times. rewrite mapi_len, Lf. apply fsumn_ext. intros j Hj. rewrite mapi_nth by (rewrite Lf; exact Hj).
      rewrite Mg. rewrite <- (sqrt_ok (dot dim (nth j B vzero) (nth j B vzero)) (dot_sq dim _)) at 3. ring.
    - transitivity (fsum (map (fun x => fsumn m (fun j => fsumn m (fun l => (nth j (feat s x) f0 * nth l (feat s x) f0) * dot dim (nth j B vzero) (nth l B vzero))))%of (t_x a))).
      + rewrite <- (fsumn_fsum m (t_x a) (fun j x => nth j (feat s x) f0 * nth j (feat s x) f0 * dot dim (nth j B vzero) (nth j B vzero))%of).
        rewrite <- (fsumn_fsum m (t_x a) (fun j x => fsumn m (fun l => nth j (feat s x) f0 * nth l (feat s x) f0 * dot dim (nth j B vzero) (nth l B vzero)))%of). apply fsumn_ext. intros j Hj.
        rewrite <- (fsumn_fsum m (t_x a) (fun l x => nth j (feat s x) f0 * nth l (feat s x) f0 * dot dim (nth j B vzero) (nth l B vzero))%of).
        rewrite <- (fsumn_delta m (fun l => fsum (map (fun x => nth j (feat s x) f0 * nth l (feat s x) f0 * dot dim (nth j B vzero) (nth l B vzero))%of (t_x a))) j Hj). apply fsumn_ext. intros l Hl.
        unfold delta. destruct (Nat.eqb_spec j l) as [->|Ne]; [ring|]. rewrite fsum_map_mulr, Dc by auto. ring.
      + apply fsum_map_ext. intros x _. unfold approx. fold m. rewrite (dot_fsumn dim m _ (fun l i => nth l (feat s x) f0 * nth l B vzero i)%of).
        rewrite fsumn_swap. apply fsumn_ext. intros l Hl. rewrite dot_scale, dot_sym, (dot_fsumn dim m _ (fun j i => nth j (feat s x) f0 * nth j B vzero i)%of), <- fsumn_mul.
        apply fsumn_ext. intros j Hj. rewrite dot_scale, (dot_sym dim (nth l B vzero)). ring.
  Qed.

  (** ** C483: the number of columns *)
  Theorem C483_output_dim : forall out a s x, train (i_new out) a = (s, IOk tt) -> 2 <= length (t_x a) -> odim_ out <> 0 -> odim_ out <= dim + i_num s -> (scale_m = ScQR -> i_num s <= dim) ->
    exists y, execute s x = IOk y /\ length y = odim_ out.
  Proof.
    intros out a s x H N O Hd Hk. destruct (batch_shape out a s H N O) as (p & xm & Ep & Po & _ & Lv & _ & _ & Ex & _ & _ & Lk & Lf & Ll & Eg). rewrite (exec_form out a s x p xm H Ep Po Lv Ex Eg).
    destruct (batch_parts out a s H) as [Sc (g0 & g1 & p0 & p1 & k & xm' & _ & _ & _ & _ & _ & _ & _ & _ & _ & _ & _ & _ & _ & _ & _ & _ & _ & Rq & _)].
    assert (S : exists sc, scaled scale_m true (i_R s) (i_magn s) (feat s x) = Some sc /\ length sc = i_num s).
    { unfold scaled. destruct scale_m; [| | | |contradiction]; try (eexists; split; [reflexivity|]; unfold times; now rewrite mapi_len).
      destruct (Rq eq_refl) as [ER _]. destruct (qr (snd (i_lr s))) as [Q R] eqn:Eq. eexists. split; [reflexivity|]. unfold dotT. rewrite map_length, ER. cbn [snd].
      destruct (qr_ok _ _ _ ltac:(rewrite Ll; auto) Eq) as (_ & LR & _). lia. }
    destruct S as (sc & -> & Ls). eexists. split; [reflexivity|]. rewrite app_length, map_length. lia.
  Qed.
  (** sensitivity_based: a slow feature without any coefficient in the regression always gives zero, and the inverse divides by zero *)
  Theorem C484_zero : forall out a s x j, scale_m = ScSens -> train (i_new out) a = (s, IOk tt) -> 2 <= length (t_x a) -> odim_ out <> 0 -> j < i_num s -> i_magn s j = f0 ->
    exists y, execute s x = IOk y /\ nth j y f0 = f0.
  Proof.
    intros out a s x j Sq H N O Hj Z. destruct (batch_shape out a s H N O) as (p & xm & Ep & Po & _ & Lv & _ & _ & Ex & _ & _ & Lk & Lf & Ll & Eg). rewrite (exec_form out a s x p xm H Ep Po Lv Ex Eg).
    unfold scaled. rewrite Sq. eexists. split; [reflexivity|]. rewrite app_nth1 by (unfold times; rewrite mapi_len, Lf; exact Hj). unfold times. rewrite mapi_nth by (rewrite Lf; exact Hj). rewrite Z. ring.
  Qed.
  (** the factors are positive exactly if the coefficients do not vanish *)
  Theorem C484_factor : forall out a s j, scale_m = ScSens -> train (i_new out) a = (s, IOk tt) -> (i_magn s j = f0 <-> forall i, i < dim -> nth j (snd (i_lr s)) vzero i = f0).
  Proof.
    intros out a s j Sq H. destruct (batch_parts out a s H) as [Sc (g0 & g1 & p0 & p1 & k & xm' & _ & _ & _ & _ & _ & _ & _ & _ & _ & _ & _ & _ & _ & _ & _ & _ & _ & _ & Mg & _)]. specialize (Mg Sq j).
    set (v := nth j (snd (i_lr s)) vzero) in *. pose proof (sqrt_ok (dot dim v v) (dot_sq dim v)) as E. rewrite <- Mg in E. split.
    - intros Z. rewrite Z in E. assert (D : dot dim v v = f0) by (rewrite <- E; ring). intros i Hi. unfold dot, fsumn in D. apply (fsum_map_eq0 (seq 0 dim) (fun i => v i * v i)%of) with (x := i) in D; [|intros; apply fsq|apply in_seq; lia].
      now apply fsq0.
    - intros Z. assert (D : dot dim v v = f0) by (unfold dot; apply fsumn_zero; intros i Hi; rewrite Z by exact Hi; ring). rewrite D in E. now apply fsq0.
  Qed.
End Batch.

(** C480: training succeeds only with the documented methods; sensitivity_based and QR_decomposition need reconstruct_with_sfa=True *)
Theorem C480_methods : forall (K : ofield) dim exp_ pre_class maxlen sc d recon v argsort vunl solver eigh svd_ sqrt_ lr_fit qr pinv out (a : @targs K) s,
  i_train dim exp_ pre_class maxlen sc d recon v argsort vunl solver eigh svd_ sqrt_ lr_fit qr pinv (i_new out) a = (s, IOk tt) ->
  sc <> ScOther /\ (recon = false -> sc = ScNone \/ sc = ScData).
Proof.
  intros K dim exp_ pre_class maxlen sc d recon v argsort vunl solver eigh svd_ sqrt_ lr_fit qr pinv out a s H. destruct recon.
  - split; [exact (proj1 (batch_parts dim exp_ pre_class maxlen sc d v argsort vunl solver eigh svd_ sqrt_ lr_fit qr pinv out a s H))|discriminate].
  - unfold i_train in H. cbn [i_training i_new negb] in H. destruct (length (t_x a) =? 0); [discriminate|]. destruct sc; cbn in H; try discriminate; (split; [discriminate|auto]).
Qed.

(** * Examples over the rationals *)
Section Examples.
  Local Open Scope Q_scope.
  (** regression on uncorrelated features of mean 0 and variance 1 *)
  Definition lrQ (n : list (list Qc_of)) (x : list (@vec Qc_of)) : option (@vec Qc_of * list (@vec Qc_of)) :=
    Some ((fun i => fsum (map (fun r : @vec Qc_of => r i) x) / fn (length x))%of,
          map (fun k (i : nat) => (fsum (map (fun p : list Qc_of * @vec Qc_of => nth k (fst p) f0 * snd p i) (combine n x)) / fn (length x))%of : Qc_of) (seq 0 (length (hd [] n)))).
  (** one unit vector, and any number of columns in one dimension *)
  Definition qrQ (B : list (@vec Qc_of)) : list (@vec Qc_of) * list (@vec Qc_of) := (B, [fun _ => Q2Qc 1]).
  Definition qr1 (B : list (@vec Qc_of)) : list (@vec Qc_of) * list (@vec Qc_of) := ([fun _ => Q2Qc 1], [fun k => nth k B vzero 0%nat]).
  Notation tr2 sc out d := (@i_train Qc_of 2 None None None sc d true false argsortQ vQ SG eighQ (fun _ _ => None) ig_sqrt lrQ qrQ (fun r => r) (i_new out) (ig_call ig_x)).
  Definition b_node (sc : scaling) (out : option nat) : @igsfa Qc_of * ires unit := tr2 sc out (@DFloat Qc_of (Q2Qc 2)).
  Definition b_out (sc : scaling) (r : @igsfa Qc_of * ires unit) (x : @vec Qc_of) : option (list Q) :=
    match r with (s, IOk _) => match @i_execute Qc_of 2 None sc true s x with IOk y => Some (map this (y : list Qc)) | _ => None end | _ => None end.
  Definition b_inv (sc : scaling) (r : @igsfa Qc_of * ires unit) (y : list Q) : option (list Q) :=
    match r with (s, IOk _) => match @i_inverse Qc_of 2 sc true s (map Q2Qc y) with IOk x => Some [this (x 0%nat); this (x 1%nat)] | _ => None end | _ => None end.
  (** C480: the node is finished after one call *)
  Example ex_C480 : snd (b_node ScQR (Some 2%nat)) = IOk tt /\
    snd (@i_train Qc_of 2 None None None ScQR (@DFloat Qc_of (Q2Qc 2)) true false argsortQ vQ SG eighQ (fun _ _ => None) ig_sqrt lrQ qrQ (fun r => r) (fst (b_node ScQR (Some 2%nat))) (ig_call ig_x)) = IErr IFinished /\
    snd (b_node ScOther (Some 2%nat)) = IErr IValue.
  Proof. repeat split; vm_compute; reflexivity. Qed.
  (** C481: slow feature and one component: the component of the residual in the direction of the second coordinate; three outputs: exact *)
  Example ex_C481 : i_num (fst (b_node ScQR (Some 2%nat))) = 1%nat /\ b_out ScQR (b_node ScQR (Some 2%nat)) (p2 5 7) = Some [2; 7] /\ b_inv ScQR (b_node ScQR (Some 2%nat)) [2; 7] = Some [5; 7] /\
    b_out ScSens (b_node ScSens (Some 3%nat)) (p2 5 7) = Some [2; 7; 0] /\ b_inv ScSens (b_node ScSens (Some 3%nat)) [2; 7; 0] = Some [5; 7] /\
    b_out ScQR (b_node ScQR (Some 1%nat)) (p2 5 7) = Some [2] /\ b_inv ScQR (b_node ScQR (Some 1%nat)) [2] = Some [5; 0].
  Proof. repeat split; vm_compute; reflexivity. Qed.
  (** C482: everything with two outputs, half of it with one *)
  Example ex_C482 : option_map this (i_evar (fst (b_node ScQR (Some 2%nat))) : option Qc) = Some 1 /\ option_map this (i_evar (fst (b_node ScQR (Some 1%nat))) : option Qc) = Some (1 # 2).
  Proof. split; vm_compute; reflexivity. Qed.
  (** ** C483 (refuted): more slow features than inputs *)
  Definition one4 : list (@vec Qc_of) := [p2 0 0; p2 1 0; p2 2 0; p2 3 0].
  Definition corner (x : @vec Qc_of) : @vec Qc_of :=
    if Qc_eq_dec (x 0%nat) (Q2Qc (-3 # 2)) then p2 1 1 else if Qc_eq_dec (x 0%nat) (Q2Qc (-1 # 2)) then p2 1 (-1) else if Qc_eq_dec (x 0%nat) (Q2Qc (1 # 2)) then p2 (-1) (-1) else p2 (-1) 1.
  Definition sqrt01 (c : Qc) : Qc := if Qc_eq_dec c (Q2Qc 0) then Q2Qc 0 else ig_sqrt c.
  Definition eigh1 (_ : option (Z * Z)) (_ : nat) (c : @mtx Qc_of) : option (list Qc * list (@vec Qc_of)) := Some ([c 0 0]%nat, [fun i => delta 0 i]).
  Definition c_node (sc : scaling) : @igsfa Qc_of * ires unit := @i_train Qc_of 1 (Some (2%nat, corner)) None None sc (@DFloat Qc_of (Q2Qc 3)) true false argsortQ vQ SG eigh1 (fun _ _ => None) sqrt01 lrQ qr1 (fun r => r) (i_new (Some 2%nat)) (ig_call one4).
  Definition c_out (sc : scaling) (r : @igsfa Qc_of * ires unit) (x : @vec Qc_of) : option (list Q) :=
    match r with (s, IOk _) => match @i_execute Qc_of 1 (Some (2%nat, corner)) sc true s x with IOk y => Some (map this (y : list Qc)) | _ => None end | _ => None end.
  Definition c_inv (sc : scaling) (r : @igsfa Qc_of * ires unit) (y : list Q) : option Q :=
    match r with (s, IOk _) => match @i_inverse Qc_of 1 sc true s (map Q2Qc y) with IOk x => Some (this (x 0%nat)) | _ => None end | _ => None end.
  Theorem C483_refuted : exists r : @igsfa Qc_of * ires unit, r = c_node ScQR /\ snd r = IOk tt /\ i_out (fst r) = Some 2%nat /\ i_num (fst r) = 2%nat /\ c_out ScQR r (p2 0 0) = Some [-1] /\ c_inv ScQR r [-1] = None.
  Proof. eexists. split; [reflexivity|]. repeat split; vm_compute; reflexivity. Qed.
  (** C484 (refuted): the second slow feature is lost: its column is zero, whatever the input *)
  Theorem C484_refuted : exists r : @igsfa Qc_of * ires unit, r = c_node ScSens /\ snd r = IOk tt /\ i_num (fst r) = 2%nat /\ option_map this (nth_error (map (i_magn (fst r)) [1%nat]) 0 : option Qc) = Some 0 /\
    c_out ScSens r (p2 0 0) = Some [1; 0] /\ c_out ScSens r (p2 1 0) = Some [1; 0] /\ c_out ScSens r (p2 3 0) = Some [-1; 0].
  Proof. eexists. split; [reflexivity|]. repeat split; vm_compute; reflexivity. Qed.
  Example ex_C483 : option_map (@length Q) (b_out ScQR (b_node ScQR (Some 2%nat)) (p2 5 7)) = Some 2%nat.
  Proof. vm_compute. reflexivity. Qed.
End Examples.
