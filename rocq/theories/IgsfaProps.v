(** Properties of iGSFANode: multiple training *)
From Coq Require Import List Arith ZArith QArith Qcanon Bool Lia Field Permutation Sorted.
From Verif Require Import OField LinAlg PCAModel PCAProofs PCAProps SymeigModel SFAModel SFAProps GSFAModel GSFAProps IgsfaModel.
Import ListNotations.
Open Scope nat_scope.

Section Igsfa.
  Context {K : ofield}.
  Add Field Kf : (fth K).
  Notation vec := (vec (K := K)). Notation mtx := (mtx (K := K)). Notation gsfa := (gsfa (K := K)). Notation pca := (pca (K := K)). Notation targs := (targs (K := K)).
  Notation igsfa := (igsfa (K := K)).
  Variable dim : nat.
  Variable exp_ : option (nat * (vec -> vec)).
  Variable pre_class : option (targs -> option (vec -> vec)).
  Variable maxlen : option nat.
  Variable scale_m : scaling.
  Variable delta_ : threshold (K := K).
  Variable recon verbose : bool.
  Variable argsort : list nat -> list nat.
  Variables vunl : K.
  Variable solver : option (Z * Z) -> mtx -> mtx -> solres K vec.
  Variable eigh : option (Z * Z) -> nat -> mtx -> option (list K * list vec).
  Variable svd_ : nat -> mtx -> option (list K * list vec).
  Variable sqrt_ : K -> K.
  Variable lr_fit : list (list K) -> list vec -> option (vec * list vec).
  Variable qr : list vec -> list vec * list vec.
  Variable pinv : list vec -> list vec.
  Notation train := (i_train dim exp_ pre_class maxlen scale_m delta_ recon verbose argsort vunl solver eigh svd_ sqrt_ lr_fit qr pinv).
  Notation trains := (i_trains dim exp_ pre_class maxlen scale_m delta_ recon verbose argsort vunl solver eigh svd_ sqrt_ lr_fit qr pinv).
  Notation stop := (i_stop dim exp_ maxlen scale_m delta_ recon solver eigh svd_ sqrt_).
  Notation execute := (i_execute dim exp_ scale_m recon).
  Notation inverse := (i_inverse dim scale_m recon).
  Notation edim := (edim dim exp_). Notation expand_ := (expand_ exp_).
  Notation multi := (multi scale_m recon).
  Notation pcstop := (pca_stop eigh svd_ sqrt_ dim false false f0 f0 None false).

  (** ** the nodes inside, trained separately *)
  (** output_dim of the node *)
  Definition odim_ (out : option nat) : nat := match out with None => dim | Some o => o end.
  (** the upper bound of the slow part which is known before the training *)
  Definition bound (o : nat) : nat := sfa_dim dim exp_ maxlen delta_ o.
  (** a GSFANode trained with the expanded data of all calls *)
  Definition slow_node (out : option nat) (calls : list targs) (g : gsfa) : Prop := exists g0,
    g_trains argsort vunl (gsfa_new (Some (bound (odim_ out))) BNone [MNoneG] verbose) (map (fun a => mkT (map expand_ (t_x a)) (t_bs a) (t_modes a) (t_nw a) (t_ew a)) calls) = (g0, GOk tt) /\
    g_stop edim solver g0 false None = (g, GOk tt).
  (** a PCANode trained with the data of all calls *)
  Definition pca_node (out : option nat) (calls : list targs) (p : pca) : Prop := exists p0,
    pca_trains (pca_new (OInt (odim_ out))) (map t_x calls) = (p0, POk tt) /\ pcstop p0 = (p, POk tt).
  (** a new node, trained with the calls, stop_training returned *)
  Definition itrained (out : option nat) (calls : list targs) (s : igsfa) : Prop := exists s0, trains (i_new out) calls = (s0, IOk tt) /\ stop s0 = (s, IOk tt).

  Lemma gstop_ok g0 g : g_stop edim solver g0 false None = (g, GOk tt) -> g_verbose g0 = false /\ g_training g = false /\
    exists k rng fc A B, solver rng A B = SolOk fc (g_d g) (g_sf g) /\ length (g_bias g) = length (g_sf g) /\ g_out g = Some k /\ k <= edim /\ (forall k0, g_out g0 = Some k0 -> k = k0 /\ rng = Some (1, Z.of_nat k0)%Z).
  Proof.
    unfold g_stop. destruct (g_training g0 && negb (g_started g0)); [discriminate|]. destruct (negb (g_training g0)); [discriminate|]. destruct (g_c g0) as [c|]; [|discriminate].
    destruct (cdc_fix c) as [[[cm avg] dm]|e]; [|discriminate]. cbn [g_mid g_verbose g_out g_bs g_modes g_c g_avg g_bias g_started g_training]. destruct (g_verbose g0) eqn:V; [discriminate|].
    destruct (match g_out g0 with Some k => if k <=? edim then Some (k, Some (1%Z, Z.of_nat k)) else None | None => Some (edim, None) end) as [[o rng]|] eqn:Q; [|discriminate].
    destruct (solver rng dm cm) as [fc d u| |] eqn:So; [|discriminate|discriminate]. destruct (length d =? 0); [discriminate|]. destruct (existsb _ d); [discriminate|].
    intros [= <-]. cbn [g_training g_d g_sf g_bias g_out]. split; [reflexivity|]. split; [reflexivity|]. exists o, rng, fc, dm, cm. split; [exact So|]. split; [apply map_length|]. split; [reflexivity|].
    destruct (g_out g0) as [k0|]; [destruct (Nat.leb_spec k0 edim); [|discriminate]|]; injection Q as <- <-; (split; [lia|]); intros k1 [= ->]. auto.
  Qed.

  Definition ready (s : igsfa) (o : nat) : Prop :=
    i_out s = Some o /\ i_xmean s = Some vzero /\ i_pre s = None /\ i_smean s = vconst f0 /\ i_sstd s = vconst f1 /\ i_started s = true /\ i_training s = true.
  Lemma multi_step s a s' : multi = true -> i_training s = true -> i_pre s = None -> (i_xmean s = None \/ i_xmean s = Some vzero) -> train s a = (s', IOk tt) ->
    ready s' (odim_ (i_out s)) /\ exists g p,
      g_train argsort vunl (match i_sfa s with None => gsfa_new (Some (bound (odim_ (i_out s)))) BNone [MNoneG] verbose | Some g => g end)
        (mkT (map expand_ (t_x a)) (t_bs a) (t_modes a) (t_nw a) (t_ew a)) = (g, GOk tt) /\ i_sfa s' = Some g /\
      pca_train (match i_pca s with None => pca_new (OInt (odim_ (i_out s))) | Some p => p end) (t_x a) = (p, POk tt) /\ i_pca s' = Some p.
  Proof.
    intros M T P X H. unfold i_train in H. rewrite T, M in H. cbn [negb] in H. destruct (length (t_x a) =? 0); [discriminate|].
    unfold i_multi in H. destruct (match pre_class with Some _ => _ | None => _ end); [discriminate|].
    unfold begin_ in H. cbn [i_sfa i_pca i_xmean i_out set_mean out_ i_pre i_lr i_R i_Rpinv i_magn i_num i_evar i_started i_training] in H.
    change (match i_out s with None => dim | Some o => o end) with (odim_ (i_out s)) in H.
    unfold sfa_train, sfa_new, with_x in H. change (sfa_dim dim exp_ maxlen delta_ (odim_ (i_out s))) with (bound (odim_ (i_out s))) in H.
    destruct (g_train argsort vunl _ _) as [g [[]|e]] eqn:G; [|discriminate]. destruct (pca_train _ _) as [p [[]|e]] eqn:Pc; [|discriminate].
    injection H as <-. split.
    - unfold ready, set_nodes. cbn [i_out i_xmean i_pre i_smean i_sstd i_started i_training]. repeat split; try assumption. now destruct X as [-> | ->].
    - exists g, p. cbn [set_nodes i_sfa i_pca]. auto.
  Qed.
  Lemma multi_steps : multi = true -> forall calls s g p o s', ready s o -> i_sfa s = Some g -> i_pca s = Some p -> trains s calls = (s', IOk tt) ->
    ready s' o /\ exists g' p', i_sfa s' = Some g' /\ i_pca s' = Some p' /\
      g_trains argsort vunl g (map (fun a => mkT (map expand_ (t_x a)) (t_bs a) (t_modes a) (t_nw a) (t_ew a)) calls) = (g', GOk tt) /\ pca_trains p (map t_x calls) = (p', POk tt).
  Proof.
    intros M. induction calls as [|a calls IH]; intros s g p o s' Rd G P H; [injection H as <-; split; [exact Rd|]; exists g, p; auto|].
    cbn [i_trains] in H. destruct (train s a) as [s1 [[]|e]] eqn:T; [|discriminate]. pose proof Rd as (R1 & R2 & R3 & R4 & R5 & R6 & R7).
    destruct (multi_step s a s1 M R7 R3 (or_intror R2) T) as [Rd1 [g1 [p1 (X1 & X2 & X3 & X4)]]]. rewrite R1 in Rd1. cbn in Rd1. rewrite G in X1. rewrite P in X3.
    destruct (IH s1 g1 p1 o s' Rd1 X2 X4 H) as [Rd' [g' [p' (Y1 & Y2 & Y3 & Y4)]]]. split; [exact Rd'|]. exists g', p'. cbn [map g_trains pca_trains]. now rewrite X1, X3.
  Qed.
  Lemma trains_parts out calls s : multi = true -> calls <> [] -> trains (i_new out) calls = (s, IOk tt) ->
    ready s (odim_ out) /\ exists g p, i_sfa s = Some g /\ i_pca s = Some p /\
      g_trains argsort vunl (gsfa_new (Some (bound (odim_ out))) BNone [MNoneG] verbose) (map (fun a => mkT (map expand_ (t_x a)) (t_bs a) (t_modes a) (t_nw a) (t_ew a)) calls) = (g, GOk tt) /\
      pca_trains (pca_new (OInt (odim_ out))) (map t_x calls) = (p, POk tt).
  Proof.
    intros M N H. destruct calls as [|a calls]; [contradiction|]. cbn [i_trains] in H. destruct (train (i_new out) a) as [s1 [[]|e]] eqn:T; [|discriminate].
    destruct (multi_step (i_new out) a s1 M eq_refl eq_refl (or_introl eq_refl) T) as [Rd1 [g1 [p1 (X1 & X2 & X3 & X4)]]]. cbn [i_out i_new i_sfa i_pca] in *.
    destruct (multi_steps M calls s1 g1 p1 _ s Rd1 X2 X4 H) as [Rd' [g' [p' (Y1 & Y2 & Y3 & Y4)]]]. split; [exact Rd'|]. exists g', p'. cbn [map g_trains pca_trains]. now rewrite X1, X3.
  Qed.
  Lemma stop_parts out calls s : multi = true -> calls <> [] -> itrained out calls s -> exists g p k magn,
    slow_node out calls g /\ pca_node out calls p /\ slow_size maxlen delta_ (g_d g) (odim_ out) = IOk k /\ k <= odim_ out /\ i_num s = k /\ i_out s = Some (odim_ out) /\ i_xmean s = Some vzero /\ i_pre s = None /\
    i_smean s = vconst f0 /\ i_sstd s = vconst f1 /\ i_magn s = vconst magn /\ i_training s = false /\
    (exists g', i_sfa s = Some g' /\ g_sf g' = firstn k (g_sf g) /\ g_bias g' = firstn k (g_bias g)) /\ g_out g <> None /\ (forall o, g_out g = Some o -> k <= o) /\
    (exists p', i_pca s = Some p' /\ reduce_pca p (odim_ out - k) = IOk p' /\ p_v p' = firstn (odim_ out - k) (p_v p) /\ p_d p' = firstn (odim_ out - k) (p_d p) /\ p_avg p' = p_avg p /\ p_out p' = Some (odim_ out - k) /\
      i_evar s = p_expl p' /\ magn = match scale_m with ScData => if 0 <? length (p_d p') then sqrt_ (median (p_d p')) else f1 | _ => f1 end).
  Proof.
    intros M N [s0 [T S]]. destruct (trains_parts out calls s0 M N T) as [(R1 & R2 & R3 & R4 & R5 & R6 & R7) [g0 [p0 (G & P & X & Y)]]].
    unfold i_stop in S. rewrite R6, R7, M, G, P in S. cbn [negb andb] in S. unfold sfa_stop, pc_stop in S.
    destruct (g_stop _ _ g0 false None) as [g [[]|e]] eqn:Gs; [|discriminate]. destruct (pca_stop _ _ _ _ _ _ _ _ _ _ p0) as [p [[]|e]] eqn:Ps; [|discriminate].
    unfold out_ in S. rewrite R1 in S. destruct (slow_size maxlen delta_ (g_d g) (odim_ out)) as [k|e] eqn:K1; [|discriminate].
    unfold reduce_sfa in S. destruct (g_out g) as [og|] eqn:Og; [|discriminate]. destruct (Nat.ltb_spec og k) as [|Lk]; [discriminate|].
    destruct (p_out p) as [po|] eqn:Op; [|discriminate]. destruct (Nat.ltb_spec po (odim_ out - k)) as [|Lp]; [discriminate|].
    destruct (reduce_pca p (odim_ out - k)) as [p'|e] eqn:Rp; [|discriminate]. injection S as <-.
    assert (Kb : k <= odim_ out).
    { revert K1. unfold slow_size. destruct delta_; [intros [= <-]; lia| |discriminate]. destruct (_ <? n); [discriminate|]. destruct (match maxlen with Some _ => _ | None => _ end); [discriminate|]. intros [= <-]. lia. }
    exists g, p, k. eexists. split; [exists g0; auto|]. split; [exists p0; auto|]. split; [exact K1|]. split; [exact Kb|]. unfold set_num, set_nodes. cbn [i_num i_out i_xmean i_pre i_smean i_sstd i_magn i_training i_sfa i_pca i_evar].
    repeat (split; [first [reflexivity|assumption]|]). split; [eexists; split; [reflexivity|]; cbn [g_sf g_bias]; auto|]. split; [congruence|]. split; [intros o Ho; assert (og = o) by congruence; subst o; exact Lk|].
    exists p'. split; [reflexivity|]. split; [exact Rp|]. unfold reduce_pca in Rp. rewrite Op in Rp. destruct (po <? odim_ out - k); [discriminate|]. injection Rp as <-. cbn [p_v p_d p_avg p_out]. repeat split; reflexivity.
  Qed.

  Lemma firstn_map_ {A B} (f : A -> B) n l : firstn n (map f l) = map f (firstn n l). Proof. apply firstn_map. Qed.
  Lemma combine_firstn_ {A B} n : forall (l : list A) (r : list B), combine (firstn n l) (firstn n r) = firstn n (combine l r).
  Proof. intros. symmetry. apply combine_firstn. Qed.
  Lemma mapi_from_map {A B} (f : nat -> A -> B) (h : A -> B) (l : list A) : (forall k a, f k a = h a) -> forall i, mapi_from f i l = map h l.
  Proof. intros E. induction l as [|a l IH]; intros i; [reflexivity|]. cbn. now rewrite E, IH. Qed.
  Lemma normalize_id (y : list K) : normalize (vconst f0) (vconst f1) y = y.
  Proof. unfold normalize, mapi. rewrite (mapi_from_map _ (fun a => a)); [apply map_id|]. intros. unfold vconst. field. apply f10. Qed.
  Lemma pyupto {A} (l : list A) : upto None l = l. Proof. reflexivity. Qed.

  (** C472: multiple training: the output is the first features of a GSFANode trained on the expanded data of all calls, scaled, followed by the first components of a PCANode
      trained on the data of all calls *)
  Definition respects : Prop := forall x y : vec, (forall i, x i = y i) -> forall i, expand_ x i = expand_ y i.
  Theorem C472_parts : forall out calls s, multi = true -> respects -> calls <> [] -> itrained out calls s -> exists g p magn,
    slow_node out calls g /\ pca_node out calls p /\ (scale_m = ScNone -> magn = f1) /\
    forall x, execute s x = IOk (map (fun a => a * magn)%of (firstn (i_num s) (g_execute edim g None (expand_ x))) ++ firstn (odim_ out - i_num s) (pca_execute dim p None x)).
  Proof.
    intros out calls s M Rs N T. destruct (stop_parts out calls s M N T) as (g & p & k & magn & G & P & Sz & Kb & En & Eo & Ex & Ep & Em & Ed & Eg & _ & (g' & G' & G1 & G2) & _ & _ & (p' & P' & _ & P1 & _ & P3 & P4 & _ & P5)).
    exists g, p, magn. split; [exact G|]. split; [exact P|]. split; [intros E; rewrite E in P5; exact P5|]. intros x. unfold i_execute. rewrite G', P', Ex, Ep, Em, Ed, Eg, normalize_id, P4, En.
    assert (S1 : sfa_execute dim exp_ g' (expand_ (sub x vzero)) = firstn k (g_execute edim g None (expand_ x))).
    { unfold sfa_execute, g_execute. cbn [upto]. rewrite G1, G2, combine_firstn_, firstn_map_. apply map_ext. intros [v b]. cbn [fst snd]. f_equal. apply dot_ext; [|reflexivity].
      intros i Hi. apply Rs. intros j. unfold sub, vzero. ring. }
    assert (S2 : pc_execute dim p' (sub (sub x vzero) vzero) = firstn (odim_ out - k) (pca_execute dim p None x)).
    { unfold pc_execute, pca_execute. rewrite P1, P3, firstn_map_. apply map_ext. intros v. apply dot_ext; [|reflexivity]. intros i Hi. unfold sub, vzero. ring. }
    assert (Mu : recon = false /\ (scale_m = ScNone \/ scale_m = ScData)).
    { revert M. unfold IgsfaModel.multi. destruct recon; [discriminate|]. destruct scale_m; try discriminate; auto. }
    destruct Mu as [-> Sc]. rewrite S1, S2. assert (Sc2 : scaled scale_m false (i_R s) (vconst magn) (firstn k (g_execute edim g None (expand_ x))) = Some (map (fun a => a * magn)%of (firstn k (g_execute edim g None (expand_ x))))).
    { unfold scaled. destruct Sc as [-> | ->]; f_equal; unfold times, mapi; apply mapi_from_map; reflexivity. }
    rewrite Sc2. f_equal. f_equal. destruct (Nat.ltb_spec 0 (odim_ out - k)) as [L|L]; [reflexivity|]. replace (odim_ out - k) with 0 by lia. reflexivity.
  Qed.

  (** ** C473: the number of slow features *)
  Theorem C473_float : forall out calls s q, multi = true -> delta_ = DFloat q -> calls <> [] -> itrained out calls s -> exists g, slow_node out calls g /\
    i_num s = Nat.min (length (filter (fun a => negb (fltb q a)) (g_d g))) (odim_ out).
  Proof.
    intros out calls s q M D N T. destruct (stop_parts out calls s M N T) as (g & p & k & magn & G & P & Sz & Kb & En & _). exists g. split; [exact G|]. rewrite En. unfold slow_size in Sz. rewrite D in Sz. now injection Sz.
  Qed.
  Theorem C473_int : forall out calls s n, multi = true -> delta_ = DInt n -> calls <> [] -> itrained out calls s -> i_num s = n /\ n <= odim_ out /\ n <= edim /\ (forall m, maxlen = Some m -> n <= m).
  Proof.
    intros out calls s n M D N T. destruct (stop_parts out calls s M N T) as (g & p & k & magn & [g0 [G0 G]] & P & Sz & Kb & En & _ & _ & _ & _ & _ & _ & _ & _ & No & Le & _).
    unfold slow_size in Sz. rewrite D in Sz. destruct (Nat.ltb_spec (odim_ out) n) as [|L1]; [discriminate|]. destruct (match maxlen with Some m => m <? n | None => false end) eqn:L2; [discriminate|]. injection Sz as Sz.
    assert (k = n) by lia. subst k. split; [congruence|]. split; [exact L1|]. split.
    - destruct (gstop_ok g0 g G) as (_ & _ & k0 & rng & fc & A & B & _ & _ & Og & Lk & _). specialize (Le _ Og). lia.
    - intros m Em. rewrite Em in L2. apply Nat.ltb_ge in L2. exact L2.
  Qed.

  (** ** C474: the number of columns of the output *)
  Hypothesis eigh_ok : forall rng c D V, symmetric dim c -> psd dim c -> eigh rng dim c = Some (D, V) -> eigensystem dim c D V.
  Hypothesis edim_pos : 1 <= edim.
  Hypothesis maxlen_pos : forall m, maxlen = Some m -> 1 <= m.
  Hypothesis solver_len : forall k A B fc d u, 1 <= k <= edim -> solver (Some (1, Z.of_nat k)%Z) A B = SolOk fc d u -> length d = k /\ length u = k.
  Let no_svd : forall c D V, symmetric dim c -> psd dim c -> (fun _ _ => None : option (list K * list vec)) dim c = Some (D, V) -> eigensystem dim c D V.
  Proof. discriminate. Qed.
  Lemma pca_no_svd p : pcstop p = pca_stop eigh (fun _ _ => None) sqrt_ dim false false f0 f0 None false p.
  Proof. reflexivity. Qed.
  Lemma pca_shape out calls p : pca_node out calls p -> 2 <= length (concat (map t_x calls)) -> odim_ out <> 0 ->
    length (p_v p) = Nat.min (odim_ out) dim /\ length (p_d p) = Nat.min (odim_ out) dim /\ p_out p = Some (odim_ out) /\ orthonormal dim (p_v p) /\
    p_expl p = (if fltb f0 (p_vartot p) || fltb (p_vartot p) f0 then Some (fsum (p_d p) / p_vartot p)%of else None) /\ (forall i, p_avg p i = dmean (concat (map t_x calls)) i) /\
    p_vartot p = fsumn dim (fun i => dcov (concat (map t_x calls)) i i).
  Proof.
    intros [p0 [T S0]] N O. rewrite pca_no_svd in S0.
    destruct (PCAProps.trained_ok eigh (fun _ _ => None) sqrt_ dim false false f0 f0 None false eigh_ok no_svd (fun E => False_ind _ (Bool.diff_false_true E)) (OInt (odim_ out)) (map t_x calls) p (ex_intro _ p0 (conj T S0)) N)
      as (C & D & V & md & mv & raw & HC & _ & ES & L1 & L2 & Hd & Hr & Av & Vt & Wh & E1 & E2 & Ex & _ & Ou & _).
    specialize (E1 eq_refl). specialize (E2 eq_refl eq_refl). specialize (Ou eq_refl eq_refl). cbn in Ou. subst mv raw. unfold asked, kept in E2. destruct (Nat.eqb_spec (odim_ out) 0); [contradiction|].
    assert (Em : md = Nat.min (odim_ out) dim) by (destruct (Nat.leb_spec (odim_ out) dim); cbn [andb] in E2; lia). destruct ES as (LD & LV & ON & _).
    rewrite Wh, Hd. rewrite !firstn_length, !rev_length, LD, LV. split; [lia|]. split; [lia|]. split; [exact Ou|]. split; [|split; [rewrite Ex, Hd; reflexivity|]].
    - intros i j Hi Hj. rewrite firstn_length, rev_length, LV in Hi, Hj. rewrite !nth_firstn_lt by lia. rewrite !rev_nth by (rewrite LV; lia). rewrite ON by (rewrite LV; lia).
      unfold delta. destruct (Nat.eqb_spec (length V - S i) (length V - S j)), (Nat.eqb_spec i j); try reflexivity; lia.
    - split; [exact Av|]. rewrite Vt. apply fsumn_ext. intros. apply HC.
  Qed.
  Lemma trains_out l : forall s g0 : gsfa, g_trains argsort vunl s l = (g0, GOk tt) -> g_out g0 = g_out s /\ g_verbose g0 = g_verbose s.
  Proof.
    induction l as [|a l IH]; intros s g0 H; [now injection H as <-|]. cbn [g_trains] in H. destruct (g_train argsort vunl s a) as [s1 [[]|e]] eqn:E; [|discriminate]. destruct (IH s1 g0 H) as [-> ->].
    unfold g_train in E. destruct (negb (g_training s)); [discriminate|]. destruct (length (t_x a) =? 0); [discriminate|]. destruct (g_c s); [|discriminate]. destruct (up_modes _ _ _ _ _ _ _) as [c1 r]. now injection E as <- _.
  Qed.
  Lemma slow_out out calls g : slow_node out calls g -> g_out g = Some (bound (odim_ out)) /\ g_training g = false /\ verbose = false.
  Proof.
    intros [g0 [T G]]. destruct (trains_out _ _ _ T) as [O V]. destruct (gstop_ok g0 g G) as (V2 & Tr & k0 & rng & fc & A & B & _ & _ & Og & _ & Rg). destruct (Rg _ O) as [-> _]. split; [exact Og|]. split; [exact Tr|]. rewrite <- V2, V. reflexivity.
  Qed.
  Lemma bound_pos o : o <> 0 -> 1 <= bound o.
  Proof. intros H. pose proof edim_pos. unfold bound, sfa_dim. destruct maxlen as [m|]; [pose proof (maxlen_pos m eq_refl)|]; destruct delta_; lia. Qed.
  Lemma slow_shape out calls g : odim_ out <> 0 -> slow_node out calls g -> length (g_sf g) = bound (odim_ out) /\ length (g_bias g) = bound (odim_ out) /\ length (g_d g) = bound (odim_ out).
  Proof.
    intros Ho [g0 [T G]]. destruct (trains_out _ _ _ T) as [O _]. destruct (gstop_ok g0 g G) as (_ & _ & k0 & rng & fc & A & B & So & Lb & _ & Le & Rg). destruct (Rg _ O) as [-> ->].
    destruct (solver_len _ _ _ _ _ _ (conj (bound_pos _ Ho) Le) So) as [Ld Lu]. rewrite Lb. auto.
  Qed.
  (** the factor of 'data_dependent': the square root of the median of the variances of the components which are kept *)
  Theorem C472_factor : forall out calls s, multi = true -> calls <> [] -> scale_m = ScData -> itrained out calls s -> exists p, pca_node out calls p /\
    forall k, i_magn s k = match firstn (odim_ out - i_num s) (p_d p) with [] => f1 | d => sqrt_ (median d) end.
  Proof.
    intros out calls s M N Sc T. destruct (stop_parts out calls s M N T) as (g & p & k & magn & G & P & Sz & Kb & En & Eo & Ex & Ep & Em & Ed & Eg & _ & _ & _ & _ & (p' & _ & _ & _ & P3 & _ & _ & _ & P5)).
    exists p. split; [exact P|]. intros i. rewrite Eg, P5, Sc, P3, En. unfold vconst. destruct (firstn (odim_ out - k) (p_d p)); reflexivity.
  Qed.
  (** the median: the middle of the sorted values, or the mean of the two in the middle *)
  Lemma insert_perm (a : K) l : Permutation (insert_ a l) (a :: l).
  Proof. induction l as [|b l IH]; [reflexivity|]. cbn [insert_]. destruct (fltb b a); [|reflexivity]. rewrite IH. apply perm_swap. Qed.
  Lemma insert_sorted (a : K) l : StronglySorted fle l -> StronglySorted fle (insert_ a l).
  Proof.
    induction l as [|b l IH]; intros S; [repeat constructor|]. cbn [insert_]. inversion S as [|? ? S1 F1]; subst. destruct (fltb b a) eqn:E.
    - constructor; [auto|]. apply (Permutation_Forall (Permutation_sym (insert_perm a l))). constructor; [|exact F1]. unfold fle. destruct (fltb a b) eqn:E'; [|reflexivity]. pose proof (flt_trans K _ _ _ E E') as X. now rewrite flt_irrefl in X.
    - constructor; [exact S|]. constructor; [exact E|]. eapply Forall_impl; [|exact F1]. intros c Hc. unfold fle in *. destruct (fltb c a) eqn:E'; [|reflexivity].
      destruct (fltb a b) eqn:E2; [pose proof (flt_trans K _ _ _ E' E2); congruence|]. rewrite (flt_total K _ _ E2 E) in E'. congruence.
  Qed.
  Lemma sorted_unique_ (l : list K) : forall r, StronglySorted fle l -> StronglySorted fle r -> Permutation l r -> l = r.
  Proof.
    induction l as [|x l IH]; intros r S1 S2 P; [symmetry; now apply Permutation_nil|]. destruct r as [|y r]; [apply Permutation_sym, Permutation_nil in P; discriminate|]. inversion S1 as [|? ? A1 A2]; subst. inversion S2 as [|? ? B1 B2]; subst.
    assert (E : x = y).
    { assert (I : In x (y :: r)) by (eapply Permutation_in; [exact P|left; reflexivity]). assert (J : In y (x :: l)) by (eapply Permutation_in; [apply Permutation_sym, P|left; reflexivity]). destruct I as [->|I]; [reflexivity|]. destruct J as [->|J]; [reflexivity|].
      rewrite Forall_forall in A2, B2. apply (flt_total K); [exact (B2 x I)|exact (A2 y J)]. }
    subst y. f_equal. apply IH; [assumption..|]. now apply Permutation_cons_inv in P.
  Qed.
  Theorem C472_median : forall (l r : list K), Permutation l r -> StronglySorted fle r ->
    median l = if Nat.even (length r) then ((nth (length r / 2 - 1) r f0 + nth (length r / 2) r f0) / (f1 + f1))%of else nth (length r / 2) r f0.
  Proof.
    intros l r P S. unfold median. assert (E : sort_ l = r).
    { apply sorted_unique_; [| exact S|].
      - unfold sort_. clear. induction l as [|a l IH]; [constructor|]. now apply insert_sorted.
      - transitivity l; [|exact P]. unfold sort_. clear. induction l as [|a l IH]; [constructor|]. cbn [fold_right]. rewrite insert_perm. now apply perm_skip. }
    rewrite E, (Permutation_length P). reflexivity.
  Qed.
  (** the dimension of the GSFANode inside *)
  Theorem C473_dim : forall o, match delta_ with
    | DInt n => bound o = Nat.max 1 (Nat.min (Nat.min edim o) (match maxlen with Some m => Nat.min m n | None => n end))
    | _ => bound o = Nat.min (Nat.min edim o) (match maxlen with Some m => m | None => o end)
    end.
  Proof. intros o. unfold bound, sfa_dim. destruct delta_; destruct maxlen; lia. Qed.
  Lemma slow_bounded out calls s : odim_ out <> 0 -> multi = true -> calls <> [] -> itrained out calls s -> i_num s <= bound (odim_ out).
  Proof.
    intros Ho M N T. destruct (stop_parts out calls s M N T) as (g & p & k & magn & G & P & Sz & Kb & En & _). destruct (slow_shape out calls g Ho G) as (_ & _ & Ld). rewrite En.
    revert Sz. unfold slow_size. destruct delta_ as [q|n|] eqn:D; [| |discriminate].
    - intros [= <-]. rewrite <- Ld. pose proof (filter_length_le (fun a => negb (fltb q a)) (g_d g)). lia.
    - intros _. destruct (C473_int out calls s n M D N T) as (E1 & E2 & E3 & E4). rewrite <- En, E1. unfold bound, sfa_dim. rewrite D. destruct maxlen as [m|]; [specialize (E4 m eq_refl)|]; lia.
  Qed.
  (** max_length_slow_part is respected; there are no more slow features than outputs or expanded dimensions *)
  Theorem C473_bounded : forall out calls s, odim_ out <> 0 -> multi = true -> calls <> [] -> itrained out calls s ->
    i_num s <= odim_ out /\ i_num s <= edim /\ (forall m, maxlen = Some m -> i_num s <= m).
  Proof.
    intros out calls s Ho M N T. pose proof (slow_bounded out calls s Ho M N T) as B. destruct (stop_parts out calls s M N T) as (g & p & k & magn & G & P & Sz & Kb & En & _). rewrite En in *. split; [exact Kb|].
    unfold bound, sfa_dim in B. pose proof edim_pos. split; [|intros m Em; pose proof (maxlen_pos m Em); rewrite Em in B]; destruct delta_; try (destruct maxlen); lia.
  Qed.
  Theorem C474_width : forall out calls s x, multi = true -> respects -> 2 <= length (concat (map t_x calls)) -> odim_ out <> 0 -> itrained out calls s ->
    exists y, execute s x = IOk y /\ length y = i_num s + Nat.min (odim_ out - i_num s) dim.
  Proof.
    intros out calls s x M Rs N O T. assert (Nc : calls <> []) by (intros ->; cbn in N; lia).
    destruct (C472_parts out calls s M Rs Nc T) as (g & p & magn & G & P & _ & E). rewrite E. eexists. split; [reflexivity|].
    destruct (slow_shape out calls g O G) as (L1 & L2 & _). destruct (pca_shape out calls p P N O) as (L3 & _). pose proof (slow_bounded out calls s O M Nc T) as B.
    rewrite app_length, map_length, !firstn_length. unfold g_execute, pca_execute. cbn [upto]. rewrite !map_length, combine_length, L1, L2, L3. lia.
  Qed.
  (** if output_dim is not too large, there are output_dim columns *)
  Theorem C474_output_dim : forall out calls s x, multi = true -> respects -> 2 <= length (concat (map t_x calls)) -> odim_ out <> 0 -> itrained out calls s -> odim_ out <= dim + i_num s ->
    exists y, execute s x = IOk y /\ length y = odim_ out.
  Proof.
    intros out calls s x M Rs N O T L. destruct (C474_width out calls s x M Rs N O T) as [y [E Ly]]. exists y. split; [exact E|]. assert (Nc : calls <> []) by (intros ->; cbn in N; lia).
    destruct (C473_bounded out calls s O M Nc T) as [B _]. lia.
  Qed.
  (** otherwise there are fewer, training does not notice it, and the inverse refuses the output *)
  Theorem C474_short : forall out calls s x, multi = true -> respects -> 2 <= length (concat (map t_x calls)) -> odim_ out <> 0 -> itrained out calls s -> dim + i_num s < odim_ out ->
    exists y, execute s x = IOk y /\ length y = dim + i_num s /\ inverse s y = IErr INode.
  Proof.
    intros out calls s x M Rs N O T L. destruct (C474_width out calls s x M Rs N O T) as [y [E Ly]]. exists y. split; [exact E|]. assert (Nc : calls <> []) by (intros ->; cbn in N; lia). split; [lia|].
    destruct (stop_parts out calls s M Nc T) as (g & p & k & magn & _ & _ & _ & _ & _ & Eo & _). unfold i_inverse, out_. rewrite Eo. destruct (Nat.eqb_spec (length y) (odim_ out)); [lia|reflexivity].
  Qed.

  (** ** C475, C476: the inverse of multiple training is the inverse of the PCA part *)
  Theorem C475_pca : forall out calls s y, multi = true -> 2 <= length (concat (map t_x calls)) -> odim_ out <> 0 -> itrained out calls s -> length y = odim_ out -> odim_ out <= dim + i_num s -> i_num s < odim_ out ->
    exists p z, pca_node out calls p /\ pca_inverse dim false p (skipn (i_num s) y) None = POk z /\ exists r, inverse s y = IOk r /\ forall i, r i = z i.
  Proof.
    intros out calls s y M N O T Ly Hd Hn. assert (Nc : calls <> []) by (intros ->; cbn in N; lia).
    destruct (stop_parts out calls s M Nc T) as (g & p & k & magn & G & P & Sz & Kb & En & Eo & Ex & Ep & Em & Ed & Eg & _ & _ & _ & _ & (p' & P' & _ & P1 & P2 & P3 & P4 & _)). rewrite En in *.
    destruct (pca_shape out calls p P N O) as (L3 & L4 & Po & _).
    assert (Mu : recon = false) by (revert M; unfold IgsfaModel.multi; now destruct recon).
    unfold i_inverse, out_. rewrite Mu, Eo, Ly, Nat.eqb_refl, P', Ex, P4, En. cbn [negb]. destruct (Nat.ltb_spec (odim_ out - k + k) (odim_ out)); [lia|].
    replace (odim_ out - k + k - odim_ out) with 0 by lia. cbn [repeat]. rewrite app_nil_r.
    assert (Ls : length (skipn k y) = odim_ out - k) by (rewrite skipn_length; lia). destruct (Nat.ltb_spec 0 (length (skipn k y))) as [L|L]; [|lia].
    assert (Iz : exists z, pca_inverse dim false p (skipn k y) None = POk z /\ pc_inverse dim p' (skipn k y) = POk z).
    { unfold pc_inverse, pca_inverse, recmatrix. rewrite P4, Po, Ls. destruct (Nat.eqb_spec (odim_ out - k) 0); [lia|]. cbn [orb].
      destruct (Nat.ltb_spec (odim_ out - k) (odim_ out - k)); [lia|]. destruct (Nat.ltb_spec (odim_ out) (odim_ out - k)); [lia|]. rewrite P1, firstn_firstn, Nat.min_id, P3.
      rewrite firstn_length, L3. destruct (Nat.eqb_spec (Nat.min (odim_ out - k) (Nat.min (odim_ out) dim)) (odim_ out - k)); [|lia]. eauto. }
    destruct Iz as [z [I1 I2]]. exists p, z. split; [exact P|]. split; [exact I1|]. rewrite I2.
    replace (match scale_m with ScQR => Some (over (i_magn s) (firstn k y)) | _ => Some (over (i_magn s) (firstn k y)) end) with (Some (over (i_magn s) (firstn k y))) by (destruct scale_m; reflexivity).
    eexists. split; [reflexivity|]. intros i. cbv beta. unfold vzero. ring.
  Qed.
  (** so the slow features are ignored *)
  Theorem C475_ignored : forall out calls s y y', multi = true -> calls <> [] -> itrained out calls s -> length y = odim_ out -> length y' = odim_ out -> skipn (i_num s) y = skipn (i_num s) y' -> inverse s y = inverse s y'.
  Proof.
    intros out calls s y y' M N T Ly Ly' E.
    destruct (stop_parts out calls s M N T) as (g & p & k & magn & G & P & Sz & Kb & En & Eo & Ex & Ep & Em & Ed & Eg & _ & _ & _ & _ & (p' & P' & _ & P1 & P2 & P3 & P4 & _)). rewrite En in *.
    assert (Mu : recon = false) by (revert M; unfold IgsfaModel.multi; now destruct recon).
    unfold i_inverse, out_. rewrite Mu, Eo, Ly, Ly', Nat.eqb_refl, P', Ex, P4, En. cbn [negb]. destruct (Nat.ltb_spec (odim_ out - k + k) (odim_ out)); [lia|].
    replace (odim_ out - k + k - odim_ out) with 0 by lia. cbn [repeat]. rewrite !app_nil_r, E. destruct (if 0 <? length (skipn k y') then pc_inverse dim p' (skipn k y') else POk vzero); [|reflexivity]. destruct scale_m; reflexivity.
  Qed.
  (** without components of the PCA, everything is mapped to zero, not to the mean *)
  Theorem C476_zero : forall out calls s y, multi = true -> calls <> [] -> itrained out calls s -> length y = odim_ out -> i_num s = odim_ out -> exists r, inverse s y = IOk r /\ forall i, r i = f0.
  Proof.
    intros out calls s y M N T Ly Hn.
    destruct (stop_parts out calls s M N T) as (g & p & k & magn & G & P & Sz & Kb & En & Eo & Ex & Ep & Em & Ed & Eg & _ & _ & _ & _ & (p' & P' & _ & P1 & P2 & P3 & P4 & _)). rewrite En in *. subst k.
    assert (Mu : recon = false) by (revert M; unfold IgsfaModel.multi; now destruct recon).
    unfold i_inverse, out_. rewrite Mu, Eo, Ly, Nat.eqb_refl, P', Ex, P4, En. cbn [negb]. rewrite Nat.sub_diag. cbn [plus]. rewrite Nat.ltb_irrefl, Nat.sub_diag. cbn [repeat]. rewrite app_nil_r.
    rewrite skipn_all2 by lia. cbn [length Nat.ltb Nat.leb].
    replace (match scale_m with ScQR => Some (over (i_magn s) (firstn (odim_ out) y)) | _ => Some (over (i_magn s) (firstn (odim_ out) y)) end) with (Some (over (i_magn s) (firstn (odim_ out) y))) by (destruct scale_m; reflexivity).
    eexists. split; [reflexivity|]. intros i. cbv beta. unfold vzero. ring.
  Qed.
  (** with a component, the zero vector is mapped to the mean of the data *)
  Theorem C476_mean : forall out calls s, multi = true -> 2 <= length (concat (map t_x calls)) -> odim_ out <> 0 -> itrained out calls s -> odim_ out <= dim + i_num s -> i_num s < odim_ out ->
    exists r, inverse s (repeat f0 (odim_ out)) = IOk r /\ forall i, r i = dmean (concat (map t_x calls)) i.
  Proof.
    intros out calls s M N O T Hd Hn. destruct (C475_pca out calls s (repeat f0 (odim_ out)) M N O T (repeat_length _ _) Hd Hn) as (p & z & P & Iz & r & Ir & Er). exists r. split; [exact Ir|]. intros i. rewrite Er.
    destruct (pca_shape out calls p P N O) as (_ & _ & _ & _ & _ & Av & _). rewrite <- Av. unfold pca_inverse in Iz. destruct (_ || _); [discriminate|]. destruct (_ <? _); [discriminate|]. unfold recmatrix in Iz.
    destruct (length _ =? length _); [|discriminate]. injection Iz as <-. assert (Z : forall l : list K, (forall a, In a l -> a = f0) -> forall w : list vec, (fsum (map (fun q : K * vec => fst q * snd q i)%of (combine l w)) = f0)).
    { intros l H w. apply fsum_map_zero. intros [a v] Hin. apply in_combine_l in Hin. cbn [fst snd]. rewrite (H a Hin). ring. }
    rewrite Z; [ring|]. intros a Ha. rewrite <- (firstn_skipn (i_num s) (repeat f0 (odim_ out))) in *. apply (repeat_spec (odim_ out) f0). rewrite <- (firstn_skipn (i_num s) (repeat f0 (odim_ out))). apply in_or_app. right.
    rewrite (firstn_skipn (i_num s) (repeat f0 (odim_ out))) in Ha. exact Ha.
  Qed.

  (** ** C477: evar is the part of the variance of the data which the kept components explain *)
  Theorem C477_evar : forall out calls s, multi = true -> 2 <= length (concat (map t_x calls)) -> odim_ out <> 0 -> itrained out calls s -> exists p, pca_node out calls p /\
    (fsum (p_d p) <> f0 -> p_vartot p <> f0 -> i_evar s = Some (fsum (firstn (odim_ out - i_num s) (p_d p)) / fsumn dim (fun i => dcov (concat (map t_x calls)) i i))%of).
  Proof.
    intros out calls s M N O T. assert (Nc : calls <> []) by (intros ->; cbn in N; lia).
    destruct (stop_parts out calls s M Nc T) as (g & p & k & magn & G & P & Sz & Kb & En & Eo & Ex & Ep & Em & Ed & Eg & _ & _ & _ & _ & (p' & P' & Rp & P1 & P2 & P3 & P4 & P5 & _)). rewrite En in *.
    destruct (pca_shape out calls p P N O) as (L3 & L4 & Po & _ & Xp & _ & Vt). exists p. split; [exact P|]. intros S0 V0.
    assert (Nz : forall a : K, a <> f0 -> (fltb f0 a || fltb a f0) = true). { intros a Ha. destruct (fltb f0 a) eqn:A; [reflexivity|]. destruct (fltb a f0) eqn:B; [reflexivity|]. exfalso. apply Ha. now apply (flt_total K). }
    rewrite P5. unfold reduce_pca in Rp. rewrite Po in Rp. destruct (odim_ out <? odim_ out - k); [discriminate|]. injection Rp as <-. cbn [p_expl]. rewrite Xp, (Nz _ V0), (Nz _ S0), <- Vt. f_equal. now field.
  Qed.

  (** ** C478: a threshold which is too large *)
  Theorem C478_threshold : forall out calls s g p n, multi = true -> calls <> [] -> trains (i_new out) calls = (s, IOk tt) -> slow_node out calls g -> pca_node out calls p ->
    delta_ = DInt n -> (odim_ out < n \/ bound (odim_ out) < n) -> exists s', stop s = (s', IErr IValue) /\ i_training s' = true /\ stop s' = (s', IErr (ISfa GFinished)) /\ (forall a, length (t_x a) <> 0 -> exists s2 e, train s' a = (s2, IErr e)).
  Proof.
    intros out calls s g p n M N T Gn [p0 [P0 P]] D L. destruct (slow_out out calls g Gn) as (Og & _). destruct Gn as [g0 [G0 G]].
    destruct (trains_parts out calls s M N T) as [(R1 & R2 & R3 & R4 & R5 & R6 & R7) [g1 [p1 (X1 & X2 & X3 & X4)]]]. rewrite X3 in G0. injection G0 as <-. rewrite X4 in P0. injection P0 as <-.
    assert (Gt : g_training g = false) by apply (gstop_ok _ _ G).
    assert (Fin : forall s', i_started s' = true -> i_training s' = true -> i_sfa s' = Some g -> i_pca s' = Some p -> i_pre s' = None -> stop s' = (s', IErr (ISfa GFinished)) /\ forall a, length (t_x a) <> 0 -> exists s2 e, train s' a = (s2, IErr e)).
    { intros s' S1 S2 S3 S4 S5. split.
      - unfold i_stop. rewrite S1, S2, M, S3. cbn [negb andb]. unfold sfa_stop, g_stop. rewrite Gt. cbn [negb andb]. f_equal. destruct s'. cbn in *. unfold set_nodes. cbn. now subst.
      - intros a Ha. unfold i_train. rewrite S2, M. cbn [negb]. destruct (Nat.eqb_spec (length (t_x a)) 0); [contradiction|]. unfold i_multi. destruct (match pre_class with Some _ => _ | None => _ end); [eauto|].
        unfold begin_. cbn [i_sfa]. rewrite S3. unfold sfa_train, g_train. rewrite Gt. cbn [negb]. eauto. }
    assert (St : exists s', stop s = (s', IErr IValue) /\ i_started s' = true /\ i_training s' = true /\ i_sfa s' = Some g /\ i_pca s' = Some p /\ i_pre s' = None).
    { unfold i_stop. rewrite R6, R7, M, X1, X2. cbn [negb andb]. unfold sfa_stop, pc_stop. rewrite G, P. unfold out_. rewrite R1.
      unfold slow_size. rewrite D. destruct (Nat.ltb_spec (odim_ out) n) as [L1|L1]; [eexists; split; [reflexivity|]; auto|].
      destruct (match maxlen with Some m => m <? n | None => false end); [eexists; split; [reflexivity|]; auto|].
      unfold reduce_sfa. rewrite Og. destruct (Nat.ltb_spec (bound (odim_ out)) (Nat.min n (odim_ out))); [|lia]. eexists; split; [reflexivity|]; auto. }
    destruct St as (s' & St & S1 & S2 & S3 & S4 & S5). exists s'. split; [exact St|]. split; [exact S2|]. now apply Fin.
  Qed.
  (** verbose=True always fails: GSFANode reads an attribute that does not exist *)
  Theorem C479_verbose : forall out calls s, multi = true -> verbose = true -> calls <> [] -> itrained out calls s -> False.
  Proof.
    intros out calls s M V N T. destruct (stop_parts out calls s M N T) as (g & p & k & magn & G & _). destruct (slow_out out calls g G) as (_ & _ & E). congruence.
  Qed.
End Igsfa.

(** * Examples over the rationals *)
Section Examples.
  Local Open Scope Q_scope.
  Notation V := (@vec Qc_of). Notation T := (@targs Qc_of).
  Definition ig_sqrt (a : Qc) : Qc := if Qc_eq_dec a (Q2Qc (16 # 12)) then Q2Qc (7 # 6) else 1%Qc.
  (** a square around (3, 0), in two calls *)
  Definition ig_x : list (@vec Qc_of) := [p2 4 1; p2 4 (-1); p2 2 (-1); p2 2 1].
  Definition ig_call (x : list (@vec Qc_of)) : @targs Qc_of := mkT x BNone None None None.
  Definition ig_calls : list (@targs Qc_of) := [ig_call ig_x; ig_call ig_x].
  Notation tr d sc v out := (@i_trains Qc_of 2 None None None sc d false v argsortQ vQ SG eighQ (fun _ _ => None) ig_sqrt (fun _ _ => None) (fun b => ([], b)) (fun r => r) (i_new out) ig_calls).
  Notation st d sc s := (@i_stop Qc_of 2 None None sc d false SG eighQ (fun _ _ => None) ig_sqrt s).
  Definition ig_node (d : @threshold Qc_of) (sc : scaling) (v : bool) (out : option nat) : @igsfa Qc_of * ires unit := match tr d sc v out with (s, IOk _) => st d sc s | r => r end.
  Definition ig_out (sc : scaling) (r : @igsfa Qc_of * ires unit) (x : @vec Qc_of) : option (list Q) :=
    match r with (s, IOk _) => match @i_execute Qc_of 2 None sc false s x with IOk y => Some (map this (y : list Qc)) | _ => None end | _ => None end.
  Definition ig_inv (sc : scaling) (r : @igsfa Qc_of * ires unit) (y : list Q) : option (list Q) :=
    match r with (s, IOk _) => match @i_inverse Qc_of 2 sc false s (map Q2Qc y) with IOk x => Some [this (x 0%nat); this (x 1%nat)] | _ => None end | _ => None end.
  Notation num r := (i_num (fst r)).
  (** C472, C473: one slow feature (the first coordinate) and one component (the second one) *)
  Example ex_C472 : num (ig_node (@DFloat Qc_of (Q2Qc 2)) ScNone false (Some 2%nat)) = 1%nat /\ ig_out ScNone (ig_node (@DFloat Qc_of (Q2Qc 2)) ScNone false (Some 2%nat)) (p2 5 7) = Some [2; 7].
  Proof. split; vm_compute; reflexivity. Qed.
  Example ex_C473 : num (ig_node (@DFloat Qc_of (Q2Qc 3)) ScNone false (Some 2%nat)) = 2%nat /\ num (ig_node (@DFloat Qc_of (Q2Qc 3)) ScNone false (Some 1%nat)) = 1%nat /\ num (ig_node (@DInt Qc_of 1) ScNone false None) = 1%nat /\
    num (ig_node (@DFloat Qc_of (Q2Qc 1)) ScNone false None) = 0%nat.
  Proof. repeat split; vm_compute; reflexivity. Qed.
  (** C474: three columns instead of four *)
  Example ex_C474 : snd (ig_node (@DFloat Qc_of (Q2Qc 2)) ScNone false (Some 4%nat)) = IOk tt /\ ig_out ScNone (ig_node (@DFloat Qc_of (Q2Qc 2)) ScNone false (Some 4%nat)) (p2 5 7) = Some [2; 7; 2].
  Proof. split; vm_compute; reflexivity. Qed.
  Theorem C474_refuted : exists r : @igsfa Qc_of * ires unit, r = ig_node (@DFloat Qc_of (Q2Qc 2)) ScNone false (Some 4%nat) /\ snd r = IOk tt /\ i_out (fst r) = Some 4%nat /\ ig_out ScNone r (p2 5 7) = Some [2; 7; 2] /\
    ig_inv ScNone r [2; 7; 2] = None.
  Proof. eexists. split; [reflexivity|]. repeat split; vm_compute; reflexivity. Qed.
  (** C475: the first feature does not matter *)
  Example ex_C475 : ig_inv ScNone (ig_node (@DFloat Qc_of (Q2Qc 2)) ScNone false (Some 2%nat)) [2; 7] = Some [3; 7] /\ ig_inv ScNone (ig_node (@DFloat Qc_of (Q2Qc 2)) ScNone false (Some 2%nat)) [100; 7] = Some [3; 7].
  Proof. split; vm_compute; reflexivity. Qed.
  Theorem C475_refuted : exists r : @igsfa Qc_of * ires unit, r = ig_node (@DFloat Qc_of (Q2Qc 2)) ScNone false (Some 2%nat) /\ snd r = IOk tt /\ ig_out ScNone r (p2 5 7) = Some [2; 7] /\ ig_out ScNone r (p2 103 7) = Some [100; 7] /\
    ig_inv ScNone r [2; 7] = Some [3; 7] /\ ig_inv ScNone r [100; 7] = Some [3; 7].
  Proof. eexists. split; [reflexivity|]. repeat split; vm_compute; reflexivity. Qed.
  (** C476: two slow features: everything is mapped to zero, although the mean of the data is (3, 0); one slow feature and one component: the mean *)
  Example ex_C476 : ig_inv ScNone (ig_node (@DFloat Qc_of (Q2Qc 2)) ScNone false (Some 2%nat)) [0; 0] = Some [3; 0].
  Proof. vm_compute. reflexivity. Qed.
  Theorem C476_refuted : exists r : @igsfa Qc_of * ires unit, r = ig_node (@DFloat Qc_of (Q2Qc 3)) ScNone false (Some 2%nat) /\ snd r = IOk tt /\ num r = 2%nat /\ ig_out ScNone r (p2 3 0) = Some [0; 0] /\ ig_inv ScNone r [0; 0] = Some [0; 0].
  Proof. eexists. split; [reflexivity|]. repeat split; vm_compute; reflexivity. Qed.
  (** C477: half of the variance *)
  Example ex_C477 : option_map this (i_evar (fst (ig_node (@DFloat Qc_of (Q2Qc 2)) ScNone false (Some 2%nat))) : option Qc) = Some (1 # 2).
  Proof. vm_compute. reflexivity. Qed.
  (** C478 *)
  Example ex_C478 : snd (ig_node (@DInt Qc_of 3) ScNone false (Some 2%nat)) = IErr IValue /\ snd (st (@DInt Qc_of 3) ScNone (fst (ig_node (@DInt Qc_of 3) ScNone false (Some 2%nat)))) = IErr (ISfa GFinished).
  Proof. split; vm_compute; reflexivity. Qed.
  (** C479 *)
  Theorem C479_refuted : exists calls : list (@targs Qc_of), calls = ig_calls /\ snd (tr (@DFloat Qc_of (Q2Qc 2)) ScNone true (Some 2%nat)) = IOk tt /\ snd (ig_node (@DFloat Qc_of (Q2Qc 2)) ScNone true (Some 2%nat)) = IErr (ISfa GAttribute) /\
    snd (ig_node (@DFloat Qc_of (Q2Qc 2)) ScNone false (Some 2%nat)) = IOk tt.
  Proof. eexists. split; [reflexivity|]. repeat split; vm_compute; reflexivity. Qed.
End Examples.
