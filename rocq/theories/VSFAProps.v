(** Properties of VartimeSFANode: C248-C254.

    The calls of train are described by blocks (VSFAProofs.v): samples without interruption and the increments between them.  [pts] are the samples with the weights of the
    trapezoid rule, [dpts] the pairs of consecutive samples (with the increment between them) with the weights of the trapezoid rule for the derivatives. *)
From Coq Require Import List Arith ZArith QArith Qcanon Bool Lia Sorting.Sorted Field Permutation FunctionalExtensionality.
From Verif Require Import OField LinAlg PCAModel PCAProofs GenEig SymeigModel SymeigProofs SymeigProps SFAModel SFAProps VSFAModel VSFAProofs.
Import ListNotations.
Open Scope nat_scope.

Section Props.
  Context {K : ofield}.
  Add Field Kvp : (fth K).
  Notation vec := (vec (K := K)). Notation mtx := (mtx (K := K)). Notation sfa := (sfa (K := K)). Notation vacc := (vacc (K := K)). Notation vsfa := (vsfa (K := K)). Notation incr := (incr (K := K)).
  Notation vcall := (vcall (K := K)). Notation block := (list vec * list K)%type. Notation step := (vec * vec * K)%type.
  Context (dim : nat) (solver : method -> option (Z * Z) -> nat -> mtx -> mtx -> solres K vec) (junk : vec).
  Notation trains := (v_trains junk). Notation stop := (v_stop dim solver).
  Definition vtrained (out : option nat) (m : method) (calls : list vcall) (s : vsfa) : Prop :=
    exists s0, trains (vsfa_new out m) calls = (s0, VOk tt) /\ stop s0 false = (s, SOk tt).
  (** component k of the output *)
  Definition vout (s : vsfa) (k : nat) (x : vec) : K := nth k (v_execute dim s None x) f0.
  (** the mean of f over the recorded time by the trapezoid rule *)
  Definition tmean {T} (L : list (K * T)) (f : T -> K) : K := (wsum L f / wlen L)%of.
  Definition vavg (bs : list block) : vec := fun i => tmean (pts bs) (fun v => v i).
  Definition vcm (bs : list block) : mtx := fun i j => (tmean (pts bs) (fun v => v i * v j) - wsum (pts bs) (fun v => v i) * wsum (pts bs) (fun v => v j) / (wlen (pts bs) * wlen (pts bs)))%of.
  Definition vdm (bs : list block) : mtx := fun i j => tmean (dpts bs) (fun s => der s i * der s j)%of.

  Lemma trains_repr calls : forall (s : vsfa) bs, repr s bs -> Forall (ok_call false) calls -> bs <> [] -> s_started (v_sfa s) = true ->
    exists s0, trains s calls = (s0, VOk tt) /\ repr s0 (fold_left absorb calls bs) /\ v_sfa s0 = v_sfa s.
  Proof.
    induction calls as [|[[x dt] td] r IH]; intros s bs R OK NB ST; [exists s; repeat split; apply R|].
    pose proof (train_step junk s bs (x, dt, td) R) as H. destruct bs as [|b bs]; [now destruct NB|]. destruct (H (Forall_inv OK)) as (s' & E & R' & F & _). cbn [v_trains]. rewrite E. cbn [fold_left].
    destruct (IH s' (absorb (b :: bs) (x, dt, td)) R') as (s0 & E0 & R0 & F0); [now apply Forall_inv_tail in OK|cbn [absorb]; destruct b, td; discriminate|rewrite F; reflexivity|].
    exists s0. split; [exact E0|]. split; [exact R0|]. rewrite F0, F. unfold set_started. rewrite <- ST. now destruct (v_sfa s).
  Qed.
  Lemma trains_ok out m calls : ok_calls calls -> calls <> [] -> exists s0, trains (vsfa_new out m) calls = (s0, VOk tt) /\ repr s0 (blocks calls) /\ v_sfa s0 = set_started (v_sfa (vsfa_new out m)) /\ blocks calls <> [].
  Proof.
    destruct calls as [|[[x dt] td] r]; [now intros|]. intros (O1 & O2) _.
    destruct (train_step junk (vsfa_new out m) [] (x, dt, td) (repr_new out m) O1) as (s' & E & R' & F & _).
    destruct (trains_repr r s' (absorb [] (x, dt, td)) R' O2) as (s0 & E0 & R0 & F0); [discriminate|rewrite F; reflexivity|].
    exists s0. cbn [v_trains]. rewrite E. split; [exact E0|]. split; [exact R0|]. split; [congruence|].
    unfold blocks. cbn [fold_left]. assert (G : forall r bs, bs <> [] -> fold_left (@absorb K) r bs <> []).
    { clear. induction r as [|[[x dt] td] r IH]; intros bs N; [exact N|]. cbn [fold_left]. apply IH. destruct bs as [|[X D] bs]; cbn; [discriminate|]. destruct td; discriminate. }
    apply G. discriminate.
  Qed.
  Definition fixed (out : option nat) (m : method) (bs : list block) : sfa := mkS out true None (Some (vcm bs, vdm bs)) (vavg bs) 0 0 m 0 [] [] [] true true.
  Lemma stop_char out m bs s0 debug : repr s0 bs -> v_sfa s0 = set_started (v_sfa (vsfa_new out m)) ->
    stop s0 debug = (mkVS (fst (sfa_stop dim solver (fixed out m bs) debug)) None (wlen (pts bs)) (wlen (dpts bs)) (v_tchunk s0) (v_xlast s0), snd (sfa_stop dim solver (fixed out m bs) debug)).
  Proof.
    intros (TR & OB & c & dc & EA & (C1 & C2 & C3) & (D1 & D2 & D3) & _) E. unfold v_stop. rewrite TR, E, EA. cbn [set_started vsfa_new v_sfa s_started s_training negb andb s_out s_incl s_tlen s_dtlen s_meth s_dfc s_d s_sf s_bias].
    unfold vacc_fix. cbv beta iota zeta. cbn [v_sfa v_accs v_tlen v_dtlen v_tchunk v_xlast].
    assert (W : forall f, wsum (vpts bs) f = wsum (dpts bs) (fun s => f (der s))) by (intros f; now rewrite vpts_dpts, wsum_map).
    assert (D3' : w_t dc = wlen (dpts bs)) by (rewrite D3; unfold wlen; apply W).
    assert (E1 : (fun i j => w_m c i j / w_t c - w_s c i * w_s c j / (w_t c * w_t c))%of = vcm bs) by (extensionality i; extensionality j; unfold vcm, tmean; now rewrite C1, !C2, C3).
    assert (E2 : (fun i j => w_m dc i j / w_t dc)%of = vdm bs) by (extensionality i; extensionality j; unfold vdm, tmean; now rewrite D1, D3', W).
    assert (E3 : (fun i => w_s c i / w_t c)%of = vavg bs) by (extensionality i; unfold vavg, tmean; now rewrite C2, C3).
    rewrite E1, E2, E3, C3, D3'. fold (fixed out m bs). destruct (sfa_stop dim solver (fixed out m bs) debug) as [b r]. reflexivity.
  Qed.
  Lemma vtrained_char out m calls s : ok_calls calls -> calls <> [] -> vtrained out m calls s <->
    exists t x, snd (sfa_stop dim solver (fixed out m (blocks calls)) false) = SOk tt /\ s = mkVS (fst (sfa_stop dim solver (fixed out m (blocks calls)) false)) None (wlen (pts (blocks calls))) (wlen (dpts (blocks calls))) t x /\
      exists s0, trains (vsfa_new out m) calls = (s0, VOk tt) /\ t = v_tchunk s0 /\ x = v_xlast s0.
  Proof.
    intros OK NE. destruct (trains_ok out m calls OK NE) as (s0 & E & R & F & _). pose proof (stop_char out m (blocks calls) s0 false R F) as ST. split.
    - intros (s1 & E1 & E2). rewrite E in E1. injection E1 as <-. rewrite ST in E2. injection E2 as E3 E4. exists (v_tchunk s0), (v_xlast s0). split; [exact E4|]. split; [now symmetry|]. now exists s0.
    - intros (t & x & H1 & H2 & s1 & E1 & -> & ->). rewrite E in E1. injection E1 as <-. exists s0. split; [exact E|]. rewrite ST, H1, H2. reflexivity.
  Qed.
  (** two nodes with the same parameters *)
  Definition same_node (s s' : vsfa) : Prop := v_sfa s' = v_sfa s /\ v_tlen s' = v_tlen s /\ v_dtlen s' = v_dtlen s /\ v_accs s' = v_accs s.
  Lemma same_points out m calls calls' s : ok_calls calls -> calls <> [] -> ok_calls calls' -> calls' <> [] ->
    Permutation (pts (blocks calls)) (pts (blocks calls')) -> Permutation (dpts (blocks calls)) (dpts (blocks calls')) -> vtrained out m calls s -> exists s', vtrained out m calls' s' /\ same_node s s'.
  Proof.
    intros O1 N1 O2 N2 P1 P2 T. apply vtrained_char in T; [|assumption|assumption]. destruct T as (t & x & H1 & -> & _).
    assert (EF : fixed out m (blocks calls') = fixed out m (blocks calls)).
    { unfold fixed. f_equal; [f_equal; f_equal|].
      - extensionality i. extensionality j. unfold vcm, tmean, wlen. now rewrite !(wsum_perm _ _ _ P1).
      - extensionality i. extensionality j. unfold vdm, tmean, wlen. now rewrite !(wsum_perm _ _ _ P2).
      - extensionality i. unfold vavg, tmean, wlen. now rewrite !(wsum_perm _ _ _ P1). }
    destruct (trains_ok out m calls' O2 N2) as (s0 & E & _).
    exists (mkVS (fst (sfa_stop dim solver (fixed out m (blocks calls')) false)) None (wlen (pts (blocks calls'))) (wlen (dpts (blocks calls'))) (v_tchunk s0) (v_xlast s0)). split.
    - apply vtrained_char; [assumption|assumption|]. exists (v_tchunk s0), (v_xlast s0). split; [rewrite EF; exact H1|]. split; [reflexivity|]. now exists s0.
    - unfold same_node. cbn [v_sfa v_tlen v_dtlen v_accs]. rewrite EF. unfold wlen. rewrite !(wsum_perm _ _ _ P1), !(wsum_perm _ _ _ P2). repeat split.
  Qed.

  (** ** C248: connected chunks *)
  Definition data (c : vcall) : list vec := fst (fst c).
  Definition dts (c : vcall) : incr := snd (fst c).
  Definition dep (c : vcall) : bool := snd c.
  (** the whole sequence and the increments of the time: of the first call those between its samples, of every other call also the one before its first sample *)
  Definition whole (c : vcall) (r : list vcall) : block :=
    (data c ++ concat (map data r), incs (length (data c) - 1) (dts c) ++ concat (map (fun c => incs (length (data c)) (dts c)) r)).
  Lemma blocks_whole r : forall (X : list vec) (D : list K), Forall (fun c => dep c = true) r -> fold_left absorb r [(X, D)] = [(X ++ concat (map data r), D ++ concat (map (fun c => incs (length (data c)) (dts c)) r))].
  Proof.
    induction r as [|[[x dt] td] r IH]; intros X D F; [cbn; now rewrite !app_nil_r|]. pose proof (Forall_inv F) as T. cbn in T. subst td. cbn [fold_left absorb]. rewrite IH by (now apply Forall_inv_tail in F).
    cbn [map concat data dts fst snd]. now rewrite !app_assoc.
  Qed.
  Lemma incs_pos first c m : ok_call first c -> Forall (fun w => (0 < w)%of) (incs m (dts c)).
  Proof.
    destruct c as [[x dt] td]. intros (_ & H). cbn [dts fst snd]. destruct dt as [|q|l]; cbn [incs].
    - apply Forall_forall. intros w I. apply repeat_spec in I. subst. apply f01.
    - apply Forall_forall. intros w I. apply repeat_spec in I. now subst.
    - destruct H as (H & _). rewrite <- (firstn_skipn (length l - m) l) in H. now apply Forall_app in H.
  Qed.
  Theorem C248_connected : forall out m c r td s, ok_calls (c :: r) -> Forall (fun c => dep c = true) r -> vtrained out m (c :: r) s ->
    let (X, D) := whole c r in length D = length X - 1 /\ exists s', vtrained out m [(X, IArr D, td)] s' /\ same_node s s'.
  Proof.
    intros out m c r td s OK F T. destruct (whole c r) as [X D] eqn:EW.
    assert (B1 : blocks (c :: r) = [(X, D)]) by (rewrite <- EW; unfold blocks, whole; destruct c as [[x dt] t]; cbn [fold_left absorb]; now apply blocks_whole).
    pose proof OK as (O1 & O2). assert (LX : 2 <= length (data c)) by (destruct c as [[x dt] t]; apply O1).
    assert (LD : length D = length X - 1 /\ 2 <= length X /\ Forall (fun w => (0 < w)%of) D).
    { injection EW as <- <-. rewrite !app_length. assert (G : length (concat (map data r)) = length (concat (map (fun c => incs (length (data c)) (dts c)) r)) /\ Forall (fun w => (0 < w)%of) (concat (map (fun c => incs (length (data c)) (dts c)) r))).
      { clear -O2 F. induction r as [|a r IH]; [split; constructor|]. cbn [map concat]. rewrite !app_length. destruct IH as (I1 & I2); [exact (Forall_inv_tail F)|exact (Forall_inv_tail O2)|]. rewrite I1. split.
        - f_equal. pose proof (Forall_inv O2) as O. pose proof (Forall_inv F) as D. destruct a as [[x dt] t]. cbn [data dts dep fst snd] in *. subst t. symmetry. apply (incs_len false true x); [exact O|lia].
        - apply Forall_app. split; [apply (incs_pos false), (Forall_inv O2)|exact I2]. }
      destruct G as (G1 & G2). rewrite <- G1. split; [|split; [lia|apply Forall_app; split; [now apply (incs_pos true)|exact G2]]].
      destruct c as [[x dt] t]. cbn [data dts fst snd] in *. rewrite (incs_len true t x) by (exact O1 || lia). lia. }
    destruct LD as (LD & LX2 & PD). split; [exact LD|].
    assert (OK' : ok_calls [(X, IArr D, td)]) by (split; [|constructor]; split; [exact LX2|]; split; [exact PD|left; exact LD]).
    assert (B2 : blocks [(X, IArr D, td)] = [(X, D)]) by (unfold blocks; cbn [fold_left absorb incs]; rewrite LD, Nat.sub_diag; reflexivity).
    apply (same_points out m (c :: r) [(X, IArr D, td)] s OK); [discriminate|exact OK'|discriminate| | |exact T]; now rewrite B1, B2.
  Qed.
  (** ** C249: chunks without time dependence may come in any order *)
  Lemma blocks_sep r : forall bs : list block, Forall (fun c => dep c = false) r -> fold_left absorb r bs = rev (map (fun c => (data c, incs (length (data c) - 1) (dts c))) r) ++ bs.
  Proof.
    induction r as [|[[x dt] td] r IH]; intros bs F; [reflexivity|]. pose proof (Forall_inv F) as T. cbn in T. subst td. cbn [fold_left]. rewrite IH by (now apply Forall_inv_tail in F).
    cbn [map rev data dts fst snd]. rewrite <- app_assoc. f_equal. destruct bs as [|[X D] bs]; reflexivity.
  Qed.
  Lemma blocks_ne (c : vcall) r : blocks (c :: r) <> [].
  Proof.
    unfold blocks. cbn [fold_left]. assert (G : forall r bs, bs <> [] -> fold_left (@absorb K) r bs <> []).
    { clear. induction r as [|[[x dt] td] r IH]; intros bs N; [exact N|]. cbn [fold_left]. apply IH. destruct bs as [|[X D] bs]; cbn; [discriminate|]. destruct td; discriminate. }
    apply G. destruct c as [[x dt] td]. discriminate.
  Qed.
  Lemma blocks_ne' (calls : list vcall) : calls <> [] -> blocks calls <> [].
  Proof. intros N. destruct calls; [now destruct N|apply blocks_ne]. Qed.
  Theorem C249_separate : forall out m calls calls' s, ok_calls calls -> ok_calls calls' -> calls <> [] -> Forall (fun c => dep c = false) calls -> Permutation calls calls' -> vtrained out m calls s ->
    exists s', vtrained out m calls' s' /\ same_node s s'.
  Proof.
    intros out m calls calls' s O1 O2 NE F P T.
    assert (F' : Forall (fun c => dep c = false) calls') by (apply (Permutation_Forall P F)).
    assert (PB : Permutation (blocks calls) (blocks calls')) by (unfold blocks; rewrite !blocks_sep by assumption; rewrite !app_nil_r; rewrite <- !Permutation_rev; now apply Permutation_map).
    apply (same_points out m calls calls' s O1 NE O2); [intros ->; apply Permutation_sym, Permutation_nil in P; now destruct NE| | |exact T]; now apply Permutation_flat_map.
  Qed.
  (** the matrices are the averages of those of the chunks, weighted with the lengths of time *)
  Theorem C249_average : forall calls f g, Forall (fun c => dep c = false) calls ->
    let one := fun c => blocks [c] in
    wlen (pts (blocks calls)) = fsum (map (fun c => wlen (pts (one c))) calls) /\ wsum (pts (blocks calls)) f = fsum (map (fun c => wsum (pts (one c)) f) calls) /\
    wlen (dpts (blocks calls)) = fsum (map (fun c => wlen (dpts (one c))) calls) /\ wsum (dpts (blocks calls)) g = fsum (map (fun c => wsum (dpts (one c)) g) calls).
  Proof.
    intros calls f g F one. assert (G : forall U (P : list block -> list (K * U)) (h : U -> K), (forall b bs, P (b :: bs) = P [b] ++ P bs) -> P [] = [] -> wsum (P (blocks calls)) h = fsum (map (fun c => wsum (P (one c)) h) calls)).
    { intros U P h PC PN. unfold blocks. rewrite blocks_sep by exact F. rewrite app_nil_r, <- map_rev. rewrite <- (fsum_rev (map (fun c => wsum (P (one c)) h) calls)), <- map_rev.
      clear F. induction (rev calls) as [|[[x dt] td] r IH]; [cbn [map fsum]; now rewrite PN|]. cbn [map fsum]. rewrite PC, wsum_app, IH. reflexivity. }
    unfold wlen. repeat split; apply G; try reflexivity; intros; unfold pts, dpts; cbn [flat_map]; now rewrite app_nil_r.
  Qed.

  (** ** The matrices *)
  Lemma quad_vdm n bs a b : quad n (vdm bs) a b = tmean (dpts bs) (fun s => dot n (der s) a * dot n (der s) b)%of.
  Proof.
    unfold quad, dot at 1, mulv, vdm, tmean. set (iN := finv (wlen (dpts bs))).
    rewrite (fsumn_ext n _ (fun i => wsum (dpts bs) (fun s => (der s i * a i) * dot n (der s) b) * iN)%of).
    - rewrite fsumn_mulr, wsum_swap. rewrite (Fdiv_def (fth K)). fold iN. f_equal. apply wsum_ext. intros s. now rewrite fsumn_mulr.
    - intros i _. rewrite (fsumn_ext n _ (fun j => wsum (dpts bs) (fun s => der s i * der s j * b j) * iN)%of) by (intros; rewrite wsum_mulr, (Fdiv_def (fth K)); fold iN; ring).
      rewrite fsumn_mulr, wsum_swap. transitivity (wsum (dpts bs) (fun s => a i * fsumn n (fun j => der s i * der s j * b j))%of * iN)%of; [rewrite wsum_mul; ring|]. f_equal. apply wsum_ext. intros s.
      unfold dot. rewrite <- !fsumn_mul. apply fsumn_ext. intros. ring.
  Qed.
  Lemma wsum_centred (L : list (K * vec)) i j : wlen L <> f0 ->
    (wsum L (fun v => v i * v j) / wlen L - wsum L (fun v => v i) * wsum L (fun v => v j) / (wlen L * wlen L))%of =
    (wsum L (fun v => (v i - wsum L (fun v => v i) / wlen L) * (v j - wsum L (fun v => v j) / wlen L)) / wlen L)%of.
  Proof.
    intros N. set (a := (wsum L (fun v => v i) / wlen L)%of). set (b := (wsum L (fun v => v j) / wlen L)%of).
    rewrite (wsum_ext L (fun v => (v i - a) * (v j - b))%of (fun v => v i * v j - (v i * b + a * v j) + a * b)%of) by (intros; ring).
    rewrite wsum_add, wsum_sub, wsum_add, wsum_mulr, wsum_mul, wsum_const. unfold a, b. field. exact N.
  Qed.
  Lemma quad_vcm n bs a b : wlen (pts bs) <> f0 -> quad n (vcm bs) a b = tmean (pts bs) (fun v => dot n (sub v (vavg bs)) a * dot n (sub v (vavg bs)) b)%of.
  Proof.
    intros N. unfold quad, dot at 1, mulv, tmean. set (iN := finv (wlen (pts bs))). set (c := fun v => sub v (vavg bs)).
    assert (E : forall i j, vcm bs i j = (wsum (pts bs) (fun v => c v i * c v j) * iN)%of) by (intros i j; unfold vcm, tmean; rewrite wsum_centred by exact N; rewrite (Fdiv_def (fth K)); reflexivity).
    rewrite (fsumn_ext n _ (fun i => wsum (pts bs) (fun s => (c s i * a i) * dot n (c s) b) * iN)%of).
    - rewrite fsumn_mulr, wsum_swap. rewrite (Fdiv_def (fth K)). fold iN. f_equal. apply wsum_ext. intros s. now rewrite fsumn_mulr.
    - intros i _. rewrite (fsumn_ext n _ (fun j => wsum (pts bs) (fun s => c s i * c s j * b j) * iN)%of) by (intros; rewrite wsum_mulr, E; ring).
      rewrite fsumn_mulr, wsum_swap. transitivity (wsum (pts bs) (fun s => a i * fsumn n (fun j => c s i * c s j * b j))%of * iN)%of; [rewrite wsum_mul; ring|]. f_equal. apply wsum_ext. intros s.
      unfold dot. rewrite <- !fsumn_mul. apply fsumn_ext. intros. ring.
  Qed.
  Definition bpos (b : block) : Prop := okb b /\ Forall (fun w => (0 < w)%of) (snd b).
  Lemma blocks_pos calls : ok_calls calls -> Forall bpos (blocks calls).
  Proof.
    assert (G : forall r (bs : list block), Forall bpos bs -> bs <> [] -> Forall (ok_call false) r -> Forall bpos (fold_left absorb r bs)).
    { induction r as [|[[x dt] td] r IH]; intros bs F N O; [exact F|]. cbn [fold_left]. pose proof (Forall_inv O) as Oc. pose proof Oc as (Lx & _). destruct bs as [|[X D] bs]; [now destruct N|]. pose proof (Forall_inv F) as ((LX & LD) & PD). cbn [fst snd] in *.
      apply IH; [|cbn; destruct td; discriminate|now apply Forall_inv_tail in O]. destruct td; cbn [absorb].
      - constructor; [|now apply Forall_inv_tail in F]. split; cbn [fst snd]; [split; cbn [fst snd]; rewrite !app_length, ?(incs_len false true x) by (exact Oc || lia); lia|]. apply Forall_app. split; [exact PD|now apply (incs_pos false (x, dt, true))].
      - constructor; [|exact F]. split; cbn [fst snd]; [split; cbn [fst snd]; rewrite ?(incs_len false false x) by (exact Oc || lia); lia|now apply (incs_pos false (x, dt, false))]. }
    destruct calls as [|[[x dt] td] r]; [constructor|]. intros (O1 & O2). unfold blocks. cbn [fold_left]. pose proof O1 as (Lx & _). apply G; [|discriminate|exact O2].
    constructor; [|constructor]. split; cbn [fst snd]; [split; cbn [fst snd]; rewrite ?(incs_len true td x) by (exact O1 || lia); lia|now apply (incs_pos true (x, dt, td))].
  Qed.
  Lemma pts_pos bs : Forall bpos bs -> Forall (fun p => (0 <= fst p)%of) (pts bs) /\ Forall (fun p => (0 <= fst p)%of) (dpts bs).
  Proof.
    induction bs as [|[X D] bs IH]; intros F; [split; constructor|]. destruct (IH (Forall_inv_tail F)) as (I1 & I2). pose proof (Forall_inv F) as (_ & P). cbn [snd] in P.
    split; unfold pts, dpts; cbn [flat_map fst snd]; apply Forall_app; (split; [|assumption]); apply trap_pos; [exact P|]. destruct D; [constructor|now apply Forall_inv_tail in P].
  Qed.
  Lemma wlen_nonneg {T} (L : list (K * T)) : Forall (fun p => (0 <= fst p)%of) L -> (0 <= wlen L)%of.
  Proof. intros P. apply wsum_nonneg; [exact P|]. intros _. apply flt_le, f01. Qed.
  Lemma pts_len bs : Forall bpos bs -> bs <> [] -> (0 < wlen (pts bs))%of.
  Proof.
    intros F N. destruct bs as [|[X D] bs]; [now destruct N|]. pose proof (Forall_inv F) as ((LX & LD) & P). cbn [fst snd] in *. unfold pts. cbn [flat_map fst snd]. fold (pts bs). unfold wlen. rewrite wsum_app. fold (wlen (trap D X)). rewrite trap_len by exact LD.
    apply (flt_le_trans _ (fsum D)).
    - destruct D as [|d D]; [cbn in LD; lia|]. cbn [fsum]. apply (flt_le_trans _ d); [exact (Forall_inv P)|]. apply (fle_trans _ (d + f0)%of); [replace (d + f0)%of with d by ring; apply fle_refl|].
      apply fle_add2; [apply fle_refl|]. apply fsum_nonneg. apply Forall_inv_tail in P. revert P. apply Forall_impl. intros a. apply flt_le.
    - apply (fle_trans _ (fsum D + f0)%of); [replace (fsum D + f0)%of with (fsum D) by ring; apply fle_refl|]. apply fle_add2; [apply fle_refl|]. apply wlen_nonneg. apply pts_pos. now apply Forall_inv_tail in F.
  Qed.

  (** ** C250: white outputs, the numbers d, the slowest outputs *)
  Section Trained.
    Context (out : option nat) (m : method) (calls : list vcall) (s : vsfa).
    Hypothesis (OK : ok_calls calls) (NE : calls <> []) (T : vtrained out m calls s) (NZ : out <> Some 0) (DL : wlen (dpts (blocks calls)) <> f0).
    Notation bs := (blocks calls). Notation sf := (s_sf (v_sfa s)). Notation d := (s_d (v_sfa s)).
    Lemma cov_len : (0 < wlen (pts bs))%of.
    Proof. apply pts_len; [now apply blocks_pos|now apply blocks_ne']. Qed.
    Lemma cov_len_ne : wlen (pts bs) <> f0. Proof. intros E. symmetry in E. revert E. apply flt_ne, cov_len. Qed.
    Lemma der_len : (0 < wlen (dpts bs))%of.
    Proof. destruct (fle_lt_eq _ _ (wlen_nonneg _ (proj2 (pts_pos _ (blocks_pos _ OK))))) as [H|H]; [exact H|]. now symmetry in H. Qed.
    Lemma vdm_sym : symmetric dim (vdm bs). Proof. intros i j _ _. unfold vdm, tmean. f_equal. apply wsum_ext. intros. ring. Qed.
    Lemma vcm_sym : symmetric dim (vcm bs).
    Proof. intros i j _ _. unfold vcm, tmean. rewrite (wsum_ext _ (fun v : vec => v i * v j)%of (fun v => v j * v i)%of) by (intros; ring). field. exact cov_len_ne. Qed.
    Lemma vdm_psd : psd dim (vdm bs).
    Proof. intros w. rewrite quad_vdm. apply fdiv_pos; [|exact der_len]. apply wsum_nonneg; [exact (proj2 (pts_pos _ (blocks_pos _ OK)))|]. intros. apply fsq. Qed.
    Lemma vcm_psd : psd dim (vcm bs).
    Proof. intros w. rewrite quad_vcm by exact cov_len_ne. apply fdiv_pos; [|exact cov_len]. apply wsum_nonneg; [exact (proj1 (pts_pos _ (blocks_pos _ OK)))|]. intros. apply fsq. Qed.
    Lemma stop_ok : (forall k, out = Some k -> k <= dim) /\ (exists dfc, solver m (range_of out) 0 (vdm bs) (vcm bs) = SolOk dfc d sf) /\ s_avg (v_sfa s) = vavg bs /\ s_bias (v_sfa s) = map (fun v => dot dim (vavg bs) v) sf /\
      v_tlen s = wlen (pts bs) /\ v_dtlen s = wlen (dpts bs) /\ s_out (v_sfa s) = Some (match out with Some k => k | None => dim end).
    Proof.
      apply vtrained_char in T; [|assumption|assumption]. destruct T as (t & x & H1 & E & _). unfold sfa_stop, fixed in H1, E. cbn [s_training s_started negb andb sfa_fix s_accs s_out s_mats s_meth s_dfc s_incl s_avg s_tlen s_dtlen s_bias s_d s_sf] in H1, E.
      unfold set_range in H1, E. cbn [s_out] in H1, E.
      assert (G : exists rng, match out with Some k => if k <=? dim then SOk (Some k, Some (1, Z.of_nat k)%Z) else SErr SInconsistent | None => SOk (Some dim, None) end = (SOk (Some (match out with Some k => k | None => dim end), rng)) /\ rng = range_of out /\ (forall k, out = Some k -> k <= dim)).
      { destruct out as [k|]; [|exists None; repeat split; intros; discriminate]. destruct (Nat.leb_spec k dim); [|discriminate]. eexists. repeat split. intros k' E'. now injection E' as <-. }
      destruct G as (rng & G1 & -> & G2). rewrite G1 in H1, E. destruct (solver m (range_of out) 0 (vdm bs) (vcm bs)) as [dfc d0 u| |]; try discriminate. destruct (length d0 =? 0); [discriminate|].
      destruct (existsb _ d0); [discriminate|]. rewrite E. cbn [v_sfa fst s_d s_sf s_avg s_bias v_tlen v_dtlen s_out]. split; [exact G2|]. split; [now exists dfc|]. repeat split.
    Qed.
    Lemma vout_dot k x : k < length sf -> vout s k x = dot dim (sub x (vavg bs)) (nth k sf vzero).
    Proof.
      intros Hk. destruct stop_ok as (_ & _ & _ & EB & _). unfold vout, v_execute, sfa_execute, upto. rewrite EB.
      assert (G : forall l k, k < length l -> nth k (map (fun p : vec * K => (dot dim x (fst p) - snd p)%of) (combine l (map (fun v => dot dim (vavg bs) v) l))) f0 = (dot dim x (nth k l vzero) - dot dim (vavg bs) (nth k l vzero))%of).
      { induction l as [|a l IH]; intros [|i] Hi; cbn in Hi; try lia; [reflexivity|]. cbn. apply IH. lia. }
      rewrite G by exact Hk. now rewrite <- dot_sub_l.
    Qed.
    Lemma range_ok n : out = Some n -> 1 <= n <= dim.
    Proof. intros E. split; [destruct n; [now rewrite E in NZ|lia]|]. now apply (proj1 stop_ok). Qed.
    Lemma vsolves : solver_ok dim solver m (vdm bs) (vcm bs) -> gsolves dim (vdm bs) (vcm bs) d sf.
    Proof.
      intros SOLVES. destruct stop_ok as (_ & (dfc & ES) & _).
      destruct (SOLVES out 0 dfc d sf vdm_sym vcm_sym vdm_psd vcm_psd range_ok ES) as (D0 & U0 & G & -> & ->). now apply prefix_solves.
    Qed.
    (** the derivative of an output between two samples *)
    Definition odot (k : nat) (p : step) : K := ((vout s k (fst (fst p)) - vout s k (snd (fst p))) / snd p)%of.
    Lemma odot_dot k p : k < length sf -> odot k p = dot dim (der p) (nth k sf vzero).
    Proof.
      intros Hk. unfold odot. rewrite !vout_dot, <- dot_sub_l by exact Hk. unfold der, quot, dot. rewrite (Fdiv_def (fth K)), <- fsumn_mulr. apply fsumn_ext. intros i _. unfold sub. rewrite (Fdiv_def (fth K)). ring.
    Qed.
    Lemma tmean_ext {U} (L : list (K * U)) f g : (forall x, f x = g x) -> tmean L f = tmean L g. Proof. intros H. unfold tmean. now rewrite (wsum_ext L f g). Qed.
    Theorem C250_white : solver_ok dim solver m (vdm bs) (vcm bs) -> forall k l, k < length sf -> l < length sf ->
      tmean (pts bs) (vout s k) = f0 /\ tmean (pts bs) (fun x => vout s k x * vout s l x)%of = if k =? l then f1 else f0.
    Proof.
      intros SO k l Hk Hl. destruct (vsolves SO) as (_ & HB & _). split.
      - rewrite (tmean_ext _ (vout s k) (fun x => dot dim (sub x (vavg bs)) (nth k sf vzero))) by (intros; now apply vout_dot). unfold tmean.
        replace (wsum (pts bs) (fun x => dot dim (sub x (vavg bs)) (nth k sf vzero))) with (f0 : K); [field; exact cov_len_ne|]. symmetry. unfold dot. rewrite <- wsum_swap. apply fsumn_zero. intros i _.
        rewrite wsum_mulr. unfold sub. rewrite wsum_sub, wsum_const. unfold vavg, tmean. field. exact cov_len_ne.
      - rewrite (tmean_ext _ _ (fun x => dot dim (sub x (vavg bs)) (nth k sf vzero) * dot dim (sub x (vavg bs)) (nth l sf vzero))%of) by (intros; now rewrite !vout_dot).
        rewrite <- quad_vcm by exact cov_len_ne. now apply HB.
    Qed.
    Theorem C250_delta : solver_ok dim solver m (vdm bs) (vcm bs) -> forall k l, k < length sf -> l < length sf ->
      tmean (dpts bs) (fun p => odot k p * odot l p)%of = if k =? l then nth k d f0 else f0.
    Proof.
      intros SO k l Hk Hl. destruct (vsolves SO) as (_ & _ & HA & _). rewrite (tmean_ext _ _ (fun p => dot dim (der p) (nth k sf vzero) * dot dim (der p) (nth l sf vzero))%of) by (intros; now rewrite !odot_dot).
      rewrite <- quad_vdm, HA by assumption. unfold delta. destruct (k =? l); ring.
    Qed.
    Theorem C250_order : solver_ok dim solver m (vdm bs) (vcm bs) -> length d = length sf /\ StronglySorted fle d.
    Proof. intros SO. destruct (vsolves SO) as (LD & _ & _ & SO'). now split. Qed.
    Theorem C250_slowest : solver_complete dim solver m (vdm bs) (vcm bs) -> forall W, length W <= length sf ->
      let f := fun k (x : vec) => dot dim x (nth k W vzero) in
      (forall i j, i < length W -> j < length W -> tmean (pts bs) (fun x => (f i x - tmean (pts bs) (f i)) * (f j x - tmean (pts bs) (f j)))%of = if i =? j then f1 else f0) ->
      (fsumn (length W) (fun k => tmean (dpts bs) (fun p => odot k p * odot k p))
       <= fsumn (length W) (fun k => tmean (dpts bs) (fun p => (f k (fst (fst p)) - f k (snd (fst p))) / snd p * ((f k (fst (fst p)) - f k (snd (fst p))) / snd p))))%of.
    Proof.
      intros SC W LW f HW. destruct stop_ok as (_ & (dfc & ES) & _). destruct (SC out 0 dfc d sf vdm_sym vcm_sym vdm_psd vcm_psd range_ok ES) as (D0 & U0 & G & GC & ED & EU).
      assert (BW : borth dim (vcm bs) W).
      { intros i j Hi Hj. rewrite quad_vcm by exact cov_len_ne. rewrite <- (HW i j Hi Hj : _ = delta i j). apply tmean_ext. intros x.
        assert (EM : forall k, dot dim (sub x (vavg bs)) (nth k W vzero) = (f k x - tmean (pts bs) (f k))%of).
        { intros k. unfold sub. rewrite dot_sub_l. f_equal. unfold f, vavg, tmean, dot. rewrite (Fdiv_def (fth K)), <- wsum_swap, <- fsumn_mulr. apply fsumn_ext. intros. rewrite wsum_mulr, (Fdiv_def (fth K)). ring. }
        now rewrite !EM. }
      pose proof (gen_ky_fan dim (vdm bs) (vcm bs) D0 U0 vdm_sym vcm_sym G GC W BW) as KF.
      assert (LDU : length d = length sf) by (apply C250_order; now apply complete_ok).
      rewrite (fsumn_ext (length W) _ (fun k => nth k D0 f0)).
      - rewrite (fsumn_ext (length W) (fun k => tmean (dpts bs) (fun p => (f k (fst (fst p)) - f k (snd (fst p))) / snd p * ((f k (fst (fst p)) - f k (snd (fst p))) / snd p))%of) (fun k => quad dim (vdm bs) (nth k W vzero) (nth k W vzero))); [exact KF|].
        intros k _. rewrite quad_vdm. apply tmean_ext. intros p. assert (E : ((f k (fst (fst p)) - f k (snd (fst p))) / snd p)%of = dot dim (der p) (nth k W vzero)); [|now rewrite E].
        unfold f. rewrite <- dot_sub_l. unfold der, quot, dot. rewrite (Fdiv_def (fth K)), <- fsumn_mulr. apply fsumn_ext. intros i _. rewrite (Fdiv_def (fth K)). ring.
      - intros k Hk. pose proof (C250_delta (complete_ok _ _ _ _ _ SC) k k ltac:(lia) ltac:(lia)) as E. rewrite Nat.eqb_refl in E. rewrite E, ED. rewrite ED in LDU.
        destruct out as [n|]; cbn [range_of prefix] in *; [|reflexivity]. apply nth_firstn_lt. rewrite firstn_length in LDU. lia.
    Qed.
  End Trained.

  (** ** C251: the unit of time *)
  Definition scale (a : K) (dt : incr) : incr := match dt with INone => IConst a | IConst q => IConst (a * q)%of | IArr l => IArr (map (fun w => a * w)%of l) end.
  Definition rescale (a : K) (c : vcall) : vcall := (data c, scale a (dts c), dep c).
  Definition bscale (a : K) (b : block) : block := (fst b, map (fun w => a * w)%of (snd b)).
  Lemma skipn_map {A B} (f : A -> B) n l : skipn n (map f l) = map f (skipn n l).
  Proof. revert l. induction n; intros [|x l]; cbn; auto. Qed.
  Lemma incs_scale a n dt : incs n (scale a dt) = map (fun w => a * w)%of (incs n dt).
  Proof.
    destruct dt as [|q|l]; cbn [scale incs]; [| |now rewrite map_length, skipn_map].
    - replace a with (a * f1)%of at 1 by ring. induction n; [reflexivity|]. cbn [repeat map]. now rewrite IHn.
    - induction n; [reflexivity|]. cbn [repeat map]. now rewrite IHn.
  Qed.
  Lemma blocks_scale a calls : blocks (map (rescale a) calls) = map (bscale a) (blocks calls).
  Proof.
    unfold blocks. change (@nil block) with (map (bscale a) []) at 1. generalize (@nil block). induction calls as [|[[x dt] td] r IH]; intros bs; [reflexivity|]. cbn [map fold_left]. rewrite <- IH. f_equal.
    unfold rescale. cbn [data dts dep fst snd]. destruct bs as [|[X D] bs]; cbn [map absorb bscale fst snd]; unfold bscale; cbn [fst snd]; rewrite ?incs_scale; [reflexivity|]. destruct td; cbn [map fst snd]; [|reflexivity]. now rewrite map_app.
  Qed.
  Lemma trap_scale {T} (a : K) ws : forall l : list T, trap (map (fun w => a * w)%of ws) l = map (fun p => (a * fst p, snd p)%of) (trap ws l).
  Proof.
    pose proof (two_ne (K := K)) as T2. induction ws as [|w ws IH]; intros [|x [|y l]]; try reflexivity. cbn [map]. rewrite !trap_cons. cbn [map fst snd]. rewrite IH. replace (a * w / two)%of with (a * (w / two))%of by (field; exact T2). reflexivity.
  Qed.
  Definition sscale (a : K) (p : step) : step := (fst p, a * snd p)%of.
  Lemma pts_scale a (bs : list block) : pts (map (bscale a) bs) = map (fun p => (a * fst p, snd p)%of) (pts bs).
  Proof. induction bs as [|[X D] bs IH]; [reflexivity|]. unfold pts in *. cbn [map flat_map bscale fst snd]. rewrite IH, trap_scale, map_app. reflexivity. Qed.
  Lemma dpts_scale a (bs : list block) : dpts (map (bscale a) bs) = map (fun p => (a * fst p, sscale a (snd p))%of) (dpts bs).
  Proof.
    induction bs as [|[X D] bs IH]; [reflexivity|]. unfold dpts in *. cbn [map flat_map bscale fst snd]. rewrite IH, map_app. f_equal.
    replace (tl (map (fun w => a * w)%of D)) with (map (fun w => a * w)%of (tl D)) by (now destruct D). rewrite trap_scale.
    replace (steps_of (bscale a (X, D))) with (map (sscale a) (steps_of (X, D))).
    - rewrite trap_map, map_map. reflexivity.
    - unfold steps_of, bscale. cbn [fst snd]. generalize (combine (tl X) (removelast X)). clear. induction D as [|d D IH]; intros [|p l]; try reflexivity. cbn [combine map]. rewrite IH. reflexivity.
  Qed.
  Lemma wsum_scale {T} (a : K) (L : list (K * T)) f : wsum (map (fun p => (a * fst p, snd p)%of) L) f = (a * wsum L f)%of.
  Proof. unfold wsum. rewrite map_map, <- fsum_map_mul. apply fsum_map_ext. intros. cbn [fst snd]. ring. Qed.
  Lemma wsum_ext_in {T} (L : list (K * T)) f g : (forall p, In p L -> f (snd p) = g (snd p)) -> wsum L f = wsum L g.
  Proof. intros H. apply fsum_map_ext. intros p I. now rewrite H. Qed.
  Lemma trap_in {T} (ws : list K) (l : list T) p : In p (trap ws l) -> In (snd p) l.
  Proof.
    intros I. unfold trap in I. apply in_flat_map in I. destruct I as ((w & x & y) & I & J). apply in_combine_r in I. cbn [fst snd] in J. unfold pairs in I. pose proof (in_combine_l _ _ _ _ I) as I1. apply in_combine_r in I.
    destruct J as [<-|[<-|[]]]; cbn [snd].
    - destruct l as [|z l]; [now cbn in I1|]. rewrite (app_removelast_last x (l := z :: l)) by discriminate. apply in_or_app. now left.
    - destruct l; [exact I|now right].
  Qed.
  Lemma dpts_pos bs p : Forall bpos bs -> In p (dpts bs) -> (0 < snd (snd p))%of.
  Proof.
    intros F I. unfold dpts in I. apply in_flat_map in I. destruct I as ([X D] & I & J). rewrite Forall_forall in F. destruct (F _ I) as (_ & P). cbn [snd] in P. apply trap_in in J. unfold steps_of in J. cbn [fst snd] in J.
    destruct (snd p) as [st w]. apply in_combine_r in J. rewrite Forall_forall in P. now apply P.
  Qed.
  Lemma flt_scale (a x : K) : (0 < a)%of -> fltb (a * x)%of f0 = fltb x f0.
  Proof.
    intros Ha. destruct (fltb x f0) eqn:E.
    - destruct (fltb (a * x)%of f0) eqn:E2; [reflexivity|]. exfalso. assert (X : (0 <= - x)%of) by (apply flt_le, fopp_pos; exact E). pose proof (fle_mul0 a (- x)%of (flt_le _ _ Ha) X) as Y.
      replace (a * - x)%of with (f0 - a * x)%of in Y by ring. apply fle_sub in Y. assert (Z : (a * x)%of = f0) by (apply fle_antisym; assumption). apply fmul_eq0 in Z. destruct Z as [Z|Z]; subst; unfold flt in *; now rewrite flt_irrefl in *.
    - exact (fle_mul0 a x (flt_le _ _ Ha) E).
  Qed.
  Lemma ok_scale a calls : (0 < a)%of -> ok_calls calls -> ok_calls (map (rescale a) calls).
  Proof.
    intros Ha. assert (M : forall w : K, (0 < w)%of -> (0 < a * w)%of) by (intros w Hw; destruct (fle_lt_eq _ _ (fle_mul0 a w (flt_le _ _ Ha) (flt_le _ _ Hw))) as [H|H]; [exact H|]; symmetry in H; apply fmul_eq0 in H; destruct H as [H|H]; subst; unfold flt in *; now rewrite flt_irrefl in *).
    assert (G : forall first c, ok_call first c -> ok_call first (rescale a c)).
    { intros first [[x dt] td] (H1 & H2). split; [exact H1|]. destruct dt as [|q|l]; cbn [rescale dts data dep fst snd scale]; [exact Ha|now apply M|]. destruct H2 as (H2 & H3). split; [|now rewrite map_length].
      apply Forall_forall. intros w I. apply in_map_iff in I. destruct I as (v & <- & I). rewrite Forall_forall in H2. auto. }
    destruct calls as [|c r]; [auto|]. intros (O1 & O2). split; [now apply G|]. apply Forall_forall. intros c' I. apply in_map_iff in I. destruct I as (v & <- & I). rewrite Forall_forall in O2. auto.
  Qed.
  (** the solver is insensitive to a positive factor of the matrix A *)
  Definition homogeneous (m : method) : Prop := forall rng old A B dfc d U a, (0 < a)%of -> solver m rng old A B = SolOk dfc d U -> solver m rng old (fun i j => a * A i j)%of B = SolOk dfc (map (fun x => a * x)%of d) U.
  Theorem C251_unit : forall out m calls s a, ok_calls calls -> calls <> [] -> wlen (dpts (blocks calls)) <> f0 -> (0 < a)%of -> homogeneous m -> vtrained out m calls s ->
    exists s', vtrained out m (map (rescale a) calls) s' /\ s_sf (v_sfa s') = s_sf (v_sfa s) /\ s_d (v_sfa s') = map (fun x => x / (a * a))%of (s_d (v_sfa s)) /\ (forall x, v_execute dim s' None x = v_execute dim s None x) /\
      v_tlen s' = (a * v_tlen s)%of /\ v_dtlen s' = (a * v_dtlen s)%of.
  Proof.
    intros out m calls s a OK NE DL Ha HM T. set (bs := blocks calls) in *. set (bs' := blocks (map (rescale a) calls)). assert (EB : bs' = map (bscale a) bs) by apply blocks_scale.
    assert (AN : a <> f0) by (intros E; subst; unfold flt in Ha; now rewrite flt_irrefl in Ha). pose proof (cov_len_ne calls OK NE) as CN. fold bs in CN.
    assert (OK' : ok_calls (map (rescale a) calls)) by now apply ok_scale. assert (NE' : map (rescale a) calls <> []) by (destruct calls; [now destruct NE|discriminate]).
    assert (P : forall f, wsum (pts bs') f = (a * wsum (pts bs) f)%of) by (intros; rewrite EB, pts_scale; apply wsum_scale).
    assert (Q : forall f, wsum (dpts bs') f = (a * wsum (dpts bs) (fun p => f (sscale a p)))%of).
    { intros f. rewrite EB, dpts_scale. unfold wsum. rewrite map_map, <- fsum_map_mul. apply fsum_map_ext. intros. cbn [fst snd]. ring. }
    assert (E1 : vcm bs' = vcm bs) by (extensionality i; extensionality j; unfold vcm, tmean, wlen; rewrite !P; fold (wlen (pts bs)); field; now split).
    assert (E2 : vavg bs' = vavg bs) by (extensionality i; unfold vavg, tmean, wlen; rewrite !P; fold (wlen (pts bs)); field; now split).
    assert (E3 : vdm bs' = fun i j => (finv (a * a) * vdm bs i j)%of).
    { extensionality i. extensionality j. unfold vdm, tmean, wlen. rewrite !Q. rewrite (wsum_ext_in _ (fun p => der (sscale a p) i * der (sscale a p) j)%of (fun p => finv (a * a) * (der p i * der p j))%of).
      - rewrite wsum_mul. fold (wlen (dpts bs)). field. now split.
      - intros p I. apply (dpts_pos bs) in I; [|now apply blocks_pos]. destruct p as [w0 [[p q] w]]. cbn [snd] in *. assert (NW : w <> f0) by (intros Z; rewrite Z in I; unfold flt in I; now rewrite flt_irrefl in I).
        unfold der, sscale, quot. cbn [fst snd]. field. now split. }
    apply vtrained_char in T; [|assumption|assumption]. destruct T as (t & x & H1 & -> & _). fold bs in H1 |- *.
    destruct (trains_ok out m (map (rescale a) calls) OK' NE') as (s0 & E & _).
    exists (mkVS (fst (sfa_stop dim solver (fixed out m bs') false)) None (wlen (pts bs')) (wlen (dpts bs')) (v_tchunk s0) (v_xlast s0)).
    assert (AP : (0 < finv (a * a))%of) by (apply finv_pos; destruct (fle_lt_eq _ _ (fsq a)) as [L|L]; [exact L|]; symmetry in L; apply fsq0 in L; now destruct AN).
    assert (G : exists dfc d0 u, solver m (range_of out) 0 (vdm bs) (vcm bs) = SolOk dfc d0 u /\ fst (sfa_stop dim solver (fixed out m bs) false) =
                 mkS (Some (match out with Some k => k | None => dim end)) true None None (vavg bs) 0 0 m (match dfc with Some k => k | None => 0 end) d0 u (map (fun v => dot dim (vavg bs) v) u) false false /\
               sfa_stop dim solver (fixed out m bs') false =
                 (mkS (Some (match out with Some k => k | None => dim end)) true None None (vavg bs) 0 0 m (match dfc with Some k => k | None => 0 end) (map (fun x => finv (a * a) * x)%of d0) u (map (fun v => dot dim (vavg bs) v) u) false false, SOk tt)).
    { unfold sfa_stop, fixed in H1 |- *. cbn [s_training s_started negb andb sfa_fix s_accs s_out s_mats s_meth s_dfc s_incl s_avg s_tlen s_dtlen s_bias s_d s_sf set_range] in H1 |- *. unfold set_range in H1 |- *. cbn [s_out] in H1 |- *.
      assert (G : match out with Some k => if k <=? dim then SOk (Some k, Some (1, Z.of_nat k)%Z) else SErr SInconsistent | None => SOk (Some dim, None) end = (SOk (Some (match out with Some k => k | None => dim end), range_of out))).
      { destruct out as [k|]; [|reflexivity]. destruct (Nat.leb_spec k dim); [reflexivity|discriminate]. }
      rewrite G in H1 |- *. destruct (solver m (range_of out) 0 (vdm bs) (vcm bs)) as [dfc d0 u| |] eqn:ES; try discriminate. rewrite E1, E2, E3. rewrite (HM _ _ _ _ _ _ _ _ AP ES). rewrite map_length.
      destruct (length d0 =? 0); [discriminate|]. replace (existsb (fun x => fltb x f0) (map (fun x => finv (a * a) * x)%of d0)) with (existsb (fun x => fltb x f0) d0).
      - destruct (existsb (fun x => fltb x f0) d0); [discriminate|]. now exists dfc, d0, u.
      - clear -AP. induction d0 as [|y d0 IH]; [reflexivity|]. cbn [map existsb]. now rewrite flt_scale, IH. }
    destruct G as (dfc & d0 & u & ES & F1 & F2). split; [|split; [|split; [|split; [|split]]]].
    - apply vtrained_char; [assumption|assumption|]. fold bs'. exists (v_tchunk s0), (v_xlast s0). rewrite F2. split; [reflexivity|]. split; [reflexivity|]. now exists s0.
    - cbn [v_sfa]. now rewrite F1, F2.
    - cbn [v_sfa]. rewrite F1, F2. cbn [fst s_d]. apply map_ext. intros y. rewrite (Fdiv_def (fth K)). ring.
    - intros y. unfold v_execute. cbn [v_sfa]. rewrite F1, F2. reflexivity.
    - cbn [v_tlen]. unfold wlen. apply P.
    - cbn [v_dtlen]. unfold wlen. apply Q.
  Qed.

  (** ** C252: a rejected call has no effect on what is learned *)
  Fixpoint v_all (s : vsfa) (calls : list vcall) : vsfa := match calls with [] => s | (x, dt, td) :: r => v_all (fst (v_train junk s x dt td)) r end.
  Definition sync (s : vsfa) : Prop := s_training (v_sfa s) = true /\ exists c dc, v_accs s = Some (c, dc) /\ w_chunks dc = w_chunks c /\ v_tchunk s = w_chunks c.
  Definition accepted (s : vsfa) (c : vcall) : bool := match v_train junk s (data c) (dts c) (dep c) with (_, VOk _) => true | _ => false end.
  Lemma update_chunks (c c' : vacc) x dt td : vacc_update c x dt td = Some c' -> w_chunks c' = S (w_chunks c).
  Proof. unfold vacc_update. destruct (bad _ _ _ _); [discriminate|]. destruct (gap_of _ _ _ _); intros H; injection H as <-; reflexivity. Qed.
  Lemma update_none (c : vacc) x dt td : vacc_update c x dt td = None <-> bad (w_chunks c) (length x) dt td = true.
  Proof. unfold vacc_update. destruct (bad _ _ _ _); [tauto|]. destruct (gap_of _ _ _ _); split; discriminate. Qed.
  Lemma train_sync s x dt td : sync s -> let (s', r) := v_train junk s x dt td in
    sync s' /\ match r with VOk _ => True | _ => v_accs s' = v_accs s /\ v_tchunk s' = v_tchunk s /\ v_xlast s' = v_xlast s /\ v_tlen s' = v_tlen s /\ v_dtlen s' = v_dtlen s /\ (v_sfa s' = v_sfa s \/ v_sfa s' = set_started (v_sfa s)) end.
  Proof.
    intros (TR & c & dc & EA & C1 & C2). unfold v_train. rewrite TR. cbn [negb]. assert (SY : sync s) by (split; [exact TR|]; now exists c, dc).
    destruct (Nat.eqb_spec (length x) 0); [split; [exact SY|repeat split; now left]|]. destruct (Nat.ltb_spec (length x) 2) as [|L2]; [split; [exact SY|repeat split; now left]|]. cbn [v_accs]. rewrite EA.
    destruct (vacc_update c x dt td) as [c'|] eqn:U1; [|split; [split; [exact TR|]; now exists c, dc|cbn; repeat split; now right]].
    assert (B : bad (w_chunks c) (length x) dt td = false) by (destruct (bad (w_chunks c) (length x) dt td) eqn:B; [apply update_none in B; congruence|reflexivity]).
    unfold v_derivative. cbn [v_tchunk v_xlast v_sfa v_accs v_tlen v_dtlen]. rewrite C2, B.
    set (rest := match dt with IArr l => rows x (lastn (length x) l) | IConst q => rows x (repeat q (length x - 1)) | INone => time_derivative x end).
    set (long := match dt with INone | IConst _ => td && (0 <? w_chunks c) | IArr l => negb ((w_chunks c =? 0) || negb (length l =? length x)) end).
    set (fr := if (0 <? w_chunks c) && td then _ else _). cbv beta iota zeta. set (y := if long then fr :: rest else rest).
    assert (LR : length rest = length x - 1).
    { unfold rest. destruct dt as [|q|l].
      - rewrite derivative_steps, map_length. apply steps_len. apply repeat_length.
      - rewrite rows_steps, map_length. apply steps_len. apply repeat_length.
      - rewrite rows_steps, map_length. apply steps_len. rewrite lastn_incs by exact L2. cbn [incs]. rewrite skipn_length. unfold bad in B. apply orb_false_iff in B. destruct B as (_ & B). destruct (Nat.eqb_spec (length l) (length x)); [lia|]. destruct (Nat.eqb_spec (length l) (length x - 1)); [lia|discriminate]. }
    assert (LY : length y = if long then length x else length x - 1) by (unfold y; destruct long; [change (S (length rest) = length x); rewrite LR; lia|exact LR]).
    set (dt' := match dt with INone => INone | IConst q => IConst q | IArr l => if length x - 1 <? length y then IArr l else IArr (tl l) end).
    assert (B2 : bad (w_chunks dc) (length y) dt' td = false).
    { rewrite C1, LY. unfold dt'. rewrite LY. clear LY. revert B. unfold bad. destruct dt as [|q|l]; [reflexivity|auto|]. destruct (w_chunks c) as [|k]; unfold long.
      - cbn [Nat.eqb orb negb]. rewrite !Nat.ltb_irrefl. cbv beta iota. rewrite tl_len, !andb_false_r. cbn [Nat.ltb Nat.leb andb orb].
        destruct (Nat.eqb_spec (length l) (length x)); destruct (Nat.eqb_spec (length l) (length x - 1)); cbn; intros; try discriminate;
          destruct (Nat.eqb_spec (length l - 1) (length x - 1)); destruct (Nat.eqb_spec (length l - 1) (length x - 1 - 1)); cbn; try reflexivity; lia.
      - cbn [Nat.eqb orb]. rewrite negb_involutive. replace (0 <? S k) with true by reflexivity. rewrite andb_true_r. destruct (Nat.eqb_spec (length l) (length x)) as [e|ne].
        + replace (length x - 1 <? length x) with true by (symmetry; apply Nat.ltb_lt; lia). cbv beta iota. destruct (Nat.eqb_spec (length x - 1) (length l)); [lia|]. rewrite andb_false_r. cbn [orb]. now rewrite e, Nat.eqb_refl.
        + rewrite !Nat.ltb_irrefl. cbv beta iota. rewrite tl_len. destruct (Nat.eqb_spec (length l) (length x - 1)) as [e2|]; [|rewrite orb_true_r; discriminate]. rewrite e2, Nat.eqb_refl. destruct td; cbn [andb orb]; [discriminate|]. intros _.
          destruct (Nat.eqb_spec (length x - 1 - 1) (length x - 1)); cbn [negb andb]; [reflexivity|]. now rewrite Nat.eqb_refl. }
    match goal with |- context [vacc_update dc ?a ?b td] => change (vacc_update dc a b td) with (vacc_update dc y dt' td) end. destruct (vacc_update dc y dt' td) as [dc'|] eqn:U2; [|exfalso; exact (Bool.diff_true_false (eq_trans (eq_sym (proj1 (update_none dc y dt' td) U2)) B2))]. split; [|exact I]. split; [exact TR|]. exists c', dc'. split; [reflexivity|]. cbn [v_tchunk].
    apply update_chunks in U1, U2. split; [congruence|congruence].
  Qed.
  Lemma sync_all calls : forall s, sync s -> sync (v_all s calls).
  Proof. induction calls as [|[[x dt] td] r IH]; intros s SY; [exact SY|]. cbn [v_all]. apply IH. pose proof (train_sync s x dt td SY) as H. destruct (v_train junk s x dt td) as [s' r']. now destruct H. Qed.
  Lemma sync_new out m : sync (vsfa_new out m). Proof. split; [reflexivity|]. exists vacc_new, vacc_new. repeat split. Qed.
  Theorem C252_rejected : forall out m before c, let s := v_all (vsfa_new out m) before in accepted s c = false ->
    let s' := v_all (vsfa_new out m) (before ++ [c]) in v_accs s' = v_accs s /\ v_tchunk s' = v_tchunk s /\ v_xlast s' = v_xlast s /\ v_tlen s' = v_tlen s /\ v_dtlen s' = v_dtlen s /\ (v_sfa s' = v_sfa s \/ v_sfa s' = set_started (v_sfa s)).
  Proof.
    intros out m before [[x dt] td] s A s'. assert (E : s' = fst (v_train junk s x dt td)).
    { unfold s', s. clear. generalize (vsfa_new (K := K) out m). induction before as [|[[y e] t] r IH]; intros s0; [reflexivity|]. cbn [app v_all]. apply IH. }
    rewrite E. clear E. unfold accepted in A. cbn [data dts dep fst snd] in A. pose proof (train_sync s x dt td (sync_all before _ (sync_new out m))) as H. destruct (v_train junk s x dt td) as [s2 [u| |]]; [discriminate| |]; now destruct H.
  Qed.
  (** so that the calls which were accepted determine the result *)
  Fixpoint keep (s : vsfa) (calls : list vcall) : list vcall :=
    match calls with [] => [] | c :: r => let s' := fst (v_train junk s (data c) (dts c) (dep c)) in if accepted s c then c :: keep s' r else keep s' r end.
  Definition like (s s' : vsfa) : Prop := v_accs s' = v_accs s /\ v_tchunk s' = v_tchunk s /\ v_xlast s' = v_xlast s /\ v_tlen s' = v_tlen s /\ v_dtlen s' = v_dtlen s /\ set_started (v_sfa s') = set_started (v_sfa s).
  Lemma train_like s s' x dt td : like s s' -> s_training (v_sfa s) = true -> s_training (v_sfa s') = true ->
    like (fst (v_train junk s x dt td)) (fst (v_train junk s' x dt td)) /\ snd (v_train junk s x dt td) = snd (v_train junk s' x dt td) /\ (snd (v_train junk s x dt td) = VOk tt -> fst (v_train junk s x dt td) = fst (v_train junk s' x dt td)).
  Proof.
    intros L T1 T2. pose proof L as (L1 & L2 & L3 & L4 & L5 & L6). unfold v_train. rewrite T1, T2. cbn [negb]. destruct (length x =? 0); [split; [exact L|split; [reflexivity|discriminate]]|]. destruct (length x <? 2); [split; [exact L|split; [reflexivity|discriminate]]|].
    rewrite L1, L2, L3, L4, L5, L6. split; [|split; [reflexivity|reflexivity]]. repeat split.
  Qed.
  Theorem C252_accepted : forall out m calls, exists s, trains (vsfa_new out m) (keep (vsfa_new out m) calls) = (s, VOk tt) /\
    like s (v_all (vsfa_new out m) calls) /\ (keep (vsfa_new out m) calls <> [] -> v_all (vsfa_new out m) calls = s).
  Proof.
    intros out m. assert (G : forall calls s s2, like s s2 -> sync s -> sync s2 -> exists s', trains s2 (keep s calls) = (s', VOk tt) /\ like s' (v_all s calls) /\ (keep s calls <> [] \/ s_started (v_sfa s2) = true -> s_started (v_sfa s2) = s_started (v_sfa s) \/ keep s calls <> [] -> v_all s calls = s')).
    { induction calls as [|[[x dt] td] r IH]; intros s s2 L SY SY2.
      - exists s2. split; [reflexivity|]. destruct L as (L1 & L2 & L3 & L4 & L5 & L6). split; [repeat split; now symmetry|]. intros _ [H|H]; [|now destruct H]. cbn [v_all].
        destruct s as [b a t d k z], s2 as [b2 a2 t2 d2 k2 z2]; cbn in *. subst. f_equal. destruct b, b2; cbn in *. unfold set_started in L6. cbn in L6. injection L6 as <- <- <- <- <- <- <- <- <- <- <- <- <-. now rewrite H.
      - cbn [v_all keep data dts dep fst snd]. destruct (train_like s s2 x dt td L (proj1 SY) (proj1 SY2)) as (E1 & E2 & E3).
        pose proof (train_sync s x dt td SY) as H1. pose proof (train_sync s2 x dt td SY2) as H2. unfold accepted. cbn [data dts dep fst snd].
        destruct (v_train junk s x dt td) as [s' r1] eqn:T1. destruct (v_train junk s2 x dt td) as [s2' r2] eqn:T2. cbn [fst snd] in *. subst r2. destruct H1 as (S1 & H1). destruct H2 as (S2 & H2).
        destruct r1 as [[]|e|].
        + cbn [v_trains]. rewrite T2. specialize (E3 eq_refl). subst s2'. destruct (IH s' s' ltac:(repeat split) S1 S1) as (s3 & F1 & F2 & F3). exists s3. split; [exact F1|]. split; [exact F2|]. intros _ _.
          assert (ST : s_started (v_sfa s') = true). { clear -T1. unfold v_train in T1. destruct (negb _); [discriminate|]. destruct (_ =? 0); [discriminate|]. destruct (_ <? 2); [discriminate|]. cbn [v_accs] in T1. destruct (v_accs s) as [[c dc]|]; [|discriminate]. destruct (vacc_update c x dt td); [|discriminate].
            unfold v_derivative in T1. cbn [v_tchunk] in T1. destruct (bad _ _ _ _); [discriminate|]. cbv beta iota zeta in T1. destruct (vacc_update dc _ _ _); [|discriminate]. injection T1 as <-. reflexivity. }
          apply F3; [now right|now left].
        + assert (L' : like s' s2) by (destruct H1 as (P1 & P2 & P3 & P4 & P5 & P6); destruct L as (L1 & L2 & L3 & L4 & L5 & L6); repeat split; try congruence; rewrite L6; destruct P6 as [-> | ->]; [reflexivity|now destruct (v_sfa s)]).
          destruct (IH s' s2 L' S1 SY2) as (s3 & F1 & F2 & F3). exists s3. split; [exact F1|]. split; [exact F2|]. intros A B. apply F3; [exact A|]. destruct B as [B|B]; [|now right].
          destruct A as [A|A]; [now right|]. left. rewrite A in *. destruct H1 as (_ & _ & _ & _ & _ & [P| P]); rewrite P; [exact B|reflexivity].
        + assert (L' : like s' s2) by (destruct H1 as (P1 & P2 & P3 & P4 & P5 & P6); destruct L as (L1 & L2 & L3 & L4 & L5 & L6); repeat split; try congruence; rewrite L6; destruct P6 as [-> | ->]; [reflexivity|now destruct (v_sfa s)]).
          destruct (IH s' s2 L' S1 SY2) as (s3 & F1 & F2 & F3). exists s3. split; [exact F1|]. split; [exact F2|]. intros A B. apply F3; [exact A|]. destruct B as [B|B]; [|now right].
          destruct A as [A|A]; [now right|]. left. rewrite A in *. destruct H1 as (_ & _ & _ & _ & _ & [P| P]); rewrite P; [exact B|reflexivity]. }
    intros calls. destruct (G calls (vsfa_new out m) (vsfa_new out m) ltac:(repeat split) (sync_new out m) (sync_new out m)) as (s & E1 & E2 & E3). exists s. split; [exact E1|]. split; [exact E2|]. intros N. apply E3; [now left|now right].
  Qed.
End Props.

Section Examples.
  Notation vecQ := (@vec Qc_of).
  Definition zj : vecQ := fun _ => Q2Qc 0.
  Definition qs (l : list Q) : list Qc_of := map (fun q => Q2Qc q : Qc_of) l.
  Definition arr (l : list Q) : @incr Qc_of := IArr (qs l).
  Definition vrun (n : nat) (j : vecQ) (calls : list (@vcall Qc_of)) : @vsfa Qc_of * sres unit := v_stop n (@solvers Qc_of eQ sQ rQ tQ n) (fst (v_trains j (vsfa_new None MNone) calls)) false.
  Definition good {T} (r : vres T) : bool := match r with VOk _ => true | _ => false end.
  Lemma vrun_trained n j calls : good (snd (v_trains j (vsfa_new None MNone) calls)) = true -> snd (vrun n j calls) = SOk tt -> vtrained n (@solvers Qc_of eQ sQ rQ tQ n) j None MNone calls (fst (vrun n j calls)).
  Proof. intros H1 H2. exists (fst (v_trains j (vsfa_new None MNone) calls)). split; [|rewrite <- H2; apply surjective_pairing]. destruct (v_trains j (vsfa_new None MNone) calls) as [s [[]|e|]]; try discriminate. reflexivity. Qed.
  Definition ds (s : @vsfa Qc_of) : list Q := map this (s_d (v_sfa s)).
  Definition lens (s : @vsfa Qc_of) : Q * Q := (this (v_tlen s), this (v_dtlen s)).
  Definition con (q : Q) : @incr Qc_of := @IConst Qc_of (Q2Qc q).
  (** five samples with increments 2, 1, 2, 1 *)
  Definition X5 : list vecQ := [p2 (-3) (-2); p2 (-3) (-3); p2 (-1) (-2); p2 (-1) (-2); p2 (-3) 1].
  Definition one5 : list (@vcall Qc_of) := [(X5, arr [2; 1; 2; 1]%Q, true)].
  Definition two5 : list (@vcall Qc_of) := [(firstn 2 X5, con 2, false); (skipn 2 X5, arr [1; 2; 1]%Q, true)].
  Ltac okc := repeat (constructor || (cbn; lia) || (left; reflexivity) || reflexivity).
  Example ex_C248 : ok_calls two5 /\ fst (whole (firstn 2 X5, con 2, false) [(skipn 2 X5, arr [1; 2; 1]%Q, true)]) = X5 /\ ds (fst (vrun 2 zj two5)) = [49 # 32; 2]%Q /\
    ds (fst (vrun 2 zj one5)) = [49 # 32; 2]%Q /\ lens (fst (vrun 2 zj two5)) = (6, 4)%Q /\ lens (fst (vrun 2 zj one5)) = (6, 4)%Q /\ show (v_sfa (fst (vrun 2 zj two5))) = ([49 # 32; 2]%Q, [[0; 1]; [1; 0]]%Q, Some 2%nat, 0%nat) /\
    vtrained 2 (@solvers Qc_of eQ sQ rQ tQ 2) zj None MNone two5 (fst (vrun 2 zj two5)).
  Proof. split; [okc|]. split; [reflexivity|]. do 5 (split; [vm_compute; reflexivity|]). apply vrun_trained; vm_compute; reflexivity. Qed.
  (** the samples and their mirror images: separate chunks in two orders *)
  Definition sep5 : list (@vcall Qc_of) := [(X5, arr [2; 1; 2; 1]%Q, false); (map (fun x : vecQ => p2 (-4 - this (x 0)) (-4 - this (x 1))) X5, arr [2; 1; 2; 1]%Q, false)].
  Example ex_C249 : ok_calls sep5 /\ ok_calls (rev sep5) /\ snd (vrun 2 zj sep5) = SOk tt /\ show (v_sfa (fst (vrun 2 zj (rev sep5)))) = show (v_sfa (fst (vrun 2 zj sep5))) /\ lens (fst (vrun 2 zj sep5)) = (12, 8)%Q /\ ds (fst (vrun 2 zj sep5)) = [49 # 32; 2]%Q.
  Proof. split; [okc|]. split; [okc|]. repeat split; vm_compute; reflexivity. Qed.
  (** C250: the outputs for the samples, their trapezoid mean and variance *)
  Example ex_C250 : let s := fst (vrun 2 zj one5) in map (fun x => map this (v_execute 2 s None x)) X5 = [[0; -1]; [-1; -1]; [0; 1]; [0; 1]; [3; -1]]%Q /\
    this (tmean (pts (blocks one5)) (vout 2 s 0)) = 0%Q /\ this (tmean (pts (blocks one5)) (fun x => vout 2 s 0 x * vout 2 s 0 x)%of) = 1%Q /\ this (tmean (pts (blocks one5)) (fun x => vout 2 s 0 x * vout 2 s 1 x)%of) = 0%Q /\
    this (tmean (dpts (blocks one5)) (fun p => odot 2 s 0 p * odot 2 s 0 p)%of) = (49 # 32)%Q.
  Proof. repeat split; vm_compute; reflexivity. Qed.
  (** C251: half the unit of time *)
  Example ex_C251 : map (fun c : @vcall Qc_of => match dts c with IArr l => map this l | IConst q => [this q] | INone => [] end) (map (rescale (Q2Qc 2 : Qc_of)) two5) = [[4]; [2; 4; 2]]%Q /\
    ds (fst (vrun 2 zj (map (rescale (Q2Qc 2 : Qc_of)) two5))) = [49 # 128; 1 # 2]%Q /\ lens (fst (vrun 2 zj (map (rescale (Q2Qc 2 : Qc_of)) two5))) = (12, 8)%Q.
  Proof. repeat split; vm_compute; reflexivity. Qed.
  (** C252: a call with time dependence and too few increments, and one with a negative increment *)
  Definition bad5 : list (@vcall Qc_of) := [(firstn 2 X5, con (-1), true); (firstn 2 X5, con 2, false); (skipn 2 X5, arr [2; 1]%Q, true); (skipn 2 X5, arr [1; 2; 1]%Q, true)].
  Example ex_C252 : map (@length _) (map data (keep zj (vsfa_new None MNone) bad5)) = [2; 3]%nat /\ good (snd (v_trains zj (vsfa_new None MNone) bad5)) = false /\
    map this (s_d (v_sfa (fst (v_stop 2 (@solvers Qc_of eQ sQ rQ tQ 2) (v_all zj (vsfa_new None MNone) bad5) false)))) = [49 # 32; 2]%Q.
  Proof. repeat split; vm_compute; reflexivity. Qed.

  (** ** C253: calls outside of the blocks *)
  Definition p1 (a : Q) : vecQ := fun i => match i with 0 => Q2Qc a | _ => Q2Qc 0 end%nat.
  (** time_dep=False with len(dt) == len(x) in a later call: "the first element is disregarded" does not hold.  A row of the derivatives is not initialised, and the increment is counted as time *)
  Theorem C253_uninitialised_refuted : exists (calls : list (@vcall Qc_of)) j1 j2, Forall (fun c => dep c = false) calls /\
    (vtrained 1 (@solvers Qc_of eQ sQ rQ tQ 1) j1 None MNone calls (fst (vrun 1 j1 calls)) /\ vtrained 1 (@solvers Qc_of eQ sQ rQ tQ 1) j2 None MNone calls (fst (vrun 1 j2 calls))) /\
    ds (fst (vrun 1 j1 calls)) = [0]%Q /\ ds (fst (vrun 1 j2 calls)) = [2]%Q /\ lens (fst (vrun 1 j1 calls)) = (3, 2)%Q.
  Proof.
    exists [([p1 1; p1 1], arr [1]%Q, false); ([p1 (-1); p1 (-1)], arr [1; 1]%Q, false)], (p1 0), (p1 2).
    split; [repeat constructor|]. split; [split; apply vrun_trained; vm_compute; reflexivity|]. repeat split; vm_compute; reflexivity.
  Qed.
  (** a first call with two samples and len(dt) == 2: the first increment is not disregarded in the time of the derivatives *)
  Definition two2 (dt : list Q) : list (@vcall Qc_of) := [([p1 1; p1 1], arr dt, true); ([p1 (-1); p1 (-1)], arr [1; 1]%Q, true)].
  Theorem C253_first_refuted : exists dt d : list Q, d = tl dt /\ length dt = 2%nat /\ snd (vrun 1 zj (two2 dt)) = SOk tt /\ snd (vrun 1 zj (two2 d)) = SOk tt /\
    ds (fst (vrun 1 zj (two2 d))) = [2]%Q /\ ds (fst (vrun 1 zj (two2 dt))) = [4 # 3]%Q /\ lens (fst (vrun 1 zj (two2 d))) = (3, 2)%Q /\ lens (fst (vrun 1 zj (two2 dt))) = (3, 3)%Q.
  Proof. exists [5; 1]%Q, [1]%Q. repeat split; vm_compute; reflexivity. Qed.
  (** with three samples it is *)
  Example ex_C253_three : let c dt := [([p1 1; p1 (-1); p1 (-1); p1 1], arr dt, true)] in ds (fst (vrun 1 zj (c [7; 1; 2; 1]%Q))) = ds (fst (vrun 1 zj (c [1; 2; 1]%Q))) /\ ok_calls (c [7; 1; 2; 1]%Q) /\ lens (fst (vrun 1 zj (c [7; 1; 2; 1]%Q))) = (4, 3)%Q.
  Proof.
    split; [vm_compute; reflexivity|]. split; [|vm_compute; reflexivity]. split; [|constructor]. split; [cbn; lia|]. split; [repeat constructor|]. right. cbn. lia.
  Qed.
  (** the public method time_derivative changes what a later training learns *)
  Theorem C253_derivative_refuted : exists (x y : list vecQ), let s0 := vsfa_new None MNone in
    let s1 := fst (v_derivative zj s0 y INone true) in
    good (snd (v_derivative zj s0 y INone true)) = true /\
    let r s := fst (v_stop 1 (@solvers Qc_of eQ sQ rQ tQ 1) (fst (v_train zj s x INone true)) false) in
    ds (r s0) = [2]%Q /\ ds (r s1) = [4]%Q /\ lens (r s0) = (3, 2)%Q /\ lens (r s1) = (3, 3)%Q.
  Proof. exists [p1 1; p1 1; p1 (-1); p1 (-1)], [p1 5; p1 5]. repeat split; vm_compute; reflexivity. Qed.
  (** ** C254: with constant increments the node does not compute what SFANode computes *)
  Definition X6 : list vecQ := [p1 0; p1 (-3); p1 (-1); p1 1; p1 3; p1 0].
  Theorem C254_generalisation_refuted : exists x : list vecQ,
    let v := fst (vrun 1 zj [(x, INone, true)]) in let s := fst (sfa_stop 1 (@solvers Qc_of eQ sQ rQ tQ 1) (fst (sfa_train (sfa_new None true MNone) x None)) false) in
    snd (vrun 1 zj [(x, INone, true)]) = SOk tt /\ ds v = [21 # 16]%Q /\ map this (s_d s) = [15 # 8]%Q /\ s_training s = false.
  Proof. exists X6. repeat split; vm_compute; reflexivity. Qed.
End Examples.
