(** What VartimeSFANode accumulates: lemmas for VSFAProps.v. *)
From Coq Require Import List Arith ZArith Bool Lia Field Permutation FunctionalExtensionality.
From Verif Require Import OField LinAlg PCAModel PCAProofs GenEig SymeigModel SFAModel SFAProps VSFAModel.
Import ListNotations.
Open Scope nat_scope.

Section Lists.
  Context {T : Type}.
  Definition pairs (l : list T) : list (T * T) := combine (removelast l) (tl l).
  Lemma removelast_len (l : list T) : length (removelast l) = length l - 1.
  Proof. induction l as [|a [|b l] IH]; [reflexivity|reflexivity|]. cbn [removelast length] in *. rewrite IH. lia. Qed.
  Lemma pairs_cons (a b : T) l : pairs (a :: b :: l) = (a, b) :: pairs (b :: l). Proof. reflexivity. Qed.
  Lemma pairs_length (l : list T) : length (pairs l) = length l - 1.
  Proof. unfold pairs. rewrite combine_length, removelast_len. destruct l; cbn [tl length]; lia. Qed.
  Lemma pairs_app (x : list T) : forall (l : list T) d, l <> [] -> x <> [] -> pairs (l ++ x) = pairs l ++ (last l d, hd d x) :: pairs x.
  Proof.
    induction l as [|a [|b l] IH]; intros d NL NX; [now destruct NL| |].
    - destruct x as [|c x]; [now destruct NX|]. cbn [app]. rewrite pairs_cons. reflexivity.
    - cbn [app]. rewrite !pairs_cons. change (b :: l ++ x) with ((b :: l) ++ x). rewrite (IH d) by (congruence || assumption). reflexivity.
  Qed.
  Lemma combine_app' {A B} (a a' : list A) (b b' : list B) : length a = length b -> combine (a ++ a') (b ++ b') = combine a b ++ combine a' b'.
  Proof. revert b. induction a as [|x a IH]; intros [|y b] L; cbn in L; try lia; [reflexivity|]. cbn. rewrite IH by lia. reflexivity. Qed.
  Lemma last_app_ne (l x : list T) d : x <> [] -> last (l ++ x) d = last x d.
  Proof. intros N. induction l as [|a l IH]; [reflexivity|]. cbn [app]. destruct (l ++ x) eqn:E; [apply app_eq_nil in E; now destruct E|]. rewrite <- E in *. cbn [last]. rewrite E in *. exact IH. Qed.
  Lemma last_nth' (l : list T) d : last l d = nth (length l - 1) l d.
  Proof. induction l as [|a [|b l] IH]; [reflexivity|reflexivity|]. change (last (b :: l) d = nth (S (S (length l)) - 1) (a :: b :: l) d). rewrite IH. cbn [length]. replace (S (S (length l)) - 1) with (S (S (length l) - 1)) by lia. reflexivity. Qed.
End Lists.

Section Weights.
  Context {K : ofield}.
  Add Field Kvw : (fth K).
  Notation vec := (vec (K := K)). Notation mtx := (mtx (K := K)).
  (** weighted points: the trapezoid rule for the values l at distances ws *)
  Definition trap {T} (ws : list K) (l : list T) : list (K * T) :=
    flat_map (fun p : K * (T * T) => [(fst p / two, fst (snd p)); (fst p / two, snd (snd p))]%of) (combine ws (pairs l)).
  Definition wsum {T} (L : list (K * T)) (f : T -> K) : K := fsum (map (fun p : K * T => fst p * f (snd p))%of L).
  Definition wlen {T} (L : list (K * T)) : K := wsum L (fun _ => f1).
  Lemma two_pos : (0 < (two : K))%of.
  Proof. unfold two. pose proof (fn_pos (K := K) 1) as F. cbn [fn] in F. replace (f1 + f1)%of with (f1 + (f1 + f0) : K)%of by ring. exact F. Qed.
  Lemma two_ne : (two : K) <> f0. Proof. intros E. symmetry in E. revert E. apply flt_ne, two_pos. Qed.
  Lemma wsum_app {T} (L M : list (K * T)) f : wsum (L ++ M) f = (wsum L f + wsum M f)%of.
  Proof. unfold wsum. now rewrite map_app, fsum_app. Qed.
  Lemma wsum_ext {T} (L : list (K * T)) f g : (forall x, f x = g x) -> wsum L f = wsum L g.
  Proof. intros H. apply fsum_map_ext. intros p _. now rewrite H. Qed.
  Lemma wsum_add {T} (L : list (K * T)) f g : wsum L (fun x => f x + g x)%of = (wsum L f + wsum L g)%of.
  Proof. unfold wsum. rewrite <- fsum_map_add. apply fsum_map_ext. intros. ring. Qed.
  Lemma wsum_sub {T} (L : list (K * T)) f g : wsum L (fun x => f x - g x)%of = (wsum L f - wsum L g)%of.
  Proof. unfold wsum. rewrite <- fsum_map_sub. apply fsum_map_ext. intros. ring. Qed.
  Lemma wsum_mul {T} (L : list (K * T)) f c : wsum L (fun x => c * f x)%of = (c * wsum L f)%of.
  Proof. unfold wsum. rewrite <- fsum_map_mul. apply fsum_map_ext. intros. ring. Qed.
  Lemma wsum_mulr {T} (L : list (K * T)) f c : wsum L (fun x => f x * c)%of = (wsum L f * c)%of.
  Proof. unfold wsum. rewrite <- fsum_map_mulr. apply fsum_map_ext. intros. ring. Qed.
  Lemma wsum_const {T} (L : list (K * T)) c : wsum L (fun _ => c) = (wlen L * c)%of.
  Proof. unfold wlen. rewrite <- wsum_mulr. apply wsum_ext. intros. ring. Qed.
  Lemma wsum_perm {T} (L M : list (K * T)) f : Permutation L M -> wsum L f = wsum M f.
  Proof. intros P. unfold wsum. apply fsum_perm. now apply Permutation_map. Qed.
  Lemma wsum_map {T U} (g : T -> U) (L : list (K * T)) f : wsum (map (fun p => (fst p, g (snd p))) L) f = wsum L (fun x => f (g x)).
  Proof. unfold wsum. rewrite map_map. reflexivity. Qed.
  Lemma wsum_swap {T} n (L : list (K * T)) (f : nat -> T -> K) : fsumn n (fun i => wsum L (f i)) = wsum L (fun x => fsumn n (fun i => f i x)).
  Proof. unfold wsum. rewrite fsumn_fsum. apply fsum_map_ext. intros p _. now rewrite <- fsumn_mul. Qed.
  Lemma wsum_nonneg {T} (L : list (K * T)) f : Forall (fun p => (0 <= fst p)%of) L -> (forall x, (0 <= f x)%of) -> (0 <= wsum L f)%of.
  Proof. intros P F. apply fsum_map_nonneg. intros p I. rewrite Forall_forall in P. apply fle_mul0; auto. Qed.
  Lemma trap_cons {T} (w : K) ws (a b : T) l : trap (w :: ws) (a :: b :: l) = (w / two, a)%of :: (w / two, b)%of :: trap ws (b :: l).
  Proof. reflexivity. Qed.
  Lemma trap_map {T U} (g : T -> U) ws (l : list T) : trap ws (map g l) = map (fun p => (fst p, g (snd p))) (trap ws l).
  Proof.
    revert l. induction ws as [|w ws IH]; intros [|a [|b l]]; try reflexivity. cbn [map]. rewrite !trap_cons. cbn [map fst snd]. change (g b :: map g l) with (map g (b :: l)). now rewrite IH.
  Qed.
  Lemma trap_app {T} (l x : list T) (D ws : list K) d e : l <> [] -> x <> [] -> length D = length l - 1 ->
    trap (D ++ d :: ws) (l ++ x) = trap D l ++ (d / two, last l e)%of :: (d / two, hd e x)%of :: trap ws x.
  Proof. intros NL NX L. unfold trap. rewrite (pairs_app x l e NL NX), combine_app' by (now rewrite pairs_length). rewrite flat_map_app. reflexivity. Qed.
  Lemma trap_sums {T} (f : T -> K) ws : forall l, wsum (trap ws l) f =
    (fsum (map (fun p : K * T => fst p * f (snd p)) (combine ws (tl l))) / two + fsum (map (fun p : K * T => fst p * f (snd p)) (combine ws (removelast l))) / two)%of.
  Proof.
    pose proof two_ne as T2. induction ws as [|w ws IH]; intros [|a [|b l]]; try (cbn; field; exact T2).
    rewrite trap_cons. unfold wsum. cbn [map fsum fst snd]. change (fsum (map (fun p : K * T => (fst p * f (snd p))%of) (trap ws (b :: l)))) with (wsum (trap ws (b :: l)) f).
    rewrite IH. cbn [tl]. change (removelast (a :: b :: l)) with (a :: removelast (b :: l)). change (combine (w :: ws) (b :: l)) with ((w, b) :: combine ws l). change (combine (w :: ws) (a :: removelast (b :: l))) with ((w, a) :: combine ws (removelast (b :: l))).
    cbn [map fsum fst snd]. field. exact T2.
  Qed.
  Lemma two_is : (two : K) = (f1 + f1)%of. Proof. reflexivity. Qed.
  Lemma trap_len {T} ws : forall l : list T, length ws = length l - 1 -> wlen (trap ws l) = fsum ws.
  Proof.
    pose proof two_ne as T2. induction ws as [|w ws IH]; intros [|a [|b l]] L; cbn [length] in L; try lia; try reflexivity.
    rewrite trap_cons. unfold wlen, wsum in *. cbn [map fsum fst snd]. rewrite IH by (cbn [length]; lia). rewrite two_is in *. field. exact T2.
  Qed.
  Lemma trap_pos {T} ws (l : list T) : Forall (fun w => (0 < w)%of) ws -> Forall (fun p => (0 <= fst p)%of) (trap ws l).
  Proof.
    intros P. apply Forall_forall. intros p I. unfold trap in I. apply in_flat_map in I. destruct I as ((w & a & b) & I & J). apply in_combine_l in I. rewrite Forall_forall in P. apply P in I.
    assert (Q : (0 <= w / two)%of). { apply fdiv_pos; [now apply flt_le|apply two_pos]. }
    cbn [fst snd] in J. destruct J as [<-|[<-|[]]]; exact Q.
  Qed.
End Weights.

Section Blocks.
  Context {K : ofield}.
  Add Field Kvb : (fth K).
  Notation vec := (vec (K := K)). Notation mtx := (mtx (K := K)). Notation sfa := (sfa (K := K)). Notation vacc := (vacc (K := K)). Notation vsfa := (vsfa (K := K)). Notation incr := (incr (K := K)). Notation vcall := (vcall (K := K)).
  Context (junk : vec).

  (** a block: samples without interruption and the increments between them *)
  Notation block := (list vec * list K)%type.
  (** the last m increments of the argument dt *)
  Definition incs (m : nat) (dt : incr) : list K := match dt with INone => repeat f1 m | IConst q => repeat q m | IArr l => skipn (length l - m) l end.
  (** a call with time_dep extends the last block, any other call (and the first) begins a block; the blocks are listed backwards *)
  Definition absorb (bs : list block) (c : vcall) : list block :=
    let '(x, dt, td) := c in
    match bs with
    | (X, D) :: r => if td then (X ++ x, D ++ incs (length x) dt) :: r else (x, incs (length x - 1) dt) :: bs
    | [] => [(x, incs (length x - 1) dt)]
    end.
  Definition blocks (calls : list vcall) : list block := fold_left absorb calls [].
  (** the documented use of the argument dt; [first]: no call before *)
  Definition ok_call (first : bool) (c : vcall) : Prop :=
    let '(x, dt, td) := c in
    2 <= length x /\
    match dt with
    | INone => True
    | IConst q => (0 < q)%of
    | IArr l => Forall (fun w => (0 < w)%of) l /\ (if first then length l = length x - 1 \/ (length l = length x /\ 3 <= length x) else if td then length l = length x else length l = length x - 1)
    end.
  Definition ok_calls (calls : list vcall) : Prop := match calls with [] => True | c :: r => ok_call true c /\ Forall (ok_call false) r end.
  (** (later sample, earlier sample, increment) *)
  Notation step := (vec * vec * K)%type.
  Definition steps_of (b : block) : list step := combine (combine (tl (fst b)) (removelast (fst b))) (snd b).
  Definition der (s : step) : vec := quot (fst (fst s)) (snd (fst s)) (snd s).
  Definition pts (bs : list block) : list (K * vec) := flat_map (fun b => trap (snd b) (fst b)) bs.
  Definition dpts (bs : list block) : list (K * step) := flat_map (fun b => trap (tl (snd b)) (steps_of b)) bs.
  Definition okb (b : block) : Prop := 2 <= length (fst b) /\ length (snd b) = length (fst b) - 1.

  Lemma lastn_incs n (l : list K) : 2 <= n -> lastn n l = incs (n - 1) (IArr l).
  Proof. destruct n as [|[|n]]; [lia|lia|reflexivity]. Qed.
  Lemma incs_len first td x dt m : ok_call first (x, dt, td) -> m <= (if first then length x - 1 else if td then length x else length x - 1) -> length (incs m dt) = m.
  Proof. intros (Hx & H) M. destruct dt as [|q|l]; cbn [incs]; [apply repeat_length|apply repeat_length|]. rewrite skipn_length. destruct H as (_ & H). destruct first; [lia|]. destruct td; lia. Qed.
  Lemma rows_steps (x : list vec) ws : rows x ws = map der (steps_of (x, ws)). Proof. reflexivity. Qed.
  Lemma combine3 {A B C} (l : list A) (m : list B) (f : A * B -> C) (g : A * B * K -> C) : (forall a b, f (a, b) = g (a, b, f1)) -> forall n, length l <= n -> length l = length m -> map f (combine l m) = map g (combine (combine l m) (repeat f1 n)).
  Proof. intros E. revert m. induction l as [|a l IH]; intros [|b m] n Hn L; cbn in Hn, L; try lia; [reflexivity|]. destruct n; [lia|]. cbn [combine repeat map]. rewrite E. f_equal. apply IH; lia. Qed.
  Lemma derivative_steps (x : list vec) : time_derivative x = map der (steps_of (x, repeat f1 (length x - 1))).
  Proof.
    unfold time_derivative, steps_of. cbn [fst snd]. apply combine3.
    - intros a b. unfold der, quot, sub. cbn [fst snd]. extensionality i. field. apply f10.
    - destruct x; cbn; lia.
    - rewrite removelast_len. destruct x; cbn; lia.
  Qed.
  Lemma tl_len {T} (l : list T) : length (tl l) = length l - 1. Proof. destruct l; cbn; lia. Qed.
  Lemma steps_len (x : list vec) ws : length ws = length x - 1 -> length (steps_of (x, ws)) = length x - 1.
  Proof. intros L. unfold steps_of. cbn [fst snd]. rewrite !combine_length, removelast_len, tl_len. lia. Qed.
  Definition swap {A B} (p : A * B) := (snd p, fst p).
  Lemma combine_swap {A B} (l : list A) (m : list B) : combine l m = map swap (combine m l).
  Proof. revert m. induction l as [|a l IH]; intros [|b m]; try reflexivity. cbn. now rewrite IH. Qed.
  Lemma steps_app (X x : list vec) D d ws : X <> [] -> x <> [] -> length D = length X - 1 ->
    steps_of (X ++ x, D ++ d :: ws) = steps_of (X, D) ++ (hd vzero x, last X vzero, d) :: steps_of (x, ws).
  Proof.
    intros NX Nx L. unfold steps_of. cbn [fst snd]. rewrite !(combine_swap (tl _)). fold (pairs (X ++ x)). fold (pairs X). fold (pairs x).
    rewrite (pairs_app x X vzero NX Nx), map_app, combine_app' by (rewrite map_length, pairs_length; lia). reflexivity.
  Qed.

  (** ** one update *)
  Definition holds (c : vacc) (L : list (K * vec)) : Prop :=
    (forall i j, w_m c i j = wsum L (fun v => v i * v j)%of) /\ (forall i, w_s c i = wsum L (fun v => v i)) /\ w_t c = wlen L.
  Lemma holds_perm c L M : Permutation L M -> holds c L -> holds c M.
  Proof. intros P (H1 & H2 & H3). repeat split; intros; rewrite <- ?(wsum_perm _ _ _ P); [apply H1|apply H2|]. rewrite H3. unfold wlen. now apply wsum_perm. Qed.
  Definition gap (c : vacc) (x : list vec) dt td : list (K * vec) :=
    match gap_of (w_chunks c) (length x) dt td with Some d => [(d / two, w_last c); (d / two, hd vzero x)]%of | None => [] end.
  Definition wsof (n : nat) (dt : incr) : list K := match dt with INone => repeat f1 (n - 1) | IConst q => repeat q (n - 1) | IArr l => lastn n l end.
  Lemma holds_update c L x dt td : holds c L -> bad (w_chunks c) (length x) dt td = false -> length (wsof (length x) dt) = length x - 1 ->
    exists c', vacc_update c x dt td = Some c' /\ holds c' (L ++ gap c x dt td ++ trap (wsof (length x) dt) x) /\ w_chunks c' = S (w_chunks c) /\ w_last c' = last x vzero.
  Proof.
    intros (H1 & H2 & H3) B W. unfold vacc_update. rewrite B. fold (wsof (length x) dt). set (ws := wsof (length x) dt) in *. pose proof (two_ne (K := K)) as T2.
    assert (E1 : forall i j, wsum (trap ws x) (fun v => v i * v j)%of = (wsum2 ws (tl x) i j / two + wsum2 ws (removelast x) i j / two)%of) by (intros; now rewrite trap_sums).
    assert (E2 : forall i, wsum (trap ws x) (fun v => v i)%of = (wsum1 ws (tl x) i / two + wsum1 ws (removelast x) i / two)%of) by (intros; now rewrite trap_sums).
    assert (E3 : wlen (trap ws x) = fsum ws) by now apply trap_len.
    unfold gap. destruct (gap_of (w_chunks c) (length x) dt td) as [d|]; eexists; (split; [reflexivity|]); (split; [|split; reflexivity]); repeat split; intros; cbn [w_m w_s w_t];
      unfold wlen in *; rewrite !wsum_app, ?E1, ?E2, ?E3, ?H1, ?H2, ?H3; unfold wsum; cbn [map fsum fst snd]; try (field; exact T2); rewrite ?two_is in *; try (field; exact T2).
  Qed.

  (** ** the state after some calls *)
  Definition vpts (bs : list block) : list (K * vec) := flat_map (fun b => trap (tl (snd b)) (map der (steps_of b))) bs.
  Lemma vpts_dpts bs : vpts bs = map (fun p => (fst p, der (snd p))) (dpts bs).
  Proof. unfold vpts, dpts. induction bs as [|b bs IH]; [reflexivity|]. cbn [flat_map]. rewrite IH, map_app. f_equal. apply trap_map. Qed.
  Definition repr (s : vsfa) (bs : list block) : Prop :=
    s_training (v_sfa s) = true /\ Forall okb bs /\
    exists c dc, v_accs s = Some (c, dc) /\ holds c (pts bs) /\ holds dc (vpts bs) /\ w_chunks dc = w_chunks c /\ v_tchunk s = w_chunks c /\ (0 <? w_chunks c) = (match bs with [] => false | _ => true end) /\
      match bs with [] => True | b :: _ => w_last c = last (fst b) vzero /\ v_xlast s = last (fst b) vzero /\ w_last dc = der (last (steps_of b) (vzero, vzero, f0)) end.
  Lemma repr_new out m : repr (vsfa_new out m) [].
  Proof. split; [reflexivity|]. split; [constructor|]. exists vacc_new, vacc_new. repeat split. Qed.
  Lemma ok_not_bad first chunks x dt td : ok_call first (x, dt, td) -> (0 <? chunks) = negb first -> bad chunks (length x) dt td = false.
  Proof.
    intros (Hx & H) F. unfold bad. destruct dt as [|q|l]; [reflexivity| |].
    - unfold flt in H. now rewrite H.
    - rewrite F. destruct H as (_ & H). destruct first; cbn [negb].
      + rewrite andb_false_r. cbn [andb orb]. destruct (Nat.eqb_spec (length l) (length x)); destruct (Nat.eqb_spec (length l) (length x - 1)); cbn; try reflexivity; lia.
      + destruct td; cbn [andb]; destruct (Nat.eqb_spec (length l) (length x)); destruct (Nat.eqb_spec (length l) (length x - 1)); destruct (Nat.eqb_spec (length x - 1) (length l)); cbn; try reflexivity; lia.
  Qed.
  (** the increments given to _dcov_mtx *)
  Definition dt2 (n k : nat) (dt : incr) : incr := match dt with INone => INone | IConst q => IConst q | IArr l => if n - 1 <? k then IArr l else IArr (tl l) end.
  Lemma last_map {A B} (f : A -> B) l a b : l <> [] -> last (map f l) b = f (last l a).
  Proof. induction l as [|x [|y l] IH]; intros N; [now destruct N|reflexivity|]. change (last (map f (y :: l)) b = f (last (y :: l) a)). apply IH. congruence. Qed.
  Lemma skipn_S_tl {T} k (l : list T) : skipn (S k) l = tl (skipn k l).
  Proof. revert l. induction k as [|k IH]; intros [|a l]; try reflexivity. cbn [skipn] in *. apply (IH l). Qed.
  Lemma incs_tl m dt : (match dt with IArr l => S m <= length l | _ => True end) -> tl (incs (S m) dt) = incs m dt.
  Proof. destruct dt as [|q|l]; [reflexivity|reflexivity|]. intros L. cbn [incs]. replace (length l - m) with (S (length l - S m)) by lia. now rewrite skipn_S_tl. Qed.
  Lemma incs_hd m dt : (match dt with IArr l => S m <= length l | _ => True end) -> incs (S m) dt = hd f0 (incs (S m) dt) :: incs m dt.
  Proof. intros L. rewrite <- (incs_tl m dt L). destruct (incs (S m) dt) eqn:E; [|reflexivity]. exfalso. destruct dt as [|q|l]; cbn in E; try discriminate. assert (X : length (skipn (length l - S m) l) = 0) by now rewrite E. rewrite skipn_length in X. lia. Qed.
  Lemma wsof_incs n dt : 2 <= n -> wsof n dt = incs (n - 1) dt.
  Proof. intros L. destruct dt; [reflexivity|reflexivity|now apply lastn_incs]. Qed.

  Lemma train_step s bs c : repr s bs -> ok_call (match bs with [] => true | _ => false end) c ->
    let '(x, dt, td) := c in exists s', v_train junk s x dt td = (s', VOk tt) /\ repr s' (absorb bs c) /\ v_sfa s' = set_started (v_sfa s) /\ v_tlen s' = v_tlen s /\ v_dtlen s' = v_dtlen s.
  Proof.
    destruct c as [[x dt] td]. intros (TR & OB & c & dc & EA & HC & HD & CH & TC & NZ & LA) OK. pose proof OK as (Lx & OKd).
    set (first := match bs with [] => true | _ => false end) in *. assert (NZ' : (0 <? w_chunks c) = negb first) by (rewrite NZ; unfold first; now destruct bs).
    assert (NE : x <> []) by (intros ->; cbn in Lx; lia).
    unfold v_train. rewrite TR. cbn [negb]. destruct (Nat.eqb_spec (length x) 0); [lia|]. destruct (Nat.ltb_spec (length x) 2); [lia|]. cbn [v_accs]. rewrite EA.
    pose proof (ok_not_bad first (w_chunks c) x dt td OK NZ') as B.
    assert (LI : length (incs (length x - 1) dt) = length x - 1) by (apply (incs_len first td x); [exact OK|destruct first; [|destruct td]; lia]).
    destruct (holds_update c (pts bs) x dt td HC B) as (c' & -> & HC' & CH' & LA'); [rewrite wsof_incs by lia; exact LI|]. rewrite wsof_incs in HC' by lia.
    unfold v_derivative. cbn [v_tchunk v_xlast v_sfa v_accs v_tlen v_dtlen]. rewrite TC, B.
    assert (RE : match dt with IArr l => rows x (lastn (length x) l) | IConst q => rows x (repeat q (length x - 1)) | INone => time_derivative x end = map der (steps_of (x, incs (length x - 1) dt))).
    { destruct dt as [|q|l]; [apply derivative_steps|reflexivity|]. now rewrite lastn_incs by lia. }
    rewrite RE. clear RE. set (R := map der (steps_of (x, incs (length x - 1) dt))) in *.
    assert (LR : length R = length x - 1) by (unfold R; rewrite map_length; now apply steps_len).
    assert (LO : match dt with INone | IConst _ => td && (0 <? w_chunks c) | IArr l => negb ((w_chunks c =? 0) || negb (length l =? length x)) end = td && negb first).
    { rewrite NZ'. destruct dt as [|q|l]; [reflexivity|reflexivity|]. destruct OKd as (_ & OKl). assert (Z0 : (w_chunks c =? 0) = first) by (destruct (w_chunks c), first; cbn in *; congruence). rewrite Z0.
      destruct first; cbn [orb negb]; [now rewrite andb_false_r|]. rewrite andb_true_r, negb_involutive. destruct td; [apply Nat.eqb_eq; exact OKl|apply Nat.eqb_neq; lia]. }
    rewrite LO. clear LO.
    destruct (td && negb first) eqn:CONN.
    - (* connected *)
      apply andb_prop in CONN. destruct CONN as (-> & F). apply negb_true_iff in F. rewrite NZ'. rewrite F in *. cbn [negb andb] in *.
      destruct bs as [|[X D] r]; [discriminate|]. destruct LA as (LA1 & LA2 & LA3). pose proof (Forall_inv OB) as (LX & LD). cbn [fst snd] in *.
      assert (NX : X <> []) by (intros ->; cbn in LX; lia).
      assert (ARR : match dt with IArr l => S (length x - 1) <= length l | _ => True end) by (destruct dt; [exact I|exact I|]; destruct OKd; lia).
      pose proof (incs_hd (length x - 1) dt ARR) as IH. replace (S (length x - 1)) with (length x) in IH by lia. set (d := hd f0 (incs (length x) dt)) in *. set (ws := incs (length x - 1) dt) in *.
      set (first_row := match dt with INone => fun i => (hd vzero x i - v_xlast s i)%of | IConst q => quot (hd vzero x) (v_xlast s) q | IArr l => quot (hd vzero x) (v_xlast s) (hd f0 l) end).
      set (s0 := (hd vzero x, last X vzero, d) : step).
      assert (FR : first_row = der s0).
      { unfold first_row, s0, der. cbn [fst snd]. rewrite LA2. unfold d. replace (length x) with (S (length x - 1)) by lia. destruct dt as [|q|l]; cbn [incs repeat hd].
        - unfold quot. extensionality i. field. apply f10.
        - reflexivity.
        - destruct OKd as (_ & OKl). now replace (length l - S (length x - 1)) with 0 by lia. }
      rewrite FR. set (y := der s0 :: R). assert (LY : length y = length x) by (unfold y; cbn [length]; lia).
      cbv beta iota zeta. change (der s0 :: R) with y. change (match dt with INone => INone | IConst q => IConst q | IArr l => if length x - 1 <? length y then IArr l else IArr (tl l) end) with (dt2 (length x) (length y) dt). assert (D2 : dt2 (length x) (length y) dt = dt) by (unfold dt2; rewrite LY; destruct dt; try reflexivity; destruct (Nat.ltb_spec (length x - 1) (length x)); [reflexivity|lia]).
      rewrite D2. assert (B2 : bad (w_chunks dc) (length y) dt true = false) by (rewrite CH, LY; exact B).
      destruct (holds_update dc (vpts ((X, D) :: r)) y dt true HD B2) as (dc' & -> & HD' & CHd & LAd); [rewrite LY, wsof_incs by lia; exact LI|]. rewrite LY, wsof_incs in HD' by lia. fold ws in HD'.
      eexists. split; [reflexivity|]. split; [|repeat split].
      assert (LD2 : length D <> 0) by lia. assert (NS : steps_of (X, D) <> []) by (intros N; pose proof (steps_len X D LD) as SL; rewrite N in SL; cbn in SL; lia).
      assert (NSx : steps_of (x, ws) <> []) by (intros N; pose proof (steps_len x ws LI) as SL; rewrite N in SL; cbn in SL; lia).
      assert (GO : forall n, gap_of (w_chunks c) n dt true = match dt with IArr l => if length l =? n then Some d else None | _ => Some d end).
      { intros k. unfold gap_of. rewrite NZ'. unfold d. replace (length x) with (S (length x - 1)) by lia. destruct dt as [|q|l]; cbn [incs repeat hd]; try reflexivity.
        destruct OKd as (_ & OKl). now replace (length l - S (length x - 1)) with 0 by lia. }
      assert (GX : gap_of (w_chunks c) (length x) dt true = Some d) by (rewrite GO; destruct dt; try reflexivity; destruct OKd as (_ & ->); now rewrite Nat.eqb_refl).
      assert (TD : tl (D ++ d :: ws) = tl D ++ d :: ws) by (destruct D; [now destruct LD2|reflexivity]).
      split; [exact TR|]. split.
      { constructor; [|now apply Forall_inv_tail in OB]. split; cbn [fst snd]; rewrite ?IH, !app_length; cbn [length]; lia. }
      exists c', dc'. split; [reflexivity|]. rewrite CH', CHd, CH. cbn [absorb]. rewrite IH.
      split; [|split; [|split; [reflexivity|split; [now rewrite ?TC|split; [reflexivity|cbn [fst v_xlast]; split; [rewrite LA'; now rewrite last_app_ne|split; [now rewrite last_app_ne|]]]]]]].
      + revert HC'. apply holds_perm. unfold gap. rewrite GX, LA1. unfold pts. cbn [flat_map fst snd]. fold (pts r). rewrite (trap_app X x D ws d vzero NX NE LD). rewrite <- !app_assoc. apply Permutation_app_head. cbn [app]. rewrite (Permutation_app_comm (pts r)). reflexivity.
      + revert HD'. apply holds_perm. unfold gap. rewrite CH, LY, GX. unfold vpts. cbn [flat_map fst snd]. fold (vpts r). rewrite TD, (steps_app X x D d ws NX NE LD). fold s0. rewrite map_app. cbn [map]. fold R. fold y.
        rewrite (trap_app (map der (steps_of (X, D))) y (tl D) ws d vzero); [|destruct (steps_of (X, D)); [now destruct NS|discriminate]|discriminate|rewrite map_length, tl_len, steps_len by exact LD; lia].
        rewrite (last_map der _ (vzero, vzero, f0)) by exact NS. rewrite <- !app_assoc. apply Permutation_app_head. cbn [app]. rewrite LA3. unfold y at 1. cbn [hd]. rewrite (Permutation_app_comm (vpts r)). reflexivity.
      + rewrite LAd, (steps_app X x D d ws NX NE LD), last_app_ne by discriminate. unfold y. change (der s0 :: R) with (map der ((hd vzero x, last X vzero, d) :: steps_of (x, ws))). apply last_map. discriminate.
    - (* a new block *)
      cbv beta iota zeta. change (match dt with INone => INone | IConst q => IConst q | IArr l => if length x - 1 <? length R then IArr l else IArr (tl l) end) with (dt2 (length x) (length R) dt). set (dtt := dt2 (length x) (length R) dt).
      assert (DT : dtt = match dt with IArr l => IArr (tl l) | _ => dt end) by (unfold dtt, dt2; rewrite LR, Nat.ltb_irrefl; now destruct dt).
      assert (NBD : (first = true \/ td = false)) by (destruct td, first; auto; discriminate).
      assert (ARR : match dt with IArr l => length l = length x - 1 \/ (first = true /\ length l = length x /\ 3 <= length x) | _ => True end).
      { destruct dt as [|q|l]; [exact I|exact I|]. destruct OKd as (_ & OKl). destruct first; [lia|]. destruct NBD as [?|NBD]; [discriminate|]. rewrite NBD in OKl. auto. }
      assert (B2 : bad (w_chunks dc) (length R) dtt td = false).
      { rewrite DT, CH. unfold bad. destruct dt as [|q|l]; [reflexivity|cbn in B; exact B|]. rewrite NZ', LR, tl_len.
        replace (td && negb first) with false by (destruct NBD as [-> | ->]; cbn; [now rewrite andb_false_r|reflexivity]). cbn [andb orb].
        destruct (Nat.eqb_spec (length l - 1) (length x - 1)); destruct (Nat.eqb_spec (length l - 1) (length x - 1 - 1)); cbn; try reflexivity; lia. }
      assert (WS : wsof (length R) dtt = tl (incs (length x - 1) dt)).
      { rewrite LR, DT. destruct (length x) as [|[|k]] eqn:Ex; [lia|lia|]. replace (S (S k) - 1) with (S k) by lia. rewrite incs_tl.
        - destruct dt as [|q|l]; cbn [wsof incs]; [now replace (S k - 1) with k by lia|now replace (S k - 1) with k by lia|]. unfold lastn. destruct k as [|k].
          + destruct l as [|a l]; [reflexivity|]. cbn [tl]. destruct ARR as [A|A]; [|lia]. cbn in A. destruct l; [reflexivity|cbn in A; lia].
          + destruct l as [|a l]; [cbn in ARR; lia|]. cbn [tl length]. replace (S (S k) - 1) with (S k) by lia. cbn [length] in ARR. replace (S (length l) - S k) with (S (length l - S k)) by lia. reflexivity.
        - destruct dt; [exact I|exact I|]. lia. }
      destruct (holds_update dc (vpts bs) R dtt td HD B2) as (dc' & -> & HD' & CHd & LAd); [rewrite WS, tl_len, LI; lia|]. rewrite WS in HD'. fold (set_started (v_sfa s)).
      eexists. split; [reflexivity|]. split; [|repeat split].
      assert (AB : absorb bs (x, dt, td) = (x, incs (length x - 1) dt) :: bs) by (cbn [absorb]; destruct bs as [|[X D] r]; [reflexivity|]; destruct NBD as [NB| ->]; [discriminate|reflexivity]).
      rewrite AB. set (ws := incs (length x - 1) dt) in *.
      assert (NSx : steps_of (x, ws) <> []) by (intros N; pose proof (steps_len x ws LI) as SL; rewrite N in SL; cbn in SL; lia).
      assert (GX : gap c x dt td = []).
      { unfold gap, gap_of. rewrite NZ'. destruct NBD as [-> | ->]; [reflexivity|]. destruct (negb first) eqn:NF; [|reflexivity]. apply negb_true_iff in NF. destruct dt as [|q|l]; try reflexivity. destruct ARR as [A|(A & _)]; [|congruence]. destruct (Nat.eqb_spec (length l) (length x)); [lia|reflexivity]. }
      assert (GY : gap dc R dtt td = []).
      { unfold gap, gap_of. rewrite CH, NZ', LR, DT. destruct NBD as [-> | ->]; [reflexivity|]. destruct (negb first) eqn:NF; [|reflexivity]. apply negb_true_iff in NF. destruct dt as [|q|l]; try reflexivity. destruct ARR as [A|(A & _)]; [|congruence].
        rewrite tl_len. destruct (Nat.eqb_spec (length l - 1) (length x - 1)); [lia|reflexivity]. }
      rewrite GX in HC'. rewrite GY in HD'. cbn [app] in *.
      split; [exact TR|]. split; [constructor; [split; cbn [fst snd]; lia|exact OB]|].
      exists c', dc'. split; [reflexivity|]. rewrite CH', CHd, CH. cbn [fst].
      split; [|split; [|split; [reflexivity|split; [now rewrite ?TC|split; [reflexivity|split; [exact LA'|split; [reflexivity|]]]]]]].
      + revert HC'. apply holds_perm. apply Permutation_app_comm.
      + revert HD'. apply holds_perm. apply Permutation_app_comm.
      + rewrite LAd. unfold R. apply last_map. exact NSx.
  Qed.
End Blocks.
