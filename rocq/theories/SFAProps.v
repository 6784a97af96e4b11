(** Properties of SFANode: C220-C228. *)
From Coq Require Import List Arith ZArith QArith Qcanon Bool Lia Sorting.Sorted Field Permutation FunctionalExtensionality.
From Verif Require Import OField LinAlg PCAModel PCAProofs GenEig SymeigModel SymeigProofs SymeigProps SFAModel.
Import ListNotations.
Open Scope nat_scope.

Section Props.
  Context {K : ofield}.
  Add Field Kv : (fth K).
  Notation vec := (vec (K := K)). Notation mtx := (mtx (K := K)). Notation sfa := (sfa (K := K)). Notation acc := (acc (K := K)).
  Context (dim : nat) (solver : method -> option (Z * Z) -> nat -> mtx -> mtx -> solres K vec) (pinv : list vec -> list vec).
  Notation stop := (sfa_stop dim solver).
  Definition call := (list vec * option bool)%type.
  Definition cchunk (incl : bool) (c : call) : list vec := if match snd c with Some b => b | None => incl end then fst c else removelast (fst c).
  (** the samples used for the covariance matrix, and the pairs of consecutive samples *)
  Definition samples (incl : bool) (calls : list call) : list vec := concat (map (cchunk incl) calls).
  Definition steps (calls : list call) : list (vec * vec) := concat (map (fun c : call => combine (tl (fst c)) (removelast (fst c))) calls).
  Definition trained (out : option nat) (incl : bool) (m : method) (calls : list call) (s : sfa) : Prop :=
    exists s0, sfa_trains (sfa_new out incl m) calls = (s0, SOk tt) /\ stop s0 false = (s, SOk tt).
  (** component k of the output *)
  Definition out_k (s : sfa) (k : nat) (x : vec) : K := nth k (sfa_execute dim s None x) f0.

  Definition covm (incl : bool) (calls : list call) : mtx := fst (acc_fix true (accs (map (cchunk incl) calls))).
  Definition derm (calls : list call) : mtx := fst (acc_fix false (accs (map (fun c : call => time_derivative (fst c)) calls))).

  Lemma trains_ok calls : forall (s : sfa) c dc s0, s_training s = true -> s_accs s = Some (c, dc) -> sfa_trains s calls = (s0, SOk tt) ->
    s_accs s0 = Some (fold_left acc_update (map (cchunk (s_incl s)) calls) c, fold_left acc_update (map (fun c : call => time_derivative (fst c)) calls) dc) /\
    s_out s0 = s_out s /\ s_incl s0 = s_incl s /\ s_meth s0 = s_meth s /\ s_dfc s0 = s_dfc s /\ s_training s0 = true /\ Forall (fun c : call => 2 <= length (fst c)) calls /\
    s_mats s0 = s_mats s /\ s_avg s0 = s_avg s /\ s_tlen s0 = s_tlen s /\ s_dtlen s0 = s_dtlen s /\ s_d s0 = s_d s /\ s_sf s0 = s_sf s /\ s_bias s0 = s_bias s /\
    s_started s0 = (match calls with [] => s_started s | _ => true end).
  Proof.
    induction calls as [|[x b] r IH]; intros s c dc s0 HT HA H; cbn [sfa_trains] in H.
    - injection H as <-. repeat split; auto.
    - unfold sfa_train in H. rewrite HT, HA in H. cbn [negb] in H. destruct (Nat.eqb_spec (length x) 0) as [|L0]; [discriminate|]. destruct (Nat.ltb_spec (length x) 2) as [|L]; [discriminate|]. cbn [negb] in H.
      eapply IH in H; [|reflexivity|reflexivity]; clear IH; rename H into IH. cbn [s_accs s_out s_incl s_meth s_dfc s_training s_mats s_avg s_tlen s_dtlen s_d s_sf s_bias s_started map fold_left] in IH |- *.
      destruct IH as (E1 & E2 & E3 & E4 & E5 & E6 & E7 & E8 & E9 & E10 & E11 & E12 & E13 & E14 & E15). repeat split; try assumption.
      + constructor; [exact L|exact E7].
      + rewrite E15. now destruct r.
  Qed.
  Definition range_of (out : option nat) : option (Z * Z) := match out with Some k => Some (1, Z.of_nat k)%Z | None => None end.
  Lemma trained_ok out incl m calls s : trained out incl m calls s ->
    (forall k, out = Some k -> k <= dim) /\ s_out s = Some (match out with Some k => k | None => dim end) /\ 0 < length (s_d s) /\ (forall a, In a (s_d s) -> (0 <= a)%of) /\
    (exists dfc, solver m (range_of out) 0 (derm calls) (covm incl calls) = SolOk dfc (s_d s) (s_sf s) /\ s_dfc s = match dfc with Some k => k | None => 0 end) /\
    s_avg s = snd (acc_fix true (accs (map (cchunk incl) calls))) /\ s_bias s = map (fun v => dot dim (s_avg s) v) (s_sf s) /\
    s_tlen s = length (samples incl calls) /\ s_dtlen s = length (steps calls) /\ s_training s = false /\ s_mats s = None /\ s_accs s = None.
  Proof.
    intros (s0 & H1 & H2). pose proof (trains_ok calls (sfa_new out incl m) acc_new acc_new s0 eq_refl eq_refl H1) as (E1 & E2 & E3 & E4 & E5 & E6 & E7 & E8 & E9 & E10 & E11 & E12 & E13 & E14 & E15).
    cbn [sfa_new s_out s_incl s_meth s_dfc s_mats s_started] in *. unfold sfa_stop in H2. rewrite E6 in H2. destruct (s_started s0) eqn:ST; cbn [negb andb] in H2; [|discriminate].
    unfold sfa_fix in H2. rewrite E1 in H2. fold (accs (map (cchunk incl) calls)) in H2. fold (accs (map (fun c : call => time_derivative (fst c)) calls)) in H2.
    destruct (acc_fix true (accs (map (cchunk incl) calls))) as [cm avg] eqn:EC. destruct (acc_fix false (accs (map (fun c : call => time_derivative (fst c)) calls))) as [dm davg] eqn:ED.
    unfold set_range in H2. cbn [s_out s_mats s_meth s_dfc s_accs s_incl s_avg s_tlen s_dtlen] in H2. rewrite E2, E4, E5 in H2.
    assert (G : exists out' rng, (match out with Some k => if k <=? dim then SOk (Some k, Some (1, Z.of_nat k)%Z) else SErr SInconsistent | None => SOk (Some dim, None) end) = SOk (out', rng) /\
                  (forall k, out = Some k -> k <= dim) /\ out' = Some (match out with Some k => k | None => dim end) /\ rng = range_of out).
    { destruct out as [k|]; [|exists (Some dim), None; repeat split; intros; discriminate]. destruct (Nat.leb_spec k dim) as [L|L]; [|discriminate].
      eexists _, _. repeat split. intros k' E. injection E as <-. exact L. }
    destruct G as (out' & rng & G1 & G2 & G3 & G4). rewrite G1 in H2. rewrite G4 in *.
    assert (C1 : covm incl calls = cm) by (unfold covm; now rewrite EC). assert (C2 : derm calls = dm) by (unfold derm; now rewrite ED). rewrite C1, C2.
    destruct (solver m (range_of out) 0 dm cm) as [dfc d u| |] eqn:ES; try discriminate. destruct (Nat.eqb_spec (length d) 0) as [|LD]; [discriminate|].
    destruct (existsb (fun a => fltb a f0) d) eqn:EN; [discriminate|]. injection H2 as <-. cbn [s_out s_d s_sf s_dfc s_avg s_bias s_tlen s_dtlen s_training s_mats s_accs].
    split; [exact G2|]. split; [exact G3|]. split; [lia|]. split.
    { intros a Ha. unfold fle. destruct (fltb a f0) eqn:L; [|reflexivity]. assert (X : existsb (fun a => fltb a f0) d = true) by (apply existsb_exists; now exists a). congruence. }
    split; [now exists dfc|]. split; [reflexivity|]. split; [reflexivity|].
    destruct (accs_sum (map (cchunk incl) calls)) as (_ & _ & N1). destruct (accs_sum (map (fun c : call => time_derivative (fst c)) calls)) as (_ & _ & N2).
    split; [rewrite N1; reflexivity|]. split; [|repeat split].
    rewrite N2. clear. unfold steps. induction calls as [|[x b] r IH]; [reflexivity|]. cbn [map concat]. rewrite !app_length, IH. f_equal. unfold time_derivative. now rewrite map_length.
  Qed.

  (** ** The matrices *)
  Lemma cov_eq incl calls i j : 2 <= length (samples incl calls) -> covm incl calls i j = dcov (samples incl calls) i j.
  Proof. intros H. unfold covm. now apply fix_cov. Qed.
  Definition dstep (p : vec * vec) : vec := sub (fst p) (snd p).
  Lemma der_data calls : concat (map (fun c : call => time_derivative (fst c)) calls) = map dstep (steps calls).
  Proof. unfold steps. induction calls as [|[x b] r IH]; [reflexivity|]. cbn [map concat]. rewrite map_app, <- IH. reflexivity. Qed.
  Lemma der_eq calls i j : derm calls i j = (fsum (map (fun p => dstep p i * dstep p j) (steps calls)) / (fn (length (steps calls)) - 1))%of.
  Proof.
    unfold derm, acc_fix. cbn [fst]. destruct (accs_sum (map (fun c : call => time_derivative (fst c)) calls)) as (Hm & _ & Hn). rewrite Hm, Hn, der_data, map_map, map_length. reflexivity.
  Qed.
  Lemma quad_der n calls a b : quad n (derm calls) a b = (fsum (map (fun p => dot n (dstep p) a * dot n (dstep p) b) (steps calls)) / (fn (length (steps calls)) - 1))%of.
  Proof.
    set (iN := (fn (length (steps calls)) - 1)%of). unfold quad, dot at 1, mulv.
    rewrite (fsumn_ext n _ (fun i => fsumn n (fun j => fsum (map (fun p => (dstep p i * a i) * (dstep p j * b j)) (steps calls))) * finv iN)%of).
    - rewrite fsumn_mulr. rewrite (Fdiv_def (fth K)). f_equal. rewrite (fsumn_ext n _ (fun i => fsum (map (fun p => (dstep p i * a i) * dot n (dstep p) b) (steps calls)))%of).
      + rewrite fsumn_fsum. apply fsum_map_ext. intros p _. rewrite fsumn_mulr. reflexivity.
      + intros i _. rewrite fsumn_fsum. apply fsum_map_ext. intros p _. unfold dot. rewrite fsumn_mul. reflexivity.
    - intros i _. rewrite <- fsumn_mulr, <- fsumn_mul. apply fsumn_ext. intros j _. rewrite der_eq. fold iN. rewrite (Fdiv_def (fth K)).
      rewrite (fsum_map_ext _ (fun p => dstep p i * a i * (dstep p j * b j))%of (fun p => (a i * b j) * (dstep p i * dstep p j))%of) by (intros; ring). rewrite fsum_map_mul. ring.
  Qed.
  Lemma der_sym n calls : symmetric n (derm calls).
  Proof. intros i j _ _. rewrite !der_eq. f_equal. apply fsum_map_ext. intros. ring. Qed.
  Lemma der_psd n calls : 2 <= length (steps calls) -> psd n (derm calls).
  Proof. intros H w. rewrite quad_der. apply fdiv_pos; [apply fsum_map_nonneg; intros; apply fsq|now apply fn_pred]. Qed.
  Lemma out_dot out incl m calls s k x : trained out incl m calls s -> k < length (s_sf s) ->
    out_k s k x = dot dim (sub x (dmean (samples incl calls))) (nth k (s_sf s) vzero).
  Proof.
    intros T Hk. apply trained_ok in T. destruct T as (_ & _ & _ & _ & _ & EA & EB & _). unfold out_k, sfa_execute, upto. rewrite EB.
    assert (G : forall l k, k < length l -> nth k (map (fun p : vec * K => (dot dim x (fst p) - snd p)%of) (combine l (map (fun v => dot dim (s_avg s) v) l))) f0 = (dot dim x (nth k l vzero) - dot dim (s_avg s) (nth k l vzero))%of).
    { induction l as [|a l IH]; intros [|i] Hi; cbn in Hi; try lia; [reflexivity|]. cbn. apply IH. lia. }
    rewrite G by exact Hk. rewrite <- dot_sub_l. apply dot_ext; [|reflexivity]. intros i _. unfold sub. f_equal. rewrite EA. apply fix_mean.
  Qed.
  Lemma out_length out incl m calls s x : trained out incl m calls s -> length (sfa_execute dim s None x) = length (s_sf s).
  Proof. intros T. apply trained_ok in T. destruct T as (_ & _ & _ & _ & _ & _ & EB & _). unfold sfa_execute, upto. rewrite map_length, combine_length, EB, map_length. lia. Qed.

  (** contract of the solver for the method m: on covariance matrices of the data the answer is a prefix of a solution *)
  Definition prefix {T} (rng : option (Z * Z)) (l : list T) : list T := match rng with None => l | Some (_, k) => firstn (Z.to_nat k) l end.
  Definition solver_ok (m : method) (A B : mtx) : Prop := forall k old dfc d U, symmetric dim A -> symmetric dim B -> psd dim A -> psd dim B -> (forall n, k = Some n -> 1 <= n <= dim) ->
    solver m (range_of k) old A B = SolOk dfc d U -> exists D0 U0, gsolves dim A B D0 U0 /\ d = prefix (range_of k) D0 /\ U = prefix (range_of k) U0.
  Definition solver_complete (m : method) (A B : mtx) : Prop := forall k old dfc d U, symmetric dim A -> symmetric dim B -> psd dim A -> psd dim B -> (forall n, k = Some n -> 1 <= n <= dim) ->
    solver m (range_of k) old A B = SolOk dfc d U -> exists D0 U0, gsolves dim A B D0 U0 /\ gcomplete dim A B U0 /\ d = prefix (range_of k) D0 /\ U = prefix (range_of k) U0.
  Lemma complete_ok m A B : solver_complete m A B -> solver_ok m A B.
  Proof. intros H k old dfc d U SA SB PA PB Hk E. destruct (H k old dfc d U SA SB PA PB Hk E) as (D0 & U0 & G1 & _ & G2). now exists D0, U0. Qed.
  Lemma prefix_solves n (A B : mtx) D U rng : gsolves n A B D U -> gsolves n A B (prefix rng D) (prefix rng U).
  Proof. destruct rng as [[lo hi]|]; [apply gsolves_firstn|auto]. Qed.
  Lemma trained_solves out incl m calls s : trained out incl m calls s -> solver_ok m (derm calls) (covm incl calls) -> out <> Some 0 -> 2 <= length (samples incl calls) -> 2 <= length (steps calls) ->
    gsolves dim (derm calls) (covm incl calls) (s_d s) (s_sf s).
  Proof.
    intros T OK NZ L1 L2. pose proof (trained_ok out incl m calls s T) as (HO & _ & _ & _ & (dfc & ES & _) & _).
    destruct (OK out 0 dfc (s_d s) (s_sf s)) as (D0 & U0 & G & -> & ->); [apply der_sym|apply (cov_symmetric dim _ (samples incl calls)); intros; now apply cov_eq|now apply der_psd| |intros n ->; split; [destruct n; [now destruct NZ|lia]|now apply HO]|exact ES|now apply prefix_solves].
    apply (cov_psd dim _ (samples incl calls)); [intros; now apply cov_eq|exact L1].
  Qed.

  (** ** C220: on the training samples the outputs have mean zero, variance one and are uncorrelated *)
  Theorem C220_white : forall out incl m calls s k l, trained out incl m calls s -> solver_ok m (derm calls) (covm incl calls) -> out <> Some 0 ->
    2 <= length (samples incl calls) -> 2 <= length (steps calls) -> k < length (s_sf s) -> l < length (s_sf s) ->
    fsum (map (out_k s k) (samples incl calls)) = f0 /\
    (fsum (map (fun x => out_k s k x * out_k s l x) (samples incl calls)) / (fn (length (samples incl calls)) - 1))%of = (if k =? l then f1 else f0).
  Proof.
    intros out incl m calls s k l T OK NZ L1 L2 Hk Hl. pose proof (trained_solves _ _ _ _ _ T OK NZ L1 L2) as (LD & HB & _).
    set (xs := samples incl calls) in *. assert (E : forall k x, k < length (s_sf s) -> out_k s k x = dot dim (sub x (dmean xs)) (nth k (s_sf s) vzero)) by (intros; now apply (out_dot out incl m calls)).
    split.
    - rewrite (fsum_map_ext _ (out_k s k) (fun x => dot dim (sub x (dmean xs)) (nth k (s_sf s) vzero))) by (intros; now apply E). apply proj_mean. intros Z. rewrite Z in L1. cbn in L1. lia.
    - rewrite (fsum_map_ext _ _ (fun x => dot dim (sub x (dmean xs)) (nth k (s_sf s) vzero) * dot dim (sub x (dmean xs)) (nth l (s_sf s) vzero))%of) by (intros; now rewrite !E).
      rewrite <- (quad_cov dim (covm incl calls) xs) by (intros; now apply cov_eq). now apply HB.
  Qed.
  (** ** C221: the numbers in d are the mean squares of the time derivatives of the outputs (normalised by the number of derivatives minus one), in ascending order *)
  Theorem C221_delta : forall out incl m calls s k l, trained out incl m calls s -> solver_ok m (derm calls) (covm incl calls) -> out <> Some 0 ->
    2 <= length (samples incl calls) -> 2 <= length (steps calls) -> k < length (s_sf s) -> l < length (s_sf s) ->
    (fsum (map (fun p => (out_k s k (fst p) - out_k s k (snd p)) * (out_k s l (fst p) - out_k s l (snd p))) (steps calls)) / (fn (length (steps calls)) - 1))%of = (if k =? l then nth k (s_d s) f0 else f0).
  Proof.
    intros out incl m calls s k l T OK NZ L1 L2 Hk Hl. pose proof (trained_solves _ _ _ _ _ T OK NZ L1 L2) as (LD & _ & HA & _).
    assert (E : forall k p, k < length (s_sf s) -> (out_k s k (fst p) - out_k s k (snd p))%of = dot dim (dstep p) (nth k (s_sf s) vzero)).
    { intros k' p Hk'. rewrite !(out_dot out incl m calls) by assumption. rewrite <- dot_sub_l. apply dot_ext; [|reflexivity]. intros i _. unfold sub, dstep, sub. ring. }
    rewrite (fsum_map_ext _ _ (fun p => dot dim (dstep p) (nth k (s_sf s) vzero) * dot dim (dstep p) (nth l (s_sf s) vzero))%of) by (intros; now rewrite !E).
    rewrite <- quad_der, HA by assumption. unfold delta. destruct (k =? l); ring.
  Qed.
  (** they are not the means of the squares of the derivatives (docstring of get_eta_values: delta value) *)
  Theorem C221_mean_refuted : forall out incl m calls s k, trained out incl m calls s -> solver_ok m (derm calls) (covm incl calls) -> out <> Some 0 ->
    2 <= length (samples incl calls) -> 2 <= length (steps calls) -> k < length (s_sf s) -> nth k (s_d s) f0 <> f0 ->
    (fsum (map (fun p => (out_k s k (fst p) - out_k s k (snd p)) * (out_k s k (fst p) - out_k s k (snd p))) (steps calls)) / fn (length (steps calls)))%of <> nth k (s_d s) f0.
  Proof.
    intros out incl m calls s k T OK NZ L1 L2 Hk ND C. pose proof (C221_delta out incl m calls s k k T OK NZ L1 L2 Hk Hk) as E. rewrite Nat.eqb_refl in E. rewrite <- E in C.
    set (M := (fn (length (steps calls)) : K)) in *. assert (NM : M <> f0) by (apply fn_ne; lia). assert (NM1 : (M - 1)%of <> f0) by (intros Z; pose proof (fn_pred (K := K) (length (steps calls)) L2) as P; fold M in P; unfold flt in P; rewrite Z in P; now rewrite flt_irrefl in P).
    set (x := fsum _) in *. assert (X0 : x = f0). { assert (Q : (x * (M - 1) - x * M)%of = f0). { transitivity ((x / M - x / (M - 1)) * M * (M - 1))%of; [field; now split|]. rewrite C. ring. }
      transitivity (- (x * (M - 1) - x * M))%of; [ring|]. rewrite Q. ring. }
    apply ND. rewrite <- E, X0. field. exact NM1.
  Qed.
  Theorem C221_order : forall out incl m calls s, trained out incl m calls s -> solver_ok m (derm calls) (covm incl calls) -> out <> Some 0 ->
    2 <= length (samples incl calls) -> 2 <= length (steps calls) -> length (s_d s) = length (s_sf s) /\ StronglySorted fle (s_d s).
  Proof. intros out incl m calls s T OK NZ L1 L2. pose proof (trained_solves _ _ _ _ _ T OK NZ L1 L2) as (LD & _ & _ & SO). now split. Qed.
  (** ** C222: the outputs are the slowest: take any linear functions of the input which have variance one and are uncorrelated on the training samples; there are not more of
      them than solutions of the eigenvalue problem, and the sum of the mean squares of their derivatives is not less than that of the first outputs *)
  Theorem C222_slowest : forall out incl m calls s W, trained out incl m calls s -> solver_complete m (derm calls) (covm incl calls) -> out <> Some 0 ->
    2 <= length (samples incl calls) -> 2 <= length (steps calls) -> length W <= length (s_sf s) ->
    let xs := samples incl calls in
    let f := fun k (x : vec) => dot dim x (nth k W vzero) in
    let mean := fun g : vec -> K => (fsum (map g xs) / fn (length xs))%of in
    (forall i j, i < length W -> j < length W -> (fsum (map (fun x => (f i x - mean (f i)) * (f j x - mean (f j))) xs) / (fn (length xs) - 1))%of = if i =? j then f1 else f0) ->
    (fsumn (length W) (fun k => fsum (map (fun p => (out_k s k (fst p) - out_k s k (snd p)) * (out_k s k (fst p) - out_k s k (snd p))) (steps calls)))
     <= fsumn (length W) (fun k => fsum (map (fun p => (f k (fst p) - f k (snd p)) * (f k (fst p) - f k (snd p))) (steps calls))))%of.
  Proof.
    intros out incl m calls s W T OK NZ L1 L2 LW xs f mean HW. pose proof (trained_ok out incl m calls s T) as (HO & _ & _ & _ & (dfc & ES & _) & _).
    assert (SA : symmetric dim (derm calls)) by apply der_sym. assert (SB : symmetric dim (covm incl calls)) by (apply (cov_symmetric dim _ (samples incl calls)); intros; now apply cov_eq).
    assert (PA : psd dim (derm calls)) by now apply der_psd. assert (PB : psd dim (covm incl calls)) by (apply (cov_psd dim _ (samples incl calls)); [intros; now apply cov_eq|exact L1]).
    assert (HO' : forall n, out = Some n -> 1 <= n <= dim) by (intros n ->; split; [destruct n; [now destruct NZ|lia]|now apply HO]).
    destruct (OK out 0 dfc (s_d s) (s_sf s) SA SB PA PB HO' ES) as (D0 & U0 & G & GC & ED & EU).
    assert (NX : (fn (length xs) : K) <> f0) by (apply fn_ne; unfold xs; lia).
    assert (BW : borth dim (covm incl calls) W).
    { intros i j Hi Hj. rewrite (quad_cov dim (covm incl calls) xs) by (intros; now apply cov_eq). rewrite <- (HW i j Hi Hj : _ = delta i j). f_equal. apply fsum_map_ext. intros x _.
      assert (EM : forall k, dot dim (sub x (dmean xs)) (nth k W vzero) = (f k x - mean (f k))%of).
      { intros k. unfold sub. rewrite dot_sub_l. f_equal. unfold mean, f, dmean, dot. rewrite !(Fdiv_def (fth K)).
        rewrite (fsumn_ext dim _ (fun i => fsum (map (fun x : vec => x i * nth k W vzero i) xs) * finv (fn (length xs)))%of) by (intros; rewrite fsum_map_mulr, (Fdiv_def (fth K)); ring).
        rewrite fsumn_mulr, fsumn_fsum. reflexivity. }
      now rewrite !EM. }
    pose proof (gen_ky_fan dim (derm calls) (covm incl calls) D0 U0 SA SB G GC W BW) as KF.
    set (M := (fn (length (steps calls)) - 1 : K)%of). assert (MP : (0 < M)%of) by now apply fn_pred. assert (MN : M <> f0) by (intros Z; rewrite Z in MP; unfold flt in MP; now rewrite flt_irrefl in MP).
    assert (LDU : length (s_d s) = length (s_sf s)) by (destruct (prefix_solves _ _ _ _ _ (range_of out) G) as (LL & _); now rewrite <- ED, <- EU in LL).
    apply (fle_mul _ _ M) in KF; [|now apply flt_le]. rewrite <- !fsumn_mulr in KF.
    rewrite (fsumn_ext (length W) _ (fun k => nth k D0 f0 * M)%of).
    - rewrite (fsumn_ext (length W) (fun k => fsum (map (fun p => (f k (fst p) - f k (snd p)) * (f k (fst p) - f k (snd p)))%of (steps calls))) (fun k => quad dim (derm calls) (nth k W vzero) (nth k W vzero) * M)%of); [exact KF|].
      intros k _. rewrite quad_der. fold M. transitivity (fsum (map (fun p => dot dim (dstep p) (nth k W vzero) * dot dim (dstep p) (nth k W vzero))%of (steps calls))); [|field; exact MN].
      apply fsum_map_ext. intros p _. unfold f, dstep, sub. rewrite dot_sub_l. ring.
    - intros k Hk. pose proof (C221_delta out incl m calls s k k T (complete_ok _ _ _ OK) NZ L1 L2 ltac:(lia) ltac:(lia)) as E. rewrite Nat.eqb_refl in E. fold M in E.
      replace (nth k D0 f0) with (nth k (s_d s) f0); [rewrite <- E; field; exact MN|].
      rewrite ED. rewrite ED in LDU. destruct out as [n|]; cbn [range_of prefix] in *; [|reflexivity]. apply nth_firstn_lt. rewrite firstn_length in LDU. lia.
  Qed.
  Theorem C222_number : forall out incl m calls s W, trained out incl m calls s -> solver_complete m (derm calls) (covm incl calls) -> out = None ->
    2 <= length (samples incl calls) -> 2 <= length (steps calls) -> borth dim (dcov (samples incl calls)) W -> length W <= length (s_sf s).
  Proof.
    intros out incl m calls s W T OK -> L1 L2 BW. pose proof (trained_ok None incl m calls s T) as (HO & _ & _ & _ & (dfc & ES & _) & _).
    assert (SA : symmetric dim (derm calls)) by apply der_sym. assert (SB : symmetric dim (covm incl calls)) by (apply (cov_symmetric dim _ (samples incl calls)); intros; now apply cov_eq).
    assert (PA : psd dim (derm calls)) by now apply der_psd. assert (PB : psd dim (covm incl calls)) by (apply (cov_psd dim _ (samples incl calls)); [intros; now apply cov_eq|exact L1]).
    destruct (OK None 0 dfc (s_d s) (s_sf s) SA SB PA PB ltac:(discriminate) ES) as (D0 & U0 & G & GC & ED & EU). cbn [range_of prefix] in *. rewrite EU.
    apply (borth_le dim (derm calls) (covm incl calls) U0 SB GC). intros i j Hi Hj. rewrite <- (BW i j Hi Hj). apply quad_mtx. intros. now apply cov_eq.
  Qed.

  (** ** C223: chunks *)
  Lemma trains_total calls : forall (s : sfa) a, s_training s = true -> s_accs s = Some a -> Forall (fun c : call => 2 <= length (fst c)) calls -> exists s0, sfa_trains s calls = (s0, SOk tt).
  Proof.
    induction calls as [|[x b] r IH]; intros s [c dc] HT HA F; [now exists s|]. inversion F as [|? ? L F']; subst. cbn [fst] in L. cbn [sfa_trains]. unfold sfa_train. rewrite HT, HA. cbn [negb].
    destruct (Nat.eqb_spec (length x) 0); [lia|]. destruct (Nat.ltb_spec (length x) 2); [lia|]. eapply IH; [reflexivity|reflexivity|exact F'].
  Qed.
  Lemma acc_eq (a b : acc) : (forall i j, a_m a i j = a_m b i j) -> (forall i, a_s a i = a_s b i) -> a_n a = a_n b -> a = b.
  Proof. destruct a as [m s n], b as [m' s' n']. cbn. intros H1 H2 ->. f_equal; [extensionality i; extensionality j; apply H1|extensionality i; apply H2]. Qed.
  Lemma accs_perm (xs ys : list (list vec)) : Permutation (concat xs) (concat ys) -> accs xs = accs ys.
  Proof.
    intros P. destruct (accs_sum xs) as (M1 & S1 & N1). destruct (accs_sum ys) as (M2 & S2 & N2). apply acc_eq.
    - intros. rewrite M1, M2. apply fsum_perm. now apply Permutation_map.
    - intros. rewrite S1, S2. apply fsum_perm. now apply Permutation_map.
    - rewrite N1, N2. now apply Permutation_length.
  Qed.
  (** the result depends only on the multisets of the samples and of the pairs of consecutive samples *)
  Theorem C223_order : forall out incl m calls calls' s, trained out incl m calls s -> Forall (fun c : call => 2 <= length (fst c)) calls' -> calls' <> [] ->
    Permutation (samples incl calls) (samples incl calls') -> Permutation (steps calls) (steps calls') -> trained out incl m calls' s.
  Proof.
    intros out incl m calls calls' s (s0 & H1 & H2) F NE P1 P2. pose proof (trains_ok calls (sfa_new out incl m) acc_new acc_new s0 eq_refl eq_refl H1) as (E1 & E2 & E3 & E4 & E5 & E6 & E7 & E8 & E9 & E10 & E11 & E12 & E13 & E14 & E15).
    destruct (trains_total calls' (sfa_new out incl m) (acc_new, acc_new) eq_refl eq_refl F) as (s0' & H1').
    pose proof (trains_ok calls' (sfa_new out incl m) acc_new acc_new s0' eq_refl eq_refl H1') as (E1' & E2' & E3' & E4' & E5' & E6' & E7' & E8' & E9' & E10' & E11' & E12' & E13' & E14' & E15').
    assert (A1 : accs (map (cchunk incl) calls) = accs (map (cchunk incl) calls')) by (apply accs_perm; exact P1).
    assert (A2 : accs (map (fun c : call => time_derivative (fst c)) calls) = accs (map (fun c : call => time_derivative (fst c)) calls')) by (apply accs_perm; rewrite !der_data; now apply Permutation_map).
    cbn [sfa_new s_incl] in E1, E1'. unfold accs in A1, A2. rewrite A1, A2, <- E1' in E1.
    assert (ST' : s_started s0' = true) by (rewrite E15'; destruct calls'; [now destruct NE|reflexivity]).
    assert (ST : s_started s0 = true) by (unfold sfa_stop in H2; rewrite E6 in H2; destruct (s_started s0); [reflexivity|discriminate]).
    assert (EQ : s0 = s0'). { clear H1 H1' H2 E15 E15' E7 E7' E1'. destruct s0 as [o i a mt av tl dl me df d f b st tr], s0' as [o' i' a' mt' av' tl' dl' me' df' d' f' b' st' tr']. cbn [sfa_new s_out s_incl s_accs s_mats s_avg s_tlen s_dtlen s_meth s_dfc s_d s_sf s_bias s_started s_training] in *. congruence. }
    exists s0'. rewrite <- EQ at 2. now split.
  Qed.
  (** connected chunks: each one starts with the last sample of the one before *)
  Fixpoint connect (x : list vec) (rest : list (list vec)) : list (list vec) :=
    match rest with [] => [x] | r :: rest => x :: connect (match rev x with [] => r | a :: _ => a :: r end) rest end.
  Definition plain (xs : list (list vec)) : list call := map (fun x => (x, None)) xs.
  Lemma rev_last (x : list vec) a r : rev x = a :: r -> x = removelast x ++ [a].
  Proof. intros E. assert (X : x = rev r ++ [a]) by (rewrite <- (rev_involutive x), E; reflexivity). rewrite X at 1. f_equal. rewrite X, removelast_last. reflexivity. Qed.
  Lemma connect_ok rest : forall x, x <> [] -> Forall (fun r => r <> []) rest ->
    concat (map (cchunk false) (plain (connect x rest))) = removelast (x ++ concat rest) /\
    concat (map (fun c : call => combine (tl (fst c)) (removelast (fst c))) (plain (connect x rest))) = combine (tl (x ++ concat rest)) (removelast (x ++ concat rest)).
  Proof.
    induction rest as [|r rest IH]; intros x NE F; cbn [connect plain map concat].
    - cbn [cchunk fst snd concat]. now rewrite !app_nil_r.
    - inversion F as [|? ? Fr F']; subst. destruct (rev x) as [|a q] eqn:ER; [exfalso; apply NE; rewrite <- (rev_involutive x), ER; reflexivity|].
      pose proof (rev_last x a q ER) as EX. set (p := removelast x) in *. destruct (IH (a :: r) ltac:(discriminate) F') as [H1 H2]. unfold plain in H1, H2. rewrite H1, H2. cbn [cchunk fst snd].
      assert (NN : r ++ concat rest <> []) by (destruct r; [now destruct Fr|discriminate]).
      assert (RL : removelast (x ++ r ++ concat rest) = p ++ removelast (a :: r ++ concat rest)).
      { rewrite EX, <- app_assoc. cbn [app]. apply removelast_app. discriminate. }
      cbn [app tl]. rewrite RL. split; [reflexivity|]. assert (T : tl (x ++ r ++ concat rest) = tl x ++ r ++ concat rest) by (destruct x; [now destruct NE|reflexivity]). rewrite T.
      assert (L : length (tl x) = length p) by (rewrite EX; destruct p; cbn; rewrite ?app_length; cbn; lia).
      assert (G : forall (a b c d : list vec), length a = length c -> combine (a ++ b) (c ++ d) = combine a c ++ combine b d).
      { clear. induction a as [|x a IH]; intros b [|y c] d H; cbn in *; try lia; [reflexivity|]. f_equal. apply IH. lia. }
      rewrite G by exact L. reflexivity.
  Qed.
  Lemma connect_long rest : forall x, 2 <= length x -> Forall (fun r => r <> []) rest -> Forall (fun c : call => 2 <= length (fst c)) (plain (connect x rest)).
  Proof.
    induction rest as [|r rest IH]; intros x L F; cbn [connect plain map]; [now repeat constructor|]. inversion F as [|? ? Fr F']; subst. constructor; [exact L|]. apply IH; [|exact F'].
    assert (NX : x <> []) by (intros ->; cbn in L; lia). destruct (rev x) as [|a q] eqn:ER; [exfalso; apply NX; rewrite <- (rev_involutive x), ER; reflexivity|]. destruct r; [now destruct Fr|cbn; lia].
  Qed.
  (** a sequence sent in connected chunks, with include_last_sample=False, gives the result of the whole sequence *)
  Theorem C223_connected : forall out m x rest s, 2 <= length x -> Forall (fun r => r <> []) rest ->
    (trained out false m (plain (connect x rest)) s <-> trained out false m (plain [x ++ concat rest]) s).
  Proof.
    intros out m x rest s L F. assert (NX : x <> []) by (intros ->; cbn in L; lia). destruct (connect_ok rest x NX F) as [H1 H2].
    assert (S1 : samples false (plain (connect x rest)) = samples false (plain [x ++ concat rest])) by (unfold samples; rewrite H1; cbn; now rewrite app_nil_r).
    assert (S2 : steps (plain (connect x rest)) = steps (plain [x ++ concat rest])) by (unfold steps; rewrite H2; cbn; now rewrite app_nil_r).
    split; intros T.
    - apply (C223_order _ _ _ _ _ _ T); [repeat constructor; cbn; rewrite app_length; lia|discriminate|now rewrite S1|now rewrite S2].
    - apply (C223_order _ _ _ _ _ _ T); [now apply connect_long|destruct rest; discriminate|now rewrite S1|now rewrite S2].
  Qed.
  (** the docstring: all derivatives, and all points but the last *)
  Theorem C223_seen : forall x rest, 2 <= length x -> Forall (fun r => r <> []) rest -> let all := x ++ concat rest in
    samples false (plain (connect x rest)) = removelast all /\ steps (plain (connect x rest)) = combine (tl all) (removelast all).
  Proof. intros x rest L F all. assert (NX : x <> []) by (intros ->; cbn in L; lia). exact (connect_ok rest x NX F). Qed.

  (** ** C224: output_dim *)
  Theorem C224_dim : forall out incl m calls s, trained out incl m calls s -> s_out s = Some (match out with Some k => k | None => dim end) /\ match out with Some k => k <= dim | None => True end.
  Proof. intros out incl m calls s T. apply trained_ok in T. destruct T as (H1 & H2 & _). split; [exact H2|]. destruct out; [now apply H1|exact I]. Qed.
  (** an output_dim above the input dimension is not replaced, as the comment says: every call of stop_training raises *)
  Theorem C224_large_refuted : forall k incl m calls s0, dim < k -> calls <> [] -> sfa_trains (sfa_new (Some k) incl m) calls = (s0, SOk tt) -> snd (stop s0 false) = SErr SInconsistent.
  Proof.
    intros k incl m calls s0 L NE H1. pose proof (trains_ok calls (sfa_new (Some k) incl m) acc_new acc_new s0 eq_refl eq_refl H1) as (E1 & E2 & E3 & E4 & E5 & E6 & E7 & E8 & E9 & E10 & E11 & E12 & E13 & E14 & E15).
    assert (ST : s_started s0 = true) by (rewrite E15; destruct calls; [now destruct NE|reflexivity]).
    unfold sfa_stop. rewrite E6, ST. cbn [negb andb]. unfold sfa_fix. rewrite E1. destruct (acc_fix true _) as [cm avg]. destruct (acc_fix false _) as [dm davg]. unfold set_range. cbn [s_out]. rewrite E2. cbn [sfa_new s_out].
    destruct (Nat.leb_spec k dim); [lia|reflexivity].
  Qed.

  (** ** C225: trying again after an exception of the solver *)
  Definition ready (s0 : sfa) : Prop := s_training s0 = true /\ s_started s0 = true /\ exists a, s_accs s0 = Some a.
  Definition oneof (o : option nat) : nat := match o with Some k => k | None => dim end.
  Definition core (o : option nat) i cm dm av tl dl me df (d : list K) (f : list vec) b : sfa * sres unit :=
    let set df d u := mkS (Some (oneof o)) i None (Some (cm, dm)) av tl dl me df d u b true true in
    match solver me (range_of o) df dm cm with
    | SolSymeig => (set df d f, SErr SNode)
    | SolIndex => (set df d f, SErr SIndex)
    | SolOk dfc d' u => let df := match dfc with Some k => k | None => df end in
        if length d' =? 0 then (set df d' u, SErr SValue) else if existsb (fun a => fltb a f0) d' then (set df d' u, SErr SNode)
        else (mkS (Some (oneof o)) i None None av tl dl me df d' u (map (fun v => dot dim av v) u) false false, SOk tt)
    end.
  Lemma stop_first o i c dc mt av tl dl me df d f b : oneof o <= dim ->
    stop (mkS o i (Some (c, dc)) mt av tl dl me df d f b true true) false = core o i (fst (acc_fix true c)) (fst (acc_fix false dc)) (snd (acc_fix true c)) (a_n c) (a_n dc) me df d f b.
  Proof.
    intros H. unfold sfa_stop, sfa_fix, core. cbn [s_training s_started negb andb s_accs]. destruct (acc_fix true c) as [cm avg]. destruct (acc_fix false dc) as [dm davg]. unfold set_range. cbn [s_out].
    destruct o as [k|]; [|reflexivity]. cbn [oneof] in H. destruct (Nat.leb_spec k dim); [reflexivity|lia].
  Qed.
  Lemma stop_again o i cm dm av tl dl me df d f b : oneof o <= dim -> stop (mkS o i None (Some (cm, dm)) av tl dl me df d f b true true) false = core o i cm dm av tl dl me df d f b.
  Proof.
    intros H. unfold sfa_stop, sfa_fix, core. cbn [s_training s_started negb andb s_accs]. unfold set_range. cbn [s_out].
    destruct o as [k|]; [|reflexivity]. cbn [oneof] in H. destruct (Nat.leb_spec k dim); [reflexivity|lia].
  Qed.
  Lemma failed s0 s1 : ready s0 -> oneof (s_out s0) <= dim -> stop s0 false = (s1, SErr SNode) ->
    exists i c dc av tl dl me df d f b mt av0 tl0 dl0 d0 f0' df0, s0 = mkS (s_out s0) i (Some (c, dc)) mt av0 tl0 dl0 me df0 d0 f0' b true true /\
      av = snd (acc_fix true c) /\ tl = a_n c /\ dl = a_n dc /\
      s1 = mkS (Some (oneof (s_out s0))) i None (Some (fst (acc_fix true c), fst (acc_fix false dc))) av tl dl me df d f b true true.
  Proof.
    intros (TR & ST & [c dc] & HA) HO H. destruct s0 as [o i a mt av tl dl me df d f b st tr]. cbn [s_training s_started s_accs s_out] in *. subst. rewrite stop_first in H by exact HO. unfold core in H.
    exists i, c, dc, (snd (acc_fix true c)), (a_n c), (a_n dc), me. destruct (solver _ _ _ _ _) as [dfc d' u| |]; [|injection H as <-|discriminate].
    - destruct (length d' =? 0); [discriminate|]. destruct (existsb _ d'); [|discriminate]. injection H as <-. eexists _, _, _, _, _, _, _, _, _, _, _. repeat split.
    - eexists _, _, _, _, _, _, _, _, _, _, _. repeat split.
  Qed.
  (** the matrices are kept: another method finds the solution that it would have found at once; output_dim=None has become the input dimension *)
  Theorem C225_retry : forall s0 s1 m', ready s0 -> oneof (s_out s0) <= dim -> stop s0 false = (s1, SErr SNode) ->
    (forall c dc, s_accs s0 = Some (c, dc) -> let A := fst (acc_fix false dc) in let B := fst (acc_fix true c) in
      (forall old, solver m' (range_of (Some (oneof (s_out s0)))) old A B = solver m' (range_of (s_out s0)) (s_dfc s0) A B) /\
      (forall d U, solver m' (range_of (s_out s0)) (s_dfc s0) A B = SolOk None d U -> s_dfc s1 = s_dfc s0)) ->
    snd (stop (sfa_set_method s1 m') false) = snd (stop (sfa_set_method s0 m') false) /\
    (snd (stop (sfa_set_method s0 m') false) = SOk tt -> stop (sfa_set_method s1 m') false = stop (sfa_set_method s0 m') false).
  Proof.
    intros s0 s1 m' RD HO H HS. destruct (failed s0 s1 RD HO H) as (i & c & dc & av & tl & dl & me & df & d & f & b & mt & av0 & tl0 & dl0 & d0 & f0' & df0 & E0 & -> & -> & -> & E1).
    set (o := s_out s0) in *. clearbody o. clear RD H. subst s0 s1. unfold sfa_set_method. cbn [s_out s_incl s_accs s_mats s_avg s_tlen s_dtlen s_meth s_dfc s_d s_sf s_bias s_started s_training] in *.
    rewrite stop_first by exact HO. rewrite stop_again by exact HO. destruct (HS c dc eq_refl) as [HS' HN]. unfold core. rewrite HS'. cbn [oneof].
    destruct (solver m' (range_of o) df0 _ _) as [dfc d' u| |] eqn:ES; cbn [snd]; [|split; [reflexivity|discriminate]|split; [reflexivity|discriminate]].
    destruct (length d' =? 0); cbn [snd]; [split; [reflexivity|discriminate]|]. destruct (existsb _ d'); cbn [snd]; [split; [reflexivity|discriminate]|split; [reflexivity|]]. intros _.
    destruct dfc; [reflexivity|]. now rewrite (HN _ _ eq_refl).
  Qed.
  (** but further data cannot be presented, although is_training() is True *)
  Theorem C225_train_refuted : forall s0 s1 x b, ready s0 -> oneof (s_out s0) <= dim -> stop s0 false = (s1, SErr SNode) -> 2 <= length x ->
    s_training s1 = true /\ snd (sfa_train s1 x b) = SErr SAttribute.
  Proof.
    intros s0 s1 x b' RD HO H L. destruct (failed s0 s1 RD HO H) as (i & c & dc & av & tl & dl & me & df & d & f & b & mt & av0 & tl0 & dl0 & d0 & f0' & df0 & E0 & -> & -> & -> & ->).
    split; [reflexivity|]. unfold sfa_train. cbn [s_training negb]. destruct (Nat.eqb_spec (length x) 0); [lia|]. destruct (Nat.ltb_spec (length x) 2); [lia|reflexivity].
  Qed.
  (** nor can output_dim be made smaller, as the message says *)
  Theorem C225_smaller_refuted : forall s0 s1 k, ready s0 -> s_out s0 = None -> stop s0 false = (s1, SErr SNode) -> k < dim -> sfa_set_output s1 k = (s1, SErr SInconsistent).
  Proof.
    intros s0 s1 k RD HO H L. destruct (failed s0 s1 RD ltac:(rewrite HO; apply le_n) H) as (i & c & dc & av & tl & dl & me & df & d & f & b & mt & av0 & tl0 & dl0 & d0 & f0' & df0 & E0 & -> & -> & -> & ->).
    rewrite HO. unfold sfa_set_output. cbn [s_out oneof]. destruct (Nat.eqb_spec dim k); [lia|reflexivity].
  Qed.

  (** ** C226: the argument n of execute *)
  Theorem C226_first : forall out incl m calls s n x, trained out incl m calls s -> (0 < n)%Z -> sfa_execute dim s (Some n) x = firstn (Z.to_nat n) (sfa_execute dim s None x).
  Proof.
    intros out incl m calls s n x T Hn. apply trained_ok in T. destruct T as (_ & _ & _ & _ & _ & _ & EB & _). unfold sfa_execute.
    assert (G : forall A (l : list A), upto (Some n) l = firstn (Z.to_nat n) l).
    { intros A l. unfold upto. destruct n as [|p|p]; [lia| |lia]. unfold pyslice. cbn [Z.ltb Z.compare]. replace (Z.min 0 (Z.of_nat (length l))) with 0%Z by lia.
      cbn [Z.to_nat skipn]. rewrite Nat.sub_0_r. destruct (Z.min_spec (Zpos p) (Z.of_nat (length l))) as [[_ ->]|[H ->]]; [reflexivity|]. rewrite Nat2Z.id, firstn_all, firstn_all2; [reflexivity|lia]. }
    rewrite !G. cbn [upto]. rewrite firstn_map. f_equal. clear. generalize (Z.to_nat n) as k. intros k. revert k. generalize (s_bias s). induction (s_sf s) as [|a l IH]; intros [|b r] [|k]; cbn; try reflexivity. f_equal. apply IH.
  Qed.
  Theorem C226_zero_refuted : forall (s : sfa) x, sfa_execute dim s (Some 0%Z) x = sfa_execute dim s None x.
  Proof. reflexivity. Qed.

  (** ** C227: inverse; the pseudoinverse W of the matrix U satisfies U W U = U *)
  Definition pinv_ok (U : list vec) : Prop := length (pinv U) = length U /\
    forall l i, l < length U -> i < dim -> fsumn (length U) (fun k => nth k U vzero i * dot dim (nth k (pinv U) vzero) (nth l U vzero))%of = nth l U vzero i.
  Lemma pinv_dual (A B : mtx) D U : gsolves dim A B D U -> pinv_ok U -> forall k l, k < length U -> l < length U -> dot dim (nth k (pinv U) vzero) (nth l U vzero) = delta k l.
  Proof.
    intros (_ & HB & _) [LW H] k l Hk Hl. rewrite <- (HB k l Hk Hl). symmetry. rewrite (quad_ext2 dim B (nth k U vzero) (nth k U vzero) (nth l U vzero) (comb U (fun j => dot dim (nth j (pinv U) vzero) (nth l U vzero)))).
    - rewrite quad_comb. rewrite (fsumn_ext (length U) _ (fun j => dot dim (nth j (pinv U) vzero) (nth l U vzero) * delta k j)%of) by (intros; rewrite HB by assumption; reflexivity).
      apply (fsumn_delta (length U) (fun j => dot dim (nth j (pinv U) vzero) (nth l U vzero)) k Hk).
    - reflexivity.
    - intros i Hi. rewrite <- (H l i Hl Hi). unfold comb. apply fsumn_ext. intros. ring.
  Qed.
  Lemma inv_dot (s : sfa) y x : length (pinv (s_sf s)) = length (s_sf s) -> length y = length (s_sf s) -> sfa_inverse pinv s y = SOk x ->
    forall i, (x i - s_avg s i)%of = comb (pinv (s_sf s)) (fun k => nth k y f0) i.
  Proof.
    intros LP LY H i. unfold sfa_inverse in H. destruct (negb _); [discriminate|]. destruct (length (pinv (s_sf s)) =? length y); [|discriminate]. injection H as <-.
    unfold comb. rewrite LP, <- LY. assert (LL : length (pinv (s_sf s)) = length y) by congruence. clear - LL. set (w := pinv (s_sf s)) in *. clearbody w.
    rewrite (fsum_nth _ f0), map_length, combine_length, LL, Nat.min_id. transitivity (fsumn (length y) (fun k => nth k (map (fun p : K * vec => (fst p * snd p i)%of) (combine y w)) f0)); [ring|].
    apply fsumn_ext. intros k Hk. rewrite (nth_indep _ f0 ((fun p : K * vec => (fst p * snd p i)%of) (f0, vzero))) by (rewrite map_length, combine_length; lia).
    rewrite (map_nth (fun p : K * vec => (fst p * snd p i)%of)), combine_nth by congruence. reflexivity.
  Qed.
  (** execute(inverse(y)) is y *)
  Theorem C227_execute_inverse : forall out incl m calls s y, trained out incl m calls s -> solver_ok m (derm calls) (covm incl calls) -> out <> Some 0 ->
    2 <= length (samples incl calls) -> 2 <= length (steps calls) -> pinv_ok (s_sf s) -> s_out s = Some (length (s_sf s)) -> length y = length (s_sf s) ->
    exists x, sfa_inverse pinv s y = SOk x /\ sfa_execute dim s None x = y.
  Proof.
    intros out incl m calls s y T OK NZ L1 L2 PI HO LY. pose proof (trained_solves _ _ _ _ _ T OK NZ L1 L2) as GS. pose proof PI as [LP _].
    assert (EX : exists x, sfa_inverse pinv s y = SOk x). { unfold sfa_inverse. rewrite HO, LY, Nat.eqb_refl. cbn [negb]. rewrite LP, Nat.eqb_refl. eexists. reflexivity. }
    destruct EX as [x EX]. exists x. split; [exact EX|]. pose proof (inv_dot s y x LP LY EX) as D. pose proof (trained_ok _ _ _ _ _ T) as (_ & _ & _ & _ & _ & EA & _).
    apply (nth_ext _ _ f0 f0); [rewrite (out_length out incl m calls) by exact T; now symmetry|]. rewrite (out_length out incl m calls) by exact T. intros k Hk.
    change (nth k (sfa_execute dim s None x) f0) with (out_k s k x). rewrite (out_dot out incl m calls) by assumption.
    rewrite (dot_ext dim _ (comb (pinv (s_sf s)) (fun k => nth k y f0)) _ (nth k (s_sf s) vzero)); [| |reflexivity].
    - rewrite (dot_sym dim (comb _ _)), dot_comb, LP. rewrite (fsumn_ext _ _ (fun j => nth j y f0 * delta k j)%of); [apply (fsumn_delta (length (s_sf s)) (fun j => nth j y f0) k Hk)|].
      intros j Hj. rewrite dot_sym, (pinv_dual _ _ _ _ GS PI) by assumption. f_equal. unfold delta. now rewrite Nat.eqb_sym.
    - intros i _. rewrite <- D. unfold sub. f_equal. rewrite EA. symmetry. apply fix_mean.
  Qed.
  (** inverse(execute(x)) is x if there are as many outputs as inputs *)
  Theorem C227_inverse_execute : forall incl m calls s x y, trained None incl m calls s -> solver_complete m (derm calls) (covm incl calls) ->
    2 <= length (samples incl calls) -> 2 <= length (steps calls) -> pinv_ok (s_sf s) ->
    (forall w : vec, quad dim (dcov (samples incl calls)) w w = f0 -> forall i, i < dim -> w i = f0) ->
    sfa_inverse pinv s (sfa_execute dim s None x) = SOk y -> forall i, i < dim -> y i = x i.
  Proof.
    intros incl m calls s x y T OK L1 L2 PI PD E i Hi. pose proof (trained_ok None incl m calls s T) as (HO & _ & _ & _ & (dfc & ES & _) & EA & _).
    assert (SA : symmetric dim (derm calls)) by apply der_sym. assert (SB : symmetric dim (covm incl calls)) by (apply (cov_symmetric dim _ (samples incl calls)); intros; now apply cov_eq).
    assert (PA : psd dim (derm calls)) by now apply der_psd. assert (PB : psd dim (covm incl calls)) by (apply (cov_psd dim _ (samples incl calls)); [intros; now apply cov_eq|exact L1]).
    destruct (OK None 0 dfc (s_d s) (s_sf s) SA SB PA PB ltac:(discriminate) ES) as (D0 & U0 & G & GC & ED & EU). cbn [range_of prefix] in ED, EU. rewrite <- EU in *. clear EU U0.
    assert (NX : (fn (length (samples incl calls)) : K) <> f0) by (apply fn_ne; lia).
    assert (CP : forall (w : vec) j, j < dim -> w j = comb (s_sf s) (coef dim (covm incl calls) (s_sf s) w) j).
    { intros w j Hj. set (z := fun j => (w j - comb (s_sf s) (coef dim (covm incl calls) (s_sf s) w) j)%of).
      assert (Z : z j = f0). { apply PD; [|exact Hj]. rewrite <- (quad_mtx dim (covm incl calls)) by (intros; now apply cov_eq). unfold quad, dot. apply fsumn_zero. intros k Hk.
        pose proof (proj1 (GC w k Hk)) as GZ. fold z in GZ. rewrite GZ. ring. }
      unfold z in Z. transitivity ((w j - comb (s_sf s) (coef dim (covm incl calls) (s_sf s) w) j) + comb (s_sf s) (coef dim (covm incl calls) (s_sf s) w) j)%of; [ring|]. rewrite Z. ring. }
    pose proof PI as [LP _]. pose proof (out_length None incl m calls s x T) as LX. pose proof (inv_dot s _ y LP LX E i) as D.
    assert (AV : s_avg s i = dmean (samples incl calls) i) by (rewrite EA; apply fix_mean).
    set (z := sub x (dmean (samples incl calls))).
    assert (Q : comb (pinv (s_sf s)) (fun k => nth k (sfa_execute dim s None x) f0) i = z i).
    { unfold comb. rewrite LP. rewrite (fsumn_ext _ _ (fun k => dot dim z (nth k (s_sf s) vzero) * nth k (pinv (s_sf s)) vzero i)%of).
      2:{ intros k Hk. f_equal. now apply (out_dot None incl m calls s k x T). }
      transitivity (fsumn dim (fun j => z j * delta i j)%of); [|apply (fsumn_delta dim z i Hi)].
      transitivity (fsumn dim (fun j => z j * fsumn (length (s_sf s)) (fun k => nth k (s_sf s) vzero j * nth k (pinv (s_sf s)) vzero i))%of).
      - rewrite (fsumn_ext dim _ (fun j => fsumn (length (s_sf s)) (fun k => z j * nth k (s_sf s) vzero j * nth k (pinv (s_sf s)) vzero i)%of)).
        + rewrite fsumn_swap. apply fsumn_ext. intros k _. unfold dot. now rewrite fsumn_mulr.
        + intros j _. rewrite <- fsumn_mul. apply fsumn_ext. intros. ring.
      - apply fsumn_ext. intros j Hj. f_equal.
        (* U W = U W (U U^T B) = U U^T B = 1, read in the column i *)
        set (c := coef dim (covm incl calls) (s_sf s) (delta i)).
        transitivity (fsumn (length (s_sf s)) (fun k => nth k (s_sf s) vzero j * dot dim (nth k (pinv (s_sf s)) vzero) (comb (s_sf s) c))%of).
        + apply fsumn_ext. intros k Hk. f_equal. rewrite (dot_ext dim (nth k (pinv (s_sf s)) vzero) (nth k (pinv (s_sf s)) vzero) (comb (s_sf s) c) (delta i)); [|reflexivity|intros l Hl; symmetry; now apply CP].
          unfold dot. symmetry. apply (fsumn_delta dim (nth k (pinv (s_sf s)) vzero) i Hi).
        + rewrite (fsumn_ext _ _ (fun k => c k * nth k (s_sf s) vzero j)%of).
          * fold (comb (s_sf s) c j). symmetry. apply (CP (delta i) j Hj).
          * intros k Hk. rewrite dot_comb. rewrite (fsumn_ext _ _ (fun l => c l * delta k l)%of) by (intros; rewrite (pinv_dual _ _ _ _ G PI) by assumption; reflexivity).
            rewrite (fsumn_delta (length (s_sf s)) c k Hk). ring. }
    rewrite Q in D. unfold z, sub in D. rewrite <- AV in D. transitivity ((y i - s_avg s i) + s_avg s i)%of; [ring|]. rewrite D. ring.
  Qed.
  (** ** C228: a solution with fewer columns than output_dim: inverse does not accept the output of execute *)
  Theorem C228_deficit_refuted : forall out incl m calls s x, trained out incl m calls s -> s_out s <> Some (length (s_sf s)) -> sfa_inverse pinv s (sfa_execute dim s None x) = SErr SNode.
  Proof.
    intros out incl m calls s x T H. unfold sfa_inverse. rewrite (out_length out incl m calls) by exact T. destruct (s_out s) as [o|]; [|reflexivity].
    destruct (Nat.eqb_spec (length (s_sf s)) o); [congruence|reflexivity].
  Qed.
End Props.

(** ** The solvers of SymeigModel.v satisfy the contracts *)
Section Solvers.
  Context {K : ofield}.
  Notation vec := (vec (K := K)). Notation mtx := (mtx (K := K)).
  Context (eigh : option (Z * Z) -> nat -> mtx -> option (list K * list vec)) (svd_ : nat -> mtx -> list K * list vec) (sqrt_ : K -> K) (thr : K).
  Hypothesis eigh_ok : forall rng n C D V, symmetric n C -> psd n C -> eigh rng n C = Some (D, V) -> eigensystem n C D V.
  Hypothesis sqrt_ok : forall a : K, (0 < a)%of -> (sqrt_ a * sqrt_ a)%of = a.
  Hypothesis thr_pos : (0 < thr)%of.
  Definition solvers (n : nat) (m : method) (rng : option (Z * Z)) (old : nat) (A B : mtx) : solres K vec :=
    match m with MNone => symeig_fake eigh sqrt_ rng n A B | MPca => symeig_pca eigh sqrt_ thr rng old n A B | MSvd => symeig_svd svd_ sqrt_ thr rng old n A B | _ => SolSymeig end.
  Lemma eig_prefix {T} n k (l : list T) : length l = n -> 1 <= n -> 1 <= k -> eig_range n (Some (1, Z.of_nat k))%Z l = firstn k l.
  Proof.
    intros L Hn Hk. unfold eig_range, clamp. change (1 <? 1)%Z with false. cbv iota. destruct (Z.ltb_spec (Z.of_nat n) 1); [lia|].
    set (h := if (Z.of_nat n <? Z.of_nat k)%Z then Z.of_nat n else Z.of_nat k). assert (HH : h = Z.of_nat (Nat.min k n)) by (unfold h; destruct (Z.ltb_spec (Z.of_nat n) (Z.of_nat k)); lia).
    rewrite HH. destruct (Z.ltb_spec (Z.of_nat (Nat.min k n)) 1); [lia|]. unfold pyslice. rewrite L. change (1 - 1)%Z with 0%Z. change (0 <? 0)%Z with false. cbv iota zeta.
    destruct (Z.ltb_spec (Z.of_nat (Nat.min k n)) 0); [lia|]. replace (Z.min 0 (Z.of_nat n)) with 0%Z by lia. replace (Z.min (Z.of_nat (Nat.min k n)) (Z.of_nat n)) with (Z.of_nat (Nat.min k n)) by lia.
    rewrite Nat2Z.id. cbn [Z.to_nat skipn]. rewrite Nat.sub_0_r. destruct (Nat.min_spec k n) as [[_ ->]|[Q ->]]; [reflexivity|]. rewrite <- L, firstn_all, firstn_all2; [reflexivity|lia].
  Qed.
  Lemma eig_prefix_of {T} n k (l : list T) : length l = n -> 1 <= n -> (forall j, k = Some j -> 1 <= j) -> eig_range n (range_of k) l = prefix (range_of k) l.
  Proof. intros L Hn Hk. destruct k as [k|]; [|reflexivity]. cbn [range_of prefix]. rewrite Nat2Z.id. now apply eig_prefix, Hk. Qed.
  Theorem C222_contract_none : forall n A B, 1 <= n -> (forall w : vec, quad n B w w = f0 -> forall i, i < n -> w i = f0) -> solver_complete n (solvers n) MNone A B.
  Proof.
    intros n A B Hn PD k old dfc d U SA SB PA PB Hk H. cbn [solvers] in H. destruct (C215_fake eigh sqrt_ eigh_ok sqrt_ok (range_of k) n A B dfc d U SA SB PA PB PD H) as (D0 & U0 & LU & GS & GC & -> & ->).
    exists D0, U0. split; [exact GS|]. split; [exact GC|]. pose proof GS as (LD & _). split; apply eig_prefix_of; try congruence; try assumption; intros j E; now apply (Hk j).
  Qed.
  Theorem C220_contract_pca : forall n A B, solver_ok n (solvers n) MPca A B.
  Proof.
    intros n A B k old dfc d U SA SB PA PB Hk H. cbn [solvers] in H. unfold symeig_pca, semidefinite in H. assert (Hk' : forall j, k = Some j -> 1 <= j) by (intros j E; now apply (Hk j)). destruct (find_blank thr n B) as [idx|] eqn:FB.
    - destruct (blank_idx thr n B idx FB) as [ND F]. pose proof (idx_le n idx ND F) as LI. destruct (pca_core _ _ _ _ _ _ _) as [dfc0 d0 u0| |] eqn:E; try discriminate. injection H as <- <- <-.
      apply (pca_core_ok eigh sqrt_ thr eigh_ok sqrt_ok thr_pos) in E; try (now apply (pick_sym n)); try (now apply (pick_psd n)). destruct E as (D & V & D0 & U0 & ES & _ & LO & LU & GS & -> & -> & _).
      exists D0, (map (restore idx) U0). split; [now apply restore_solves|]. pose proof GS as (LD & _). rewrite !eig_prefix_of by (try assumption; try congruence; lia). split; [reflexivity|].
      destruct k as [k|]; [cbn [range_of prefix]; now rewrite firstn_map|reflexivity].
    - apply (pca_core_ok eigh sqrt_ thr eigh_ok sqrt_ok thr_pos) in H; try assumption. destruct H as (D & V & D0 & U0 & ES & -> & LO & LU & GS & -> & -> & _). exists D0, U0. split; [exact GS|].
      pose proof GS as (LD & _). split; apply eig_prefix_of; try assumption; try congruence; lia.
  Qed.
  Theorem C222_contract_pca : forall n A B, exact_rank thr n A B -> solver_complete n (solvers n) MPca A B.
  Proof.
    intros n A B (KER & RK & BL) k old dfc d U SA SB PA PB Hk H. cbn [solvers] in H. unfold symeig_pca, semidefinite in H. assert (Hk' : forall j, k = Some j -> 1 <= j) by (intros j E; now apply (Hk j)). destruct (find_blank thr n B) as [idx|] eqn:FB.
    - destruct (blank_idx thr n B idx FB) as [ND F]. pose proof (idx_le n idx ND F) as LI. destruct (pca_core _ _ _ _ _ _ _) as [dfc0 d0 u0| |] eqn:E; try discriminate. injection H as <- <- <-.
      apply (pca_core_ok eigh sqrt_ thr eigh_ok sqrt_ok thr_pos) in E; try (now apply (pick_sym n)); try (now apply (pick_psd n)). destruct E as (D & V & D0 & U0 & ES & _ & LO & LU & GS & -> & -> & GC).
      exists D0, (map (restore idx) U0). split; [now apply restore_solves|]. split.
      { apply restore_complete; try assumption; [exact (BL idx eq_refl)|]. apply GC; [|now apply (pick_ker n)]. intros a Ia La. apply (RK _ _ a ES); [exact Ia|exact La]. }
      pose proof GS as (LD & _). rewrite !eig_prefix_of by (try assumption; try congruence; lia). split; [reflexivity|].
      destruct k as [k|]; [cbn [range_of prefix]; now rewrite firstn_map|reflexivity].
    - apply (pca_core_ok eigh sqrt_ thr eigh_ok sqrt_ok thr_pos) in H; try assumption. destruct H as (D & V & D0 & U0 & ES & -> & LO & LU & GS & -> & -> & GC). exists D0, U0. split; [exact GS|].
      split; [apply GC; [|exact KER]; intros a Ia La; apply (RK _ _ a ES); [exact Ia|exact La]|].
      pose proof GS as (LD & _). split; apply eig_prefix_of; try assumption; try congruence; lia.
  Qed.
  (** the assumptions of C225_retry, if eigh does not depend on the range *)
  Theorem C225_contract : forall n A B o old old', (forall rng n C, eigh rng n C = eigh None n C) -> 1 <= n -> symmetric n A -> symmetric n B -> psd n A -> psd n B -> o <> Some 0 ->
    (solvers n MPca (range_of (Some (match o with Some k => k | None => n end))) old A B = solvers n MPca (range_of o) old' A B).
  Proof.
    intros n A B o old old' EI Hn SA SB PA PB NO. destruct o as [k|].
    - cbn [solvers]. unfold symeig_pca, semidefinite. destruct (find_blank thr n B) as [idx|]; [|reflexivity]. destruct (pca_core _ _ _ _ _ _ _) as [[|] d u| |] eqn:E; try reflexivity.
      unfold pca_core in E. destruct (eigh None (length idx) (pick idx B)) as [[? ?]|]; [|discriminate]. destruct (_ <=? _); [discriminate|]. destruct (eigh _ _ _) as [[? ?]|]; discriminate.
    - cbn [solvers]. unfold symeig_pca, semidefinite.
      assert (G : forall n' A' B', symmetric n' A' -> symmetric n' B' -> psd n' A' -> psd n' B' -> n' <= n -> pca_core eigh sqrt_ thr (range_of (Some n)) n' A' B' = pca_core eigh sqrt_ thr (range_of None) n' A' B').
      { clear A B SA SB PA PB. intros n' A B SA SB PA PB LN. destruct (pca_core eigh sqrt_ thr (range_of None) n' A B) as [df d u| |] eqn:E.
        - pose proof E as E'. apply (pca_core_ok eigh sqrt_ thr eigh_ok sqrt_ok thr_pos) in E'; try assumption. destruct E' as (D & V & D0 & U0 & ES & -> & LO & LU & GS & -> & -> & _). pose proof GS as (LD & _).
          cbn [eig_range range_of] in E |- *. unfold pca_core in *. destruct (eigh None n' B) as [[eg ev]|]; [|discriminate]. destruct (length eg <=? leading thr eg); [discriminate|].
          set (S := rescale sqrt_ (skipn (leading thr eg) eg) (skipn (leading thr eg) ev)) in *. rewrite EI. destruct (eigh None (length S) (congr n' A S)) as [[w e]|] eqn:E2; [|discriminate].
          cbn [eig_range] in E. injection E as E1 E3 E4. assert (LS : length S = n' - searchsorted D thr).
          { assert (X : eigensystem (length S) (congr n' A S) w e) by (apply (eigh_ok None); [now apply congr_sym|now apply congr_psd|exact E2]). destruct X as (X & _). rewrite <- X, E3, LD. exact LU. }
          assert (Lw : length w = length S) by (rewrite E3, LD, LU; now symmetry). assert (Le : length e = length S) by (rewrite LS, <- LU, <- E4; unfold mulcols; now rewrite map_length).
          f_equal; [now rewrite E1| |]; (rewrite eig_prefix by (try assumption; lia); rewrite firstn_all2 by lia; assumption).
        - unfold pca_core in *. destruct (eigh None n' B) as [[eg ev]|]; [|try discriminate; reflexivity]. destruct (length eg <=? leading thr eg); [try discriminate; reflexivity|]. rewrite EI in *. destruct (eigh None _ _) as [[? ?]|]; [discriminate|reflexivity].
        - unfold pca_core in *. destruct (eigh None n' B) as [[eg ev]|]; [|try discriminate; reflexivity]. destruct (length eg <=? leading thr eg); [reflexivity|]. rewrite EI in *. destruct (eigh None _ _) as [[? ?]|]; discriminate. }
      destruct (find_blank thr n B) as [idx|] eqn:FB; [|now apply G]. destruct (blank_idx thr n B idx FB) as [ND F]. rewrite G; [|now apply (pick_sym n)|now apply (pick_sym n)|now apply (pick_psd n)|now apply (pick_psd n)|now apply idx_le].
      destruct (pca_core _ _ _ _ _ _ _) as [[|] d u| |] eqn:E; try reflexivity.
      unfold pca_core in E. destruct (eigh None (length idx) (pick idx B)) as [[? ?]|]; [|discriminate]. destruct (_ <=? _); [discriminate|]. destruct (eigh _ _ _) as [[? ?]|]; discriminate.
  Qed.
End Solvers.

Section Examples.
  Definition p2 (a b : Q) : @vec Qc_of := fun i => match i with 0 => Q2Qc a | 1 => Q2Qc b | _ => Q2Qc 0 end%nat.
  Definition seq5 : list (@vec Qc_of) := [p2 1 1; p2 1 (-1); p2 0 0; p2 (-1) (-1); p2 (-1) 1].
  Definition S2 := @solvers Qc_of eQ sQ rQ tQ 2.
  Definition run (out : option nat) (incl : bool) (m : method) (calls : list (@call Qc_of)) : @sfa Qc_of * sres unit := sfa_stop 2 S2 (fst (sfa_trains (sfa_new out incl m) calls)) false.
  Definition show (s : @sfa Qc_of) : list Q * list (list Q) * option nat * nat := (map this (s_d s), map (fun v : @vec Qc_of => [this (v 0%nat); this (v 1%nat)]) (s_sf s), s_out s, s_dfc s).
  Definition outs (s : @sfa Qc_of) (l : list (@vec Qc_of)) : list (list Q) := map (fun x => map this (sfa_execute 2 s None x)) l.
  Lemma run_trained out incl m calls : snd (sfa_trains (@sfa_new Qc_of out incl m) calls) = SOk tt -> snd (run out incl m calls) = SOk tt -> trained 2 S2 out incl m calls (fst (run out incl m calls)).
  Proof. intros H1 H2. exists (fst (sfa_trains (sfa_new out incl m) calls)). split; [rewrite <- H1; apply surjective_pairing|rewrite <- H2; apply surjective_pairing]. Qed.
  (** two uncorrelated inputs, the first is slower *)
  Example ex_C220 : exists s, trained 2 S2 None true MNone (plain [seq5]) s /\ show s = ([2 # 3; 10 # 3]%Q, [[1; 0]; [0; 1]]%Q, Some 2%nat, 0%nat) /\
    outs s seq5 = [[1; 1]; [1; -1]; [0; 0]; [-1; -1]; [-1; 1]]%Q.
  Proof. exists (fst (run None true MNone (plain [seq5]))). split; [apply run_trained; vm_compute; reflexivity|]. split; vm_compute; reflexivity. Qed.
  (** C221: the squares of the derivatives of the first output are 0, 1, 1, 0 with mean 1/2 *)
  Example ex_C221_refuted : exists s, trained 2 S2 None true MNone (plain [seq5]) s /\ map this (s_d s) = [2 # 3; 10 # 3]%Q /\
    this (fsum (map (fun p => (out_k 2 s 0 (fst p) - out_k 2 s 0 (snd p)) * (out_k 2 s 0 (fst p) - out_k 2 s 0 (snd p)))%of (steps (plain [seq5]))) / fn (length (steps (plain [seq5]))))%of = (1 # 2)%Q.
  Proof. exists (fst (run None true MNone (plain [seq5]))). split; [apply run_trained; vm_compute; reflexivity|]. split; vm_compute; reflexivity. Qed.
  (** C223: chunks *)
  Definition seq6 : list (@vec Qc_of) := seq5 ++ [p2 1 1].
  Definition chunks6 : list (list (@vec Qc_of)) := connect [p2 1 1; p2 1 (-1)] [[p2 0 0; p2 (-1) (-1)]; [p2 (-1) 1]; [p2 1 1]].
  Example ex_C223 : map (@length _) chunks6 = [2; 3; 2; 2]%nat /\
    exists s, trained 2 S2 None false MNone (plain chunks6) s /\ trained 2 S2 None false MNone (plain [seq6]) s /\ show s = ([3 # 2; 5 # 2]%Q, [[1; 0]; [0; 1]]%Q, Some 2%nat, 0%nat).
  Proof.
    split; [reflexivity|]. exists (fst (run None false MNone (plain [seq6]))). assert (T : trained 2 S2 None false MNone (plain [seq6]) (fst (run None false MNone (plain [seq6])))) by (apply run_trained; vm_compute; reflexivity).
    split; [|split; [exact T|vm_compute; reflexivity]]. apply (C223_connected 2 S2 None MNone [p2 1 1; p2 1 (-1)] [[p2 0 0; p2 (-1) (-1)]; [p2 (-1) 1]; [p2 1 1]]); [cbn; lia|repeat constructor; discriminate|exact T].
  Qed.
  (** C224 *)
  Theorem C224_refuted : exists calls, snd (run (Some 3) true MNone (plain calls)) = SErr SInconsistent /\ snd (run (Some 2) true MNone (plain calls)) = SOk tt /\ snd (run (Some 1) true MNone (plain calls)) = SOk tt.
  Proof. exists [seq5]. repeat split; vm_compute; reflexivity. Qed.
  (** C225: a method that fails, then another one *)
  Example ex_C225 : let s1 := fst (run None true MReg (plain [seq5])) in snd (run None true MReg (plain [seq5])) = SErr SNode /\
    show (fst (sfa_stop 2 S2 (sfa_set_method s1 MNone) false)) = show (fst (run None true MNone (plain [seq5]))) /\ snd (sfa_stop 2 S2 (sfa_set_method s1 MNone) false) = SOk tt /\
    snd (sfa_train s1 seq5 None) = SErr SAttribute /\ snd (sfa_set_output s1 1) = SErr SInconsistent.
  Proof. repeat split; vm_compute; reflexivity. Qed.
  Theorem C225_refuted : exists s0 s1 : @sfa Qc_of, ready s0 /\ sfa_stop 2 S2 s0 false = (s1, SErr SNode) /\ s_training s1 = true /\ snd (sfa_train s1 seq5 None) = SErr SAttribute /\ snd (sfa_set_output s1 1) = SErr SInconsistent.
  Proof.
    exists (fst (sfa_trains (sfa_new None true MReg) (plain [seq5]))), (fst (run None true MReg (plain [seq5]))).
    split; [split; [reflexivity|]; split; [reflexivity|]; eexists; reflexivity|]. split; [|repeat split; vm_compute; reflexivity].
    rewrite (surjective_pairing (sfa_stop _ _ _ _)). f_equal.
  Qed.
  (** C226 *)
  Theorem C226_refuted : exists s, trained 2 S2 None true MNone (plain [seq5]) s /\ length (sfa_execute 2 s (Some 0%Z) (p2 1 1)) = 2%nat /\ length (sfa_execute 2 s (Some 1%Z) (p2 1 1)) = 1%nat.
  Proof. exists (fst (run None true MNone (plain [seq5]))). split; [apply run_trained; vm_compute; reflexivity|]. split; vm_compute; reflexivity. Qed.
  (** C227: this matrix is orthogonal, so that its pseudoinverse is its transpose *)
  Example ex_C227 : let s := fst (run None true MNone (plain [seq5])) in
    pinv_ok 2 (fun U => U) (s_sf s) /\ match sfa_inverse (fun U => U) s [Q2Qc 3; Q2Qc 4] with SOk x => map this (sfa_execute 2 s None x) = [3; 4]%Q | _ => False end.
  Proof.
    split; [|vm_compute; reflexivity]. split; [reflexivity|]. intros l i Hl Hi. assert (L : l = 0%nat \/ l = 1%nat) by (assert (X : length (s_sf (fst (run None true MNone (plain [seq5])))) = 2%nat) by (vm_compute; reflexivity); lia).
    assert (I : i = 0%nat \/ i = 1%nat) by lia. apply Qc_is_canon. destruct L as [-> | ->]; destruct I as [-> | ->]; vm_compute; reflexivity.
  Qed.
  (** C228: with the method pca the slower input, which has variance one, is lost; output_dim is 2, but there is one output; inverse does not accept it *)
  Theorem C228_refuted : exists s, trained 2 S2 None true MPca (plain [seq5]) s /\ show s = ([10 # 3]%Q, [[0; 1]]%Q, Some 2%nat, 1%nat) /\
    outs s seq5 = [[1]; [-1]; [0]; [-1]; [1]]%Q /\ sfa_inverse (fun U => U) s (sfa_execute 2 s None (p2 1 1)) = SErr SNode.
  Proof. exists (fst (run None true MPca (plain [seq5]))). split; [apply run_trained; vm_compute; reflexivity|]. repeat split; vm_compute; reflexivity. Qed.
End Examples.
