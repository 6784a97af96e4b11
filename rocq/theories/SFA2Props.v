(** Properties of SFA2Node: C237-C239. *)
From Coq Require Import List Arith ZArith QArith Qcanon Bool Lia Field FunctionalExtensionality.
From Verif Require Import OField LinAlg PCAModel PCAProofs GenEig SymeigModel SymeigProofs SymeigProps SFAModel SFAProps ExpModel ExpProofs QuadModel QuadProofs QuadProps.
Import ListNotations.
Open Scope nat_scope.

Section Props.
  Context {K : ofield}.
  Add Field Ks2 : (fth K).
  Notation vec := (vec (K := K)). Notation mtx := (mtx (K := K)). Notation sfa := (sfa (K := K)). Notation qform := (qform (K := K)).
  Context (dim : nat) (solver : method -> option (Z * Z) -> nat -> mtx -> mtx -> solres K vec).
  Notation edim := (edim dim). Notation expand := (expand dim).
  Notation call := (call (K := K)).
  Definition ex (c : call) : call := (map expand (fst c), snd c).
  Definition trained2 (out : option nat) (incl : bool) (m : method) (calls : list call) (s : sfa) : Prop :=
    exists s0, sfa2_trains dim (sfa_new out incl m) calls = (s0, SOk tt) /\ sfa2_stop dim solver s0 false = (s, SOk tt).
  Definition out2 (s : sfa) (k : nat) (x : vec) : K := nth k (sfa2_execute dim s None x) f0.
  Definition clip (out : option nat) : option nat := match out with Some k => if k <=? edim then Some k else None | None => None end.

  (** ** the expansion *)
  Lemma edim_length : edim = length (mall dim 2).
  Proof. unfold QuadModel.edim. change 2%Z with (Z.of_nat 2). now rewrite expanded_dim_length, Nat2Z.id. Qed.
  Lemma expand_nth (x : vec) i : expand x i = nth i (map (mono f0 fmul (map x (seq 0 dim))) (mall dim 2)) f0.
  Proof. unfold QuadModel.expand. rewrite poly_ok by lia. now rewrite map_length, seq_length. Qed.
  Lemma nth_x (x : vec) i : i < dim -> nth i (map x (seq 0 dim)) f0 = x i.
  Proof. intros H. rewrite (nth_indep _ f0 (x 0)) by now rewrite map_length, seq_length. rewrite map_nth, seq_nth by exact H. reflexivity. Qed.
  Lemma mall2 : mall dim 2 = map (fun i => [i]) (seq 0 dim) ++ flat_map (fun i => map (fun j => [i; j]) (seq i (dim - i))) (seq 0 dim).
  Proof.
    unfold mall. cbn [seq flat_map]. rewrite app_nil_r. apply f_equal2.
    - unfold mdeg. cbn [mblock]. generalize (seq 0 dim). induction l as [|a l IH]; [reflexivity|]. cbn [flat_map map mblock app]. now rewrite IH.
    - unfold mdeg. apply flat_map_ext. intros i. cbn [mblock]. generalize (seq i (dim - i)). induction l as [|a l IH]; [reflexivity|]. cbn [flat_map map app]. now rewrite IH.
  Qed.
  (** sums over all monomials *)
  Definition off (i : nat) : nat := fold_right Nat.add 0 (map (fun l => dim - l) (seq 0 i)).
  Definition pos (i j : nat) : nat := dim + off i + (j - i).
  Lemma off_S i : off (S i) = off i + (dim - i).
  Proof. unfold off. rewrite seq_S, map_app, fold_right_app. cbn [map fold_right Nat.add]. generalize (map (fun l => dim - l) (seq 0 i)). induction l as [|a l IH]; cbn; [lia|]. rewrite IH. lia. Qed.
  Definition isum {T} (g : nat -> T -> K) (p : nat) (l : list T) : K := fsum (map (fun q => g (fst q) (snd q)) (combine (seq p (length l)) l)).
  Lemma isum_app {T} (g : nat -> T -> K) l r : forall p, isum g p (l ++ r) = (isum g p l + isum g (p + length l) r)%of.
  Proof.
    induction l as [|a l IH]; intros p; unfold isum in *; cbn [app length seq combine map fsum fst snd].
    - rewrite Nat.add_0_r. ring.
    - rewrite IH. replace (S p + length l) with (p + S (length l)) by lia. ring.
  Qed.
  Lemma isum_seq {T} (g : nat -> T -> K) (f : nat -> T) n : forall p a, isum g p (map f (seq a n)) = fsum (map (fun j => g (p + (j - a)) (f j)) (seq a n)).
  Proof.
    induction n as [|n IH]; intros p a; [reflexivity|]. unfold isum in *. cbn [seq map length combine fsum fst snd]. rewrite IH. rewrite Nat.sub_diag, Nat.add_0_r. f_equal.
    apply fsum_map_ext. intros j Hj. apply in_seq in Hj. replace (S p + (j - S a)) with (p + (j - a)) by lia. reflexivity.
  Qed.
  Lemma isum_nth {T} (g : nat -> T -> K) l d : isum g 0 l = fsumn (length l) (fun i => g i (nth i l d)).
  Proof.
    assert (G : forall p, isum g p l = fsumn (length l) (fun i => g (p + i) (nth i l d))); [|apply G]. induction l as [|a l IH]; intros p; [reflexivity|].
    unfold isum in *. cbn [length seq combine map fsum fst snd]. rewrite IH. change (S (length l)) with (1 + length l). rewrite fsumn_split. unfold fsumn at 2. cbn [seq map fsum nth]. rewrite Nat.add_0_r.
    rewrite (fsumn_ext _ (fun i => g (S p + i) (nth i l d)) (fun i => g (p + (1 + i)) (nth i l d))) by (intros i _; f_equal; lia). cbn [nth Nat.add]. ring.
  Qed.
  Lemma isum_rows (g : nat -> list nat -> K) m : m <= dim ->
    isum g dim (flat_map (fun i => map (fun j => [i; j]) (seq i (dim - i))) (seq 0 m)) = fsumn m (fun i => fsum (map (fun j => g (pos i j) [i; j]) (seq i (dim - i)))) /\
    length (flat_map (fun i => map (fun j => [i; j]) (seq i (dim - i))) (seq 0 m)) = off m.
  Proof.
    induction m as [|m IH]; intros H; [split; reflexivity|]. rewrite seq_S, flat_map_app. destruct IH as [IH1 IH2]; [lia|]. cbn [flat_map Nat.add]. rewrite app_nil_r. split.
    - rewrite isum_app, IH1, fsumn_S, IH2, isum_seq. reflexivity.
    - rewrite app_length, IH2, map_length, seq_length, off_S. reflexivity.
  Qed.
  Lemma tail_sum (g : nat -> K) i : i < dim -> fsum (map g (seq i (dim - i))) = fsumn dim (fun j => if i <=? j then g j else f0).
  Proof.
    intros H. unfold fsumn. replace dim with (i + (dim - i)) at 2 by lia. rewrite seq_app, map_app, fsum_app. cbn [Nat.add].
    rewrite (fsum_map_zero (seq 0 i)) by (intros j Hj; apply in_seq in Hj; destruct (Nat.leb_spec i j); [lia|reflexivity]).
    rewrite (fsum_map_ext (seq i (dim - i)) (fun j => if i <=? j then g j else f0) g) by (intros j Hj; apply in_seq in Hj; destruct (Nat.leb_spec i j); [reflexivity|lia]). ring.
  Qed.
  (** the value of a linear function of the expansion *)
  Lemma expand_dot (x : vec) (w : vec) : dot edim (expand x) w = (fsumn dim (fun i => x i * w i) + fsumn dim (fun i => fsumn dim (fun j => if i <=? j then x i * x j * w (pos i j) else 0)))%of.
  Proof.
    set (mv := mono f0 fmul (map x (seq 0 dim))). transitivity (isum (fun p m => mv m * w p)%of 0 (mall dim 2)).
    - rewrite (isum_nth _ _ []). rewrite edim_length. unfold dot. apply fsumn_ext. intros i Hi. f_equal. rewrite expand_nth. fold mv. rewrite (nth_indep _ f0 (mv [])) by now rewrite map_length. apply map_nth.
    - rewrite mall2, isum_app. f_equal.
      + rewrite isum_seq. apply fsum_map_ext. intros j Hj. apply in_seq in Hj. cbn [Nat.add]. rewrite Nat.sub_0_r. f_equal. unfold mv. cbn [mono]. apply nth_x. lia.
      + cbn [Nat.add]. rewrite map_length, seq_length. rewrite (proj1 (isum_rows _ dim (le_n _))). apply fsumn_ext. intros i Hi. rewrite tail_sum by exact Hi. apply fsumn_ext. intros j Hj.
        destruct (i <=? j); [|reflexivity]. f_equal. unfold mv. cbn [mono]. now rewrite !nth_x.
  Qed.

  (** ** the loops of get_quadratic_form *)
  Definition target (w : vec) (i j : nat) : K := if i <? j then w (pos i j) else if i =? j then ((f1 + f1) * w (pos i i))%of else w (pos j i).
  Lemma row_ok (w : vec) i (h : mtx) : i < dim -> (forall a b, a < i -> b < dim -> h a b = target w a b) ->
    forall j, j <= dim -> exists h', fold_left (qf_step w i) (seq 0 j) (h, dim + off i) = (h', dim + off i + (j - i)) /\
      (forall a b, a < i -> b < dim -> h' a b = target w a b) /\ (forall b, b < j -> h' i b = target w i b).
  Proof.
    intros Hi R. induction j as [|j IH]; intros Hj.
    - exists h. cbn [seq fold_left]. split; [f_equal; lia|]. split; [exact R|]. intros b Hb. lia.
    - destruct IH as (h' & E & R1 & R2); [lia|]. rewrite seq_S, fold_left_app, E. cbn [Nat.add fold_left]. unfold qf_step.
      assert (U1 : forall v a b, a < i -> b < dim -> upd2 h' i j v a b = target w a b) by (intros v a b Ha Hb; unfold upd2; destruct (Nat.eqb_spec a i); [lia|]; now apply R1).
      assert (U2 : forall v, v = target w i j -> forall b, b < S j -> upd2 h' i j v i b = target w i b).
      { intros v Ev b Hb. unfold upd2. rewrite Nat.eqb_refl. cbn [andb]. destruct (Nat.eqb_spec b j) as [->|N]; [exact Ev|]. apply R2. lia. }
      destruct (Nat.ltb_spec i j) as [L|L]; [|destruct (Nat.eqb_spec j i) as [E2|N]].
      + eexists. split; [f_equal; lia|]. split; [apply U1|apply U2]. unfold target. destruct (Nat.ltb_spec i j); [reflexivity|lia].
      + subst j. eexists. split; [f_equal; lia|]. split; [apply U1|apply U2]. unfold target. rewrite Nat.ltb_irrefl, Nat.eqb_refl. unfold pos. reflexivity.
      + eexists. split; [f_equal; lia|]. split; [apply U1|apply U2]. rewrite R1 by lia. unfold target. destruct (Nat.ltb_spec i j); [lia|]. destruct (Nat.ltb_spec j i); [|lia]. destruct (Nat.eqb_spec i j); [lia|reflexivity].
  Qed.
  Lemma fill_ok (w : vec) : forall i j, i < dim -> j < dim -> fst (qf_fill dim w) i j = target w i j.
  Proof.
    assert (G : forall m, m <= dim -> exists h, fold_left (fun s i => fold_left (qf_step w i) (seq 0 dim) s) (seq 0 m) (fun _ _ => f0, dim) = (h, dim + off m) /\ (forall a b, a < m -> b < dim -> h a b = target w a b)).
    { induction m as [|m IH]; intros Hm.
      - exists (fun _ _ => f0). split; [cbn; f_equal; unfold off; cbn; lia|intros; lia].
      - destruct IH as (h & E & R); [lia|]. rewrite seq_S, fold_left_app, E. cbn [Nat.add fold_left]. destruct (row_ok w m h ltac:(lia) R dim (le_n _)) as (h' & E' & R1 & R2). rewrite E'.
        exists h'. split; [f_equal; rewrite off_S; lia|]. intros a b Ha Hb. destruct (Nat.eq_dec a m) as [->|N]; [now apply R2|]. apply R1; lia. }
    intros i j Hi Hj. unfold qf_fill. destruct (G dim (le_n _)) as (h & E & R). rewrite E. now apply R.
  Qed.
  Lemma target_sym (w : vec) : symmetric dim (target w).
  Proof. intros i j Hi Hj. unfold target. destruct (Nat.ltb_spec i j), (Nat.ltb_spec j i), (Nat.eqb_spec i j), (Nat.eqb_spec j i); try lia; try reflexivity. now subst. Qed.
  Lemma fill_sym (w : vec) : symmetric dim (fst (qf_fill dim w)).
  Proof. intros i j Hi Hj. rewrite !fill_ok by assumption. now apply target_sym. Qed.
  Lemma sym_double (u : nat -> nat -> K) n : fsumn n (fun i => fsumn n (fun j => u i j + u j i)%of) = ((f1 + f1) * fsumn n (fun i => fsumn n (fun j => u i j)))%of.
  Proof.
    rewrite (fsumn_ext n _ (fun i => fsumn n (fun j => u i j) + fsumn n (fun j => u j i))%of) by (intros; apply fsumn_add). rewrite fsumn_add. rewrite (fsumn_swap n n (fun i j => u j i)). ring.
  Qed.
  Lemma quad_value (w x : vec) : (f1 / (f1 + f1) * fsumn dim (fun i => fsumn dim (fun j => x i * fst (qf_fill dim w) i j * x j)))%of = fsumn dim (fun i => fsumn dim (fun j => if i <=? j then x i * x j * w (pos i j) else f0)%of).
  Proof.
    set (u := fun i j => if i <=? j then (x i * x j * w (pos i j))%of else f0).
    rewrite (fsumn_ext dim _ (fun i => fsumn dim (fun j => u i j + u j i))%of).
    - rewrite sym_double. transitivity (fsumn dim (fun i => fsumn dim (fun j => u i j))); [field; exact f2|reflexivity].
    - intros i Hi. apply fsumn_ext. intros j Hj. rewrite fill_ok by assumption. unfold u, target.
      destruct (Nat.ltb_spec i j), (Nat.leb_spec i j), (Nat.leb_spec j i), (Nat.eqb_spec i j); try lia; subst; ring.
  Qed.

  (** ** reduction to SFANode on the expanded data *)
  Lemma trains_eq calls : forall s, sfa2_trains dim s calls = sfa_trains s (map ex calls).
  Proof. induction calls as [|[x b] r IH]; intros s; [reflexivity|]. cbn [sfa2_trains map ex sfa_trains fst snd]. unfold sfa2_train. destruct (sfa_train s (map expand x) b) as [s' [[]|e]]; [apply IH|reflexivity]. Qed.
  Lemma reduce out incl m calls s : trained2 out incl m calls s -> exists s', trained edim solver (clip out) incl m (map ex calls) s' /\
    s_sf s' = s_sf s /\ s_bias s' = s_bias s /\ s_avg s' = s_avg s /\ s_d s' = s_d s /\ s_out s = Some (match out with Some k => k | None => edim end).
  Proof.
    intros (s0 & H1 & H2). rewrite trains_eq in H1.
    pose proof (trains_ok (map ex calls) (sfa_new out incl m) acc_new acc_new s0 eq_refl eq_refl H1) as (E1 & E2 & E3 & E4 & E5 & E6 & E7 & E8 & E9 & E10 & E11 & E12 & E13 & E14 & E15).
    cbn [sfa_new s_out s_incl s_meth s_dfc s_mats s_started] in *.
    assert (TT : exists t0, sfa_trains (sfa_new (clip out) incl m) (map ex calls) = (t0, SOk tt)) by (apply (trains_total (map ex calls) _ (acc_new, acc_new)); [reflexivity|reflexivity|exact E7]).
    destruct TT as (t0 & T1).
    pose proof (trains_ok (map ex calls) (sfa_new (clip out) incl m) acc_new acc_new t0 eq_refl eq_refl T1) as (F1 & F2 & F3 & F4 & F5 & F6 & F7 & F8 & F9 & F10 & F11 & F12 & F13 & F14 & F15).
    cbn [sfa_new s_out s_incl s_meth s_dfc s_mats s_started] in *.
    unfold sfa2_stop in H2. rewrite E6 in H2. destruct (s_started s0) eqn:ST; cbn [negb andb] in H2; [|discriminate]. symmetry in E15.
    unfold sfa_fix in H2. rewrite E1 in H2.
    destruct (acc_fix true _) as [cm avg] eqn:EC in H2. destruct (acc_fix false _) as [dm davg] eqn:ED in H2.
    unfold sfa2_range in H2. cbn [s_out s_mats s_meth s_dfc s_accs s_incl s_avg s_tlen s_dtlen] in H2. rewrite E2, E4, E5 in H2.
    destruct (solver m _ 0 dm cm) as [dfc d u| |] eqn:ES in H2; try discriminate. destruct (length d =? 0) eqn:LD; [discriminate|].
    destruct (existsb (fun a => fltb a f0) d) eqn:EN; [discriminate|]. injection H2 as <-. cbn [s_out s_d s_sf s_dfc s_avg s_bias].
    assert (G : exists out', match clip out with Some k => if k <=? edim then SOk (Some k, Some (1, Z.of_nat k)%Z) else SErr SInconsistent | None => SOk (Some edim, None) end =
      SOk (out', match out with Some k => if k <=? edim then Some (1, Z.of_nat k)%Z else None | None => None end)).
    { unfold clip. destruct out as [k|]; [|eexists; reflexivity]. destruct (k <=? edim) eqn:L; [rewrite L|]; eexists; reflexivity. }
    destruct G as (out' & G).
    eexists. split; [exists t0; split; [exact T1|]|].
    - unfold sfa_stop. rewrite F6, F15, E15. cbn [negb andb]. unfold sfa_fix. rewrite F1, EC, ED. unfold set_range. cbn [s_out s_mats s_meth s_dfc s_accs s_incl s_avg s_tlen s_dtlen]. rewrite F2, F4, F5.
      rewrite G, ES, LD, EN. reflexivity.
    - cbn [s_sf s_bias s_avg s_d]. repeat split.
  Qed.
  Lemma bias_ok out incl m calls s : trained2 out incl m calls s -> s_bias s = map (fun v => dot edim (s_avg s) v) (s_sf s).
  Proof. intros T. apply reduce in T. destruct T as (s' & T & <- & <- & <- & _). now apply trained_ok in T. Qed.
  Lemma out2_dot out incl m calls s k x : trained2 out incl m calls s -> k < length (s_sf s) -> out2 s k x = (dot edim (expand x) (nth k (s_sf s) vzero) - dot edim (s_avg s) (nth k (s_sf s) vzero))%of.
  Proof.
    intros T. apply bias_ok in T. unfold out2, sfa2_execute, sfa_execute, upto. rewrite T. generalize (s_sf s) k. clear. induction l as [|a l IH]; intros [|k] H; cbn in H; try lia; [reflexivity|]. cbn. apply IH. lia.
  Qed.

  (** ** C237: the quadratic form of an output *)
  Theorem C237_form : forall out incl m calls s atol rtol k, trained2 out incl m calls s -> (0 <= atol)%of -> (0 <= rtol)%of -> (- Z.of_nat (length (s_sf s)) <= k < Z.of_nat (length (s_sf s)))%Z ->
    exists q, get_quadratic_form dim atol rtol s k = Some (QOk q) /\ q_n q = dim /\ symmetric dim (q_H q) /\
      forall x, qf_apply q x = nth (Z.to_nat (if (k <? 0)%Z then k + Z.of_nat (length (s_sf s)) else k)) (sfa2_execute dim s None x) f0.
  Proof.
    intros out incl m calls s atol rtol k T A R Hk. unfold get_quadratic_form. set (i := (if (k <? 0)%Z then (k + Z.of_nat (length (s_sf s)))%Z else k)).
    assert (Hi : (0 <= i < Z.of_nat (length (s_sf s)))%Z) by (unfold i; destruct (Z.ltb_spec k 0); lia).
    destruct (Z.ltb_spec i 0); [lia|]. destruct (Z.leb_spec (Z.of_nat (length (s_sf s))) i); [lia|]. cbn [orb]. set (w := nth (Z.to_nat i) (s_sf s) vzero).
    destruct (C240_symmetric atol rtol dim (fst (qf_fill dim w)) (Some w) (Some (- dot edim (s_avg s) w)%of) A R (fill_sym w)) as (q & E). exists q. rewrite E. split; [reflexivity|].
    assert (Q : q = mkQ dim (fst (qf_fill dim w)) w (- dot edim (s_avg s) w)%of) by (unfold qf_new in E; destruct (allclose _ _ _ _); [|discriminate]; now injection E as <-).
    split; [now rewrite Q|]. split; [rewrite Q; apply fill_sym|]. intros x. rewrite (C240_apply atol rtol _ _ _ _ q x E). rewrite quad_value.
    change (nth (Z.to_nat i) (sfa2_execute dim s None x) f0) with (out2 s (Z.to_nat i) x). rewrite (out2_dot out incl m calls) by (try assumption; lia). fold w. rewrite expand_dot.
    rewrite (fsumn_ext dim (fun i => w i * x i)%of (fun i => x i * w i)%of) by (intros; ring). ring.
  Qed.
  Theorem C237_range : forall (s : sfa) (atol rtol : K) k, ~ (- Z.of_nat (length (s_sf s)) <= k < Z.of_nat (length (s_sf s)))%Z -> get_quadratic_form dim atol rtol s k = None.
  Proof.
    intros s atol rtol k H. unfold get_quadratic_form. set (i := (if (k <? 0)%Z then (k + Z.of_nat (length (s_sf s)))%Z else k)).
    assert (Hi : (i < 0 \/ Z.of_nat (length (s_sf s)) <= i)%Z) by (unfold i; destruct (Z.ltb_spec k 0); lia). destruct (Z.ltb_spec i 0); [reflexivity|]. destruct (Z.leb_spec (Z.of_nat (length (s_sf s))) i); [reflexivity|lia].
  Qed.

  (** ** C238: the outputs are white, and the slowest of all quadratic functions *)
  Lemma removelast_map {A B} (f : A -> B) l : removelast (map f l) = map f (removelast l).
  Proof. induction l as [|a [|b l] IH]; [reflexivity|reflexivity|]. cbn [map removelast] in *. now rewrite IH. Qed.
  Lemma samples_ex incl calls : samples incl (map ex calls) = map expand (samples incl calls).
  Proof.
    unfold samples. rewrite concat_map, !map_map. f_equal. apply map_ext. intros [x b]. unfold cchunk, ex. cbn [fst snd]. destruct (match b with Some b => b | None => incl end); [reflexivity|apply removelast_map].
  Qed.
  Lemma steps_ex calls : steps (map ex calls) = map (fun p => (expand (fst p), expand (snd p))) (steps calls).
  Proof.
    unfold steps. rewrite concat_map, !map_map. f_equal. apply map_ext. intros [x b]. unfold ex. cbn [fst snd]. rewrite removelast_map.
    assert (G : forall l r : list vec, combine (map expand l) (map expand r) = map (fun p => (expand (fst p), expand (snd p))) (combine l r)) by (induction l as [|a l IH]; intros [|c r]; cbn; [reflexivity..|]; now rewrite IH).
    rewrite <- G. f_equal. now destruct x.
  Qed.
  Lemma exec_eq (s s' : sfa) k (x : vec) : s_sf s' = s_sf s -> s_bias s' = s_bias s -> out_k edim s' k (expand x) = out2 s k x.
  Proof. intros E1 E2. unfold out_k, out2, sfa2_execute, sfa_execute. now rewrite E1, E2. Qed.
  Theorem C238_white : forall out incl m calls s k l, trained2 out incl m calls s -> solver_ok edim solver m (derm (map ex calls)) (covm incl (map ex calls)) -> out <> Some 0 ->
    2 <= length (samples incl calls) -> 2 <= length (steps calls) -> k < length (s_sf s) -> l < length (s_sf s) ->
    fsum (map (out2 s k) (samples incl calls)) = f0 /\
    (fsum (map (fun x => out2 s k x * out2 s l x) (samples incl calls)) / (fn (length (samples incl calls)) - 1))%of = (if k =? l then f1 else f0).
  Proof.
    intros out incl m calls s k l T OK NZ L1 L2 Hk Hl. apply reduce in T. destruct T as (s' & T & E1 & E2 & _ & _ & _). rewrite <- E1 in Hk, Hl.
    assert (NZ' : clip out <> Some 0) by (unfold clip; destruct out as [[|n]|]; [congruence|destruct (_ <=? _); discriminate|discriminate]).
    destruct (C220_white edim solver (clip out) incl m (map ex calls) s' k l T OK NZ') as [G1 G2]; try assumption; try (rewrite ?samples_ex, ?steps_ex, map_length; assumption).
    rewrite samples_ex, map_map in G1. rewrite samples_ex, map_map, map_length in G2. split.
    - rewrite <- G1. apply fsum_map_ext. intros x _. symmetry. now apply exec_eq.
    - rewrite <- G2. f_equal. apply fsum_map_ext. intros x _. now rewrite !(exec_eq s s').
  Qed.
  (** the coefficients of a quadratic form *)
  Definition coef (q : qform) (m : list nat) : K :=
    match m with [i] => q_f q i | [i; j] => if i =? j then (f1 / (f1 + f1) * q_H q i i)%of else (f1 / (f1 + f1) * (q_H q i j + q_H q j i))%of | _ => f0 end.
  Definition coefs (q : qform) : vec := fun p => nth p (map (coef q) (mall dim 2)) f0.
  Lemma coefs_lin (q : qform) i : i < dim -> coefs q i = q_f q i.
  Proof.
    intros Hi. unfold coefs. rewrite mall2, map_app, app_nth1 by (rewrite !map_length, seq_length; exact Hi). rewrite map_map. rewrite (nth_indep _ f0 (coef q [0])) by (rewrite map_length, seq_length; exact Hi).
    rewrite (map_nth (fun i => coef q [i])), seq_nth by exact Hi. reflexivity.
  Qed.
  Lemma rows_nth i j m : i < m -> i <= j -> j < dim -> m <= dim -> nth (off i + (j - i)) (flat_map (fun i => map (fun j => [i; j]) (seq i (dim - i))) (seq 0 m)) [] = [i; j].
  Proof.
    induction m as [|m IH]; intros H1 H2 H3 H4; [lia|]. rewrite seq_S, flat_map_app. cbn [flat_map Nat.add]. rewrite app_nil_r. pose proof (proj2 (isum_rows (fun _ _ => (f0 : K)) m ltac:(lia))) as LL.
    destruct (Nat.eq_dec i m) as [->|N].
    - rewrite app_nth2 by (rewrite LL; lia). rewrite LL. replace (off m + (j - m) - off m) with (j - m) by lia. rewrite (nth_indep _ [] [m; 0]) by (rewrite map_length, seq_length; lia).
      rewrite (map_nth (fun j => [m; j])), seq_nth by lia. do 2 f_equal. lia.
    - rewrite app_nth1; [apply IH; lia|]. rewrite LL. clear - H1 H2 H3 H4 N. assert (G : forall a b, a <= b -> off a <= off b) by (induction 1; [lia|rewrite off_S; lia]). pose proof (G (S i) m ltac:(lia)) as X. rewrite off_S in X. lia.
  Qed.
  Lemma coefs_quad (q : qform) i j : i <= j -> j < dim -> coefs q (pos i j) = coef q [i; j].
  Proof.
    intros H1 H2. unfold coefs, pos. rewrite mall2. change f0 with (coef q []) at 1. rewrite map_nth. rewrite app_nth2 by (rewrite map_length, seq_length; lia). rewrite map_length, seq_length.
    replace (dim + off i + (j - i) - dim) with (off i + (j - i)) by lia. now rewrite rows_nth by lia.
  Qed.
  Lemma coefs_ok (q : qform) (x : vec) : q_n q = dim -> qf_apply q x = (dot edim (expand x) (coefs q) + q_c q)%of.
  Proof.
    intros N. assert (A : qf_apply q x = (f1 / (f1 + f1) * fsumn dim (fun i => fsumn dim (fun j => x i * q_H q i j * x j)) + fsumn dim (fun i => x i * q_f q i) + q_c q)%of).
    { unfold qf_apply. rewrite N. unfold dot. do 3 f_equal. apply fsumn_ext. intros i _. rewrite <- fsumn_mulr. apply fsumn_ext. intros. ring. }
    rewrite A. f_equal. rewrite expand_dot. rewrite (fsumn_ext dim (fun i => x i * coefs q i)%of (fun i => x i * q_f q i)%of) by (intros; now rewrite coefs_lin).
    set (u := fun i j => if i <=? j then (x i * x j * coefs q (pos i j))%of else f0).
    assert (U : fsumn dim (fun i => fsumn dim (fun j => x i * q_H q i j * x j))%of = fsumn dim (fun i => fsumn dim (fun j => u i j + u j i))%of); [|rewrite U, sym_double; transitivity (fsumn dim (fun i => x i * q_f q i) + fsumn dim (fun i => fsumn dim (fun j => u i j)))%of; [field; exact f2|reflexivity]].
    set (v := fun i j => (x i * q_H q i j * x j)%of).
    assert (V : fsumn dim (fun i => fsumn dim (fun j => v i j + v j i))%of = fsumn dim (fun i => fsumn dim (fun j => (u i j + u j i) + (u j i + u i j)))%of).
    { apply fsumn_ext. intros i Hi. apply fsumn_ext. intros j Hj. unfold u, v. assert (N2 : (f1 + f1 : K)%of <> f0) by (exact f2).
      destruct (Nat.leb_spec i j), (Nat.leb_spec j i); try lia; rewrite ?coefs_quad by lia; cbn [coef].
      - assert (j = i) by lia. subst j. rewrite Nat.eqb_refl. field. exact N2.
      - destruct (Nat.eqb_spec i j); [lia|]. field. exact N2.
      - destruct (Nat.eqb_spec j i); [lia|]. field. exact N2. }
    rewrite sym_double in V. rewrite (sym_double (fun i j => u i j + u j i)%of) in V. unfold v in V. apply (f_equal (fun a => a / (f1 + f1))%of) in V.
    assert (D : forall a : K, ((f1 + f1) * a / (f1 + f1))%of = a) by (intros a; field; exact f2). now rewrite !D in V.
  Qed.
  Theorem C238_slowest : forall out incl m calls s (Q : list qform), trained2 out incl m calls s -> solver_complete edim solver m (derm (map ex calls)) (covm incl (map ex calls)) -> out <> Some 0 ->
    2 <= length (samples incl calls) -> 2 <= length (steps calls) -> length Q <= length (s_sf s) -> (forall q, In q Q -> q_n q = dim) ->
    let xs := samples incl calls in
    let f := fun k (x : vec) => qf_apply (nth k Q (mkQ dim (fun _ _ => f0) (fun _ => f0) f0)) x in
    let mean := fun g : vec -> K => (fsum (map g xs) / fn (length xs))%of in
    (forall i j, i < length Q -> j < length Q -> (fsum (map (fun x => (f i x - mean (f i)) * (f j x - mean (f j))) xs) / (fn (length xs) - 1))%of = if i =? j then f1 else f0) ->
    (fsumn (length Q) (fun k => fsum (map (fun p => (out2 s k (fst p) - out2 s k (snd p)) * (out2 s k (fst p) - out2 s k (snd p))) (steps calls)))
     <= fsumn (length Q) (fun k => fsum (map (fun p => (f k (fst p) - f k (snd p)) * (f k (fst p) - f k (snd p))) (steps calls))))%of.
  Proof.
    intros out incl m calls s Q T OK NZ L1 L2 LQ HQ xs f mean HW. apply reduce in T. destruct T as (s' & T & E1 & E2 & _ & _ & _). rewrite <- E1 in LQ.
    assert (NZ' : clip out <> Some 0) by (unfold clip; destruct out as [[|n]|]; [congruence|destruct (_ <=? _); discriminate|discriminate]).
    set (q0 := mkQ dim (fun _ _ => f0) (fun _ => f0) f0 : qform) in *. set (c := fun k => q_c (nth k Q q0)).
    assert (NN : forall k, q_n (nth k Q q0) = dim) by (intros k; destruct (nth_in_or_default k Q q0) as [I|E]; [now apply HQ|rewrite E; reflexivity]).
    assert (EW : forall k, k < length Q -> nth k (map coefs Q) vzero = coefs (nth k Q q0)) by (intros k Hk; rewrite (nth_indep _ vzero (coefs q0)) by (now rewrite map_length); apply map_nth).
    assert (EF : forall k x, k < length Q -> f k x = (dot edim (expand x) (nth k (map coefs Q) vzero) + c k)%of) by (intros k x Hk; unfold f; rewrite coefs_ok by apply NN; now rewrite EW).
    pose proof (C222_slowest edim solver (clip out) incl m (map ex calls) s' (map coefs Q) T OK NZ') as G. rewrite samples_ex, steps_ex, !map_length in G. specialize (G L1 L2 LQ). cbv zeta in G. fold xs in G.
    assert (NX : (fn (length xs) : K) <> f0) by (apply fn_ne; unfold xs; lia).
    assert (EM : forall k x, k < length Q -> (dot edim (expand x) (nth k (map coefs Q) vzero) - fsum (map (fun y => dot edim (expand y) (nth k (map coefs Q) vzero)) xs) / fn (length xs))%of = (f k x - mean (f k))%of).
    { intros k x Hk. unfold mean. rewrite (fsum_map_ext xs (f k) (fun x => dot edim (expand x) (nth k (map coefs Q) vzero) + c k)%of) by (intros; now apply EF). rewrite fsum_map_add, fsum_map_const, EF by exact Hk. field. exact NX. }
    assert (G' : (fsumn (length Q) (fun k => fsum (map (fun p => (out_k edim s' k (fst p) - out_k edim s' k (snd p)) * (out_k edim s' k (fst p) - out_k edim s' k (snd p))) (map (fun p => (expand (fst p), expand (snd p))) (steps calls))))
      <= fsumn (length Q) (fun k => fsum (map (fun p => (dot edim (fst p) (nth k (map coefs Q) vzero) - dot edim (snd p) (nth k (map coefs Q) vzero)) * (dot edim (fst p) (nth k (map coefs Q) vzero) - dot edim (snd p) (nth k (map coefs Q) vzero))) (map (fun p => (expand (fst p), expand (snd p))) (steps calls)))))%of).
    { apply G. intros i j Hi Hj. rewrite !map_map, !(map_length expand). rewrite <- (HW i j Hi Hj). f_equal. apply fsum_map_ext. intros x _. now rewrite !EM. }
    clear G. match goal with |- (?a <= ?b)%of => match type of G' with (?a' <= ?b')%of => replace a with a'; [replace b with b'; [exact G'|]|] end end.
    - apply fsumn_ext. intros k Hk. rewrite map_map. apply fsum_map_ext. intros p _. cbn [fst snd]. rewrite !EF by exact Hk. ring.
    - apply fsumn_ext. intros k Hk. rewrite map_map. apply fsum_map_ext. intros p _. cbn [fst snd]. now rewrite !(exec_eq s s').
  Qed.

  (** ** C239: output_dim *)
  Theorem C239_dim : forall out incl m calls s, trained2 out incl m calls s -> s_out s = Some (match out with Some k => k | None => edim end).
  Proof. intros out incl m calls s T. apply reduce in T. destruct T as (s' & _ & _ & _ & _ & _ & E). exact E. Qed.
  (** a value larger than the dimension of the expansion is kept as output_dim, the outputs are those of the node without an output_dim *)
  Theorem C239_large_refuted : forall k incl m calls s, edim < k -> trained2 (Some k) incl m calls s ->
    s_out s = Some k /\ exists s', trained2 None incl m calls s' /\ s_out s' = Some edim /\ forall n x, sfa2_execute dim s n x = sfa2_execute dim s' n x.
  Proof.
    intros k incl m calls s L T. split; [apply (C239_dim _ _ _ _ _ T)|]. destruct T as (s0 & H1 & H2). rewrite trains_eq in H1.
    pose proof (trains_ok (map ex calls) (sfa_new (Some k) incl m) acc_new acc_new s0 eq_refl eq_refl H1) as (E1 & E2 & E3 & E4 & E5 & E6 & E7 & E8 & E9 & E10 & E11 & E12 & E13 & E14 & E15).
    assert (TT : exists t0, sfa_trains (sfa_new None incl m) (map ex calls) = (t0, SOk tt)) by (apply (trains_total (map ex calls) _ (acc_new, acc_new)); [reflexivity|reflexivity|exact E7]). destruct TT as (t0 & T1).
    pose proof (trains_ok (map ex calls) (sfa_new None incl m) acc_new acc_new t0 eq_refl eq_refl T1) as (F1 & F2 & F3 & F4 & F5 & F6 & F7 & F8 & F9 & F10 & F11 & F12 & F13 & F14 & F15).
    cbn [sfa_new s_out s_incl s_meth s_dfc s_mats s_started] in *.
    unfold sfa2_stop in H2. rewrite E6 in H2. destruct (s_started s0) eqn:ST; cbn [negb andb] in H2; [|discriminate]. symmetry in E15.
    unfold sfa_fix in H2. rewrite E1 in H2. destruct (acc_fix true _) as [cm avg] eqn:EC in H2. destruct (acc_fix false _) as [dm davg] eqn:ED in H2.
    unfold sfa2_range in H2. cbn [s_out s_mats s_meth s_dfc s_accs s_incl s_avg s_tlen s_dtlen] in H2. rewrite E2, E4, E5 in H2. destruct (Nat.leb_spec k edim); [lia|].
    destruct (solver m None 0 dm cm) as [dfc d u| |] eqn:ES in H2; try discriminate. destruct (length d =? 0) eqn:LD; [discriminate|].
    destruct (existsb (fun a => fltb a f0) d) eqn:EN; [discriminate|]. injection H2 as <-.
    eexists. split; [exists t0; split; [rewrite trains_eq; exact T1|]|].
    - unfold sfa2_stop. rewrite F6, F15, E15. cbn [negb andb]. unfold sfa_fix. rewrite F1, EC, ED. unfold sfa2_range. cbn [s_out s_mats s_meth s_dfc s_accs s_incl s_avg s_tlen s_dtlen]. rewrite F2, F4, F5, ES, LD, EN. reflexivity.
    - split; [reflexivity|]. intros n x. reflexivity.
  Qed.
End Props.

Section Examples.
  Definition v1 (a : Q) : @vec Qc_of := fun i => match i with 0 => Q2Qc a | _ => Q2Qc 0 end%nat.
  Definition seq9 : list (@vec Qc_of) := map v1 [3; -(3); 3; -(3); 0; 3; -(3); 3; -(3)]%Q.
  Definition run2 (out : option nat) (calls : list (@call Qc_of)) : @sfa Qc_of * sres unit := sfa2_stop 1 S2 (fst (sfa2_trains 1 (sfa_new out true MNone) calls)) false.
  Lemma run2_trained out calls : snd (sfa2_trains 1 (@sfa_new Qc_of out true MNone) calls) = SOk tt -> snd (run2 out calls) = SOk tt -> trained2 1 S2 out true MNone calls (fst (run2 out calls)).
  Proof. intros H1 H2. exists (fst (sfa2_trains 1 (sfa_new out true MNone) calls)). split; [rewrite <- H1; apply surjective_pairing|rewrite <- H2; apply surjective_pairing]. Qed.
  (** C238: one input which changes its sign quickly; its square is the slowest quadratic function *)
  Example ex_C238 : exists s, trained2 1 S2 None true MNone (plain [seq9]) s /\ show s = ([18 # 7; 26 # 7]%Q, [[0; 1 # 3]; [1 # 3; 0]]%Q, Some 2%nat, 0%nat) /\
    map (fun x => map this (sfa2_execute 1 s None x)) (firstn 5 seq9) = [[1 # 3; 1]; [1 # 3; -(1)]; [1 # 3; 1]; [1 # 3; -(1)]; [-8 # 3; 0]]%Q.
  Proof. exists (fst (run2 None (plain [seq9]))). split; [apply run2_trained; vm_compute; reflexivity|]. split; vm_compute; reflexivity. Qed.
  (** C237: H, f, c and the value at 5 of the form of the first output, (x^2 - 8) / 3; index 2 is refused *)
  Example ex_C237 : exists s, trained2 1 S2 None true MNone (plain [seq9]) s /\
    match @get_quadratic_form Qc_of 1 tQ tQ s (-2) with Some (QOk q) => map this [q_H q 0%nat 0%nat; q_f q 0%nat; q_c q; qf_apply q (v1 5)] | _ => [] end = [2 # 3; 0; -8 # 3; 17 # 3]%Q /\
    map this (sfa2_execute 1 s None (v1 5)) = [17 # 3; 5 # 3]%Q /\ match @get_quadratic_form Qc_of 1 tQ tQ s 2 with None => true | Some _ => false end = true.
  Proof. exists (fst (run2 None (plain [seq9]))). split; [apply run2_trained; vm_compute; reflexivity|]. split; [|split]; vm_compute; reflexivity. Qed.
  (** the coefficients of x, y, z, x^2, xy, xz, y^2, yz, z^2 *)
  Example ex_C237_fill : let sf : @vec Qc_of := fun i => Q2Qc (inject_Z (Z.of_nat (i + 1))) in
    map (fun i => map (fun j => this (fst (qf_fill 3 sf) i j)) [0; 1; 2]%nat) [0; 1; 2]%nat = [[8; 5; 6]; [5; 14; 8]; [6; 8; 18]]%Q.
  Proof. vm_compute. reflexivity. Qed.
  (** C239: output_dim 3, the expansion of one input has dimension 2: two outputs *)
  Theorem C239_refuted : exists s, trained2 1 S2 (Some 3%nat) true MNone (plain [seq9]) s /\ s_out s = Some 3%nat /\ forall x, length (sfa2_execute 1 s None x) = 2%nat.
  Proof. exists (fst (run2 (Some 3%nat) (plain [seq9]))). split; [apply run2_trained; vm_compute; reflexivity|]. split; [vm_compute; reflexivity|]. intros x. unfold sfa2_execute, sfa_execute. rewrite map_length, combine_length. vm_compute. reflexivity. Qed.
End Examples.
