(** Properties of the nodes of extended slow feature analysis (C368-C372). *)
From Coq Require Import QArith Qcanon List Arith Bool Lia.
From Verif Require Import CovModel CovProofs CovProps XsfaModel.
Import ListNotations.
Local Open Scope Qc_scope.

(** ** Slices *)
Lemma tail_app {A} k (a b : list A) : length b = k -> (1 <= k)%nat -> tail_cols k (a ++ b) = b.
Proof. intros H H1. unfold tail_cols. destruct k; [lia|]. rewrite app_length, H. replace (length a + S k - S k)%nat with (length a) by lia. now rewrite skipn_app, skipn_all, Nat.sub_diag. Qed.
Lemma head_app {A} k (a b : list A) : length b = k -> (1 <= k)%nat -> head_cols k (a ++ b) = a.
Proof. intros H H1. unfold head_cols. destruct k; [lia|]. rewrite app_length, H. replace (length a + S k - S k)%nat with (length a) by lia. rewrite firstn_app, Nat.sub_diag, firstn_all. apply app_nil_r. Qed.
Lemma mid_app {A} d l (a b c : list A) : length c = l -> (1 <= l)%nat -> (length b + l = d)%nat -> mid_cols d l (a ++ b ++ c) = b.
Proof.
  intros H H1 H2. unfold mid_cols. destruct l; [lia|]. destruct d; [lia|]. cbv zeta. rewrite !app_length.
  replace (length a + (length b + length c) - S d)%nat with (length a) by lia. rewrite skipn_app, skipn_all, Nat.sub_diag. cbn [skipn app].
  replace (length a + (length b + length c) - S l - length a)%nat with (length b) by lia. rewrite firstn_app, Nat.sub_diag, firstn_all. apply app_nil_r.
Qed.

(** A row of the data of a ProjectionNode: the expanded sources, the S+1 sources, the L inputs *)
Record sample := mkSm { s_exp : list Qc; s_src : list Qc; s_inp : list Qc }.
Definition flat (s : sample) : list Qc := s_exp s ++ s_src s ++ s_inp s.
Definition shaped (E S L : nat) (s : sample) : Prop := length (s_exp s) = E /\ length (s_src s) = (S + 1)%nat /\ length (s_inp s) = L.
(** covariance (normalised with n - 1) of two signals *)
Definition covar (xs ys : list row) : mat := fun i j => codev (combine xs ys) i j / (qn (length xs) - 1).
Definition exps (ss : list sample) : list row := map (fun s => vec (s_exp s)) ss.
Definition inps (ss : list sample) : list row := map (fun s => vec (s_inp s)) ss.
Fixpoint xupds (s : xcov) (l : list (list row * list row)) : xcov := match l with [] => s | (x, y) :: l => xupds (fst (xcov_update s x y)) l end.
Lemma xupds_eq l : forall s s', xcov_updates s l = (s', true) -> xupds s l = s'.
Proof.
  induction l as [|[x y] l IH]; intros s s' H; cbn in *; [congruence|]. destruct (xcov_update s x y) as [s1 b]. cbn. destruct b; [now apply IH|discriminate].
Qed.
Lemma proj_trains E S L p chunks : p_S p = S -> p_L p = L -> (1 <= L)%nat -> Forall (Forall (shaped E S L)) chunks ->
  fold_left proj_train (map (map flat) chunks) p = mkP S L (xupds (p_acc p) (map (fun c => (exps c, inps c)) chunks)) (p_mtx p).
Proof.
  intros HS HL H1 H. revert p HS HL. induction H as [|c chunks Hc H IH]; intros p HS HL; cbn [map fold_left xupds].
  - destruct p; cbn in *. now subst.
  - rewrite IH by assumption. unfold proj_train, p_out. cbn [p_acc p_mtx]. rewrite HS, HL. unfold exps, inps. rewrite !map_map.
    rewrite (map_ext_in (fun x => vec (head_cols (S + 1 + L) (flat x))) (fun s => vec (s_exp s))),
      (map_ext_in (fun x => vec (tail_cols L (flat x))) (fun s => vec (s_inp s))); [reflexivity| |];
    intros s Hs; rewrite Forall_forall in Hc; destruct (Hc s Hs) as (E1 & E2 & E3); unfold flat.
    + now rewrite app_assoc, tail_app.
    + rewrite head_app; [reflexivity|rewrite app_length; lia|lia].
Qed.
(** C368: a trained ProjectionNode copies the sources and takes from every input its regression on the expanded sources, with the covariances of all
    training data as coefficients, whatever the chunks were *)
Theorem C368_projection : forall E S L chunks, (1 <= L)%nat -> Forall (Forall (shaped E S L)) chunks -> (2 <= length (concat chunks))%nat ->
  exists p, proj_stop (fold_left proj_train (map (map flat) chunks) (proj_init S L)) = Some p /\
    forall s, shaped E S L s -> exists new, proj_exec p (flat s) = Some (s_src s ++ new) /\ length new = L /\
      forall j, (j < L)%nat -> nth j new 0 = nth j (s_inp s) 0 - qsum (map (fun k => nth k (s_exp s) 0 * covar (exps (concat chunks)) (inps (concat chunks)) k j) (seq 0 E)).
Proof.
  intros E S L chunks H1 H H2. rewrite (proj_trains E S L) by auto. cbn [proj_init p_acc p_mtx].
  set (cs := map (fun c => (exps c, inps c)) chunks).
  assert (Ex : concat (map fst cs) = exps (concat chunks)) by (unfold cs, exps; now rewrite map_map, concat_map).
  assert (Ey : concat (map snd cs) = inps (concat chunks)) by (unfold cs, inps; now rewrite map_map, concat_map).
  destruct (C39_cross_covariance false cs) as (s & m & a & b & U & F & Hm & _ & _).
  { unfold cs. apply Forall_forall. intros c Hc. apply in_map_iff in Hc. destruct Hc as (c' & <- & _). cbn. unfold exps, inps. now rewrite !map_length. }
  { rewrite Ex. unfold exps. rewrite map_length. exact H2. }
  rewrite (xupds_eq _ _ _ U). unfold proj_stop. cbn [p_acc]. rewrite F. eexists. split; [reflexivity|].
  intros s0 (E1 & E2 & E3). unfold proj_exec, p_out. cbn [p_mtx p_S p_L]. unfold flat.
  rewrite (mid_app (S + 1 + L) L) by lia. rewrite (head_app (S + 1 + L)) by (rewrite ?app_length; lia). rewrite app_assoc, tail_app by lia.
  rewrite E1, E2, E3. destruct L as [|L]; [lia|]. rewrite Nat.eqb_refl. replace (S + 1 + Datatypes.S L - Datatypes.S L)%nat with (S + 1)%nat by lia. rewrite Nat.eqb_refl. cbn [andb].
  eexists. split; [reflexivity|]. rewrite map_length, seq_length. split; [reflexivity|]. intros j Hj.
  rewrite (nth_indep _ 0 ((fun j => nth j (s_inp s0) 0 - qsum (map (fun k => nth k (s_exp s0) 0 * m k j) (seq 0 E))) O)) by (rewrite map_length, seq_length; exact Hj).
  rewrite (map_nth (fun j => nth j (s_inp s0) 0 - qsum (map (fun k => nth k (s_exp s0) 0 * m k j) (seq 0 E)))), seq_nth by exact Hj. cbn [Nat.add].
  f_equal. f_equal. apply map_ext. intro k. f_equal. unfold covar. rewrite Hm, Ex, Ey. unfold norm. reflexivity.
Qed.

(** ** C369: what is left is uncorrelated with the expanded sources *)
(** y_j - sum_k x_k C_kj *)
Definition residual (E : nat) (C : mat) (x y : row) : row := fun j => y j - qsum (map (fun k => x k * C k j) (seq 0 E)).
Lemma mean_residual E C (ps : list (row * row)) j :
  mean (map (fun p => residual E C (fst p) (snd p)) ps) j = residual E C (mean (map fst ps)) (mean (map snd ps)) j.
Proof.
  unfold mean, residual. rewrite !map_map, !map_length.
  assert (H : qsum (map (fun x : row * row => snd x j - qsum (map (fun k => fst x k * C k j) (seq 0 E))) ps)
    = qsum (map (fun x : row * row => snd x j) ps) - qsum (map (fun k => qsum (map (fun x : row * row => fst x k) ps) * C k j) (seq 0 E))).
  { transitivity (qsum (map (fun x : row * row => snd x j) ps) - qsum (map (fun x : row * row => qsum (map (fun k => fst x k * C k j) (seq 0 E))) ps)).
    - clear. induction ps as [|p ps IH]; cbn; [ring|]. rewrite IH. ring.
    - f_equal. rewrite (qsum_swap (fun (x : row * row) k => fst x k * C k j)). apply qsum_ext. intro k. apply qsum_map_mulr. }
  rewrite H. unfold Qcdiv, Qcminus. rewrite Qcmult_plus_distr_l. f_equal.
  transitivity (- (qsum (map (fun k => qsum (map (fun x : row * row => fst x k) ps) * C k j) (seq 0 E)) * / qn (length ps))); [ring|]. f_equal.
  rewrite <- qsum_map_mulr. apply qsum_ext. intro k. rewrite map_map. ring.
Qed.
Lemma codev_residual E C (ps : list (row * row)) i j :
  codev (map (fun p => (fst p, residual E C (fst p) (snd p))) ps) i j
  = codev ps i j - qsum (map (fun k => codev (map (fun p => (fst p, fst p)) ps) i k * C k j) (seq 0 E)).
Proof.
  unfold codev. rewrite !map_map. cbn [fst snd]. rewrite mean_residual.
  change (map (fun x : row * row => fst x) ps) with (map fst ps).
  set (u := mean (map fst ps)). set (v := mean (map snd ps)).
  transitivity (qsum (map (fun p : row * row => (fst p i - u i) * (snd p j - v j)) ps)
    - qsum (map (fun p : row * row => qsum (map (fun k => (fst p i - u i) * (fst p k - u k) * C k j) (seq 0 E))) ps)).
  - clearbody u v. induction ps as [|p ps IH]; cbn [map qsum]; [ring|]. rewrite IH. clear IH.
    assert (H : residual E C (fst p) (snd p) j - residual E C u v j = (snd p j - v j) - qsum (map (fun k => (fst p k - u k) * C k j) (seq 0 E))).
    { unfold residual. assert (H : forall l, qsum (map (fun k => (fst p k - u k) * C k j) l) = qsum (map (fun k => fst p k * C k j) l) - qsum (map (fun k => u k * C k j) l)).
      { intro l. induction l as [|k l IH]; cbn; [ring|]. rewrite IH. ring. }
      rewrite H. ring. }
    rewrite H.
    assert (H2 : qsum (map (fun k => (fst p i - u i) * (fst p k - u k) * C k j) (seq 0 E)) = (fst p i - u i) * qsum (map (fun k => (fst p k - u k) * C k j) (seq 0 E))).
    { rewrite <- qsum_map_mul. apply qsum_ext. intro k. ring. }
    rewrite H2. ring.
  - f_equal. rewrite (qsum_swap (fun (p : row * row) k => (fst p i - u i) * (fst p k - u k) * C k j)). apply qsum_ext. intro k.
    rewrite map_map. cbn [fst snd]. now rewrite qsum_map_mulr.
Qed.
Lemma qsum_pick (g : nat -> Qc) i E : (i < E)%nat -> qsum (map (fun k => (if (k =? i)%nat then 1 else 0) * g k) (seq 0 E)) = g i.
Proof.
  intro H. assert (G : forall n a, (a <= i < a + n)%nat -> qsum (map (fun k => (if (k =? i)%nat then 1 else 0) * g k) (seq a n)) = g i).
  { induction n as [|n IH]; intros a Ha; [lia|]. cbn. destruct (a =? i)%nat eqn:Ea.
    - apply Nat.eqb_eq in Ea. subst a. transitivity (1 * g i + qsum (map (fun _ : nat => 0) (seq (S i) n))); [|rewrite qsum_zero; ring]. f_equal. f_equal.
      apply map_ext_in. intros k Hk. apply in_seq in Hk. rewrite (proj2 (Nat.eqb_neq k i)) by lia. ring.
    - apply Nat.eqb_neq in Ea. rewrite IH by lia. ring. }
  apply G. lia.
Qed.
(** C369: on data whose expanded sources are white (covariance 1, as the WhiteningNode before this node makes them) the new inputs, with the coefficients of
    C368, are uncorrelated with every expanded source; in general the covariance is (1 - Cov(exp)) C *)
Theorem C369_covariance : forall E (xs ys : list row) i j, length xs = length ys -> (2 <= length xs)%nat ->
  let C := covar xs ys in
  covar xs (map (fun p => residual E C (fst p) (snd p)) (combine xs ys)) i j = C i j - qsum (map (fun k => covar xs xs i k * C k j) (seq 0 E)).
Proof.
  intros E xs ys i j Hl H2 C. unfold covar at 1.
  assert (Hc : combine xs (map (fun p => residual E C (fst p) (snd p)) (combine xs ys)) = map (fun p => (fst p, residual E C (fst p) (snd p))) (combine xs ys)).
  { generalize C. clear - Hl. intro C. revert ys Hl. induction xs as [|x xs IH]; intros [|y ys] Hl; cbn in *; try discriminate; [reflexivity|]. f_equal. apply IH. lia. }
  rewrite Hc, codev_residual.
  assert (Hs : map (fun p : row * row => (fst p, fst p)) (combine xs ys) = combine xs xs).
  { clear - Hl. revert ys Hl. induction xs as [|x xs IH]; intros [|y ys] Hl; cbn in *; try discriminate; [reflexivity|]. f_equal. apply IH. lia. }
  rewrite Hs. unfold Qcdiv, Qcminus. rewrite Qcmult_plus_distr_l. f_equal.
  transitivity (- (qsum (map (fun k => codev (combine xs xs) i k * C k j) (seq 0 E)) * / (qn (length xs) + - (1)))); [ring|]. f_equal.
  rewrite <- qsum_map_mulr. apply qsum_ext. intro k. unfold covar, Qcdiv, Qcminus. ring.
Qed.
Theorem C369_uncorrelated : forall E (xs ys : list row) i j, length xs = length ys -> (2 <= length xs)%nat -> (i < E)%nat ->
  (forall k, (k < E)%nat -> covar xs xs i k = if (k =? i)%nat then 1 else 0) ->
  covar xs (map (fun p => residual E (covar xs ys) (fst p) (snd p)) (combine xs ys)) i j = 0.
Proof.
  intros E xs ys i j Hl H2 Hi Hw. rewrite C369_covariance by auto.
  rewrite (map_ext_in _ (fun k => (if (k =? i)%nat then 1 else 0) * covar xs ys k j)).
  - rewrite (qsum_pick (fun k => covar xs ys k j)) by exact Hi. ring.
  - intros k Hk. apply in_seq in Hk. rewrite Hw by lia. reflexivity.
Qed.
Lemma codev_col (f g : sample -> row) h (l : list sample) i j : (forall s, In s l -> f s j = g s j) ->
  codev (combine (map h l) (map f l)) i j = codev (combine (map h l) (map g l)) i j.
Proof.
  intro H. assert (E : forall f : sample -> row, combine (map h l) (map f l) = map (fun s => (h s, f s)) l) by (intro f'; clear; induction l as [|a l IH]; cbn; congruence).
  rewrite !E. unfold codev. rewrite !map_map. cbn [fst snd].
  assert (Hm : mean (map f l) j = mean (map g l) j).
  { unfold mean. rewrite !map_map, !map_length. do 2 f_equal. apply map_ext_in. exact H. }
  change (map (fun x => f x) l) with (map f l). change (map (fun x => g x) l) with (map g l). rewrite Hm. f_equal. apply map_ext_in. intros s Hs. now rewrite H.
Qed.
(** the same about what execute returns for the training data *)
Theorem C369_trained : forall E S L chunks p (res : sample -> list Qc), let data := concat chunks in
  (1 <= L)%nat -> Forall (Forall (shaped E S L)) chunks -> (2 <= length data)%nat ->
  proj_stop (fold_left proj_train (map (map flat) chunks) (proj_init S L)) = Some p ->
  (forall s, In s data -> proj_exec p (flat s) = Some (res s)) ->
  (forall i k, (i < E)%nat -> (k < E)%nat -> covar (exps data) (exps data) i k = if (k =? i)%nat then 1 else 0) ->
  forall i j, (i < E)%nat -> (j < L)%nat -> covar (exps data) (map (fun s => vec (skipn (S + 1) (res s))) data) i j = 0.
Proof.
  intros E S L chunks p res data H1 H H2 Hp Hr Hw i j Hi Hj. destruct (C368_projection E S L chunks H1 H H2) as (p' & Hp' & Hx). rewrite Hp in Hp'. injection Hp' as <-. fold data in Hx.
  rewrite <- (C369_uncorrelated E (exps data) (inps data) i j); [|unfold exps, inps; now rewrite !map_length|unfold exps; rewrite map_length; exact H2|exact Hi|auto].
  assert (Ec : map (fun p => residual E (covar (exps data) (inps data)) (fst p) (snd p)) (combine (exps data) (inps data))
    = map (fun s => residual E (covar (exps data) (inps data)) (vec (s_exp s)) (vec (s_inp s))) data).
  { generalize (covar (exps data) (inps data)). intro C. unfold exps, inps. clear. induction data as [|a l IH]; cbn; congruence. }
  rewrite Ec. unfold covar at 1 2. f_equal. unfold exps at 1 3. apply codev_col. intros s Hs.
  assert (Hsh : shaped E S L s).
  { unfold data in Hs. apply in_concat in Hs. destruct Hs as (c & Hc & Hs). rewrite Forall_forall in H. specialize (H c Hc). rewrite Forall_forall in H. auto. }
  destruct (Hx s Hsh) as (new & E1 & E2 & E3). rewrite (Hr s Hs) in E1. injection E1 as ->. destruct Hsh as (_ & Hl & _).
  rewrite skipn_app, Hl, Nat.sub_diag, skipn_all2 by lia. unfold vec at 1. cbn [app skipn]. rewrite E3 by exact Hj. reflexivity.
Qed.
(** without inputs besides the sources (L = 0: the expanded signal has as many components as sources are wanted) the slices -0: take everything and no data
    can be processed *)
Definition z (k : Z) : Qc := Q2Qc (inject_Z k).
Theorem C369_nothing_left_refuted : exists p, proj_stop (proj_train (proj_init 0 0) [[z 1; z 2]; [z 2; z 0]; [z 0; z 1]]) = Some p /\ proj_exec p [z 1; z 2] = None.
Proof. eexists. split; reflexivity. Qed.
Theorem C369_nothing_left : forall p r, p_L p = O -> length r <> (p_S p + 1)%nat -> proj_exec p r = None.
Proof.
  intros p r HL Hr. unfold proj_exec, p_out, tail_cols. destruct (p_mtx p); [|reflexivity]. rewrite HL. rewrite (proj2 (Nat.eqb_neq _ _)); [reflexivity|lia].
Qed.
(** one expanded source (variance 1), one source, one input in two chunks: the input 5x + 3w with w uncorrelated to x loses 5x *)
Definition ex_data : list (list sample) := [[mkSm [z 1] [z 7] [z 8]; mkSm [z (-1)] [z 8] [z (-2)]]; [mkSm [z 1] [z 9] [z 2]; mkSm [z (-1)] [z 6] [z (-8)]; mkSm [z 0] [z 5] [z 0]]].
Example C368_ex : match proj_stop (fold_left proj_train (map (map flat) ex_data) (proj_init 0 1)) with
  | Some p => map (fun s => option_map (map this) (proj_exec p (flat s))) (concat ex_data)
  | None => [] end = map (fun l => Some (map this l)) [[z 7; z 3]; [z 8; z 3]; [z 9; z (-3)]; [z 6; z (-3)]; [z 5; z 0]].
Proof. vm_compute. reflexivity. Qed.
Example C369_ex : this (covar (exps (concat ex_data)) (exps (concat ex_data)) O O) = 1%Q /\
  this (covar (exps (concat ex_data)) (inps (concat ex_data)) O O) = 5%Q.
Proof. split; vm_compute; reflexivity. Qed.

(** ** C370: NormalizeNode *)
Section Normalize.
  Variable sqrt : Qc -> Qc.
  Definition variance (xs : list row) (i : nat) : Qc := codev (self_pairs xs) i i / (qn (length xs) - 1).
  (** the training data come out with mean 0 and variance 1, and inverse undoes execute, in every component whose variance is not 0 (and has the square root [sqrt]) *)
  Theorem C370_normalized : forall chunks, let xs := concat chunks in (2 <= length xs)%nat ->
    exists n, nrm_train sqrt chunks = Some n /\
      forall i, variance xs i <> 0 -> sqrt (variance xs i) * sqrt (variance xs i) = variance xs i ->
        exists f : row -> Qc, (forall x, nrm_exec n x i = Some (f x)) /\ (forall x y, nrm_exec n x i = Some (y i) -> nrm_inv n y i = x i) /\
          (forall x y, y i = f x -> nrm_inv n y i = x i) /\
          mean (map (fun x _ => f x) xs) i = 0 /\ variance (map (fun x _ => f x) xs) i = 1.
  Proof.
    intros chunks xs H2. destruct (C37_covariance false true chunks H2) as (m & a & F & Hm & Ha). fold xs in F, Hm, Ha.
    unfold nrm_train. rewrite F. eexists. split; [reflexivity|]. intros i Hv Hs.
    assert (Hd : m i i = variance xs i) by (rewrite Hm; reflexivity).
    destruct (norm_pos false (length xs) H2) as [N1 N2]. unfold norm in N1.
    assert (Hq : sqrt (m i i) <> 0) by (rewrite Hd; intro Z; rewrite Z in Hs; apply Hv; rewrite <- Hs; ring).
    exists (fun x => (x i - a i) / sqrt (m i i)).
    unfold nrm_exec, nrm_inv. cbn [n_s n_m]. destruct (Qc_eq_dec (sqrt (m i i)) 0) as [Z|_]; [congruence|].
    assert (Hmean : mean (map (fun (x : row) (_ : nat) => (x i - a i) / sqrt (m i i)) xs) i = 0).
    { unfold mean. rewrite map_map, map_length. 
      transitivity ((qsum (map (fun x : row => x i) xs) - qn (length xs) * a i) / sqrt (m i i) / qn (length xs)).
      - f_equal. clear. induction xs as [|x xs IH]; cbn [map qsum length qn]; [unfold Qcdiv; ring|]. rewrite IH. unfold Qcdiv. ring.
      - rewrite Ha. unfold mean. field. auto. }
    split; [reflexivity|]. split; [|split; [|split; [exact Hmean|]]].
    - intros x y E. injection E as E. rewrite <- E. field. exact Hq.
    - intros x y E. rewrite E. field. exact Hq.
    - unfold variance at 1. rewrite map_length. unfold codev. rewrite fst_self, snd_self, Hmean. unfold self_pairs. rewrite !map_map. cbn [fst snd].
      transitivity (codev (self_pairs xs) i i / (sqrt (m i i) * sqrt (m i i)) / (qn (length xs) - 1)).
      + f_equal. unfold codev. rewrite fst_self, snd_self. unfold self_pairs. rewrite map_map. cbn [fst snd]. rewrite <- Ha.
        unfold Qcdiv. rewrite <- qsum_map_mulr. apply qsum_ext. intro x. field. exact Hq.
      + rewrite Hd, Hs. unfold variance in *. field. split; [exact N1|]. intro Z. apply Hv. rewrite Z. unfold Qcdiv. ring.
  Qed.
End Normalize.
(** a component that was constant in the training data cannot be normalised: division by zero *)
Theorem C370_constant : forall sqrt chunks n x i, sqrt 0 = 0 -> (2 <= length (concat chunks))%nat -> nrm_train sqrt chunks = Some n ->
  variance (concat chunks) i = 0 -> nrm_exec n x i = None.
Proof.
  intros sqrt chunks n x i H0 H2 H Hv. destruct (C37_covariance false true chunks H2) as (m & a & F & Hm & Ha).
  unfold nrm_train in H. rewrite F in H. injection H as <-. unfold nrm_exec. cbn [n_s].
  assert (Hd : m i i = variance (concat chunks) i) by (rewrite Hm; reflexivity). rewrite Hd, Hv, H0. now destruct (Qc_eq_dec 0 0).
Qed.
Definition r2 (a b : Qc) : row := fun i => match i with O => a | _ => b end.
Definition half (q : Qc) : Qc := if Qc_eq_dec q 0 then 0 else z 2.
Theorem C370_constant_refuted : exists chunks n x i, nrm_train half chunks = Some n /\ (2 <= length (concat chunks))%nat /\ half 0 = 0 /\ nrm_exec n x i = None.
Proof.
  exists [[r2 1 1; r2 (z 3) 1]; [r2 (z 5) 1]]. eexists _, (r2 1 1), 1%nat. split; [reflexivity|]. split; [cbn; lia|]. split; [reflexivity|].
  eapply (C370_constant half [[r2 1 1; r2 (z 3) 1]; [r2 (z 5) 1]]); try reflexivity; cbn; try lia. apply Qc_is_canon. vm_compute. reflexivity.
Qed.
(** values 1, 3, 5: mean 3, variance 4 *)
Example C370_ex : match nrm_train half [[r2 1 1; r2 (z 3) 1]; [r2 (z 5) 1]] with
  | Some n => map (fun q => option_map this (nrm_exec n (r2 q 1) O)) [z 1; z 3; z 5; z 9]
  | None => [] end = map Some [-1; 0; 1; 3]%Q.
Proof. vm_compute. reflexivity. Qed.

(** ** C371: the training phases of a source extractor *)
Local Open Scope nat_scope.
(** five and those of the internal expansion; one for the last of several extractors *)
Theorem C371_phases : forall e k out S, seq_len (extractor (CNode e k) out S) =
  if (1 <? out) && (S =? out - 1) then 1 else (if e then k else 0) + 5.
Proof.
  intros e k out S. unfold extractor. destruct (Nat.eqb_spec S 0) as [->|H0].
  - destruct (Nat.eqb_spec 0 (out - 1)) as [E|E]; [rewrite (proj2 (Nat.ltb_ge 1 out)) by lia|rewrite andb_false_r]; destruct e; cbn; lia.
  - destruct (Nat.eqb_spec S (out - 1)) as [E|E].
    + rewrite (proj2 (Nat.ltb_lt 1 out)) by lia. reflexivity.
    + rewrite andb_false_r. destruct e; cbn; lia.
Qed.
Theorem C371_total : forall e k out, list_sum (phases (fun S => seq_len (extractor (CNode e k) out S)) out) =
  match out with 0 => 0 | 1 => (if e then k else 0) + 5 | S m => m * ((if e then k else 0) + 5) + 1 end.
Proof.
  intros e k out. unfold phases. rewrite (map_ext _ (fun S => if (1 <? out) && (S =? out - 1) then 1 else (if e then k else 0) + 5)) by (intro; apply C371_phases).
  destruct out as [|[|m]]; [reflexivity|cbn; lia|]. rewrite (seq_S (S m) 0), map_app, list_sum_app. cbn [map list_sum fold_right Nat.add].
  replace (S (S m) - 1) with (S m) by lia. rewrite Nat.eqb_refl. cbn [Nat.ltb Nat.leb andb].
  rewrite (map_ext_in _ (fun _ => (if e then k else 0) + 5)).
  - assert (H : forall c n a, list_sum (map (fun _ => c) (seq a n)) = n * c) by (intros c n; induction n as [|n IH]; intro a; cbn; [reflexivity|]; unfold list_sum in IH; now rewrite IH).
    rewrite H. cbn. lia.
  - intros x Hx. apply in_seq in Hx. rewrite (proj2 (Nat.eqb_neq x (S m))) by lia. reflexivity.
Qed.

(** ** C372: the schedule *)
Section Schedule.
  Variables (np : nat -> nat) (out : nat).
  Hypothesis np_pos : forall i, 1 <= np i.
  Hypothesis out_pos : 1 <= out.
  Definition before (m : nat) : nat := list_sum (map np (seq 0 m)).
  Lemma before_S m : before (S m) = before m + np m.
  Proof. unfold before. rewrite seq_S, map_app, list_sum_app. cbn. lia. Qed.
  Lemma before_mono a b : a <= b -> before a <= before b.
  Proof. intro H. induction H as [|b H IH]; [lia|]. rewrite before_S. lia. Qed.
  Lemma before_lt a b : a < b -> before a < before b.
  Proof. intro H. assert (H1 := before_mono (S a) b H). rewrite before_S in H1. specialize (np_pos a). lia. Qed.
  Lemma phases_sum : list_sum (phases np out) = before out.
  Proof. reflexivity. Qed.
  Lemma ends_eq : ends np out = map (fun i => before (i + 1)) (seq 0 (out - 1)).
  Proof.
    unfold ends, phases. rewrite map_length, seq_length. apply map_ext_in. intros i Hi. apply in_seq in Hi. rewrite firstn_map. unfold before.
    assert (G : forall n k a, k <= n -> firstn k (seq a n) = seq a k).
    { induction n as [|n IH]; intros k a Hk; [now replace k with 0 by lia|]. destruct k; [reflexivity|]. cbn. f_equal. apply IH. lia. }
    now rewrite G by lia.
  Qed.
  Lemma in_ends t : existsb (Nat.eqb t) (ends np out) = true <-> exists m, 1 <= m < out /\ t = before m.
  Proof.
    rewrite existsb_exists, ends_eq. split.
    - intros (x & Hx & E). apply Nat.eqb_eq in E. subst x. apply in_map_iff in Hx. destruct Hx as (i & <- & Hi). apply in_seq in Hi. exists (i + 1). split; [lia|reflexivity].
    - intros (m & Hm & ->). exists (before m). split; [|apply Nat.eqb_refl]. apply in_map_iff. exists (m - 1). rewrite in_seq. split; [f_equal; lia|lia].
  Qed.
  (** the modules when module m is in training and has completed c phases *)
  Definition mods_at (m c : nat) : list (nat * nat) := map (fun i => (i, np i)) (seq 0 m) ++ [(m, c)].
  Lemma last_done_app l a c : last_done (l ++ [(a, c)]) = l ++ [(a, S c)].
  Proof. induction l as [|[b k] l IH]; [reflexivity|]. cbn. rewrite IH. destruct l as [|[? ?] l]; reflexivity. Qed.
  Definition state_at (m c : nat) (trn : bool) : xsfa := mkXs (mods_at m c) m (before m + c) trn.
  Lemma round_at m c s : m < out -> c < np m -> (s = state_at m c true \/ (s = xs_init /\ m = 0 /\ c = 0)) ->
    xs_round np out s = Some (if S c <? np m then state_at m (S c) true else if S m <? out then state_at (S m) 0 true else state_at m (S c) false).
  Proof.
    intros Hm Hc Hs. assert (Ht : xs_train s = Some (state_at m c true)).
    { destruct Hs as [->|(-> & -> & ->)]; [|reflexivity]. unfold xs_train, state_at. cbn [xs_training negb xs_mods]. unfold mods_at. destruct (map _ (seq 0 m)); reflexivity. }
    unfold xs_round. rewrite Ht. unfold xs_stop, state_at. cbn [xs_training negb xs_mods xs_phase xs_src].
    assert (Hne : exists p l, mods_at m c = p :: l) by (unfold mods_at; destruct (map _ (seq 0 m)); cbn [app]; eauto). destruct Hne as (p & l & Hp). rewrite Hp. cbv zeta. rewrite <- Hp. clear p l Hp.
    unfold mods_at. rewrite last_done_app. fold (mods_at m (S c)).
    assert (Hne : forall m c, match mods_at m c with [] => 2 | _ => list_sum (phases np out) end = before out) by (intros; unfold mods_at; destruct (map _ (seq 0 _)); reflexivity).
    assert (Hb := before_S m). assert (Hle := before_mono (S m) out Hm).
    assert (Hin : existsb (Nat.eqb (before m + c + 1)) (ends np out) = (S c =? np m) && (S m <? out)).
    { apply eq_true_iff_eq. rewrite in_ends, andb_true_iff, Nat.eqb_eq, Nat.ltb_lt. split.
      - intros (k & Hk & E). assert (k = S m).
        { destruct (lt_eq_lt_dec k (S m)) as [[H|H]|H]; [|exact H|].
          - assert (before k <= before m) by (apply before_mono; lia). lia.
          - assert (before (S m) < before k) by (apply before_lt; exact H). lia. }
        subst k. lia.
      - intros [E H]. exists (S m). lia. }
    rewrite Hin. destruct (Nat.ltb_spec (S c) (np m)) as [H1|H1].
    - rewrite (proj2 (Nat.eqb_neq (S c) (np m))) by lia. cbn [andb]. unfold remaining, n_phases. cbn [xs_mods xs_phase]. rewrite Hne.
      rewrite (proj2 (Nat.eqb_neq _ 0)) by lia. do 2 f_equal. lia.
    - assert (E : S c = np m) by lia. rewrite (proj2 (Nat.eqb_eq _ _) E). cbn [andb]. destruct (Nat.ltb_spec (S m) out) as [H2|H2].
      + rewrite (proj2 (Nat.eqb_neq m (out - 1))) by lia. cbn [negb andb].
        assert (Hx : mods_at m (S c) ++ [(m + 1, 0)] = mods_at (S m) 0) by (unfold mods_at; rewrite E, seq_S, map_app; cbn [map Nat.add]; do 2 f_equal; f_equal; lia).
        rewrite Hx. unfold remaining, n_phases. cbn [xs_mods xs_phase]. rewrite Hne.
        assert (before (S m) < before out) by (apply before_lt; lia). rewrite (proj2 (Nat.eqb_neq _ 0)) by lia. do 2 f_equal; lia.
      + cbn [andb]. unfold remaining, n_phases. cbn [xs_mods xs_phase]. rewrite Hne. assert (S m = out) by lia. subst out.
        rewrite (proj2 (Nat.eqb_eq _ 0)) by lia. do 2 f_equal. lia.
  Qed.
  Lemma run_app a b s : xs_run np out (a + b) s = match xs_run np out a s with Some s => xs_run np out b s | None => None end.
  Proof. revert s. induction a as [|a IH]; intro s; [reflexivity|]. cbn. destruct (xs_round np out s); [apply IH|reflexivity]. Qed.
  (** C372: after t phases (not yet all) there are m+1 modules, the first m went through all their phases, the last one through c < np m; all in order *)
  Theorem C372_during : forall m c, m < out -> c < np m -> 0 < m + c -> xs_run np out (before m + c) xs_init = Some (state_at m c true).
  Proof.
    intros m c. remember (before m + c) as t eqn:Et. revert m c Et. induction t as [|t IH]; intros m c Et Hm Hc Hp.
    - exfalso. destruct m as [|m]; [unfold before in Et; cbn in Et; lia|]. rewrite before_S in Et. specialize (np_pos m). lia.
    - rewrite <- (Nat.add_1_r t), run_app.
      assert (G : exists m' c', m' < out /\ c' < np m' /\ t = before m' + c' /\ ((c' + 1 = c /\ m' = m) \/ (c = 0 /\ m = S m' /\ c' + 1 = np m'))).
      { destruct c as [|c].
        - destruct m as [|m]; [lia|]. exists m, (np m - 1). rewrite before_S in Et. specialize (np_pos m). repeat split; try lia.
        - exists m, c. repeat split; lia. }
      destruct G as (m' & c' & H1 & H2 & H3 & H4).
      assert (Hr : exists s, xs_run np out t xs_init = Some s /\ (s = state_at m' c' true \/ (s = xs_init /\ m' = 0 /\ c' = 0))).
      { destruct (Nat.eq_dec (m' + c') 0) as [Z|Z].
        - assert (m' = 0) by lia. assert (c' = 0) by lia. subst. exists xs_init. split; [reflexivity|auto].
        - exists (state_at m' c' true). split; [apply (IH m' c'); auto; lia|auto]. }
      destruct Hr as (s & Hr & Hs). rewrite Hr. cbn [xs_run]. rewrite (round_at m' c' s H1 H2 Hs).
      destruct H4 as [[<- ->]|(-> & -> & H4)].
      + rewrite (proj2 (Nat.ltb_lt _ _)) by lia. do 2 f_equal. lia.
      + rewrite (proj2 (Nat.ltb_ge _ _)) by lia. rewrite (proj2 (Nat.ltb_lt _ _)) by lia. reflexivity.
  Qed.
  (** after all phases there are output_dim modules, each went through exactly its own phases, the training is over and cannot be continued *)
  Theorem C372_complete : exists s, xs_run np out (before out) xs_init = Some s /\ xs_mods s = map (fun i => (i, np i)) (seq 0 out) /\
    xs_training s = false /\ remaining np out s = 0 /\ xs_src s = out - 1 /\ xs_train s = None /\ xs_stop np out s = None.
  Proof.
    destruct out as [|m] eqn:Eo; [lia|]. rewrite <- Eo in *. assert (Hn := np_pos m).
    assert (Hr : exists s, xs_run np out (before m + (np m - 1)) xs_init = Some s /\ (s = state_at m (np m - 1) true \/ (s = xs_init /\ m = 0 /\ np m - 1 = 0))).
    { destruct (Nat.eq_dec (m + (np m - 1)) 0) as [Z|Z].
      - assert (m = 0) by lia. assert (E : np m - 1 = 0) by lia. rewrite E. subst m. exists xs_init. split; [reflexivity|auto].
      - exists (state_at m (np m - 1) true). split; [apply C372_during; lia|auto]. }
    destruct Hr as (s & Hr & Hs). assert (Hb := before_S m). rewrite <- Eo in Hb. exists (state_at m (np m) false). split.
    - replace (before out) with (before m + (np m - 1) + 1) by lia. rewrite run_app, Hr. cbn [xs_run]. rewrite (round_at m (np m - 1) s ltac:(lia) ltac:(lia) Hs).
      rewrite (proj2 (Nat.ltb_ge _ _)) by lia. rewrite (proj2 (Nat.ltb_ge (S m) out)) by lia. do 2 f_equal. lia.
    - unfold state_at. cbn [xs_mods xs_training xs_src]. split; [unfold mods_at; rewrite Eo, seq_S, map_app; reflexivity|]. split; [reflexivity|]. split; [|split; [lia|split; reflexivity]].
      unfold remaining, n_phases. cbn [xs_mods xs_phase]. unfold mods_at. replace (before m + np m) with (before out) by lia.
      destruct (map _ (seq 0 m)); cbn; rewrite phases_sum; lia.
  Qed.
End Schedule.
(** the number of phases announced before the first chunk is 2, whatever it will be *)
Theorem C372_announced : forall np out, remaining np out xs_init = 2.
Proof. reflexivity. Qed.
Theorem C372_announced_refuted : exists np out s, (forall i, 1 <= np i) /\ 1 <= out /\ remaining np out xs_init = 2 /\ xs_run np out 2 xs_init = Some s /\ xs_training s = true /\ remaining np out s = 9.
Proof.
  exists (fun S => seq_len (extractor (CNode false 1) 3 S)), 3. eexists. split; [|split; [lia|split; [reflexivity|split; [vm_compute; reflexivity|split; reflexivity]]]].
  intro i. rewrite C371_phases. destruct (_ && _); cbn; lia.
Qed.
(** three sources: 5 + 5 + 1 phases *)
Example C372_ex : let np := fun S => seq_len (extractor (CNode false 1) 3 S) in
  option_map xs_mods (xs_run np 3 11 xs_init) = Some [(0, 5); (1, 5); (2, 1)] /\ option_map xs_mods (xs_run np 3 7 xs_init) = Some [(0, 5); (1, 2)] /\
  xs_run np 3 12 xs_init = None.
Proof. repeat split. Qed.
