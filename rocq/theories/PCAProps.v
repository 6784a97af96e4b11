(** Properties of PCANode and WhiteningNode. *)
From Coq Require Import List Arith ZArith Bool Lia Sorting.Sorted Field QArith Qcanon.
From Verif Require Import OField LinAlg PCAModel PCAProofs.
Import ListNotations.
Open Scope nat_scope.

Section Props.
  Context {K : ofield}.
  Add Field Kf3 : (fth K).
  Notation vec := (vec (K := K)). Notation mtx := (mtx (K := K)).
  Variable eigh : option (Z * Z) -> nat -> mtx -> option (list K * list vec).
  Variable svd_ : nat -> mtx -> option (list K * list vec).
  Variable sqrt_ : K -> K.
  Variable dim : nat.
  Variable svd reduce : bool.
  Variables var_abs var_rel : K.
  Variable var_part : option K.
  Variable whiten : bool.
  Notation stop := (pca_stop eigh svd_ sqrt_ dim svd reduce var_abs var_rel var_part whiten).
  Hypothesis eigh_ok : forall rng c D V, symmetric dim c -> psd dim c -> eigh rng dim c = Some (D, V) -> eigensystem dim c D V.
  Hypothesis svd_ok : forall c D V, symmetric dim c -> psd dim c -> svd_ dim c = Some (D, V) -> eigensystem dim c D V.
  Hypothesis sqrt_ok : forall a, (0 < a)%of -> (sqrt_ a * sqrt_ a = a)%of.
  Hypothesis var_abs_ok : reduce = true -> (0 <= var_abs)%of.

  (** a new node, trained with the chunks, stop_training returned *)
  Definition trained (o : odim) (chunks : list (list vec)) (s : pca) : Prop := exists s0, pca_trains (pca_new o) chunks = (s0, POk tt) /\ stop s0 = (s, POk tt).
  Notation out k s x := (nth k (pca_execute dim s None x) (f0 : K)).

  Lemma trained_ok o chunks s : trained o chunks s -> 2 <= length (concat chunks) ->
    exists C D V md mv raw, (forall i j, C i j = dcov (concat chunks) i j) /\ psd dim C /\
      eigensystem dim C D V /\ md <= dim /\ mv <= dim /\ p_d s = firstn md (rev D) /\ raw = firstn mv (rev V) /\
      (forall i, p_avg s i = dmean (concat chunks) i) /\ p_vartot s = fsumn dim (fun i => C i i) /\
      (if whiten then whiten_v sqrt_ (p_d s) raw = POk (p_v s) else p_v s = raw) /\
      (frac o = false -> md = mv) /\ (frac o = false -> reduce = false -> md = asked dim svd o) /\
      p_expl s = (if fltb f0 (p_vartot s) || fltb (p_vartot s) f0 then Some (fsum (p_d s) / p_vartot s)%of else None) /\
      (reduce = true -> md = mv /\ p_out s = Some md /\ exists k m, md <= k /\ (frac o = false -> k = asked dim svd o) /\
         In m (firstn k (rev D)) /\ (var_abs < m)%of /\ (forall a, In a (firstn k (rev D)) -> (a <= m)%of) /\ p_d s = filter (big var_abs var_rel var_part m (p_vartot s)) (firstn k (rev D))) /\
      (reduce = false -> frac o = false -> p_out s = Some (match o with OInt k => k | _ => dim end)) /\
      (reduce = false -> forall q, o = OFrac q -> let pos := filter (fun a => fltb f0 a) (rev D) in
         let n := searchsorted (cumsum f0 (map (fun a => a / p_vartot s)%of pos)) q + 1 in p_out s = Some n /\ md = Nat.min n (length pos) /\ mv = Nat.min n dim).
  Proof.
    intros [s0 [T S]] N. destruct (trains_ok chunks (pca_new o) acc_new eq_refl eq_refl) as [s1 [T1 [A [Ou [De [Tr St]]]]]]. rewrite T in T1. injection T1 as <-.
    set (C := fst (acc_fix true (accs chunks))).
    assert (HC : forall i j, C i j = dcov (concat chunks) i j) by (intros; now apply fix_cov).
    assert (Sy : symmetric dim C) by (exact (cov_symmetric dim C _ HC)). assert (Ps : psd dim C) by (exact (cov_psd dim C _ HC N)).
    destruct (stop_ok eigh svd_ sqrt_ dim svd reduce var_abs var_rel var_part whiten eigh_ok svd_ok var_abs_ok s0 (accs chunks) s A Sy Ps S) as
      [D [V [md [mv [raw [ES [L1 [L2 [Hd [Hr [Av [Vt [Tl [Tg [Wh [E1 [E2 [E3 [E4 [E5 E6]]]]]]]]]]]]]]]]]]]].
    exists C, D, V, md, mv, raw. rewrite Ou, De in *.
    split; [exact HC|]. split; [exact Ps|]. split; [exact ES|]. split; [exact L1|]. split; [exact L2|]. split; [exact Hd|]. split; [exact Hr|].
    split; [intros i; rewrite Av; apply fix_mean|]. split; [exact Vt|]. split; [exact Wh|].
    assert (Fr : frac o = false -> p_desired (pca_new o) = None) by (destruct o; [reflexivity|reflexivity|discriminate]).
    assert (As : match p_out (pca_new o) with Some k => kept svd dim k | None => dim end = asked dim svd o) by (destruct o; reflexivity). rewrite As in *.
    split; [auto|]. split; [auto|]. split; [exact E3|]. split; [intros Er; destruct (E4 Er) as [X1 [X2 [k [m [X3 [X4 X5]]]]]]; split; [exact X1|]; split; [exact X2|]; exists k, m; auto|].
    split; [intros Er Hf; rewrite E5 by auto; destruct o; auto; discriminate|].
    intros Er q ->. now apply (E6 Er).
  Qed.

  (** pointwise form for the vectors kept: component k is the k-th largest eigenvector *)
  Lemma nth_rev_firstn {A} (l : list A) m k d : k < m -> m <= length l -> nth k (firstn m (rev l)) d = nth (length l - 1 - k) l d.
  Proof. clear. intros H H1. rewrite nth_firstn_lt by exact H. rewrite rev_nth by lia. f_equal. lia. Qed.
  Lemma out_dot s k x : k < length (p_v s) -> out k s x = dot dim (sub x (p_avg s)) (nth k (p_v s) vzero).
  Proof.
    clear. intros H. unfold pca_execute. rewrite (nth_indep _ _ (dot dim (sub x (p_avg s)) vzero)) by now rewrite map_length.
    now rewrite (map_nth (fun v => dot dim (sub x (p_avg s)) v)).
  Qed.
  Lemma sub_ext (x a b : vec) w : (forall i, a i = b i) -> dot dim (sub x a) w = dot dim (sub x b) w.
  Proof. clear. intros H. apply dot_ext; [|reflexivity]. intros. unfold sub. now rewrite H. Qed.

  (** C206: on the training data, the outputs have mean zero, are uncorrelated, and the variance of output k is d[k] *)
  Theorem C206_decorrelated : forall o chunks s, whiten = false -> trained o chunks s -> 2 <= length (concat chunks) -> length (p_d s) = length (p_v s) ->
    forall k l, k < length (p_v s) -> l < length (p_v s) ->
    fsum (map (fun x => out k s x) (concat chunks)) = f0 /\
    (fsum (map (fun x => out k s x * out l s x) (concat chunks)) / (fn (length (concat chunks)) - 1) = if k =? l then nth k (p_d s) 0 else 0)%of.
  Proof.
    intros o chunks s Wf T N Len k l Hk Hl. destruct (trained_ok o chunks s T N) as [C [D [V [md [mv [raw [HC [Ps [ES [L1 [L2 [Hd [Hr [Av [_ [Wh _]]]]]]]]]]]]]]]].
    rewrite Wf in Wh. subst raw. pose proof ES as [LD [LV _]].
    assert (Mv : length (p_v s) = mv) by (rewrite Wh, firstn_length, rev_length; lia). assert (Md : length (p_d s) = md) by (rewrite Hd, firstn_length, rev_length; lia).
    assert (X : forall k x, k < mv -> out k s x = dot dim (sub x (dmean (concat chunks))) (nth (dim - 1 - k) V vzero)).
    { intros k' x Hk'. rewrite out_dot by lia. rewrite (sub_ext x _ (dmean (concat chunks))) by exact Av. f_equal. rewrite Wh, nth_rev_firstn by lia. f_equal. lia. }
    split.
    - rewrite (fsum_map_ext _ _ (fun x => dot dim (sub x (dmean (concat chunks))) (nth (dim - 1 - k) V vzero))) by (intros; apply X; lia).
      apply proj_mean. intros E. rewrite E in N. cbn in N. lia.
    - rewrite (fsum_map_ext _ _ (fun x => dot dim (sub x (dmean (concat chunks))) (nth (dim - 1 - k) V vzero) * dot dim (sub x (dmean (concat chunks))) (nth (dim - 1 - l) V vzero))%of)
        by (intros; rewrite !X by lia; reflexivity).
      rewrite <- (quad_cov dim C (concat chunks)) by exact HC. rewrite (eig_quad dim C D V ES) by lia.
      rewrite Hd, nth_rev_firstn by lia. rewrite LD. unfold delta. destruct (Nat.eqb_spec k l) as [->|Ne].
      + rewrite Nat.eqb_refl. ring.
      + destruct (Nat.eqb_spec (dim - 1 - k) (dim - 1 - l)); [lia|]. ring.
  Qed.
  (** the variances are nonnegative and in descending order, and avg is the mean of the training data *)
  Theorem C206_order : forall o chunks s, trained o chunks s -> 2 <= length (concat chunks) ->
    (forall i, p_avg s i = dmean (concat chunks) i) /\ (forall k l, k <= l -> l < length (p_d s) -> (nth l (p_d s) 0 <= nth k (p_d s) 0)%of /\ (0 <= nth l (p_d s) 0)%of).
  Proof.
    intros o chunks s T N. destruct (trained_ok o chunks s T N) as [C [D [V [md [mv [raw [HC [Ps [ES [L1 [L2 [Hd [Hr [Av _]]]]]]]]]]]]]]. split; [exact Av|].
    pose proof ES as [LD [LV [_ [_ [_ Srt]]]]]. assert (Md : length (p_d s) = md) by (rewrite Hd, firstn_length, rev_length; lia).
    intros k l Hkl Hl. rewrite Hd, !nth_rev_firstn by lia. split; [apply sorted_nth; [exact Srt|lia|lia]|]. apply (eig_nonneg dim C D V ES Ps). lia.
  Qed.

  (** C207: no other orthonormal directions, as many as there are outputs, catch more of the variance of the training data *)
  Theorem C207_maximal : forall o chunks s W, whiten = false -> trained o chunks s -> 2 <= length (concat chunks) -> orthonormal dim W -> length W = length (p_v s) ->
    (fsumn (length W) (fun k => fsum (map (fun x => dot dim (sub x (dmean (concat chunks))) (nth k W vzero) * dot dim (sub x (dmean (concat chunks))) (nth k W vzero)) (concat chunks)))
     <= fsumn (length (p_v s)) (fun k => fsum (map (fun x => out k s x * out k s x) (concat chunks))))%of.
  Proof.
    intros o chunks s W Wf T N OW LW. destruct (trained_ok o chunks s T N) as [C [D [V [md [mv [raw [HC [Ps [ES [L1 [L2 [Hd [Hr [Av [_ [Wh _]]]]]]]]]]]]]]]].
    rewrite Wf in Wh. subst raw. pose proof ES as [LD [LV _]]. assert (Mv : length (p_v s) = mv) by (rewrite Wh, firstn_length, rev_length; lia).
    assert (X : forall k x, k < mv -> out k s x = dot dim (sub x (dmean (concat chunks))) (nth (dim - 1 - k) V vzero)).
    { intros k' x Hk'. rewrite out_dot by lia. rewrite (sub_ext x _ (dmean (concat chunks))) by exact Av. f_equal. rewrite Wh, nth_rev_firstn by lia. f_equal. lia. }
    set (xs := concat chunks) in *. set (m := dmean xs) in *. assert (Np : (0 < fn (length xs) - (1 : K))%of) by (now apply fn_pred).
    assert (Nn : (fn (length xs) - (1 : K) <> 0)%of) by (intros E; rewrite E in Np; now apply (flt_ne _ _ Np)).
    assert (Q : forall w, (fsum (map (fun x => dot dim (sub x m) w * dot dim (sub x m) w) xs) = quad dim C w w * (fn (length xs) - 1))%of).
    { intros w. rewrite (quad_cov dim C xs w w HC). fold m. field. exact Nn. }
    rewrite (fsumn_ext (length W) _ (fun k => quad dim C (nth k W vzero) (nth k W vzero) * (fn (length xs) - 1))%of) by (intros; apply Q).
    rewrite (fsumn_ext (length (p_v s)) _ (fun k => nth (dim - 1 - k) D 0 * (fn (length xs) - 1))%of).
    - rewrite !fsumn_mulr. apply fle_mul; [now apply flt_le|]. rewrite <- LW. now apply (ky_fan dim C D V W).
    - intros k Hk. rewrite (fsum_map_ext _ _ (fun x => dot dim (sub x m) (nth (dim - 1 - k) V vzero) * dot dim (sub x m) (nth (dim - 1 - k) V vzero))%of) by (intros; rewrite !X by lia; reflexivity).
      rewrite Q, (eig_quad dim C D V ES) by lia. unfold delta. rewrite Nat.eqb_refl. ring.
  Qed.

  (** ** inverse *)
  Lemma nth_map_ {A B} (f : A -> B) (l : list A) k d d' : k < length l -> nth k (map f l) d' = f (nth k l d).
  Proof. clear. revert k. induction l; intros [|k] H; cbn in *; try lia; auto. apply IHl. lia. Qed.
  Lemma nth_combine {A B} (l : list A) (r : list B) k a b : k < length l -> k < length r -> nth k (combine l r) (a, b) = (nth k l a, nth k r b).
  Proof. clear. revert r k. induction l; intros [|y r] [|k] H H1; cbn in *; try lia; auto. apply IHl; lia. Qed.
  Lemma comps o chunks s : trained o chunks s -> 2 <= length (concat chunks) -> length (p_d s) = length (p_v s) -> (whiten = true -> forall a, In a (p_d s) -> (0 < a)%of) ->
    exists C D V e R, (forall i j, C i j = dcov (concat chunks) i j) /\ eigensystem dim C D V /\ (forall i, p_avg s i = dmean (concat chunks) i) /\
      length (p_v s) <= dim /\ recmatrix whiten s = POk R /\ length R = length (p_v s) /\
      forall k, k < length (p_v s) -> nth k (p_d s) f0 = nth (dim - 1 - k) D f0 /\ (e k <> 0)%of /\ (if whiten then e k * e k = nth k (p_d s) 0 else e k = 1)%of /\
        (forall i, nth k (p_v s) vzero i = nth (dim - 1 - k) V vzero i / e k)%of /\ (forall i, nth k R vzero i = nth (dim - 1 - k) V vzero i * e k)%of.
  Proof.
    intros T N Len Pos. destruct (trained_ok o chunks s T N) as (C & D & V & md & mv & raw & HC & Ps & ES & L1 & L2 & Hd & Hr & Av & _ & Wh & E1 & _ & _ & E4 & _ & E6).
    pose proof ES as [LD [LV _]]. assert (Md : length (p_d s) = md) by (rewrite Hd, firstn_length, rev_length; lia). assert (Mr : length raw = mv) by (rewrite Hr, firstn_length, rev_length; lia).
    assert (Le : md <= mv).
    { destruct (bool_dec reduce true) as [Er|Er]; [destruct (E4 Er); lia|]. apply not_true_is_false in Er. destruct o as [| |q]; [rewrite E1; reflexivity|rewrite E1; reflexivity|].
      destruct (E6 Er q eq_refl) as [_ [-> ->]]. assert (X : length (filter (fun a => fltb f0 a) (rev D)) <= dim) by (etransitivity; [apply filter_length_le|]; rewrite rev_length; lia). lia. }
    assert (Hdk : forall k, k < md -> nth k (p_d s) f0 = nth (dim - 1 - k) D f0) by (intros k Hk; rewrite Hd, nth_rev_firstn by lia; f_equal; lia).
    assert (Hvk : forall k, k < mv -> nth k raw vzero = nth (dim - 1 - k) V vzero) by (intros k Hk; rewrite Hr, nth_rev_firstn by lia; f_equal; lia).
    unfold recmatrix. destruct whiten.
    - assert (Wv : (md = mv /\ p_v s = map (fun p : vec * K => scale (fst p) (sqrt_ (snd p))) (combine raw (p_d s))) \/ p_v s = []).
      { unfold whiten_v in Wh. rewrite Md, Mr in Wh. destruct (Nat.eqb_spec md mv); [left; split; [assumption|]; now injection Wh as <-|].
        destruct (p_d s) as [|c [|c' d']].
        - cbn in Len. right. destruct (p_v s); [reflexivity|discriminate].
        - injection Wh as Wh. rewrite <- Wh, map_length in Len. cbn in Len, Md. lia.
        - destruct raw as [|v0 [|v1 r]]; [discriminate|cbn in Mr, Md; lia|discriminate]. }
      destruct Wv as [[Em Wv]|Wv].
      + assert (Lv : length (p_v s) = md) by lia.
        exists C, D, V, (fun k => sqrt_ (nth k (p_d s) f0)), (map (fun (p : vec * K) (i : nat) => (fst p i * snd p)%of) (combine (p_v s) (p_d s))).
        split; [exact HC|]. split; [exact ES|]. split; [exact Av|]. split; [lia|]. split; [now rewrite Len, Nat.eqb_refl|]. split; [rewrite map_length, combine_length; lia|].
        intros k Hk. assert (Sq : (sqrt_ (nth k (p_d s) 0) * sqrt_ (nth k (p_d s) 0) = nth k (p_d s) 0)%of) by (apply sqrt_ok, Pos; [reflexivity|apply nth_In; lia]).
        assert (Nz : (sqrt_ (nth k (p_d s) 0) <> 0)%of).
        { intros E. rewrite E in Sq. assert (P : (0 < nth k (p_d s) 0)%of) by (apply Pos; [reflexivity|apply nth_In; lia]). rewrite <- Sq in P. apply (flt_ne _ _ P). ring. }
        assert (Vk : forall i, (nth k (p_v s) vzero i = nth (dim - 1 - k) V vzero i / sqrt_ (nth k (p_d s) 0))%of).
        { intros i. rewrite Wv, (nth_map_ _ _ k (vzero, f0)) by (rewrite combine_length; lia).
          rewrite nth_combine by lia. cbn [fst snd]. unfold scale. now rewrite Hvk by lia. }
        split; [now apply Hdk; lia|]. split; [exact Nz|]. split; [exact Sq|]. split; [exact Vk|].
        intros i. rewrite (nth_map_ _ _ k (vzero, f0)) by (rewrite combine_length; lia).
        rewrite nth_combine by lia. cbn [fst snd]. rewrite Vk. rewrite <- Sq at 2. field. exact Nz.
      + rewrite Wv in *. cbn [length] in *. exists C, D, V, (fun _ => f1), []. rewrite Len. destruct (p_d s); [|discriminate]. cbn [Nat.eqb combine map length].
        split; [exact HC|]. split; [exact ES|]. split; [exact Av|]. split; [lia|]. split; [reflexivity|]. split; [reflexivity|]. intros k Hk. lia.
    - subst raw. assert (Lv : length (p_v s) = mv) by (rewrite Wh, firstn_length, rev_length; lia). exists C, D, V, (fun _ => f1), (p_v s).
      split; [exact HC|]. split; [exact ES|]. split; [exact Av|]. split; [lia|]. split; [reflexivity|]. split; [reflexivity|]. intros k Hk.
      split; [apply Hdk; lia|]. split; [apply f10|]. split; [reflexivity|]. rewrite Wh, Hvk by lia. split; intros i; [field; apply f10|ring].
  Qed.

  (** the orthonormal vectors behind the first n components *)
  Definition basis_of (V : list vec) (n : nat) : list vec := map (fun k => nth (dim - 1 - k) V vzero) (seq 0 n).
  Lemma basis_nth V n k : k < n -> nth k (basis_of V n) vzero = nth (dim - 1 - k) V vzero.
  Proof.
    clear. intros H. unfold basis_of. rewrite (nth_map_ _ _ k 0) by now rewrite seq_length.
    rewrite seq_nth by exact H. reflexivity.
  Qed.
  Lemma basis_on C D V n : eigensystem dim C D V -> n <= dim -> orthonormal dim (basis_of V n).
  Proof.
    clear. intros [_ [LV [ON _]]] L i j. unfold basis_of at 1 2. rewrite !map_length, !seq_length. intros Hi Hj. rewrite !basis_nth by assumption. rewrite ON by lia.
    unfold delta. destruct (Nat.eqb_spec i j) as [->|]; [now rewrite Nat.eqb_refl|]. destruct (Nat.eqb_spec (dim - 1 - i) (dim - 1 - j)); [lia|reflexivity].
  Qed.
  Lemma basis_len V n : length (basis_of V n) = n. Proof. clear. unfold basis_of. now rewrite map_length, seq_length. Qed.
  Lemma exec_len (s : pca (K := K)) n x : length (pca_execute dim s n x) = length (match n with None => p_v s | Some n => firstn n (p_v s) end).
  Proof. clear. unfold pca_execute. apply map_length. Qed.
  Lemma exec_nth (s : pca (K := K)) n x k : n <= length (p_v s) -> k < n -> nth k (pca_execute dim s (Some n) x) f0 = dot dim (sub x (p_avg s)) (nth k (p_v s) vzero).
  Proof.
    clear. intros L H. unfold pca_execute. rewrite (nth_indep _ _ (dot dim (sub x (p_avg s)) vzero)) by (rewrite map_length, firstn_length; lia).
    rewrite (map_nth (fun v => dot dim (sub x (p_avg s)) v)). now rewrite nth_firstn_lt.
  Qed.
  Lemma exec_all (s : pca (K := K)) x : pca_execute dim s None x = pca_execute dim s (Some (length (p_v s))) x.
  Proof. clear. unfold pca_execute. now rewrite firstn_all. Qed.
  Lemma combine_firstn_sum (y : list K) (R : list vec) n i : length y = n -> n <= length R ->
    fsum (map (fun p : K * vec => (fst p * snd p i)%of) (combine y (firstn n R))) = fsumn n (fun k => nth k y f0 * nth k R vzero i)%of.
  Proof.
    clear. intros L H. rewrite (fsum_map_nth _ _ (f0, vzero)). rewrite combine_length, firstn_length, L. replace (Nat.min n (Nat.min n (length R))) with n by lia.
    apply fsumn_ext. intros k Hk. rewrite nth_combine by (try rewrite firstn_length; lia). cbn [fst snd]. now rewrite nth_firstn_lt.
  Qed.
  Definition dist2 (a b : vec) : K := dot dim (fun i => (a i - b i)%of) (fun i => (a i - b i)%of).
  Lemma inverse_value o chunks s n x : trained o chunks s -> 2 <= length (concat chunks) -> length (p_d s) = length (p_v s) -> (whiten = true -> forall a, In a (p_d s) -> (0 < a)%of) ->
    0 < n -> n <= length (p_v s) -> (exists o, p_out s = Some o /\ n <= o) ->
    exists C D V z, (forall i j, C i j = dcov (concat chunks) i j) /\ eigensystem dim C D V /\ (forall i, p_avg s i = dmean (concat chunks) i) /\ length (p_v s) <= dim /\
      pca_inverse dim whiten s (pca_execute dim s (Some n) x) None = POk z /\
      (forall i, z i = comb (basis_of V n) (fun k => dot dim (sub x (p_avg s)) (nth k (basis_of V n) vzero)) i + p_avg s i)%of /\
      (forall k, k < length (p_v s) -> exists e, (e <> 0)%of /\ (whiten = false -> e = f1) /\ forall i, (nth k (p_v s) vzero i = nth k (basis_of V (length (p_v s))) vzero i * e)%of).
  Proof.
    intros T N Len Pos N0 Nn [ou [Ho Hn]]. destruct (comps o chunks s T N Len Pos) as [C [D [V [e [R [HC [ES [Av [Ld [HR [LR Hk]]]]]]]]]]].
    unfold pca_inverse. rewrite Ho, exec_len, firstn_length, Nat.min_l by exact Nn. destruct (Nat.eqb_spec n 0); [lia|]. destruct (Nat.ltb_spec ou n); [lia|]. cbn [orb]. rewrite HR.
    rewrite firstn_length, LR, Nat.min_l, Nat.eqb_refl by exact Nn.
    eexists C, D, V, _. split; [exact HC|]. split; [exact ES|]. split; [exact Av|]. split; [exact Ld|]. split; [reflexivity|]. split.
    - intros i. cbv beta. f_equal. rewrite combine_firstn_sum by (try rewrite exec_len, firstn_length; lia). unfold comb. rewrite basis_len. apply fsumn_ext. intros k Hkn.
      rewrite exec_nth, basis_nth by lia. destruct (Hk k) as [_ [Ne [_ [Vk Rk]]]]; [lia|]. rewrite Rk.
      rewrite (dot_ext dim _ (sub x (p_avg s)) _ (fun i => finv (e k) * nth (dim - 1 - k) V vzero i)%of) by (try reflexivity; intros; rewrite Vk; field; exact Ne).
      rewrite dot_scale. field. exact Ne.
    - intros k Hkn. destruct (Hk k Hkn) as [_ [Ne [E1 [Vk _]]]]. exists (finv (e k)). split; [|split].
      + intros E. apply (f10 (K := K)). replace (1 : K)%of with (finv (e k) * e k)%of by (field; exact Ne). rewrite E. ring.
      + intros Wf. rewrite Wf in E1. rewrite E1. replace (finv 1)%of with (finv 1 * 1 : K)%of by ring. apply (Finv_l (fth K)). apply f10.
      + intros i. rewrite basis_nth, Vk by exact Hkn. field. exact Ne.
  Qed.
  (** C208: mapping to the first n components and back yields the point nearest to x among all points mean + combination of these components *)
  Theorem C208_best : forall o chunks s n x, trained o chunks s -> 2 <= length (concat chunks) -> length (p_d s) = length (p_v s) ->
    (whiten = true -> forall a, In a (p_d s) -> (0 < a)%of) -> 0 < n -> n <= length (p_v s) -> (exists o, p_out s = Some o /\ n <= o) ->
    exists z, pca_inverse dim whiten s (pca_execute dim s (Some n) x) None = POk z /\
      forall c, (dist2 x z <= dist2 x (fun i => dmean (concat chunks) i + comb (firstn n (p_v s)) c i))%of.
  Proof.
    intros o chunks s n x T N Len Pos N0 Nn Ho. destruct (inverse_value o chunks s n x T N Len Pos N0 Nn Ho) as [C [D [V [z [HC [ES [Av [Ld [Hz [Zi Vk]]]]]]]]]].
    exists z. split; [exact Hz|]. intros c. set (W := basis_of V n). set (a := sub x (p_avg s)).
    assert (OW : orthonormal dim W) by (apply (basis_on C D V n ES); lia).
    assert (Ex : exists c', forall i, comb (firstn n (p_v s)) c i = comb W c' i).
    { assert (G : exists es : nat -> K, forall k, k < n -> forall i, (nth k (p_v s) vzero i = nth k W vzero i * es k)%of).
      { clear - Vk Nn Ld. assert (forall m, m <= n -> exists es : nat -> K, forall k, k < m -> forall i, (nth k (p_v s) vzero i = nth k (basis_of V n) vzero i * es k)%of).
        { induction m as [|m IH]; intros Hm; [exists (fun _ => f0); intros; lia|]. destruct IH as [es IH]; [lia|]. destruct (Vk m) as [e [_ [_ He]]]; [lia|].
          exists (fun k => if k =? m then e else es k). intros k Hk i. destruct (Nat.eqb_spec k m) as [->|]; [|apply IH; lia]. rewrite He, !basis_nth by lia. reflexivity. }
        destruct (H n) as [es He]; [lia|]. exists es. exact He. }
      destruct G as [es G]. exists (fun k => c k * es k)%of. intros i. unfold comb. rewrite firstn_length, Nat.min_l by exact Nn. unfold W. rewrite basis_len. apply fsumn_ext. intros k Hk.
      rewrite nth_firstn_lt, G by exact Hk. fold W. ring. }
    destruct Ex as [c' Ec].
    assert (L : dist2 x z = dot dim (fun i => a i - comb W (fun k => dot dim a (nth k W vzero)) i)%of (fun i => a i - comb W (fun k => dot dim a (nth k W vzero)) i)%of).
    { apply dot_ext; intros i _; rewrite Zi; unfold a, sub; fold W; ring. }
    assert (R : dist2 x (fun i => dmean (concat chunks) i + comb (firstn n (p_v s)) c i)%of = dot dim (fun i => a i - comb W c' i)%of (fun i => a i - comb W c' i)%of).
    { apply dot_ext; intros i _; rewrite Ec; unfold a, sub; rewrite Av; ring. }
    rewrite L, R, !dist_comb by exact OW. apply fle_sub.
    rewrite (fsumn_zero _ (fun k => (dot dim a (nth k W vzero) - dot dim a (nth k W vzero)) * _)%of) by (intros; ring).
    match goal with |- (0 <= ?u - ?t + ?w - (?u - ?t + 0))%of => replace (u - t + w - (u - t + 0))%of with w by ring end. apply fsumn_nonneg. intros. apply fsq.
  Qed.
  (** with all components inverse(execute(x)) is x *)
  Theorem C208_all : forall o chunks s x, trained o chunks s -> 2 <= length (concat chunks) -> length (p_d s) = dim -> length (p_v s) = dim ->
    (whiten = true -> forall a, In a (p_d s) -> (0 < a)%of) -> 0 < dim -> (exists o, p_out s = Some o /\ dim <= o) ->
    exists z, pca_inverse dim whiten s (pca_execute dim s None x) None = POk z /\ forall i, i < dim -> z i = x i.
  Proof.
    intros o chunks s x T N Ld Lv Pos D0 Ho. rewrite exec_all, Lv. destruct (inverse_value o chunks s dim x T N) as [C [D [V [z [HC [ES [Av [Le [Hz [Zi _]]]]]]]]]]; try assumption; try lia.
    exists z. split; [exact Hz|]. intros i Hi. rewrite Zi. set (a := sub x (p_avg s)).
    replace (comb (basis_of V dim) (fun k => dot dim a (nth k (basis_of V dim) vzero)) i) with (a i); [unfold a, sub; ring|].
    rewrite <- (expand dim C D V ES a i Hi). unfold comb. rewrite basis_len. assert (LV : length V = dim) by apply ES. rewrite LV.
    rewrite (fsumn_ext dim (fun k => dot dim a (nth k (basis_of V dim) vzero) * _)%of (fun k => (fun j => dot dim a (nth j V vzero) * nth j V vzero i)%of (dim - 1 - k))) by (intros k Hk; now rewrite basis_nth).
    set (f := fun j => (dot dim a (nth j V vzero) * nth j V vzero i)%of). clear. unfold fsumn. rewrite <- (fsum_rev (map f (seq 0 dim))), <- map_rev. f_equal.
    transitivity (map f (map (fun i => (dim - 1 - i)%nat) (seq 0 dim))); [|now rewrite map_map]. f_equal. apply nth_ext with O O; [now rewrite map_length, rev_length|].
    rewrite rev_length, seq_length. intros k Hk. rewrite rev_nth by now rewrite seq_length. rewrite seq_length, seq_nth by lia.
    rewrite (nth_indep (map _ _) O ((fun i => dim - 1 - i)%nat O)) by now rewrite map_length, seq_length. rewrite map_nth, seq_nth by lia. lia.
  Qed.
  (** execute(inverse(y)) is y *)
  Theorem C208_execute_inverse : forall o chunks s y z, trained o chunks s -> 2 <= length (concat chunks) -> length (p_d s) = length (p_v s) ->
    (whiten = true -> forall a, In a (p_d s) -> (0 < a)%of) -> length y <= length (p_v s) -> pca_inverse dim whiten s y None = POk z -> pca_execute dim s (Some (length y)) z = y.
  Proof.
    intros o chunks s y z T N Len Pos Ly Hz. destruct (comps o chunks s T N Len Pos) as [C [D [V [e [R [HC [ES [Av [Ld [HR [LR Hk]]]]]]]]]]].
    unfold pca_inverse in Hz. destruct ((length y =? 0) || _); [discriminate|]. destruct (_ <? _); [discriminate|]. rewrite HR in Hz.
    rewrite firstn_length, LR, Nat.min_l, Nat.eqb_refl in Hz by exact Ly. injection Hz as <-.
    apply nth_ext with f0 f0; [rewrite exec_len, firstn_length; lia|]. rewrite exec_len, firstn_length. intros k Hkn. assert (Hkn' : k < length y) by lia. rewrite exec_nth by lia.
    destruct (Hk k) as [_ [Ne [_ [Vk _]]]]; [lia|].
    transitivity (dot dim (nth k (p_v s) vzero) (fun i => fsumn (length y) (fun j => (nth j y 0 * e j) * nth (dim - 1 - j) V vzero i))%of).
    - rewrite dot_sym. apply dot_ext; [reflexivity|]. intros i Hi. unfold sub. rewrite combine_firstn_sum by lia.
      rewrite (fsumn_ext _ _ (fun j => (nth j y 0 * e j) * nth (dim - 1 - j) V vzero i)%of); [ring|]. intros j Hj. destruct (Hk j) as [_ [_ [_ [_ Rj]]]]; [lia|]. rewrite Rj. ring.
    - rewrite (dot_fsumn dim (length y) _ (fun j i => (nth j y 0 * e j) * nth (dim - 1 - j) V vzero i)%of).
      rewrite (fsumn_ext _ _ (fun j => (nth j y 0 * e j * finv (e k)) * delta k j)%of).
      + rewrite (fsumn_delta (length y) (fun j => nth j y 0 * e j * finv (e k))%of) by exact Hkn'. field. exact Ne.
      + intros j Hj. rewrite dot_scale. rewrite (dot_ext dim _ (fun i => finv (e k) * nth (dim - 1 - k) V vzero i)%of _ (nth (dim - 1 - j) V vzero)) by (try reflexivity; intros; rewrite Vk; field; exact Ne).
        rewrite dot_scale_l. assert (ON : orthonormal dim V) by apply ES. assert (LV : length V = dim) by apply ES. rewrite ON by lia.
        unfold delta. destruct (Nat.eqb_spec k j) as [->|]; [rewrite Nat.eqb_refl; ring|]. destruct (Nat.eqb_spec (dim - 1 - k) (dim - 1 - j)); [lia|ring].
  Qed.

  (** C207, reconstruction: the squared error of inverse(execute(x)) summed over the training data is at most that of any approximation of the data by points
      mean + combination of as many orthonormal directions, whatever the directions and the coefficients *)
  Theorem C207_reconstruction : forall o chunks s W (c : vec -> nat -> K) (z : vec -> vec), whiten = false -> trained o chunks s -> 2 <= length (concat chunks) ->
    length (p_d s) = length (p_v s) -> 0 < length (p_v s) -> (exists o, p_out s = Some o /\ length (p_v s) <= o) -> orthonormal dim W -> length W = length (p_v s) ->
    (forall x, pca_inverse dim whiten s (pca_execute dim s None x) None = POk (z x)) ->
    (fsum (map (fun x => dist2 x (z x)) (concat chunks)) <= fsum (map (fun x => dist2 x (fun i => dmean (concat chunks) i + comb W (c x) i)) (concat chunks)))%of.
  Proof.
    intros o chunks s W c z Wf T N Len L0 Ho OW LW Hz.
    pose proof (C207_maximal o chunks s W Wf T N OW LW) as M. set (xs := concat chunks) in *. set (m := dmean xs) in *.
    assert (Zx : forall x, (dist2 x (z x) = dot dim (sub x m) (sub x m) - fsumn (length (p_v s)) (fun k => out k s x * out k s x))%of).
    { intros x. destruct (inverse_value o chunks s (length (p_v s)) x T N Len) as (C & D & V & z' & HC & ES & Av & Ld & Hz' & Zi & Vk); [rewrite Wf; discriminate|exact L0|apply le_n|exact Ho|].
      rewrite <- exec_all in Hz'. rewrite Hz in Hz'. injection Hz' as Ez. set (U := basis_of V (length (p_v s))) in *.
      assert (OU : orthonormal dim U) by (apply (basis_on C D V _ ES); exact Ld).
      transitivity (dot dim (fun i => sub x m i - comb U (fun k => dot dim (sub x m) (nth k U vzero)) i)%of (fun i => sub x m i - comb U (fun k => dot dim (sub x m) (nth k U vzero)) i)%of).
      - assert (Zm : forall i, z x i = (comb U (fun k => dot dim (sub x m) (nth k U vzero)) i + m i)%of).
        { intros i. rewrite Ez, Zi, Av. f_equal. apply fsumn_ext. intros k _. f_equal. apply sub_ext. exact Av. }
        apply dot_ext; intros i _; rewrite Zm; unfold sub; ring.
      - rewrite dist_comb by exact OU. rewrite (fsumn_zero (length U) (fun k => (dot dim (sub x m) (nth k U vzero) - dot dim (sub x m) (nth k U vzero)) * _)%of) by (intros; ring).
        unfold U at 1. rewrite basis_len.
        rewrite (fsumn_ext _ (fun k => out k s x * out k s x)%of (fun k => dot dim (sub x m) (nth k U vzero) * dot dim (sub x m) (nth k U vzero))%of); [ring|].
        intros k Hk. assert (O1 : out k s x = dot dim (sub x m) (nth k U vzero)); [|now rewrite O1].
        rewrite out_dot by exact Hk. rewrite (sub_ext x _ m) by exact Av. apply dot_ext; [reflexivity|]. intros i _. destruct (Vk k Hk) as [e [_ [E1 Ve]]]. rewrite Ve, (E1 Wf). fold U. ring. }
    rewrite (fsum_map_ext xs (fun x => dist2 x (z x)) _ (fun x _ => Zx x)), fsum_map_sub.
    apply fle_trans with (fsum (map (fun x => dot dim (sub x m) (sub x m) - fsumn (length W) (fun k => dot dim (sub x m) (nth k W vzero) * dot dim (sub x m) (nth k W vzero))) xs))%of.
    - rewrite fsum_map_sub, <- !fsumn_fsum. apply fle_sub. apply fle_sub in M.
      match goal with |- (0 <= ?a - ?b - (?a - ?c))%of => replace (a - b - (a - c))%of with (c - b)%of by ring end. exact M.
    - apply fsum_map_le. intros x _.
      replace (dist2 x (fun i => m i + comb W (c x) i)%of) with (dot dim (fun i => sub x m i - comb W (c x) i)%of (fun i => sub x m i - comb W (c x) i)%of).
      + rewrite dist_comb by exact OW. apply fle_sub. match goal with |- (0 <= ?a - ?b + ?c - (?a - ?b))%of => replace (a - b + c - (a - b))%of with c by ring end.
        apply fsumn_nonneg. intros. apply fsq.
      + apply dot_ext; intros; unfold sub; ring.
  Qed.
  (** C213: on the training data the outputs of a WhiteningNode have mean zero and the identity as covariance matrix *)
  Theorem C213_white : forall o chunks s, whiten = true -> trained o chunks s -> 2 <= length (concat chunks) -> length (p_d s) = length (p_v s) -> (forall a, In a (p_d s) -> (0 < a)%of) ->
    forall k l, k < length (p_v s) -> l < length (p_v s) ->
    fsum (map (fun x => out k s x) (concat chunks)) = f0 /\
    (fsum (map (fun x => out k s x * out l s x) (concat chunks)) / (fn (length (concat chunks)) - 1) = if k =? l then 1 else 0)%of.
  Proof.
    intros o chunks s Wt T N Len Pos k l Hk Hl. destruct (comps o chunks s T N Len (fun _ => Pos)) as (C & D & V & e & R & HC & ES & Av & Ld & HR & LR & Hc).
    assert (X : forall k x, k < length (p_v s) -> out k s x = (finv (e k) * dot dim (sub x (dmean (concat chunks))) (nth (dim - 1 - k) V vzero))%of).
    { intros j x Hj. destruct (Hc j Hj) as [_ [Ne [_ [Vj _]]]]. rewrite out_dot by exact Hj. rewrite (sub_ext x _ (dmean (concat chunks))) by exact Av. rewrite <- dot_scale.
      apply dot_ext; [reflexivity|]. intros i _. rewrite Vj. field. exact Ne. }
    split.
    - rewrite (fsum_map_ext _ _ (fun x => finv (e k) * dot dim (sub x (dmean (concat chunks))) (nth (dim - 1 - k) V vzero))%of) by (intros; apply X; lia).
      rewrite fsum_map_mul, proj_mean by (intros E; rewrite E in N; cbn in N; lia). ring.
    - rewrite (fsum_map_ext _ _ (fun x => (finv (e k) * finv (e l)) * (dot dim (sub x (dmean (concat chunks))) (nth (dim - 1 - k) V vzero) * dot dim (sub x (dmean (concat chunks))) (nth (dim - 1 - l) V vzero)))%of)
        by (intros; rewrite !X by lia; ring).
      rewrite fsum_map_mul.
      assert (Nn : (fn (length (concat chunks)) - (1 : K) <> 0)%of) by (intros E; pose proof (fn_pred (K := K) _ N) as Np; rewrite E in Np; now apply (flt_ne _ _ Np)).
      match goal with |- (?a * ?b / ?c)%of = _ => replace (a * b / c)%of with (a * (b / c))%of by (rewrite !(Fdiv_def (fth K)); ring) end.
      rewrite <- (quad_cov dim C (concat chunks)) by exact HC. rewrite (eig_quad dim C D V ES) by lia.
      destruct (Hc k Hk) as [Dk [Nk [Sk _]]]. destruct (Hc l Hl) as [Dl [Nl [Sl _]]]. rewrite Wt in Sk, Sl. rewrite <- Dl, <- Sl.
      unfold delta. destruct (Nat.eqb_spec k l) as [->|Ne]; [rewrite Nat.eqb_refl; field; exact Nl|]. destruct (Nat.eqb_spec (dim - 1 - k) (dim - 1 - l)); [lia|]. ring.
  Qed.

  (** ** which components are kept *)
  Lemma pv_length o chunks s md mv (raw : list vec) : (if whiten then whiten_v sqrt_ (p_d s) raw = POk (p_v s) else p_v s = raw) -> length (p_d s) = md -> length raw = mv -> md = mv -> trained o chunks s -> length (p_v s) = mv.
  Proof.
    clear. intros W Hd Hr E _. subst mv. destruct whiten; [|now rewrite W]. unfold whiten_v in W. rewrite Hd, E, Nat.eqb_refl in W. injection W as <-. rewrite map_length, combine_length. lia.
  Qed.
  (** C209: output_dim given as the fraction q of the variance: the number of components is the smallest one whose variances add up to at least the fraction q of the total *)
  Theorem C209_fraction : forall q chunks s, (q <= 1)%of -> reduce = false -> trained (OFrac q) chunks s -> 2 <= length (concat chunks) -> p_vartot s <> f0 ->
    p_out s = Some (length (p_d s)) /\ length (p_v s) = length (p_d s) /\ 1 <= length (p_d s) <= dim /\ p_vartot s = fsumn dim (fun i => dcov (concat chunks) i i) /\
    exists e, p_expl s = Some e /\ e = (fsum (p_d s) / p_vartot s)%of /\ (q <= e)%of /\
      forall j, 1 <= j -> j < length (p_d s) -> (fsum (firstn j (p_d s)) / p_vartot s < q)%of.
  Proof.
    intros q chunks s Hq Er T N Vn. destruct (trained_ok _ chunks s T N) as (C & D & V & md & mv & raw & HC & Ps & ES & L1 & L2 & Hd & Hr & Av & Vt & Wh & _ & _ & Ex & _ & _ & E6).
    destruct (E6 Er q eq_refl) as [Po [Em Ev]]. clear E6. pose proof ES as [LD [LV _]]. set (pos := filter (fun a => fltb f0 a) (rev D)) in *. set (vt := p_vartot s) in *.
    assert (Sp : fsum pos = vt).
    { rewrite Vt, (trace_eig dim C D V ES), <- (fsum_rev D). unfold pos. assert (G : forall x, In x (rev D) -> (0 <= x)%of) by (intros x Hx; apply in_rev in Hx; exact (eig_in_nonneg dim C D V ES Ps x Hx)).
      clear - G. induction (rev D) as [|a l IH]; cbn [filter fsum]; [reflexivity|]. assert (IH' : fsum (filter (fun a => fltb f0 a) l) = fsum l) by (apply IH; intros; apply G; now right).
      destruct (fltb f0 a) eqn:E; cbn [fsum]; rewrite IH'; [reflexivity|]. replace a with (0 : K)%of; [ring|]. apply fle_antisym; [apply G; now left|exact E]. }
    assert (Vp : (0 < vt)%of).
    { destruct (fle_lt_eq (0 : K)%of vt) as [|E]; [|assumption|now symmetry in E]. rewrite <- Sp. apply fsum_nonneg. apply Forall_forall. intros x Hx. unfold pos in Hx. apply filter_In in Hx. now apply flt_le. }
    assert (Lp : length pos <= dim) by (unfold pos; etransitivity; [apply filter_length_le|]; rewrite rev_length; lia).
    assert (P1 : 1 <= length pos) by (destruct pos; [cbn in Sp; symmetry in Sp; contradiction|cbn; lia]).
    set (cs := cumsum f0 (map (fun a => a / vt)%of pos)) in *. assert (Lc : length cs = length pos) by (unfold cs; now rewrite cumsum_length, map_length).
    assert (Csn : forall j, j < length pos -> nth j cs f0 = (fsum (firstn (S j) pos) / vt)%of).
    { intros j Hj. unfold cs. rewrite nth_cumsum by now rewrite map_length. rewrite firstn_map. rewrite (fsum_map_ext _ (fun a => a / vt)%of (fun a => a * finv vt)%of) by (intros; apply (Fdiv_def (fth K))).
      rewrite fsum_map_mulr, map_id. rewrite (Fdiv_def (fth K)). ring. }
    destruct (searchsorted_spec cs q) as [S1 [S2 S3]]. set (ss := searchsorted cs q) in *.
    assert (Slt : ss < length pos).
    { destruct (le_lt_dec (length pos) ss) as [Hss|]; [exfalso|assumption]. specialize (S2 (length pos - 1)). rewrite Csn in S2 by lia. replace (S (length pos - 1)) with (length pos) in S2 by lia.
      rewrite firstn_all, Sp in S2. apply (flt_not_le (vt / vt) q)%of; [apply S2; lia|]. replace (vt / vt)%of with (1 : K)%of by (field; exact Vn). exact Hq. }
    assert (Md : length (p_d s) = md) by (rewrite Hd, firstn_length, rev_length; lia). assert (Mr : length raw = mv) by (rewrite Hr, firstn_length, rev_length; lia).
    assert (Emd : md = ss + 1) by lia. assert (Emv : mv = md) by lia.
    assert (Pd : p_d s = firstn (ss + 1) pos).
    { rewrite Hd, Emd. destruct (filter_prefix_n (fun a => fltb f0 a) (rev D) (rev D) (length (rev D))) as [n' [Ln En]]; [now rewrite firstn_all|exact (rev_desc dim D V C ES)|intros x y Hxy Hx; exact (flt_le_trans _ _ _ Hx Hxy)|].
      fold pos in En. rewrite En, firstn_firstn. f_equal. assert (length pos = n') by (rewrite En, firstn_length; lia). lia. }
    split; [rewrite Md, Emd; exact Po|]. split; [rewrite Md, <- Emv; exact (pv_length (OFrac q) chunks s md mv raw Wh Md Mr (eq_sym Emv) T)|]. split; [lia|].
    split; [rewrite Vt; apply fsumn_ext; intros; apply HC|].
    exists (fsum (p_d s) / vt)%of. split; [rewrite Ex; unfold flt in Vp; now rewrite Vp|]. split; [reflexivity|]. split.
    - rewrite Pd. replace (ss + 1) with (S ss) by lia. rewrite <- Csn by exact Slt. apply S3. lia.
    - intros j J1 J2. rewrite Pd, firstn_firstn, Nat.min_l by lia. replace j with (S (j - 1)) by lia. rewrite <- Csn by lia. apply S2. lia.
  Qed.
  (** C210: reduce=True keeps exactly the eigenvalues above all thresholds, out of the asked number of largest eigenvalues, and the matching eigenvectors *)
  Theorem C210_reduce : forall o chunks s, reduce = true -> frac o = false -> trained o chunks s -> 2 <= length (concat chunks) ->
    p_out s = Some (length (p_d s)) /\ length (p_v s) = length (p_d s) /\
    exists C D V m, (forall i j, C i j = dcov (concat chunks) i j) /\ eigensystem dim C D V /\
      let cand := firstn (asked dim svd o) (rev D) in
      In m cand /\ (forall a, In a cand -> (a <= m)%of) /\
      p_d s = filter (fun a => fltb var_abs a && (fltb var_rel (a / m)%of &&
                match var_part with Some q => if fltb f0 q || fltb q f0 then fltb q (a / fsumn dim (fun i => C i i))%of else true | None => true end)) cand.
  Proof.
    intros o chunks s Er Hf T N. destruct (trained_ok _ chunks s T N) as (C & D & V & md & mv & raw & HC & Ps & ES & L1 & L2 & Hd & Hr & Av & Vt & Wh & _ & _ & Ex & E4 & _ & _).
    destruct (E4 Er) as (Em & Po & k & m & Lk & Hk & Im & Am & Mx & Fi). pose proof ES as [LD [LV _]].
    assert (Md : length (p_d s) = md) by (rewrite Hd, firstn_length, rev_length; lia). assert (Mr : length raw = mv) by (rewrite Hr, firstn_length, rev_length; lia).
    split; [now rewrite Md|]. split; [rewrite Md, Em; exact (pv_length o chunks s md mv raw Wh Md Mr Em T)|].
    exists C, D, V, m. rewrite (Hk Hf) in *. split; [exact HC|]. split; [exact ES|]. cbv zeta. split; [exact Im|]. split; [exact Mx|]. rewrite Fi, Vt. reflexivity.
  Qed.
  (** C211: output_dim=k between 1 and the input dimension: k components *)
  Theorem C211_int : forall k chunks s, 1 <= k <= dim -> reduce = false -> trained (OInt k) chunks s -> 2 <= length (concat chunks) ->
    p_out s = Some k /\ length (p_d s) = k /\ length (p_v s) = k.
  Proof.
    intros k chunks s Hk Er T N. destruct (trained_ok _ chunks s T N) as (C & D & V & md & mv & raw & HC & Ps & ES & L1 & L2 & Hd & Hr & Av & Vt & Wh & E1 & E2 & Ex & _ & E5 & _).
    pose proof ES as [LD [LV _]]. assert (Md : length (p_d s) = md) by (rewrite Hd, firstn_length, rev_length; lia). assert (Mr : length raw = mv) by (rewrite Hr, firstn_length, rev_length; lia).
    specialize (E1 eq_refl). specialize (E2 eq_refl Er). cbn [asked] in E2. unfold kept in E2. destruct (Nat.eqb_spec k 0); [lia|]. destruct (Nat.leb_spec k dim); [|lia].
    split; [now apply E5|]. split; [lia|]. rewrite (pv_length (OInt k) chunks s md mv raw Wh Md Mr E1 T). lia.
  Qed.
  (** output_dim not given: all components *)
  Theorem C211_none : forall chunks s, reduce = false -> trained ONone chunks s -> 2 <= length (concat chunks) -> p_out s = Some dim /\ length (p_d s) = dim /\ length (p_v s) = dim.
  Proof.
    intros chunks s Er T N. destruct (trained_ok _ chunks s T N) as (C & D & V & md & mv & raw & HC & Ps & ES & L1 & L2 & Hd & Hr & Av & Vt & Wh & E1 & E2 & Ex & _ & E5 & _).
    pose proof ES as [LD [LV _]]. assert (Md : length (p_d s) = md) by (rewrite Hd, firstn_length, rev_length; lia). assert (Mr : length raw = mv) by (rewrite Hr, firstn_length, rev_length; lia).
    specialize (E1 eq_refl). specialize (E2 eq_refl Er). cbn [asked] in E2.
    split; [now apply E5|]. split; [lia|]. rewrite (pv_length ONone chunks s md mv raw Wh Md Mr E1 T). lia.
  Qed.
  (** C212: after a stop_training that failed in a training phase in which train was called, neither stop_training nor train works any more: the collected data are lost *)
  Theorem C212_failed_stop : forall s s' e, p_training s = true -> p_started s = true -> stop s = (s', PErr e) ->
    stop s' = (s', PErr PAttribute) /\ forall x, snd (pca_train s' x) = PErr PAttribute.
  Proof.
    clear. intros s s' e Ht Hs H. assert (G : p_training s' = true /\ p_started s' = true /\ p_acc s' = None).
    { unfold pca_stop in H. rewrite Ht, Hs in H. cbn [andb negb] in H. destruct (p_acc s) as [a|] eqn:A; [|injection H as <- <-; auto].
      destruct (acc_fix true a) as [c avg]. destruct (adjust dim s) as [ou rng]. destruct (solve _ _ _ _ _ _) as [[d v]|er]; [|injection H as <- <-; auto].
      destruct (negb _ && _); [injection H as <- <-; auto|]. destruct (cut _ _ _ _ _) as [[o1 d1] v1]. destruct (shrink _ _ _ _ _ _ _ _) as [[[o2 d2] v2]|er]; [|injection H as <- <-; auto].
      destruct whiten; [|discriminate]. destruct (whiten_v _ _ _); [discriminate|]. injection H as <- <-. auto. }
    destruct G as [T [S A]]. split; [unfold pca_stop; now rewrite T, S, A|]. intros x. unfold pca_train. now rewrite T, A.
  Qed.
  (** C214: inverse(y, n) works only with n equal to the number of columns of y (up to the number of components) *)
  Theorem C214_inverse_n : forall (s : pca (K := K)) y n z, pca_inverse dim whiten s y (Some n) = POk z ->
    exists R, recmatrix whiten s = POk R /\ Nat.min n (length R) = length y.
  Proof.
    clear. intros s y n z H. unfold pca_inverse in H. destruct (_ || _); [discriminate|]. destruct (_ <? n); [discriminate|]. destruct (recmatrix whiten s) as [R|]; [|discriminate].
    exists R. split; [reflexivity|]. destruct (Nat.eqb_spec (length (firstn n R)) (length y)) as [E|]; [|discriminate]. now rewrite <- E, firstn_length.
  Qed.
End Props.

(** ** A solver for diagonal matrices of dimension 2 which satisfies the contract, for the Examples and witnesses *)
Section Diag.
  Context {K : ofield}.
  Add Field Kf4 : (fth K).
  Notation vec := (vec (K := K)). Notation mtx := (mtx (K := K)).
  Definition diag_eig (n : nat) (c : mtx) : option (list K * list vec) :=
    if negb (n =? 2) || fltb (c 0 1) f0 || fltb f0 (c 0 1) then None
    else if fltb (c 1 1) (c 0 0) then Some ([c 1 1; c 0 0], [delta 1; delta 0]) else Some ([c 0 0; c 1 1], [delta 0; delta 1]).
  Lemma diag_ok : forall c D V, symmetric 2 c -> diag_eig 2 c = Some (D, V) -> eigensystem 2 c D V.
  Proof.
    intros c D V Sy H. unfold diag_eig in H. cbn [Nat.eqb negb orb] in H. destruct (fltb (c 0 1) f0) eqn:A; [discriminate|]. destruct (fltb f0 (c 0 1)) eqn:B; [discriminate|].
    assert (Z : c 0 1 = f0) by (now apply (flt_total K)). assert (Z' : c 1 0 = f0) by (rewrite <- Sy by lia; exact Z). cbn [orb] in H.
    assert (E : forall i, i < 2 -> i = 0 \/ i = 1) by lia.
    destruct (fltb (c 1 1) (c 0 0)) eqn:L; injection H as <- <-; (split; [reflexivity|]; split; [reflexivity|]; split; [|split; [|split]]).
    all: try (intros i j Hi Hj; cbn [length] in Hi, Hj; destruct (E i Hi) as [-> | ->]; destruct (E j Hj) as [-> | ->]; unfold dot, fsumn, mulv, delta, fsumn; cbn [seq map fsum nth Nat.eqb]; try rewrite Z; try rewrite Z'; ring).
    - repeat constructor. now apply flt_le.
    - repeat constructor. exact L.
  Qed.
End Diag.

Section Examples.
  Open Scope Qc_scope.
  Definition v2 (a b : Q) : @vec Qc_of := fun i => match i with O => Q2Qc a | S O => Q2Qc b | _ => Q2Qc 0 end.
  Definition fin (v : @vec Qc_of) : list Q := [this (v 0%nat); this (v 1%nat)].
  Definition eighQ (_ : option (Z * Z)) := @diag_eig Qc_of.
  Definition data : list (list (@vec Qc_of)) := [[v2 4 0; v2 (-4) 0; v2 0 2]; [v2 0 (-2); v2 0 0; v2 0 0]; [v2 0 0; v2 0 0; v2 0 0]].
  Definition node (svd reduce whiten : bool) (var_abs : Qc) (o : @odim Qc_of) chunks :=
    match pca_trains (pca_new o) chunks with
    | (s, POk _) => pca_stop eighQ diag_eig (fun a => if Qc_eq_dec a (Q2Qc 4) then Q2Qc 2 else 1) 2 svd reduce var_abs (Q2Qc (1#100)) None whiten s
    | r => r
    end.
  Definition view (r : @pca Qc_of * pres unit) : option (option nat * list Q * list (list Q) * option Q * list Q) :=
    match r with (s, POk _) => Some (p_out s, map this (p_d s : list Qc), map fin (p_v s), option_map this (p_expl s : option Qc), map this (pca_execute 2 s None (v2 4 2) : list Qc)) | _ => None end.
  (** variances 4 and 1 *)
  Example ex_C206 : view (node false false false 0 ONone data) = Some (Some 2%nat, [4; 1]%Q, [[1; 0]; [0; 1]]%Q, Some 1%Q, [4; 2]%Q).
  Proof. vm_compute. reflexivity. Qed.
  Example ex_C209 : view (node false false false 0 (@OFrac Qc_of (Q2Qc (3#4))) data) = Some (Some 1%nat, [4]%Q, [[1; 0]]%Q, Some (4#5)%Q, [4]%Q) /\
                    view (node false false false 0 (@OFrac Qc_of (Q2Qc (9#10))) data) = Some (Some 2%nat, [4; 1]%Q, [[1; 0]; [0; 1]]%Q, Some 1%Q, [4; 2]%Q).
  Proof. split; vm_compute; reflexivity. Qed.
  Example ex_C210 : view (node false true false (Q2Qc 2) ONone data) = Some (Some 1%nat, [4]%Q, [[1; 0]]%Q, Some (4#5)%Q, [4]%Q).
  Proof. vm_compute. reflexivity. Qed.
  Example ex_C213 : view (node false false true 0 ONone data) = Some (Some 2%nat, [4; 1]%Q, [[1#2; 0]; [0; 1]]%Q, Some 1%Q, [2; 2]%Q).
  Proof. vm_compute. reflexivity. Qed.
  Example ex_C208 : match node false false true 0 ONone data with
    | (s, POk _) => match pca_inverse 2 true s (pca_execute 2 s None (v2 3 7)) None, pca_inverse 2 true s (pca_execute 2 s (Some 1%nat) (v2 3 7)) None with
                    | POk z, POk w => fin z = [3; 7]%Q /\ fin w = [3; 0]%Q | _, _ => False end
    | _ => False end.
  Proof. vm_compute. split; reflexivity. Qed.

  (** C209 fails for data without any variance: d is empty, but there is one component and output_dim is 1 *)
  Theorem C209_refuted : exists (chunks : list (list (@vec Qc_of))), length (concat chunks) = 2%nat /\
    match node false false false 0 (@OFrac Qc_of (Q2Qc (1#2))) chunks with (s, POk _) => p_out s = Some 1%nat /\ p_d s = [] /\ length (p_v s) = 1%nat /\ p_expl s = None | _ => False end.
  Proof. exists [[v2 1 1; v2 1 1]]. vm_compute. repeat split. Qed.
  (** C211 fails above the input dimension: output_dim stays 3, but there are only two components - and with svd=True only one *)
  Theorem C211_refuted : match node false false false 0 (OInt 3) data with (s, POk _) => p_out s = Some 3%nat /\ length (p_v s) = 2%nat | _ => False end.
  Proof. vm_compute. repeat split. Qed.
  Theorem C211_svd_refuted : match node true false false 0 (OInt 3) data, node true false false 0 (OInt 2) data with
    | (s, POk _), (s', POk _) => p_out s = Some 3%nat /\ length (p_v s) = 1%nat /\ p_out s' = Some 2%nat /\ length (p_v s') = 2%nat | _, _ => False end.
  Proof. vm_compute. repeat split. Qed.
  (** output_dim=0 keeps all components, and output_dim stays 0 *)
  Theorem C211_zero_refuted : match node false false false 0 (OInt 0) data with (s, POk _) => p_out s = Some 0%nat /\ length (p_v s) = 2%nat | _ => False end.
  Proof. vm_compute. repeat split. Qed.
  (** C212: stop_training can fail although training data were given; then nothing can be repeated *)
  Theorem C212_refuted : match node false true false (Q2Qc 100) ONone data with
    | (s, PErr e) => e = PNode /\ snd (pca_stop eighQ diag_eig (fun a => a) 2%nat false true (Q2Qc 0) (Q2Qc 0) None false s) = PErr PAttribute /\ snd (pca_train s [v2 1 1]) = PErr PAttribute
    | _ => False end.
  Proof. vm_compute. repeat split. Qed.
  (** C214: inverse(y, n=1) with two columns fails, although the documentation promises the use of the first n components *)
  Theorem C214_refuted : match node false false false 0 ONone data with (s, POk _) => match @pca_inverse Qc_of 2 false s [Q2Qc 1; Q2Qc 1] (Some 1%nat) with PErr e => e = PValue | _ => False end | _ => False end.
  Proof. vm_compute. repeat split. Qed.
  (** the solver used above satisfies the contract of the theorems *)
  Theorem C206_contract : (forall rng c D V, symmetric 2 c -> psd 2 c -> eighQ rng 2 c = Some (D, V) -> eigensystem 2 c D V) /\
    (forall c D V, symmetric 2 c -> psd 2 c -> @diag_eig Qc_of 2 c = Some (D, V) -> eigensystem 2 c D V).
  Proof. split; intros; now apply diag_ok. Qed.
End Examples.

(** over the reals the contract of sqrt is satisfied by the square root *)
From Coq Require Import Reals Lra.
Theorem C213_sqrt : forall a : R_of, flt f0 a -> @fmul R_of (sqrt a) (sqrt a) = a.
Proof. intros a H. unfold flt in H. cbn in H. destruct (Rlt_dec 0 a); [|discriminate]. apply sqrt_sqrt. lra. Qed.
