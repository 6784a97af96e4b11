(** Properties C319-C327: NIPALSNode. *)
From Coq Require Import List Arith QArith Qcanon Bool Lia Field Permutation.
From Verif Require Import OField LinAlg IncModel IncProofs IncProps NipModel NipProofs.
Import ListNotations.
Open Scope nat_scope.

Section Nip.
  Context {K : ofield}.
  Add Field Knp2 : (fth K).
  Notation vec := (vec (K := K)). Notation nip := (nip (K := K)). Notation odim := (odim (K := K)).
  Variable sq : K -> K.
  Hypothesis SQ : is_sqrt sq.
  Notation nip_stop := (nip_stop sq).

  (** a node after the calls of train *)
  Definition fed (chunks : list (list vec)) (s : nip) : nip := fold_left (fun s x => fst (nip_train x s)) chunks s.
  Lemma fed_spec chunks : forall (s : nip) l, n_data s = Chunks l -> fed chunks s = put_data (Chunks (l ++ chunks)) (n_tlen s + length (concat chunks)) s.
  Proof.
    induction chunks as [|x chunks IH]; intros s l D; cbn [fed fold_left concat length].
    - rewrite app_nil_r, Nat.add_0_r. destruct s; cbn in *. now subst.
    - unfold nip_train at 2. rewrite D. cbn [fst]. change (fed chunks (put_data (Chunks (l ++ [x])) (n_tlen s + length x) s) = put_data (Chunks (l ++ x :: chunks)) (n_tlen s + length (x ++ concat chunks)) s). rewrite (IH _ (l ++ [x])) by reflexivity.
      rewrite <- app_assoc, app_length. unfold put_data. cbn. now rewrite Nat.add_assoc.
  Qed.
  Notation node chunks n o conv M := (fed chunks (nip_new n o conv M)).
  (** what the components of a trained node are *)
  Definition away (m : vec) (x : vec) : vec := fun i => (x i - m i)%of.
  Lemma stop_inv chunks n o conv M s' : 0 < n -> nip_stop (node chunks n o conv M) = (s', None) ->
    let X := concat chunks in let Y := center n X in let T := length X in
    exists ps j b e l, extract sq n conv M T (variance n Y) (match o with OFrac q => Some q | _ => None end) n Y f0 = Some (l, e, b) /\ l = map Some ps ++ repeat None j /\
      split_ n (map fst ps) /\ (forall i, i < length ps -> comp_ok n conv T Y (firstn i (map fst ps)) (nth i ps (vzero, f0))) /\
      n_comps s' = (match n_out s' with Some o => firstn o l | None => l end) /\ n_expl s' = Some e /\ n_avg s' = Some (mean n X) /\ n_tot s' = Some (variance n Y) /\ n_dim s' = n /\
      n_out s' = (if b then Some (length l) else match o with OInt k => Some k | OFrac _ => None | ONone => Some n end).
  Proof.
    intros N0 E X Y T. rewrite (fed_spec chunks (nip_new n o conv M) []) in E by reflexivity. cbn [app] in E. unfold NipModel.nip_stop in E. cbn [put_data n_data nip_new n_dim n_des n_out n_conv n_max n_tlen] in E. rewrite Nat.add_0_l in E.
    destruct chunks as [|c0 cs]; [discriminate|]. remember (c0 :: cs) as chunks eqn:EC. change (concat chunks) with X in E. fold T in E. fold Y in E.
    pose proof (extract_spec sq SQ n conv M T (variance n Y) (match o with OFrac q => Some q | _ => None end) Y N0 n [] f0 (split_nil n)) as S.
    replace (map (rest n []) Y) with Y in S by (symmetry; apply map_id). destruct (extract sq n conv M T (variance n Y) (match o with OFrac q => Some q | _ => None end) n Y f0) as [[[l e] b]|]; [|discriminate].
    destruct S as (ps & j & L & S1 & LB & LK & E0 & E1 & EB & ET & EC2). exists ps, j, b, e, l. split; [reflexivity|]. split; [exact L|]. split; [exact S1|]. split; [exact EC2|]. injection E as <-. cbn [n_comps n_out n_expl n_avg n_tot n_dim]. destruct b, o; repeat split.
  Qed.
  Lemma firstn_nth {A} (l : list A) : forall k i c, nth_error (firstn k l) i = Some c -> nth_error l i = Some c.
  Proof. induction l as [|a l IH]; intros [|k] [|i] c H; try discriminate; try exact H. cbn in *. exact (IH k i c H). Qed.
  Lemma nth_found {A} (ps : list A) j i c k : nth_error (firstn k (map Some ps ++ repeat None j)) i = Some (Some c) -> i < length ps /\ forall d, nth i ps d = c.
  Proof.
    intros H. apply firstn_nth in H as H2. clear H.
    destruct (Nat.lt_ge_cases i (length ps)) as [L|L].
    - split; [exact L|]. intros d. rewrite nth_error_app1 in H2 by (now rewrite map_length). rewrite nth_error_map in H2. rewrite (nth_error_nth' ps d L) in H2. now injection H2.
    - exfalso. rewrite nth_error_app2 in H2 by (now rewrite map_length). apply nth_error_In in H2. apply repeat_spec in H2. discriminate.
  Qed.
  Lemma nth_fst (ps : list (vec * K)) i : nth i (map fst ps) vzero = fst (nth i ps (vzero, f0)).
  Proof. exact (map_nth fst ps (vzero, f0) i). Qed.
  (** component i of the node *)
  Definition comp_is (s : nip) (i : nat) (p : vec) (d : K) : Prop := nth_error (n_comps s) i = Some (Some (p, d)).
  Lemma comp_inv chunks n o conv M s' : 0 < n -> nip_stop (node chunks n o conv M) = (s', None) ->
    let X := concat chunks in let Y := center n X in exists ps : list (vec * K), split_ n (map fst ps) /\ (forall i, i < length ps -> comp_ok n conv (length X) Y (firstn i (map fst ps)) (nth i ps (vzero, f0))) /\
      forall i p d, comp_is s' i p d -> i < length ps /\ nth i ps (vzero, f0) = (p, d).
  Proof.
    intros N0 E X Y. destruct (stop_inv chunks n o conv M s' N0 E) as (ps & j & b & e & l & _ & L & S & C & NC & _). exists ps. split; [exact S|]. split; [exact C|]. intros i p d H. unfold comp_is in H. rewrite NC, L in H.
    assert (H2 : exists k, nth_error (firstn k (map Some ps ++ repeat None j)) i = Some (Some (p, d))). { destruct (n_out s') as [k|]; [now exists k|]. exists (length (map Some ps ++ repeat None j)). now rewrite firstn_all. }
    destruct H2 as (k & H2). destruct (nth_found ps j i (p, d) k H2) as (A & B). split; [exact A|apply B].
  Qed.

  (** ** C319: the components are orthonormal, however small or large conv and max_it are *)
  Theorem C319_orthonormal : forall chunks n o conv M s', 0 < n -> nip_stop (node chunks n o conv M) = (s', None) ->
    forall i j p q d e, comp_is s' i p d -> comp_is s' j q e -> dot n p q = delta i j.
  Proof.
    intros chunks n o conv M s' N0 E i j p q d e Hp Hq. destruct (comp_inv chunks n o conv M s' N0 E) as (ps & (O & _) & _ & C). destruct (C i p d Hp) as (A1 & A2), (C j q e Hq) as (B1 & B2).
    specialize (O i j). rewrite !map_length in O. specialize (O A1 B1). rewrite !nth_fst, A2, B2 in O. exact O.
  Qed.

  (** ** C320: the mean, the variances of the outputs *)
  Lemma dot_center n m x (p : vec) : dot n (tab n (fun i => x i - m i)%of) p = dot n (away m x) p. Proof. apply dot_tab_l. Qed.
  Lemma form_center n X p q : form n (center n X) p q = fsum (map (fun x => dot n (away (mean n X) x) p * dot n (away (mean n X) x) q)%of X).
  Proof. unfold form, center. rewrite map_map. apply fsum_map_ext. intros x _. now rewrite !dot_center. Qed.
  Lemma mean_sum n (X : list vec) i : i < n -> X <> [] -> (fn (length X) * mean n X i)%of = fsum (map (fun x : vec => x i) X).
  Proof. intros H NE. unfold mean. rewrite tab_in by exact H. match goal with |- (_ * (?a / _))%of = ?b => change b with a end. field. apply fn_ne. destruct X; [easy|discriminate]. Qed.
  Lemma away_sum n (X : list vec) i : i < n -> X <> [] -> fsum (map (fun x => away (mean n X) x i) X) = f0.
  Proof. intros H NE. unfold away. rewrite (fsum_map_sub X (fun x : vec => x i) (fun _ => mean n X i)), fsum_map_const, (mean_sum n X i H NE). ring. Qed.
  Lemma away_dot_sum n (X : list vec) (p : vec) : X <> [] -> fsum (map (fun x => dot n (away (mean n X) x) p) X) = f0.
  Proof.
    intros NE. unfold dot. rewrite <- (fsumn_fsum n X (fun i x => away (mean n X) x i * p i)%of). apply fsumn_zero. intros i Hi. rewrite (fsum_map_mulr X (fun x => away (mean n X) x i)), (away_sum n X i Hi NE). ring.
  Qed.
  Theorem C320_variances : forall chunks n o conv M s', 0 < n -> nip_stop (node chunks n o conv M) = (s', None) -> let X := concat chunks in X <> [] ->
    exists m, n_avg s' = Some m /\ (forall i, i < n -> (fn (length X) * m i)%of = fsum (map (fun x : vec => x i) X)) /\
      forall i p d, comp_is s' i p d -> fsum (map (fun x => dot n (away m x) p) X) = f0 /\ d = (fsum (map (fun x => dot n (away m x) p * dot n (away m x) p)%of X) / (fn (length X) - f1))%of.
  Proof.
    intros chunks n o conv M s' N0 E X NE. exists (mean n X). destruct (stop_inv chunks n o conv M s' N0 E) as (ps0 & j0 & b0 & e0 & l0 & _ & _ & _ & _ & _ & _ & AV & _). split; [exact AV|]. split; [intros i Hi; now apply mean_sum|].
    intros i p d H. split; [now apply away_dot_sum|]. destruct (comp_inv chunks n o conv M s' N0 E) as (ps & S & C & G). destruct (G i p d H) as (Hi & Ei). pose proof (C i Hi) as CO. unfold comp_ok in CO. rewrite Ei in CO. cbn [fst snd] in CO. destruct CO as (_ & -> & _). now rewrite form_center.
  Qed.
  (** they are the values execute gives *)
  Theorem C320_execute : forall chunks n o conv M s' i p d, 0 < n -> nip_stop (node chunks n o conv M) = (s', None) -> comp_is s' i p d -> forall x, exists m, n_avg s' = Some m /\ nth_error (nip_execute s' x) i = Some (dot n (away m x) p).
  Proof.
    intros chunks n o conv M s' i p d N0 E H x. destruct (stop_inv chunks n o conv M s' N0 E) as (ps0 & j0 & b0 & e0 & l0 & _ & _ & _ & _ & _ & _ & AV & _ & DI & _). eexists. split; [exact AV|]. unfold nip_execute, nip_vectors. rewrite AV, DI, map_map, nth_error_map. unfold comp_is in H. rewrite H. reflexivity.
  Qed.

  (** ** C321: the explained variance *)
  (** the sum of the squared distances from the mean *)
  Definition spread (n : nat) (X : list vec) : K := fsum (map (fun x => dot n (away (mean n X) x) (away (mean n X) x)) X).
  Lemma variance_center n (X : list vec) : X <> [] -> (fn (length X) * variance n (center n X))%of = spread n X.
  Proof.
    intros NE. assert (NL : fn (length X) <> (f0 : K)) by (apply fn_ne; destruct X; [easy|discriminate]). unfold variance. assert (LC : length (center n X) = length X) by (unfold center; now rewrite map_length). rewrite LC.
    assert (Z : forall i, i < n -> mean n (center n X) i = f0). { intros i Hi. unfold mean at 1. rewrite tab_in by exact Hi. rewrite LC. unfold center. rewrite map_map. rewrite (fsum_map_ext X _ (fun x => away (mean n X) x i)) by (intros; now rewrite tab_in). rewrite (away_sum n X i Hi NE). field. exact NL. }
    rewrite (fsumn_ext n _ (fun i => (f1 / fn (length X)) * fsum (map (fun x => away (mean n X) x i * away (mean n X) x i) X))%of).
    2:{ intros i Hi. rewrite (Z i Hi). match goal with |- (?a / _)%of = (_ * ?b)%of => assert (AB : a = b) end.
      { unfold center. rewrite map_map. apply fsum_map_ext. intros x _. rewrite tab_in by exact Hi. unfold away. ring. }
      rewrite AB. field. exact NL. }
    rewrite fsumn_mul, fsumn_fsum. unfold spread, dot. field. exact NL.
  Qed.
  (** output_dim given as a fraction: the sum of the kept d over total_variance, which reaches the fraction with the last component and not before *)
  Theorem C321_explained : forall chunks n q conv M s', 0 < n -> nip_stop (node chunks n (OFrac q) conv M) = (s', None) -> let X := concat chunks in X <> [] -> forall k, n_out s' = Some k ->
    exists ps tot e, n_comps s' = map Some ps /\ length ps = k /\ 0 < k /\ n_tot s' = Some tot /\ n_expl s' = Some (Some e) /\ (fn (length X) * tot)%of = spread n X /\
      e = fsum (map (fun c => snd c / tot)%of ps) /\ fle q e /\ (forall i, 0 < i -> i < k -> flt (fsum (map (fun c => snd c / tot)%of (firstn i ps))) q) /\
      fle (fsum (map (fun c => snd c * (fn (length X) - f1))%of ps)) (spread n X).
  Proof.
    intros chunks n q conv M s' N0 E X NE k KO. destruct (stop_inv chunks n (OFrac q) conv M s' N0 E) as (ps & j & b & e & l & EX & L & S & C & NC & NX & AV & TO & DI & NO). rewrite KO in *. destruct b; [|discriminate]. injection NO as ->. 
    pose proof (extract_spec sq SQ n conv M (length X) (variance n (center n X)) (Some q) (center n X) N0 n [] f0 (split_nil n)) as SP. replace (map (rest n []) (center n X)) with (center n X) in SP by (symmetry; apply map_id). cbv iota beta in EX. fold X in EX. rewrite EX in SP.
    destruct SP as (ps2 & j2 & L2 & S1 & LB & LK & E0 & E1 & EB & ET & EC2). destruct (EB eq_refl) as (q' & Q1 & Q2 & Q3 & ->). injection Q1 as <-. specialize (E0 eq_refl). subst e. cbn [repeat] in L2. rewrite app_nil_r in L2. subst l. rewrite L2 in *.
    rewrite firstn_all in NC. exists ps2, (variance n (center n X)). eexists. split; [exact NC|]. split; [now rewrite map_length|]. split; [rewrite map_length; destruct ps2; [easy|cbn; lia]|]. split; [exact TO|]. split; [exact NX|]. split; [now apply variance_center|].
    unfold sum_d in *. split; [ring|]. split; [exact Q2|]. rewrite map_length. split.
    - intros i Hi Hk. destruct i as [|i]; [lia|]. specialize (ET i (or_introl Hk)). cbv iota in ET. replace (f0 + fsum (map (fun c : vec * K => snd c / variance n (center n X)) (firstn (Datatypes.S i) ps2)))%of with (fsum (map (fun c : vec * K => snd c / variance n (center n X))%of (firstn (Datatypes.S i) ps2))) in ET by ring. exact ET.
    - destruct (feq_dec (fn (length X) - f1 : K)%of f0) as [Z|NZ].
      { rewrite (fsum_map_zero ps2) by (intros; rewrite Z; ring). apply fsum_map_nonneg. intros. apply dot_sq. }
      assert (B : fle (fsum (map (fun x => fsumn (length (map fst ps2)) (fun k => dot n (away (mean n X) x) (nth k (map fst ps2) vzero) * dot n (away (mean n X) x) (nth k (map fst ps2) vzero))%of) X)) (spread n X)) by (apply fsum_map_le; intros x _; apply (bessel n (map fst ps2)), S1).
      apply (fle_trans _ (fsum (map (fun x => fsumn (length (map fst ps2)) (fun k => dot n (away (mean n X) x) (nth k (map fst ps2) vzero) * dot n (away (mean n X) x) (nth k (map fst ps2) vzero))%of) X))); [|exact B]. rewrite <- fsumn_fsum. rewrite (fsum_map_nth ps2 _ (vzero, f0)). rewrite map_length.
      match goal with |- fle ?a ?b => replace b with a; [apply fle_refl|] end. apply fsumn_ext. intros i Hi. specialize (EC2 i Hi). destruct EC2 as (_ & D & _). rewrite D. rewrite form_center. rewrite nth_fst. field. exact NZ.
  Qed.

  Lemma pred_ne k : 2 <= k -> (fn k - f1)%of <> (f0 : K).
  Proof. intros H Z. pose proof (fn_pred (K := K) k H) as TP. rewrite Z in TP. unfold flt in TP. now rewrite flt_irrefl in TP. Qed.
  (** ** C322: the first component has at least the variance of the first variable *)
  Theorem C322_first : forall chunks n o conv M s' p d, 0 < n -> nip_stop (node chunks n o conv M) = (s', None) -> comp_is s' 0 p d -> let X := concat chunks in 2 <= length X ->
    exists m, n_avg s' = Some m /\ fle (fsum (map (fun x => away m x 0%nat * away m x 0%nat)%of X) / (fn (length X) - f1))%of d.
  Proof.
    intros chunks n o conv M s' p d N0 E H X T2. destruct (stop_inv chunks n o conv M s' N0 E) as (ps0 & j0 & b0 & e0 & l0 & _ & _ & _ & _ & _ & _ & AV & _). eexists. split; [exact AV|]. fold X.
    destruct (comp_inv chunks n o conv M s' N0 E) as (ps & S & C & G). destruct (G 0 p d H) as (Hi & Ei). pose proof (C 0 Hi) as CO. unfold comp_ok in CO. rewrite Ei in CO. cbn [fst snd firstn] in CO. destruct CO as (_ & -> & _ & LE). fold X in LE. fold X.
    replace (map (rest n []) (center n X)) with (center n X) in LE by (symmetry; apply map_id).
    assert (FE : first_sq (center n X) = fsum (map (fun x => away (mean n X) x 0%nat * away (mean n X) x 0%nat)%of X)) by (unfold first_sq, center; rewrite map_map; apply fsum_map_ext; intros x _; now rewrite tab_in by exact N0).
    rewrite FE in LE. pose proof (fn_pred (K := K) (length X) T2) as TP. apply fdiv_le; [exact TP|]. match goal with |- fle _ ?b => replace b with (form n (center n X) p p); [exact LE|] end. field. exact (pred_ne _ T2).
  Qed.

  Lemma f_mulC (a b : K) : (a * b)%of = (b * a)%of. Proof. ring. Qed.
  (** ** C323: how exact the components are *)
  (** the rows with the parts along the earlier components removed *)
  Definition remainder (P : list vec) (n : nat) (y : vec) : vec := fun i => (y i - fsum (map (fun w : vec => dot n y w * w i)%of P))%of.
  Lemma orth_prefix n (P : list vec) p : orthonormal n (P ++ [p]) -> orthonormal n P /\ perp n P p /\ dot n p p = f1.
  Proof.
    intros O. assert (A : orthonormal n P). { intros i j Hi Hj. specialize (O i j). rewrite app_length in O. specialize (O ltac:(lia) ltac:(lia)). rewrite !app_nth1 in O by assumption. exact O. }
    split; [exact A|]. split.
    - intros w W. apply (In_nth _ _ vzero) in W. destruct W as (j & Hj & <-). specialize (O (length P) j). rewrite app_length in O. cbn in O. specialize (O ltac:(lia) ltac:(lia)). rewrite app_nth2, Nat.sub_diag in O by lia. rewrite app_nth1 in O by exact Hj. cbn in O. rewrite O. unfold delta. replace (length P =? j) with false; [reflexivity|]. symmetry. apply Nat.eqb_neq. lia.
    - specialize (O (length P) (length P)). rewrite app_length in O. cbn in O. specialize (O ltac:(lia) ltac:(lia)). rewrite app_nth2, Nat.sub_diag in O by lia. cbn in O. rewrite O. unfold delta. now rewrite Nat.eqb_refl.
  Qed.
  Lemma split_orth n (P : list vec) : orthonormal n P -> split_ n P.
  Proof.
    induction P as [|p P IH] using rev_ind; intros O; [apply split_nil|]. destruct (orth_prefix n P p O) as (A & B & C). apply split_snoc; [now apply IH|exact C|exact B].
  Qed.
  Lemma rest_formula n (P : list vec) : orthonormal n P -> forall y i, i < n -> rest n P y i = remainder P n y i.
  Proof.
    induction P as [|p P IH] using rev_ind; intros O y i Hi; [unfold remainder; cbn; ring|]. destruct (orth_prefix n P p O) as (A & B & C). rewrite rest_snoc, tab_in by exact Hi. rewrite (IH A y i Hi). destruct (split_orth n P A) as (_ & _ & SAME). rewrite (SAME y p B). unfold remainder. rewrite map_app, fsum_app. cbn [map fsum fold_right]. ring.
  Qed.
  Lemma orth_firstn n (P : list vec) k : orthonormal n P -> orthonormal n (firstn k P).
  Proof.
    intros O i j Hi Hj. rewrite firstn_length in *. assert (E : forall i, i < k -> nth i (firstn k P) vzero = nth i P vzero). { clear. intros i Hi. rewrite <- (firstn_skipn k P) at 2. destruct (Nat.lt_ge_cases i (length (firstn k P))) as [L|L]; [now rewrite app_nth1|]. rewrite firstn_length in L. rewrite (nth_overflow (firstn k P)) by (rewrite firstn_length; lia). rewrite nth_overflow; [reflexivity|]. rewrite firstn_skipn. lia. }
    rewrite !E by lia. apply O; lia.
  Qed.
  Lemma dot_rest n (P : list vec) : orthonormal n P -> forall y v, dot n (rest n P y) v = dot n (remainder P n y) v.
  Proof. intros O y v. apply dot_ext; [|reflexivity]. intros i Hi. now apply rest_formula. Qed.
  (** the error of the equation for the eigenvector of the remainders is bounded by conv and the size of the data *)
  Theorem C323_accuracy : forall chunks n o conv M s' i p d, 0 < n -> nip_stop (node chunks n o conv M) = (s', None) -> comp_is s' i p d ->
    exists m P c, n_avg s' = Some m /\ length P = i /\ (forall j q e, j < i -> comp_is s' j q e -> nth j P vzero = q) /\ flt f0 c /\
      let R := map (fun x => remainder P n (away m x)) (concat chunks) in
      let err i := (fsum (map (fun r => r i * dot n r p) R) - c * p i)%of in
      fle (dot n err err) (conv * fsum (map (fun r => dot n r r) R))%of.
  Proof.
    intros chunks n o conv M s' i p d N0 E H. destruct (stop_inv chunks n o conv M s' N0 E) as (ps0 & j0 & b0 & e0 & l0 & _ & _ & _ & _ & _ & _ & AV & _).
    destruct (comp_inv chunks n o conv M s' N0 E) as (ps & (O & S2) & C & G). destruct (G i p d H) as (Hi & Ei). pose proof (C i Hi) as CO. unfold comp_ok in CO. rewrite Ei in CO. cbn [fst snd] in CO. destruct CO as ((U & q & c & C0 & CV & CE) & _).
    set (X := concat chunks) in *. set (P := firstn i (map fst ps)) in *. assert (OP : orthonormal n P) by (apply orth_firstn, O).
    exists (mean n X), P, c. split; [exact AV|]. split; [unfold P; rewrite firstn_length, map_length; lia|]. split.
    { intros j w e Hj Hw. destruct (G j w e Hw) as (A & B). unfold P. rewrite <- (app_nth1 _ (skipn i (map fst ps))) by (rewrite firstn_length, map_length; lia). rewrite firstn_skipn, nth_fst, B. reflexivity. }
    split; [exact C0|]. intros R err.
    assert (RD : forall x v, dot n (rest n P (tab n (fun i => x i - mean n X i)%of)) v = dot n (remainder P n (away (mean n X) x)) v).
    { intros x v. rewrite (dot_rest n P OP). unfold remainder. apply dot_ext; [|reflexivity]. intros k Hk. rewrite tab_in by exact Hk. fold (away (mean n X) x k). f_equal. apply fsum_map_ext. intros w _. now rewrite dot_center. }
    assert (RI : forall x k, k < n -> rest n P (tab n (fun i => x i - mean n X i)%of) k = remainder P n (away (mean n X) x) k).
    { intros x k Hk. rewrite (rest_formula n P OP _ k Hk). unfold remainder. rewrite tab_in by exact Hk. f_equal. apply fsum_map_ext. intros w _. now rewrite dot_center. }
    set (dl := fun r : vec => (dot n r p - dot n r q)%of).
    assert (CV2 : fle (fsum (map (fun r => dl r * dl r)%of R)) conv). { unfold R. rewrite map_map. unfold center in CV. rewrite !map_map in CV. erewrite (fsum_map_ext X); [exact CV|]. intros x _. unfold dl. cbn beta. now rewrite !RD. }
    assert (ER : forall k, k < n -> err k = fsum (map (fun r => r k * dl r)%of R)).
    { intros k Hk. unfold err. rewrite (CE k Hk). unfold center. rewrite !map_map. unfold R. rewrite !map_map. rewrite <- fsum_map_sub. apply fsum_map_ext. intros x _. unfold dl. rewrite (RI x k Hk), RD. ring. }
    assert (CA : forall k, k < n -> fle (err k * err k)%of (fsum (map (fun r : vec => r k * r k)%of R) * conv)%of).
    { intros k Hk. rewrite (ER k Hk). apply (fle_trans _ (fsum (map (fun r : vec => r k * r k)%of R) * fsum (map (fun r => dl r * dl r)%of R))%of); [apply (fsum_cauchy R (fun r : vec => r k) dl)|]. rewrite !(f_mulC (fsum (map (fun r : vec => r k * r k)%of R))). apply fle_mul; [|exact CV2]. apply fsum_map_nonneg. intros. apply fsq. }
    unfold dot at 1. apply (fle_trans _ (fsumn n (fun k => fsum (map (fun r : vec => r k * r k)%of R) * conv)%of)); [apply fsumn_le; exact CA|].
    rewrite fsumn_mulr, fsumn_fsum. fold (dot (K := K)). match goal with |- fle ?a ?b => replace b with a; [apply fle_refl|unfold dot; ring] end.
  Qed.
  (** with conv = 0 every component is an eigenvector of the scatter matrix of the data *)
  Lemma exact_eigen n (Y : list vec) conv T ps : orthonormal n (map fst ps) -> (forall i, i < length ps -> comp_ok n conv T Y (firstn i (map fst ps)) (nth i ps (vzero, f0))) -> fle conv f0 ->
    forall i, i < length ps -> forall k, k < n -> fsum (map (fun y => y k * dot n y (nth i (map fst ps) vzero))%of Y) = (form n Y (nth i (map fst ps) vzero) (nth i (map fst ps) vzero) * nth i (map fst ps) vzero k)%of.
  Proof.
    intros O C CZ i. induction i as [i IH] using lt_wf_ind. intros Hi.
    set (p := nth i (map fst ps) vzero). set (P := firstn i (map fst ps)). assert (OP : orthonormal n P) by (apply orth_firstn, O).
    assert (LP : length P = i) by (unfold P; rewrite firstn_length, map_length; lia).
    assert (NP : forall j, j < i -> nth j P vzero = nth j (map fst ps) vzero). { intros j Hj. unfold P. rewrite <- (app_nth1 _ (skipn i (map fst ps))) by (rewrite firstn_length, map_length; lia). now rewrite firstn_skipn. }
    pose proof (C i Hi) as CO. unfold comp_ok in CO. rewrite <- nth_fst in CO. fold p P in CO. destruct CO as ((U & q & c & C0 & CV & CE) & _).
    assert (PP : perp n P p). { intros w W. apply (In_nth _ _ vzero) in W. destruct W as (j & Hj & <-). rewrite LP in Hj. rewrite (NP j Hj). unfold p. rewrite O by (rewrite map_length; lia). unfold delta. replace (i =? j) with false; [reflexivity|]. symmetry. apply Nat.eqb_neq. lia. }
    destruct (split_orth n P OP) as (_ & _ & SAME).
    assert (DZ : forall r, In r (map (rest n P) Y) -> dot n r p = dot n r q).
    { intros r HR. assert (Z : fsum (map (fun r => (dot n r p - dot n r q) * (dot n r p - dot n r q))%of (map (rest n P) Y)) = f0). { apply fle_antisym; [exact (fle_trans _ _ _ CV CZ)|]. apply fsum_map_nonneg. intros. apply fsq. }
      pose proof (fsum_map_eq0 (map (rest n P) Y) (fun r => (dot n r p - dot n r q) * (dot n r p - dot n r q))%of ltac:(intros; apply fsq) Z r HR) as Z2. cbn beta in Z2. apply fmul_eq0 in Z2. assert (Z3 : (dot n r p - dot n r q)%of = f0) by tauto. replace (dot n r p) with ((dot n r p - dot n r q) + dot n r q)%of by ring. rewrite Z3. ring. }
    assert (SC : forall k, k < n -> fsum (map (fun y => y k * dot n y p)%of Y) = (c * p k)%of).
    { intros k Hk. rewrite (CE k Hk), map_map. 
      rewrite (fsum_map_ext Y (fun y => rest n P y k * dot n (rest n P y) q)%of (fun y => y k * dot n y p - fsum (map (fun w : vec => (dot n y w * dot n y p) * w k) P))%of).
      2:{ intros y HY. rewrite <- (DZ (rest n P y)) by (now apply in_map). rewrite (SAME y p PP), (rest_formula n P OP y k Hk). unfold remainder. replace (fsum (map (fun w : vec => dot n y w * dot n y p * w k)%of P)) with (fsum (map (fun w : vec => dot n y w * w k)%of P) * dot n y p)%of; [ring|]. rewrite <- fsum_map_mulr. apply fsum_map_ext. intros. ring. }
      rewrite fsum_map_sub, fsum_swap. rewrite (fsum_map_zero P); [match goal with |- ?a = (?b - f0)%of => change a with b; ring end|]. intros w W. rewrite fsum_map_mulr. fold (form n Y w p).
      apply (In_nth _ _ vzero) in W. destruct W as (j & Hj & <-). rewrite LP in Hj. rewrite (NP j Hj).
      assert (FZ : form n Y (nth j (map fst ps) vzero) p = f0).
      { set (w := nth j (map fst ps) vzero). transitivity (dot n (fun k => fsum (map (fun y => y k * dot n y w)%of Y)) p).
        - unfold form. unfold dot at 3. rewrite (fsumn_ext n _ (fun k => fsum (map (fun y : vec => dot n y w * (y k * p k))%of Y))). 2:{ intros k' _. rewrite <- fsum_map_mulr. apply fsum_map_ext. intros. ring. } rewrite fsumn_fsum. apply fsum_map_ext. intros y _. rewrite fsumn_mul. reflexivity.
        - rewrite (dot_ext n _ (fun k => form n Y w w * w k)%of p p); [|intros k' Hk'; apply (IH j Hj); [lia|exact Hk']|reflexivity]. rewrite dot_scale_l. unfold w at 3, p. rewrite O by (rewrite map_length; lia). unfold delta. replace (j =? i) with false; [ring|]. symmetry. apply Nat.eqb_neq. lia. }
      rewrite FZ. ring. }
    intros k Hk. rewrite (SC k Hk). f_equal. transitivity (dot n (fun k => fsum (map (fun y => y k * dot n y p)%of Y)) p).
    - rewrite (dot_ext n _ (fun k => c * p k)%of p p); [|exact SC|reflexivity]. rewrite dot_scale_l, U. ring.
    - unfold form. unfold dot at 1. rewrite (fsumn_ext n _ (fun k => fsum (map (fun y : vec => dot n y p * (y k * p k))%of Y))). 2:{ intros k' _. rewrite <- fsum_map_mulr. apply fsum_map_ext. intros. ring. } rewrite fsumn_fsum. apply fsum_map_ext. intros y _. rewrite fsumn_mul. reflexivity.
  Qed.
  Theorem C323_exact : forall chunks n o conv M s' i p d, 0 < n -> nip_stop (node chunks n o conv M) = (s', None) -> fle conv f0 -> comp_is s' i p d -> 2 <= length (concat chunks) ->
    exists m, n_avg s' = Some m /\ forall k, k < n -> (fsum (map (fun x => away m x k * dot n (away m x) p) (concat chunks)) / (fn (length (concat chunks)) - f1))%of = (d * p k)%of.
  Proof.
    intros chunks n o conv M s' i p d N0 E CZ H T2. destruct (stop_inv chunks n o conv M s' N0 E) as (ps0 & j0 & b0 & e0 & l0 & _ & _ & _ & _ & _ & _ & AV & _). eexists. split; [exact AV|].
    destruct (comp_inv chunks n o conv M s' N0 E) as (ps & (O & S2) & C & G). destruct (G i p d H) as (Hi & Ei). set (X := concat chunks) in *.
    intros k Hk. pose proof (exact_eigen n _ conv _ ps O C CZ i Hi k Hk) as EE. rewrite nth_fst, Ei in EE. cbn [fst] in EE. pose proof (C i Hi) as CO. unfold comp_ok in CO. rewrite Ei in CO. cbn [fst snd] in CO. destruct CO as (_ & -> & _).
    replace (fsum (map (fun x => away (mean n X) x k * dot n (away (mean n X) x) p)%of X)) with (fsum (map (fun y => y k * dot n y p)%of (center n X))).
    2:{ unfold center. rewrite map_map. apply fsum_map_ext. intros x _. rewrite tab_in by exact Hk. now rewrite dot_center. }
    rewrite EE. field. exact (pred_ne _ T2).
  Qed.

  (** ** C324: nan *)
  Lemma stop_nan chunks n o conv M s' : 0 < n -> nip_stop (node chunks n o conv M) = (s', None) ->
    let X := concat chunks in let Y := center n X in
    exists (ps : list (vec * K)) j l, l = map Some ps ++ repeat None j /\ split_ n (map fst ps) /\ (j <> 0 -> n_expl s' = Some None /\ first_sq (map (rest n (map fst ps)) Y) = f0) /\ n_comps s' = match n_out s' with Some k => firstn k l | None => l end.
  Proof.
    intros N0 E X Y. destruct (stop_inv chunks n o conv M s' N0 E) as (ps1 & j1 & b & e & l & EX & _ & _ & _ & NC & NX & _).
    pose proof (extract_spec sq SQ n conv M (length X) (variance n Y) (match o with OFrac q => Some q | _ => None end) Y N0 n [] f0 (split_nil n)) as S. replace (map (rest n []) Y) with Y in S by (symmetry; apply map_id). fold X Y in EX. rewrite EX in S.
    destruct S as (ps & j & L & S1 & LB & LK & E0 & E1 & _). exists ps, j, l. split; [exact L|]. split; [exact S1|]. split; [|exact NC]. intros J. destruct (E1 J) as (-> & _ & F). now split.
  Qed.
  Lemma rest_center n X (P : list vec) : orthonormal n P -> forall x i, i < n -> rest n P (tab n (fun i => x i - mean n X i)%of) i = remainder P n (away (mean n X) x) i.
  Proof. intros OP x k Hk. rewrite (rest_formula n P OP _ k Hk). unfold remainder. rewrite tab_in by exact Hk. f_equal. apply fsum_map_ext. intros w _. now rewrite dot_center. Qed.
  (** a component is nan if and only if the earlier ones leave nothing of the first variable; the later ones and explained_variance are nan then, too *)
  Theorem C324_nan : forall chunks n o conv M s' i, 0 < n -> nip_stop (node chunks n o conv M) = (s', None) -> nth_error (n_comps s') i = Some None ->
    exists m ps, n_avg s' = Some m /\ length ps <= i /\ (forall j p d, comp_is s' j p d <-> nth_error ps j = Some (p, d)) /\ n_expl s' = Some None /\
      forall x, In x (concat chunks) -> remainder (map fst ps) n (away m x) 0 = f0.
  Proof.
    intros chunks n o conv M s' i N0 E H. destruct (stop_inv chunks n o conv M s' N0 E) as (ps0 & j0 & b0 & e0 & l0 & _ & _ & _ & _ & _ & _ & AV & _). destruct (stop_nan chunks n o conv M s' N0 E) as (ps & j & l & L & (O & _) & J & NC). set (X := concat chunks) in *.
    assert (NC2 : exists k, n_comps s' = firstn k l). { destruct (n_out s') as [k|]; [now exists k|]. exists (length l). now rewrite firstn_all. } destruct NC2 as (k & NK).
    assert (IL : length ps <= i /\ j <> 0 /\ i < k). { rewrite NK, L in H. assert (IK : i < k). { assert (B : i < length (firstn k (map Some ps ++ repeat None j))) by (apply nth_error_Some; now rewrite H). rewrite firstn_length in B. lia. } apply firstn_nth in H. destruct (Nat.lt_ge_cases i (length ps)) as [A|A]; [exfalso; rewrite nth_error_app1 in H by (now rewrite map_length); rewrite nth_error_map in H; destruct (nth_error ps i); discriminate|]. split; [exact A|]. split; [|exact IK]. intros ->. cbn in H. rewrite app_nil_r in H. assert (B : i < length (map Some ps)) by (apply nth_error_Some; now rewrite H). rewrite map_length in B. lia. }
    destruct IL as (I1 & I2 & I3). destruct (J I2) as (NX & FZ). exists (mean n X), ps. split; [exact AV|]. split; [exact I1|]. split; [|split; [exact NX|]].
    - intros a p d. unfold comp_is. rewrite NK, L. split; intros HH.
      + destruct (nth_found ps j a (p, d) k HH) as (A & B). rewrite (nth_error_nth' ps (p, d) A). now rewrite B.
      + assert (A : a < length ps) by (apply nth_error_Some; now rewrite HH). rewrite firstn_app, nth_error_app1 by (rewrite firstn_length, map_length; lia). rewrite firstn_all2 by (rewrite map_length; lia). now rewrite nth_error_map, HH.
    - intros x HX. rewrite <- (rest_center n X (map fst ps) O x 0 N0). unfold first_sq in FZ. rewrite map_map in FZ. unfold center in FZ. rewrite map_map in FZ.
      pose proof (fsum_map_eq0 X _ ltac:(intros; apply fsq) FZ x HX) as Z. cbn beta in Z. apply fmul_eq0 in Z. tauto.
  Qed.
  Theorem C324_found : forall chunks n o conv M s' i p d, 0 < n -> nip_stop (node chunks n o conv M) = (s', None) -> comp_is s' i p d ->
    exists m P x, n_avg s' = Some m /\ length P = i /\ (forall j q e, j < i -> comp_is s' j q e -> nth j P vzero = q) /\ In x (concat chunks) /\ remainder P n (away m x) 0 <> f0.
  Proof.
    intros chunks n o conv M s' i p d N0 E H. destruct (stop_inv chunks n o conv M s' N0 E) as (ps0 & j0 & b0 & e0 & l0 & _ & _ & _ & _ & _ & _ & AV & _). destruct (comp_inv chunks n o conv M s' N0 E) as (ps & (O & S2) & C & G). destruct (G i p d H) as (Hi & Ei). set (X := concat chunks) in *.
    pose proof (C i Hi) as CO. destruct CO as (_ & _ & FS & _). set (P := firstn i (map fst ps)) in *. assert (OP : orthonormal n P) by (apply orth_firstn, O).
    assert (EXX : exists x, In x X /\ remainder P n (away (mean n X) x) 0 <> f0).
    { destruct (existsb (fun x => negb (iszero (remainder P n (away (mean n X) x) 0))) X) eqn:EB.
      - apply existsb_exists in EB. destruct EB as (x & A & B). exists x. split; [exact A|]. apply negb_true_iff in B. intros Z. apply iszero_spec in Z. congruence.
      - exfalso. apply FS. unfold first_sq. rewrite map_map. unfold center. rewrite map_map. apply fsum_map_zero. intros x HX. rewrite (rest_center n X P OP x 0 N0). destruct (iszero (remainder P n (away (mean n X) x) 0)) eqn:Z; [apply iszero_spec in Z; rewrite Z; ring|]. exfalso. assert (T : existsb (fun x => negb (iszero (remainder P n (away (mean n X) x) 0))) X = true) by (apply existsb_exists; exists x; rewrite Z; now split). congruence. }
    destruct EXX as (x & A & B). exists (mean n X), P, x. split; [exact AV|]. split; [unfold P; rewrite firstn_length, map_length; lia|]. split; [|now split].
    intros j w e Hj Hw. destruct (G j w e Hw) as (A1 & B1). unfold P. rewrite <- (app_nth1 _ (skipn i (map fst ps))) by (rewrite firstn_length, map_length; lia). rewrite firstn_skipn, nth_fst, B1. reflexivity.
  Qed.
  (** a constant first variable spoils every component *)
  Theorem C324_constant : forall chunks n o conv M a, 0 < n -> 0 < M -> concat chunks <> [] -> (forall x, In x (concat chunks) -> x 0 = a) ->
    let r := nip_stop (node chunks n o conv M) in snd r = None /\ n_comps (fst r) = repeat None (match o with OInt k => min k n | _ => n end) /\ n_expl (fst r) = Some None.
  Proof.
    intros chunks n o conv M a N0 M0 NE CO r. unfold r. rewrite (fed_spec chunks (nip_new n o conv M) []) by reflexivity. cbn [app]. unfold NipModel.nip_stop. cbn [put_data n_data nip_new n_dim n_des n_out n_conv n_max n_tlen]. rewrite Nat.add_0_l. destruct chunks as [|c0 cs]; [easy|]. remember (c0 :: cs) as chunks. set (X := concat chunks) in *. set (Y := center n X).
    assert (Z : sumsq (map (fun r : vec => r 0) Y) = f0). { unfold sumsq. rewrite map_map. unfold Y, center. rewrite map_map. apply fsum_map_zero. intros x HX. rewrite tab_in by exact N0. assert (MA : (fn (length X) * mean n X 0%nat)%of = (fn (length X) * a)%of). { transitivity (fsum (map (fun x : vec => x 0) X)); [exact (mean_sum n X 0 N0 NE)|]. rewrite (fsum_map_ext X _ (fun _ => a)) by exact CO. apply fsum_map_const. }
      assert (MB : mean n X 0 = a). { assert (NZ : fn (length X) <> (f0 : K)) by (apply fn_ne; destruct X; [easy|discriminate]). replace (mean n X 0) with (fn (length X) * mean n X 0%nat / fn (length X))%of by (field; exact NZ). rewrite MA. field. exact NZ. }
      rewrite MB, (CO x HX). ring. }
    assert (EX : forall var des, extract sq n conv M (length X) var des n Y f0 = Some (repeat None n, None, false)). { intros var des. destruct n as [|k]; [lia|]. destruct M as [|M']; [lia|]. cbn [extract turns]. unfold turn. match goal with |- context [sumsq ?t] => change (sumsq t) with (sumsq (map (fun r : vec => r 0) Y)) end. rewrite Z. replace (iszero (f0 : K)) with true by (symmetry; now apply iszero_spec). reflexivity. }
    rewrite EX. cbn [fst snd n_comps n_expl]. split; [reflexivity|]. split; [|reflexivity].
    assert (FR : forall k, firstn k (repeat (@None (vec * K)) n) = repeat None (min k n)). { clear. intros k. revert k. induction n as [|n IH]; intros [|k]; try reflexivity. cbn. now rewrite IH. }
    destruct o as [|k|q]; rewrite ?FR, ?Nat.min_id; reflexivity.
  Qed.

  (** ** C325: no convergence *)
  Inductive call := KTrain (x : list vec) | KStop.
  Definition run (c : call) (s : nip) : nip * option nexn := match c with KTrain x => nip_train x s | KStop => nip_stop s end.
  (** after the exception the node is of no use: every later call of train and stop_training fails *)
  Theorem C325_stuck : forall s s1, nip_stop s = (s1, Some NNode) -> forall cs, let s2 := fold_left (fun s c => fst (run c s)) cs s1 in
    (forall x, snd (nip_train x s2) = Some NAttribute) /\ snd (nip_stop s2) = Some NIndex.
  Proof.
    intros s s1 E cs s2. assert (B : match n_data s1 with Chunks _ => False | _ => True end).
    { unfold NipModel.nip_stop in E. destruct (n_data s) as [[|c l]|Y|]; try discriminate. destruct (extract _ _ _ _ _ _ _ _ _ _) as [[[l0 e] b]|]; [discriminate|]. injection E as <-. exact I. }
    assert (C : match n_data s2 with Chunks _ => False | _ => True end).
    { unfold s2. clear E s2. revert s1 B. induction cs as [|c cs IH]; intros s1 B; [exact B|]. apply IH. destruct c as [x|]; cbn [run]; [unfold nip_train|unfold NipModel.nip_stop]; destruct (n_data s1) eqn:D; try easy; cbn; now rewrite ?D. }
    split; [intros x|]; [unfold nip_train|unfold NipModel.nip_stop]; destruct (n_data s2); now try easy.
  Qed.
  Lemma turns_more n X conv k : forall t j, turns sq n X conv k t <> CFail -> turns sq n X conv (k + j) t = turns sq n X conv k t.
  Proof.
    induction k as [|k IH]; intros t j H; [now cbn in H|]. cbn [turns plus] in *. destruct (turn sq n X t) as [[[p t'] d]|]; [|reflexivity]. destruct (fltb conv d); [now apply IH|reflexivity].
  Qed.
  Lemma extract_more n conv M j T var des k : forall X ev r, extract sq n conv M T var des k X ev = Some r -> extract sq n conv (M + j) T var des k X ev = Some r.
  Proof.
    induction k as [|k IH]; intros X ev r H; [exact H|]. cbn [extract] in *. rewrite (turns_more n X conv M) by (intros Z; rewrite Z in H; discriminate). destruct (turns sq n X conv M _) as [| |p t]; try exact H. destruct (match des with Some q => _ | None => _ end); [exact H|].
    destruct (extract sq n conv M T var des k (deflate n X t p) _) as [[[l e] b]|] eqn:EE; [|discriminate]. now rewrite (IH _ _ _ EE).
  Qed.
  (** a larger max_it never changes the result of a successful training *)
  Theorem C325_more : forall chunks n o conv M M' s', nip_stop (node chunks n o conv M) = (s', None) -> M <= M' ->
    let r := nip_stop (node chunks n o conv M') in snd r = None /\ n_comps (fst r) = n_comps s' /\ n_avg (fst r) = n_avg s' /\ n_tot (fst r) = n_tot s' /\ n_expl (fst r) = n_expl s' /\ n_out (fst r) = n_out s'.
  Proof.
    intros chunks n o conv M M' s' E LE r. unfold r. rewrite (fed_spec chunks (nip_new n o conv M) []) in E by reflexivity. rewrite (fed_spec chunks (nip_new n o conv M') []) by reflexivity. cbn [app] in *. unfold NipModel.nip_stop in *. cbn [put_data n_data nip_new n_dim n_des n_out n_conv n_max n_tlen] in *. destruct chunks as [|c0 cs]; [discriminate|]. cbv zeta in *.
    match type of E with match ?x with _ => _ end = _ => destruct x as [[[c e] b]|] eqn:EX; [|discriminate] end. replace M' with (M + (M' - M)) by lia. rewrite (extract_more _ _ _ _ _ _ _ _ _ _ _ EX). injection E as <-. repeat split.
  Qed.
  (** with max_it = 0 no component can be found *)
  Theorem C325_zero : forall chunks n o conv, 0 < n -> chunks <> [] -> snd (nip_stop (node chunks n o conv 0)) = Some NNode.
  Proof.
    intros chunks n o conv N0 NE. rewrite (fed_spec chunks (nip_new n o conv 0) []) by reflexivity. cbn [app]. unfold NipModel.nip_stop. cbn [put_data n_data nip_new n_dim n_des n_out n_conv n_max n_tlen]. destruct chunks as [|c0 cs]; [easy|]. destruct n as [|n]; [lia|]. cbn [extract turns]. reflexivity.
  Qed.

  Lemma extract_all n conv M T var k : forall X ev c e b, extract sq n conv M T var None k X ev = Some (c, e, b) -> b = false.
  Proof. induction k as [|k IH]; intros X ev c e b EX; cbn [extract] in EX; [now injection EX|]. destruct (turns _ _ _ _ _ _) as [| |p t]; [now injection EX|discriminate|]. destruct (extract _ _ _ _ _ _ _ k _ _) as [[[l1 e1] b1]|] eqn:E1; [|discriminate]. injection EX as <- <- <-. exact (IH _ _ _ _ _ E1). Qed.
  (** ** C326: output_dim = k keeps the first k of all the components *)
  Theorem C326_prefix : forall chunks n k conv M, let a := nip_stop (node chunks n ONone conv M) in let b := nip_stop (node chunks n (OInt k) conv M) in
    snd b = snd a /\ (snd a = None -> k <= n -> n_comps (fst b) = firstn k (n_comps (fst a))) /\ n_expl (fst b) = n_expl (fst a) /\ n_avg (fst b) = n_avg (fst a) /\ n_tot (fst b) = n_tot (fst a).
  Proof.
    intros chunks n k conv M a b. unfold a, b. rewrite (fed_spec chunks (nip_new n ONone conv M) []) by reflexivity. rewrite (fed_spec chunks (nip_new n (OInt k) conv M) []) by reflexivity. cbn [app]. unfold NipModel.nip_stop. cbn [put_data n_data nip_new n_dim n_des n_out n_conv n_max n_tlen]. destruct chunks as [|c0 cs]; [repeat split; intros; cbn; now destruct k|]. cbv zeta.
    match goal with |- context [extract ?a1 ?a2 ?a3 ?a4 ?a5 ?a6 ?a7 ?a8 ?a9 ?a10] => destruct (extract a1 a2 a3 a4 a5 a6 a7 a8 a9 a10) as [[[c e] b']|] eqn:EX end; cbn; repeat split; try discriminate. intros _ KN.
    assert (NB : b' = false) by exact (extract_all _ _ _ _ _ _ _ _ _ _ _ EX).
    subst b'. rewrite firstn_firstn. now rewrite Nat.min_l.
  Qed.

  (** ** C327: the order of the data has no influence *)
  Lemma fsum_perm (l1 l2 : list K) : Permutation l1 l2 -> fsum l1 = fsum l2.
  Proof. induction 1; cbn; try congruence. ring. Qed.
  Lemma fsum_map_perm {A} (f : A -> K) l1 l2 : Permutation l1 l2 -> fsum (map f l1) = fsum (map f l2).
  Proof. intros H. now apply fsum_perm, Permutation_map. Qed.
  Lemma tab_ext n (f g : vec) : (forall i, i < n -> f i = g i) -> tab n f = tab n g.
  Proof. intros H. unfold tab. replace (map f (seq 0 n)) with (map g (seq 0 n)); [reflexivity|]. apply map_ext_in. intros i Hi. apply in_seq in Hi. symmetry. apply H. lia. Qed.
  Lemma over_ext n (f g : vec) c : (forall i, i < n -> f i = g i) -> over n f c = over n g c.
  Proof. intros H. unfold over. apply tab_ext. intros i Hi. now rewrite H. Qed.
  Lemma mean_perm n (X X' : list vec) : Permutation X X' -> mean n X = mean n X'.
  Proof. intros H. unfold mean. apply tab_ext. intros i _. rewrite (Permutation_length H). f_equal. now apply fsum_map_perm. Qed.
  Lemma center_perm n (X X' : list vec) : Permutation X X' -> Permutation (center n X) (center n X').
  Proof. intros H. unfold center. rewrite (mean_perm n X X' H). now apply Permutation_map. Qed.
  Lemma variance_perm n (X X' : list vec) : Permutation X X' -> variance n X = variance n X'.
  Proof. intros H. unfold variance. rewrite (mean_perm n X X' H), (Permutation_length H). apply fsumn_ext. intros i _. f_equal. now apply fsum_map_perm. Qed.
  (** the scores are a function of the rows *)
  Lemma turn_perm n (X X' : list vec) (g : vec -> K) : Permutation X X' ->
    match turn sq n X (map g X), turn sq n X' (map g X') with
    | None, None => True
    | Some (p, t, d), Some (p', t', d') => p = p' /\ d = d' /\ t = scores n X p /\ t' = scores n X' p
    | _, _ => False
    end.
  Proof.
    intros H. unfold turn. assert (TT : sumsq (map g X) = sumsq (map g X')) by (unfold sumsq; rewrite !map_map; now apply fsum_map_perm). rewrite <- TT. destruct (iszero (sumsq (map g X))); [exact I|].
    assert (LL : loading X (map g X) = loading X (map g X) /\ forall i, loading X (map g X) i = loading X' (map g X') i).
    { split; [reflexivity|]. intros i. unfold loading. rewrite !combine_map, !map_map. now apply fsum_map_perm. }
    rewrite (over_ext n (loading X (map g X)) (loading X' (map g X'))) by (intros; apply LL). destruct (iszero _); [exact I|]. split; [reflexivity|]. split; [|now split]. unfold scores, sumsq. rewrite !combine_maps, !map_map. now apply fsum_map_perm.
  Qed.
  Lemma turns_perm n (X X' : list vec) conv k : Permutation X X' -> forall g,
    match turns sq n X conv k (map g X), turns sq n X' conv k (map g X') with
    | CNan, CNan | CFail, CFail => True
    | CDone p t, CDone p' t' => p = p' /\ t = scores n X p /\ t' = scores n X' p
    | _, _ => False
    end.
  Proof.
    intros H. induction k as [|k IH]; intros g; cbn [turns]; [exact I|]. pose proof (turn_perm n X X' g H) as T. destruct (turn sq n X (map g X)) as [[[p t] d]|], (turn sq n X' (map g X')) as [[[p' t'] d']|]; try easy. destruct T as (<- & <- & -> & ->). destruct (fltb conv d); [apply IH|now repeat split].
  Qed.
  Lemma extract_perm n conv M T var des k : forall X X' ev, Permutation X X' -> extract sq n conv M T var des k X ev = extract sq n conv M T var des k X' ev.
  Proof.
    induction k as [|k IH]; intros X X' ev H; [reflexivity|]. cbn [extract]. pose proof (turns_perm n X X' conv M H (fun r => r 0)) as TP. destruct (turns sq n X conv M _) as [| |p t], (turns sq n X' conv M _) as [| |p' t']; try easy. destruct TP as (<- & -> & ->).
    assert (PW : power n (scores n X p) p T = power n (scores n X' p) p T) by (unfold power, scores, sumsq; rewrite !map_map; f_equal; now apply fsum_map_perm). rewrite PW. destruct (match des with Some q => _ | None => _ end); [reflexivity|].
    rewrite (IH (deflate n X (scores n X p) p) (deflate n X' (scores n X' p) p)); [reflexivity|]. unfold deflate, scores. rewrite !combine_map, !map_map. now apply Permutation_map.
  Qed.
  Theorem C327_order : forall a b n o conv M, a <> [] -> b <> [] -> Permutation (concat a) (concat b) -> let r := nip_stop (node a n o conv M) in let r' := nip_stop (node b n o conv M) in
    snd r = snd r' /\ n_comps (fst r) = n_comps (fst r') /\ n_avg (fst r) = n_avg (fst r') /\ n_tot (fst r) = n_tot (fst r') /\ n_expl (fst r) = n_expl (fst r') /\ n_out (fst r) = n_out (fst r').
  Proof.
    intros a b n o conv M NA NB H r r'. unfold r, r'. rewrite (fed_spec a (nip_new n o conv M) []) by reflexivity. rewrite (fed_spec b (nip_new n o conv M) []) by reflexivity. cbn [app]. unfold NipModel.nip_stop. cbn [put_data n_data nip_new n_dim n_des n_out n_conv n_max n_tlen]. destruct a as [|a0 a]; [easy|]. destruct b as [|b0 b]; [easy|]. remember (a0 :: a) as A. remember (b0 :: b) as B. cbv zeta.
    rewrite (mean_perm n _ _ H), (variance_perm n _ _ (center_perm n _ _ H)), (Permutation_length H). rewrite (extract_perm n conv M _ _ _ n _ _ f0 (center_perm n _ _ H)). destruct (extract _ _ _ _ _ _ _ _ _ _) as [[[c e] bb]|]; repeat split.
  Qed.
End Nip.

(** ** Examples and refutations over the rationals; [qsq] is exact on the squares of rationals, the only arguments below *)
Definition qnode (o : odim (K := Qc_of)) (conv : Q) (M : nat) (chunks : list (list (nat -> Qc))) := nip_stop (K := Qc_of) qsq (fed (K := Qc_of) chunks (nip_new (K := Qc_of) 2 o (Q2Qc conv) M)).
Definition qcomps (s : nip (K := Qc_of)) : list (option (Q * Q * Q)) := map (option_map (fun c : (nat -> Qc) * Qc => (this (fst c 0), this (fst c 1), this (snd c)))) (n_comps s).
Definition qo (x : option (option Qc)) : option (option Q) := option_map (option_map this) x.
Definition rows6 : list (list (nat -> Qc)) := [[q2 1 1; q2 (-1) (-1); q2 1 1]; [q2 (-1) (-1); q2 1 2; q2 (-1) (-2)]].
Definition rows4 (a b : Q) : list (list (nat -> Qc)) := [[q2 a 0; q2 (-a) 0; q2 0 b; q2 0 (-b)]].

Example C319_ex : (snd (qnode ONone 1000 1 rows6), qcomps (fst (qnode ONone 1000 1 rows6))) = (None, [Some (3#5, 4#5, 438#125); Some (4#5, -3#5, 12#125)])%Q.
Proof. vm_compute. reflexivity. Qed.
(** two variables with standard deviations 1 and 2: the variance of the first output, computed from the outputs *)
Example C320_ex : (let X := concat (rows4 3 2) in let s := fst (qnode ONone 0 5 [map (fun x i => (x i + Q2Qc 7)%Qc) X]) in (qcomps s, map (fun x => map this (nip_execute (K := Qc_of) s x)) [q2 10 7; q2 7 9])) = ([Some (1, 0, 6#1); None], [[3#1; 0]; [0; 0]])%Q.
Proof. vm_compute. reflexivity. Qed.
Example C321_ex : (let s := fst (qnode (OFrac (K := Qc_of) (Q2Qc (1#2))) 1000 1 rows6) in (qcomps s, n_out s, qo (n_expl s), option_map this (n_tot s))) = ([Some (3#5, 4#5, 438#125)], Some 1%nat, Some (Some (146#125)), Some (3#1))%Q.
Proof. vm_compute. reflexivity. Qed.
(** 9/10 of the variance is desired, the kept component has 9/13 of it *)
Theorem C321_refuted : exists chunks q, let r := qnode (OFrac (K := Qc_of) q) 0 5 chunks in snd r = None /\
  flt (K := Qc_of) (fsum (K := Qc_of) (map (fun x => fsum (K := Qc_of) (map (fun y => (y * y)%Qc) (nip_execute (K := Qc_of) (fst r) x))) (concat chunks))) (q * spread (K := Qc_of) 2 (concat chunks))%Qc /\
  n_out (fst r) = Some 1%nat.
Proof. exists (rows4 3 2), (Q2Qc (9#10)). vm_compute. repeat split; reflexivity. Qed.
Example C322_ex : (let s := fst (qnode ONone 1000 1 rows6) in qcomps s) = [Some (3#5, 4#5, 438#125); Some (4#5, -3#5, 12#125)]%Q /\ Qle (6 # 5) (438 # 125).
Proof. split; [vm_compute; reflexivity|]. intros H; vm_compute in H; discriminate. Qed.
(** variances 2/3 and 8/3: the first component, and with output_dim = 1 the only one, is the first variable *)
Theorem C322_refuted : exists chunks (v : nat -> Qc), let r := qnode (OInt 1) 0 5 chunks in snd r = None /\ dot (K := Qc_of) 2 v v = 1%Qc /\ length (n_comps (fst r)) = 1%nat /\
  flt (K := Qc_of) (fsum (K := Qc_of) (map (fun x => fsum (K := Qc_of) (map (fun y => (y * y)%Qc) (nip_execute (K := Qc_of) (fst r) x))) (concat chunks))) (fsum (K := Qc_of) (map (fun x => (dot (K := Qc_of) 2 x v * dot (K := Qc_of) 2 x v)%Qc) (concat chunks))) /\
  (forall i, In i [0; 1] -> fsum (K := Qc_of) (map (fun x => x i) (concat chunks)) = 0%Qc).
Proof.
  exists (rows4 1 2), (q2 0 1). cbv zeta. split; [vm_compute; reflexivity|]. split; [apply Qc_is_canon; vm_compute; reflexivity|]. split; [vm_compute; reflexivity|]. split; [vm_compute; reflexivity|].
  intros i [<-|[<-|[]]]; apply Qc_is_canon; vm_compute; reflexivity.
Qed.
(** two turns are needed and enough for data on a line *)
Definition line : list (list (nat -> Qc)) := [[q2 3 4]; [q2 (-3) (-4)]].
Example C323_ex : (snd (qnode (OInt 1) 0 2 line), qcomps (fst (qnode (OInt 1) 0 2 line))) = (None, [Some (3#5, 4#5, 50)])%Q.
Proof. vm_compute. reflexivity. Qed.
Example C324_ex : (qcomps (fst (qnode ONone 0 5 [[q2 5 1; q2 5 2; q2 5 4]])), qo (n_expl (fst (qnode ONone 0 5 [[q2 5 1; q2 5 2; q2 5 4]])))) = ([None; None], Some None).
Proof. vm_compute. reflexivity. Qed.
(** two uncorrelated variables of variance 2/3 each: the second component is nan *)
Theorem C324_refuted : exists chunks, let r := qnode ONone 0 5 chunks in snd r = None /\ map (fun c => match c with Some _ => true | None => false end) (n_comps (fst r)) = [true; false] /\
  (forall v : nat -> Qc, In v [q2 1 0; q2 0 1] -> fsum (K := Qc_of) (map (fun x => (dot (K := Qc_of) 2 x v * dot (K := Qc_of) 2 x v)%Qc) (concat chunks)) = Q2Qc 2) /\
  fsum (K := Qc_of) (map (fun x => (x 0%nat * x 1%nat)%Qc) (concat chunks)) = 0%Qc /\ (forall i, In i [0; 1] -> fsum (K := Qc_of) (map (fun x => x i) (concat chunks)) = 0%Qc).
Proof.
  exists (rows4 1 1). cbv zeta. split; [vm_compute; reflexivity|]. split; [vm_compute; reflexivity|]. split; [intros v [<-|[<-|[]]]; apply Qc_is_canon; vm_compute; reflexivity|]. split; [apply Qc_is_canon; vm_compute; reflexivity|].
  intros i [<-|[<-|[]]]; apply Qc_is_canon; vm_compute; reflexivity.
Qed.
(** node.max_it = M by the user *)
Definition set_max {K : ofield} (M : nat) (s : nip (K := K)) : nip (K := K) := mkN (n_dim s) (n_out s) (n_des s) (n_conv s) M (n_data s) (n_tlen s) (n_avg s) (n_tot s) (n_comps s) (n_expl s).
Example C325_ex : (snd (qnode ONone 0 1 line), snd (qnode ONone 0 2 line), snd (qnode ONone 0 100 line), snd (qnode ONone 0 0 line)) = (Some NNode, None, None, Some NNode).
Proof. vm_compute. reflexivity. Qed.
(** with max_it = 1 training does not converge; with a larger max_it, set afterwards, it cannot be repeated *)
Theorem C325_refuted : exists chunks, let r := qnode ONone 0 1 chunks in snd r = Some NNode /\ snd (nip_stop (K := Qc_of) qsq (set_max 5 (fst r))) = Some NIndex /\ snd (qnode ONone 0 5 chunks) = None.
Proof. exists line. cbv zeta. repeat split; vm_compute; reflexivity. Qed.
Example C326_ex : (qcomps (fst (qnode (OInt 1) 1000 1 rows6)), qo (n_expl (fst (qnode (OInt 1) 1000 1 rows6)))) = ([Some (3#5, 4#5, 438#125)], Some (Some (6#5)))%Q.
Proof. vm_compute. reflexivity. Qed.
Example C327_ex : qcomps (fst (qnode ONone 1000 1 [rev (concat rows6)])) = [Some (3#5, 4#5, 438#125); Some (4#5, -3#5, 12#125)]%Q.
Proof. vm_compute. reflexivity. Qed.
