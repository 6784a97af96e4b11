(** Theorems about classifiers: ranking (C53), Markov (C54, C143), k nearest neighbours (C55), nearest mean (C56), cumulator (C142). *)
From Coq Require Import List Arith ZArith QArith Qcanon Bool Lia Permutation Sorting.Sorted.
From Verif Require Import CovModel CovProofs ClassModel ClassProofs.
Import ListNotations.
Local Open Scope nat_scope.

(** ** C53 *)
Theorem C53_rank {L} (threshold : option Qc) (p : list (L * Qc)) : exists q : list (L * Qc),
  rank threshold p = map fst q
  /\ Permutation q (filter (fun e => match threshold with None => true | Some t => if Qclt_le_dec t (snd e) then true else false end) p)
  /\ StronglySorted (fun a b => (snd b <= snd a)%Qc) q
  /\ (forall v, let eqv := fun e : L * Qc => if Qc_eq_dec (snd e) v then true else false in
      filter eqv q = filter eqv (filter (fun e => match threshold with None => true | Some t => if Qclt_le_dec t (snd e) then true else false end) p)).
Proof.
  set (above := fun e : L * Qc => match threshold with None => true | Some t => if Qclt_le_dec t (snd e) then true else false end).
  exists (sorted_desc (filter above p)). split; [|split; [apply sorted_perm|split; [apply sorted_sorted|intro v; apply sorted_stable]]].
  unfold rank. do 2 f_equal. unfold above. destruct threshold as [t|].
  - apply filter_ext. intro e. unfold qleb. destruct (Qclt_le_dec t (snd e)); reflexivity.
  - induction p as [|a p IH]; cbn; [reflexivity|now rewrite <- IH].
Qed.
Example C53_ex : rank (Some (Q2Qc (1 # 10))) [(1, Q2Qc (1 # 10)); (2, Q2Qc (2 # 10)); (3, Q2Qc (5 # 10)); (4, Q2Qc (2 # 10))] = [3; 2; 4].
Proof. vm_compute. reflexivity. Qed.

(** ** C142: ClassifierCumulator *)
Fixpoint ccum_run {L} (s : @ccum L) (calls : list (list vec * labels_arg L)) : ccum * list cres :=
  match calls with [] => (s, []) | (x, l) :: calls => let (s, r) := ccum_train s x l in let (s, rs) := ccum_run s calls in (s, r :: rs) end.
(** documented: labels may be a list, a tuple or a single label; but the call fails after taking the data, and the node cannot be trained any more *)
Theorem C142_cumulator_labels_refuted : exists (x : list vec) (labels : labels_arg nat) (d : nat),
  let s := fst (ccum_train (mkCC 0 [] []) x labels) in
  snd (ccum_train (mkCC 0 [] []) x labels) = CAttrError /\ cc_tlen s = 2 /\ cc_labels s = [] /\
  forall calls, Forall (fun c : list vec * labels_arg nat => Forall (fun v => length v = d) (fst c)) calls -> ccum_stop d (fst (ccum_run s calls)) = None.
Proof.
  exists [[1%Qc]; [0%Qc]], (Listed [0; 1]), 1. repeat split.
  assert (H : forall calls (s : @ccum nat), length (cc_labels s) < cc_tlen s -> length (cc_labels (fst (ccum_run s calls))) < cc_tlen (fst (ccum_run s calls))).
  { induction calls as [|[x l] calls IH]; intros s Hs; cbn; [assumption|].
    assert (Ht : length (cc_labels (fst (ccum_train s x l))) < cc_tlen (fst (ccum_train s x l))).
    { destruct l as [k|ls|ls]; cbn; [lia| |].
      - destruct (negb (length ls =? length x)); cbn; lia.
      - destruct (length ls =? length x) eqn:E; cbn; [|assumption]. apply Nat.eqb_eq in E. rewrite app_length. lia. }
    destruct (ccum_train s x l) as [s1 r]. cbn in Ht. specialize (IH s1 Ht). destruct (ccum_run s1 calls). exact IH. }
  intros calls _. specialize (H calls (fst (ccum_train (mkCC 0 [] []) [[1%Qc]; [0%Qc]] (Listed [0; 1]))) ltac:(cbn; lia)). revert H.
  generalize (fst (ccum_run (fst (ccum_train (mkCC 0 [] []) [[1%Qc]; [0%Qc]] (Listed [0; 1]))) calls)). intros r H. unfold ccum_stop.
  replace (length (cc_labels r) =? cc_tlen r) with false; [now rewrite andb_false_r|]. symmetry. apply Nat.eqb_neq. lia.
Qed.
Theorem C142_cumulator_fails {L} (s : @ccum L) x labels : (forall ls, labels <> Arrayed ls) -> snd (ccum_train s x labels) <> COk.
Proof. destruct labels as [l|ls|ls]; intro H; cbn; [discriminate|destruct (negb _); discriminate|now destruct (H ls)]. Qed.
Lemma rows_of_app d x : Forall (fun v : vec => length v = d) x -> rows_of (length x) d (concat x) = x.
Proof.
  induction x as [|v x IH]; intro H; [reflexivity|]. inversion H as [|? ? Hv Hx]; subst. cbn. rewrite firstn_app, Nat.sub_diag, firstn_all, skipn_app, Nat.sub_diag, skipn_all. cbn.
  now rewrite app_nil_r, IH.
Qed.
(** with arrays the data and labels of all calls are collected in order *)
Theorem C142_cumulator_arrays_partial {L} (calls : list (list vec * list L)) d :
  Forall (fun c => length (snd c) = length (fst c) /\ Forall (fun v => length v = d) (fst c)) calls ->
  let run := ccum_run (mkCC 0 [] []) (map (fun c => (fst c, Arrayed (snd c))) calls) in
  Forall (eq COk) (snd run) /\ ccum_stop d (fst run) = Some (concat (map fst calls), concat (map snd calls)).
Proof.
  intros H.
  assert (G : forall (s : @ccum L) pre, cc_data s = concat pre -> cc_tlen s = length pre -> length (cc_labels s) = length pre -> Forall (fun v => length v = d) pre ->
    let run := ccum_run s (map (fun c => (fst c, Arrayed (snd c))) calls) in
    Forall (eq COk) (snd run) /\ ccum_stop d (fst run) = Some (pre ++ concat (map fst calls), cc_labels s ++ concat (map snd calls))).
  { induction H as [|[x ls] calls [Hl Hx] _ IH]; intros s pre Hd Ht Hls Hp.
    - cbn. split; [constructor|]. unfold ccum_stop. rewrite Ht, Hd, Hls, Nat.eqb_refl, andb_true_r.
      assert (E : length (concat pre) = length pre * d) by (clear -Hp; induction Hp; cbn; [reflexivity|rewrite app_length; lia]).
      rewrite E, Nat.eqb_refl, rows_of_app, !app_nil_r by assumption. reflexivity.
    - cbn [map fst snd ccum_run ccum_train] in *. rewrite Hl, Nat.eqb_refl. cbn [negb].
      unfold vec in *. set (s1 := mkCC (cc_tlen s + length x) (cc_data s ++ concat x) (cc_labels s ++ ls)). specialize (IH s1 (pre ++ x)).
      destruct (ccum_run s1 (map (fun c => (fst c, Arrayed (snd c))) calls)) as [s2 rs]. cbn [fst snd] in *.
      destruct IH as [Hf Hs]; [cbn; now rewrite Hd, concat_app|cbn; now rewrite app_length, Ht|cbn; rewrite !app_length; lia|apply Forall_app; now split|].
      split; [now constructor|]. rewrite Hs. cbn [cc_labels s1 concat]. now rewrite !app_assoc. }
  exact (G (mkCC 0 [] []) [] eq_refl eq_refl eq_refl (Forall_nil _)).
Qed.
Example C142_ex : ccum_stop 1 (fst (ccum_run (mkCC 0 [] []) [([[1%Qc]; [0%Qc]], Arrayed [7; 8]); ([[1%Qc]], Arrayed [9])])) = Some ([[1%Qc]; [0%Qc]; [1%Qc]], [7; 8; 9]).
Proof. reflexivity. Qed.

(** ** C54, C143: SimpleMarkovClassifier *)
Section Markov.
  Context {F L : Type} (eqF : forall a b : F, {a = b} + {a <> b}) (eqL : forall a b : L, {a = b} + {a <> b}).
  Definition eqP := eqFL eqF eqL.
  Notation learnm := (learn eqF eqL).
  (** the (feature, label) pairs a call stands for: a single label is meant for all points *)
  Definition fl_pairs (x : list F) (labels : labels_arg L) : list (F * L) :=
    match labels with Single l => map (fun f => (f, l)) x | Listed ls | Arrayed ls => combine x ls end.
  Fixpoint markov_run (iter : L -> option (list L)) (s : markov) (calls : list (list F * labels_arg L)) : option markov :=
    match calls with [] => Some s | (x, l) :: calls => match markov_train eqF eqL iter s x l with Some s => markov_run iter s calls | None => None end end.

  Lemma learn_all h : forall s, fold_left learnm h s =
    mkM (m_total s + length h) (fold_left (fun d k => dupd eqF incr k d) (map fst h) (m_features s)) (fold_left (fun d k => dupd eqL incr k d) (map snd h) (m_labels s))
        (fold_left (fun d k => dupd eqP incr k d) h (m_conns s)).
  Proof. induction h as [|xl h IH]; intro s; cbn; [rewrite Nat.add_0_r; now destruct s|]. rewrite IH. cbn. f_equal. lia. Qed.
  Lemma count_sum f ks h : NoDup ks -> (forall p, In p h -> In (snd p) ks) -> list_sum (map (fun l => count_occ eqP h (f, l)) ks) = count_occ eqF (map fst h) f.
  Proof.
    intros Hn. induction h as [|[g k] h IH]; intro Hk.
    - cbn. clear. induction ks; cbn; auto.
    - cbn [map fst count_occ]. rewrite <- IH by (intros; apply Hk; now right). assert (Hin : In k ks) by (apply (Hk (g, k)); now left). clear IH Hk.
      destruct (eqF g f) as [->|Hg].
      + assert (Hc : forall (a : nat) l, list_sum (a :: l) = a + list_sum l) by reflexivity.
        induction ks as [|a ks IH]; [destruct Hin|]. inversion Hn as [|? ? Hna Hn']; subst. cbn [map]. rewrite !Hc. destruct (eqP (f, k) (f, a)) as [E|E].
        * injection E as <-. cbn [plus]. f_equal. f_equal.
          assert (Hs : map (fun l => if eqP (f, k) (f, l) then S (count_occ eqP h (f, l)) else count_occ eqP h (f, l)) ks = map (fun l => count_occ eqP h (f, l)) ks).
          { apply map_ext_in. intros l Hl. destruct (eqP (f, k) (f, l)) as [E|]; [injection E as <-; contradiction|reflexivity]. }
          now rewrite Hs.
        * destruct Hin as [->|Hin]; [congruence|]. rewrite IH by assumption. lia.
      + f_equal. apply map_ext. intro l. destruct (eqP (g, k) (f, l)) as [E|]; [injection E; congruence|reflexivity].
  Qed.
  Lemma qn_list_sum l : qn (list_sum l) = qsum (map qn l).
  Proof. induction l as [|a l IH]; [reflexivity|]. change (list_sum (a :: l)) with (a + list_sum l). cbn [map qsum]. now rewrite qn_add, IH. Qed.
  Lemma geti_keys {K} (eqK : forall a b : K, {a = b} + {a <> b}) h k n : dget eqK k (fold_left (fun d k => dupd eqK incr k d) h []) = Some n -> n = count_occ eqK h k.
  Proof. intro E. pose proof (dget_count eqK h [] k) as H. rewrite E in H. exact H. Qed.

  (** training by calls is learning all their pairs *)
  Theorem C54_train iter calls : (forall l, iter l = None) ->
    markov_run iter markov_init calls =
      if forallb (fun c => match snd c with Single _ => true | Listed ls | Arrayed ls => length ls =? length (fst c) end) calls
      then Some (fold_left learnm (concat (map (fun c => fl_pairs (fst c) (snd c)) calls)) markov_init) else None.
  Proof.
    intro Hi. generalize (@markov_init F L). induction calls as [|[x l] calls IH]; intro s; cbn; [reflexivity|].
    destruct l as [k|ls|ls]; cbn; [rewrite Hi| |]; try (destruct (length ls =? length x); [|reflexivity]); cbn; rewrite IH; rewrite fold_left_app; reflexivity.
  Qed.
  Theorem C54_markov (hist : list (F * L)) (f : F) :
    let p := prob_one eqF eqL (fold_left learnm hist markov_init) f in
    (~ In f (map fst hist) -> p = []) /\
    (In f (map fst hist) ->
       NoDup (map fst p) /\ (forall l, In l (map fst p) <-> In l (map snd hist)) /\
       (forall l q, In (l, q) p -> q = (qn (count_occ eqP hist (f, l)) / qn (count_occ eqF (map fst hist) f))%Qc) /\
       qsum (map snd p) = 1%Qc).
  Proof.
    cbv zeta. rewrite learn_all. unfold prob_one. cbn [m_features m_labels m_conns m_total markov_init].
    pose proof (keys_fold eqF (map fst hist) [] f) as Hk. cbn in Hk.
    pose proof (dget_count eqF (map fst hist) [] f) as Hc. cbn [dget geti] in Hc.
    destruct (dget eqF f (fold_left (fun d k => dupd eqF incr k d) (map fst hist) [])) as [nf|] eqn:Ef.
    2:{ apply dget_none in Ef. split; [reflexivity|]. intro H. exfalso. tauto. }
    cbn in Hc. subst nf. assert (Hin : In f (map fst hist)) by (apply dget_in in Ef; apply (in_map fst) in Ef; cbn in Ef; tauto).
    split; [contradiction|]. intros _. set (ls := fold_left (fun d k => dupd eqL incr k d) (map snd hist) []).
    assert (Hnl : NoDup (map fst ls)) by (apply nodup_fold; constructor).
    assert (Hkl : forall l, In l (map fst ls) <-> In l (map snd hist)) by (intro l; unfold ls; rewrite keys_fold; cbn; tauto).
    assert (Hf : qn (count_occ eqF (map fst hist) f) <> 0%Qc) by (apply qn_pos; apply count_occ_In with (eq_dec := eqF) in Hin; lia).
    assert (Ht : qn (length hist) <> 0%Qc) by (apply qn_pos; destruct hist; [destruct Hin|discriminate]).
    set (val := fun l => (qn (count_occ eqP hist (f, l)) / qn (count_occ eqF (map fst hist) f))%Qc).
    rewrite (map_ext_in _ (fun e : L * nat => (fst e, val (fst e)))).
    2:{ intros [l n] Hl. cbn [fst]. f_equal. pose proof (in_map fst _ _ Hl) as Hi. cbn [fst] in Hi. apply Hkl in Hi. apply (in_dget eqL) in Hl; [|assumption].
        rewrite Hl. change (eqFL eqF eqL) with eqP. pose proof (dget_count eqP hist [] (f, l)) as Hg. cbn [dget geti] in Hg. rewrite Hg. apply geti_keys in Hl. subst n. cbn [geti].
        assert (Hl : qn (count_occ eqL (map snd hist) l) <> 0%Qc) by (apply qn_pos; apply count_occ_In with (eq_dec := eqL) in Hi; lia).
        unfold val. cbn. field. repeat split; assumption. }
    rewrite !map_map. cbn [fst snd]. split; [exact Hnl|]. split; [exact Hkl|]. split.
    - intros l q H. apply in_map_iff in H as (e & E & _). injection E as <- <-. reflexivity.
    - change (fun x : L * nat => val (fst x)) with (fun x : L * nat => (qn (count_occ eqP hist (f, fst x)) * / qn (count_occ eqF (map fst hist) f))%Qc).
      rewrite (qsum_map_mulr (/ qn (count_occ eqF (map fst hist) f))%Qc (fun x : L * nat => qn (count_occ eqP hist (f, fst x)))).
      rewrite <- (map_map fst (fun l => qn (count_occ eqP hist (f, l)))), <- (map_map (fun l => count_occ eqP hist (f, l)) qn), <- qn_list_sum, count_sum; [now apply Qcmult_inv_r|assumption|].
      intros p Hp. apply Hkl. now apply in_map.
  Qed.
End Markov.
Example C54_ex : prob_one Nat.eq_dec Nat.eq_dec (fold_left (learn Nat.eq_dec Nat.eq_dec) [(1, 5); (1, 6); (2, 5); (1, 5)] markov_init) 1
  = [(5, Q2Qc (2 # 3)); (6, Q2Qc (1 # 3))].
Proof. vm_compute. apply f_equal2; [apply f_equal, Qc_is_canon; reflexivity|]. apply f_equal2; [apply f_equal, Qc_is_canon; reflexivity|reflexivity]. Qed.

(** documented: "a single label, in which case all input data is assigned to the same class"; but a string is taken apart *)
Theorem C143_markov_string_label_refuted : exists (iter : nat -> option (list nat)) (x : list nat) (l : nat),
  exists s, markov_train Nat.eq_dec Nat.eq_dec iter markov_init x (Single l) = Some s /\ m_total s < length x /\ dget Nat.eq_dec l (m_labels s) = None.
Proof. exists (fun l => if l =? 9 then Some [7; 8] else None), [1; 2; 3], 9. eexists. split; [reflexivity|]. cbn. split; [lia|reflexivity]. Qed.
Theorem C143_markov_single_label_partial {F L} (eqF : forall a b : F, {a = b} + {a <> b}) (eqL : forall a b : L, {a = b} + {a <> b}) iter s x l : iter l = None ->
  markov_train eqF eqL iter s x (Single l) = Some (fold_left (learn eqF eqL) (map (fun f => (f, l)) x) s).
Proof. intro H. cbn. now rewrite H. Qed.

(** ** C55: k nearest neighbours *)
Section ByLabel.
  Context {L : Type} (eqL : forall a b : L, {a = b} + {a <> b}) (enum : list L -> list L).
  Hypothesis enum_ok : forall ls, NoDup (enum ls) /\ forall l, In l (enum ls) <-> In l ls.
  (** the labelled samples given to training by some calls *)
  Definition training_data (calls : list (list vec * labels_arg L)) : list (L * vec) := concat (map (fun c => pairs (fst c) (snd c)) calls).
  Fixpoint knn_run (s : knn_state) (calls : list (list vec * labels_arg L)) : option knn_state :=
    match calls with [] => Some s | (x, l) :: calls => match knn_train eqL enum s x l with Some s => knn_run s calls | None => None end end.
  Definition argsort_ok (ds : list Qc) (inds : list nat) : Prop :=
    Permutation inds (seq 0 (length ds)) /\ StronglySorted (fun i j => (nth i ds 0 <= nth j ds 0)%Qc) inds.
  Definition votes (l : L) (ps : list (L * vec)) : nat := length (filter (fun p => if eqL (fst p) l then true else false) ps).

  Definition stored (s : @knn_state L) : list (L * vec) := concat (map (fun e => map (fun v => (fst e, v)) (concat (snd e))) s).
  Definition knn_rep (s : @knn_state L) (ps : list (L * vec)) : Prop := dict_rep eqL (fun v xs => concat v = xs) s ps.
  Lemma knn_rep_run calls : forall s ps s', knn_rep s ps -> knn_run s calls = Some s' -> knn_rep s' (ps ++ training_data calls).
  Proof.
    induction calls as [|[x l] calls IH]; intros s ps s' H; cbn; [intros [= <-]; unfold training_data; cbn; now rewrite app_nil_r|].
    unfold knn_train. destruct (label_groups eqL enum x l) as [gs|] eqn:E; cbn; [|discriminate]. intro Hr. unfold training_data. cbn. rewrite app_assoc.
    apply (IH _ (ps ++ pairs x l) _) in Hr; [exact Hr|]. unfold knn_rep. change (add_samples eqL) with (fun d (g : L * list vec) => dupd eqL ((fun g o => match o with Some c => c | None => [] end ++ [g]) (snd g)) (fst g) d).
    apply (build_call eqL enum enum_ok (fun (g : list vec) (o : option (list (list vec))) => match o with Some c => c | None => [] end ++ [g]) (fun v xs => concat v = xs)); [| |exact H|exact E].
    - intro g. cbn. apply app_nil_r.
    - intros g v xs <-. rewrite concat_app. cbn. now rewrite app_nil_r.
  Qed.
  Lemma stored_perm s ps : knn_rep s ps -> Permutation (stored s) ps.
  Proof.
    intros [Hn Hr]. rewrite <- (by_label_perm eqL (map fst s) ps Hn).
    - unfold stored. rewrite map_map. match goal with |- Permutation ?a ?b => enough (a = b) as ->; [reflexivity|] end. f_equal. apply map_ext_in. intros [l v] Hi. cbn [fst snd].
      specialize (Hr l). rewrite (in_dget eqL l s v Hn Hi) in Hr. cbn in Hr. rewrite Hr. apply of_label_pairs.
    - intros [l v] Hp. cbn. specialize (Hr l). destruct (dget eqL l s) as [w|] eqn:E; [apply dget_in in E; now apply (in_map fst) in E|]. cbn in Hr. exfalso.
      assert (In v (of_label eqL l ps)) as Hv; [|now rewrite Hr in Hv]. unfold of_label. apply in_map_iff. exists (l, v). split; [reflexivity|]. apply filter_In. split; [assumption|].
      unfold is_label. cbn. destruct (eqL l l); congruence.
  Qed.
  Lemma stored_samples s : map snd (stored s) = k_samples (knn_stop s).
  Proof. unfold stored. cbn. induction s as [|e s IH]; cbn; [reflexivity|]. rewrite map_app, IH, map_map. cbn. now rewrite map_id. Qed.
  Lemma stored_indices s : forall pre, Forall2 (fun i p => nth_error (map fst (pre ++ s)) i = Some (fst p)) (indices_from (length pre) s) (stored s).
  Proof.
    induction s as [|e s IH]; intro pre; cbn; [constructor|]. unfold stored. cbn. apply Forall2_app.
    - assert (E : nth_error (map fst (pre ++ e :: s)) (length pre) = Some (fst e)).
      { rewrite map_app, nth_error_app2; rewrite map_length; [|lia]. now rewrite Nat.sub_diag. }
      induction (concat (snd e)) as [|v c IHc]; cbn; constructor; [exact E|exact IHc].
    - specialize (IH (pre ++ [e])). rewrite app_length, Nat.add_1_r, <- app_assoc in IH. exact IH.
  Qed.
  Lemma Forall2_nth {A B} (R : A -> B -> Prop) l k da db i : Forall2 R l k -> i < length l -> R (nth i l da) (nth i k db).
  Proof. intro H. revert i. induction H; intros [|i] Hi; cbn in *; [lia|lia|assumption|apply IHForall2; lia]. Qed.
  Lemma qn_two : forall a b, length a = length b -> (dot a a + dot b b - (1 + 1) * dot a b = sqdist a b)%Qc.
  Proof.
    induction a as [|x a IH]; intros [|y b] H; try discriminate; [cbn; ring|]. injection H as H. specialize (IH b H). unfold dot, sqdist in *. cbn [combine map qsum fst snd]. rewrite <- IH. ring.
  Qed.
  Lemma bincount_nth l i : nth i (bincount l) 0 = count_occ Nat.eq_dec l i.
  Proof.
    unfold bincount. destruct l as [|a l]; [now destruct i|]. set (b := a :: l) in *. destruct (Nat.lt_ge_cases i (S (fold_right Nat.max 0 b))) as [H|H].
    - rewrite nth_indep with (d' := count_occ Nat.eq_dec b 0) by (rewrite map_length, seq_length; exact H). rewrite map_nth, seq_nth by exact H. reflexivity.
    - rewrite nth_overflow by (rewrite map_length, seq_length; exact H). symmetry. apply count_occ_not_In. intro Hi.
      assert (i <= fold_right Nat.max 0 b); [|lia]. clear -Hi. induction b as [|c b IH]; [destruct Hi|]. cbn. destruct Hi as [->|Hi]; [lia|]. specialize (IH Hi). lia.
  Qed.
  Lemma firstn_In {A} (a : A) n l : In a (firstn n l) -> In a l.
  Proof. revert l. induction n; intros [|b l]; cbn; [easy|easy|easy|]. intros [->|H]; auto. Qed.
  Lemma skipn_In {A} (a : A) n l : In a (skipn n l) -> In a l.
  Proof. revert l. induction n; intros [|b l]; cbn; auto. Qed.
  Lemma map_nth_seq {A} (l : list A) d : map (fun i => nth i l d) (seq 0 (length l)) = l.
  Proof. induction l as [|a l IH]; [reflexivity|]. cbn [length seq map nth]. f_equal. rewrite <- seq_shift, map_map. exact IH. Qed.
  Lemma sorted_split {A} (R : A -> A -> Prop) k l : StronglySorted R l -> forall a b, In a (firstn k l) -> In b (skipn k l) -> R a b.
  Proof.
    intros H. revert k. induction H as [|c l Hs IH Hf]; intros [|k] a b Ha Hb; cbn in *; try easy. destruct Ha as [<-|Ha]; [|eauto].
    rewrite Forall_forall in Hf. apply Hf. eapply skipn_In, Hb.
  Qed.

  Theorem C55_vote (k d : nat) calls s (x : vec) (inds : list nat) :
    knn_run [] calls = Some s -> length x = d -> Forall (fun p => length (snd p) = d) (training_data calls) -> training_data calls <> [] -> 1 <= k ->
    argsort_ok (knn_dists (knn_stop s) x) inds ->
    exists (l : L) (near rest : list (L * vec)),
      knn_label k (knn_stop s) inds = Some l
      /\ Permutation (near ++ rest) (training_data calls) /\ length near = Nat.min k (length (training_data calls))
      /\ (forall a b, In a near -> In b rest -> (sqdist x (snd a) <= sqdist x (snd b))%Qc)
      /\ 1 <= votes l near /\ forall l', votes l' near <= votes l near.
  Proof.
    intros Hrun Hx Hd Hne Hk [Hperm Hsort].
    assert (Hrep : knn_rep s (training_data calls)).
    { change (training_data calls) with ([] ++ training_data calls). apply (knn_rep_run calls [] [] s); [|assumption]. split; [constructor|reflexivity]. }
    pose proof (stored_perm _ _ Hrep) as Hst. pose proof (stored_samples s) as Hsa. pose proof (stored_indices s []) as Hix. cbn [length app] in Hix.
    set (n := length (stored s)). assert (Hlen : length (knn_dists (knn_stop s) x) = n) by (unfold knn_dists; now rewrite map_length, <- Hsa, map_length).
    rewrite Hlen in Hperm. destruct Hrep as [Hnd _].
    assert (Hn1 : 1 <= n). { unfold n. apply Permutation_length in Hst. rewrite Hst. destruct (training_data calls); [congruence|cbn; lia]. }
    destruct (training_data calls) as [|p0 ps0] eqn:Etd; [congruence|]. set (st := fun i => nth i (stored s) p0).
    assert (Hlt : forall i, In i inds -> i < n). { intros i Hi. apply (Permutation_in _ Hperm) in Hi. apply in_seq in Hi. lia. }
    assert (Hilen : length (indices_from 0 s) = n) by (unfold n; clear -Hix; induction Hix; cbn; congruence).
    assert (Hlab : forall i, i < n -> nth_error (map fst s) (nth i (indices_from 0 s) 0) = Some (fst (st i))).
    { intros i Hi. apply (Forall2_nth _ _ _ 0 p0 i Hix). now rewrite Hilen. }
    assert (Hdist : forall i, i < n -> nth i (knn_dists (knn_stop s) x) 0%Qc = sqdist x (snd (st i))).
    { intros i Hi. unfold knn_dists. rewrite <- Hsa, map_map.
      rewrite nth_indep with (d' := (fun p : L * vec => (dot x x + dot (snd p) (snd p) - (1 + 1) * dot x (snd p))%Qc) p0) by (rewrite map_length; exact Hi).
      rewrite (map_nth (fun p : L * vec => (dot x x + dot (snd p) (snd p) - (1 + 1) * dot x (snd p))%Qc)). apply qn_two. rewrite Forall_forall in Hd. rewrite Hd; [assumption|].
      apply (Permutation_in _ Hst). apply nth_In. exact Hi. }
    assert (Hcnt : forall js i l, (forall j, In j js -> j < n) -> nth_error (map fst s) i = Some l ->
      count_occ Nat.eq_dec (map (fun j => nth j (indices_from 0 s) 0) js) i = votes l (map st js)).
    { intros js i l Hjs Hi. induction js as [|j js IH]; [reflexivity|]. cbn [map count_occ]. unfold votes in *. cbn [filter]. specialize (Hlab j (Hjs j (or_introl eq_refl))).
      destruct (Nat.eq_dec (nth j (indices_from 0 s) 0) i) as [E|E].
      - rewrite E in Hlab. destruct (eqL (fst (st j)) l) as [_|Hc]; [|congruence]. cbn. f_equal. apply IH. intros. apply Hjs. now right.
      - destruct (eqL (fst (st j)) l) as [Hc|_]; [|apply IH; intros; apply Hjs; now right]. exfalso. apply E.
        apply (proj1 (NoDup_nth_error (map fst s)) Hnd); [apply nth_error_Some; congruence|congruence]. }
    set (nj := firstn k inds). set (rj := skipn k inds).
    assert (Hnj : forall j, In j nj -> j < n) by (intros j Hj; apply Hlt; eapply firstn_In, Hj).
    assert (Hninds : length inds = n) by (apply Permutation_length in Hperm; now rewrite seq_length in Hperm).
    assert (Hj0 : exists j0 nj', nj = j0 :: nj'). { unfold nj. destruct inds as [|j0 inds']; [cbn in Hninds; lia|]. destruct k; [lia|]. cbn. eauto. }
    destruct Hj0 as (j0 & nj' & Ej0).
    unfold knn_label. cbn [k_indices k_labels knn_stop]. fold nj. set (idx := map (fun i => nth i (indices_from 0 s) 0) nj).
    assert (Hbc : exists w, argmax (bincount idx) = Some w).
    { unfold bincount, idx. rewrite Ej0. cbn [map]. cbn [seq map argmax]. eauto. }
    destruct Hbc as [w Hw]. rewrite Hw. apply argmax_spec in Hw as [_ Hmax]. 
    assert (Hmax' : forall j, count_occ Nat.eq_dec idx j <= count_occ Nat.eq_dec idx w) by (intro j; rewrite <- !bincount_nth; apply Hmax).
    assert (Hw1 : 1 <= count_occ Nat.eq_dec idx w).
    { eapply Nat.le_trans; [|apply (Hmax' (nth j0 (indices_from 0 s) 0))]. apply count_occ_In. unfold idx. rewrite Ej0. now left. }
    assert (Hwl : exists l, nth_error (map fst s) w = Some l).
    { apply count_occ_In in Hw1. unfold idx in Hw1. apply in_map_iff in Hw1 as (j & <- & Hj). rewrite Hlab by now apply Hnj. eauto. }
    destruct Hwl as [l Hl]. exists l, (map st nj), (map st rj). repeat split.
    - exact Hl.
    - rewrite <- map_app. unfold nj, rj. rewrite firstn_skipn. rewrite (Permutation_map st Hperm). rewrite <- Hst. unfold st, n. now rewrite map_nth_seq.
    - unfold nj. rewrite map_length, firstn_length, Hninds. f_equal. apply Permutation_length in Hst. exact Hst.
    - intros a b Ha Hb. apply in_map_iff in Ha as (i & <- & Hi). apply in_map_iff in Hb as (j & <- & Hj). rewrite <- !Hdist.
      + eapply (sorted_split (fun i j => (nth i (knn_dists (knn_stop s) x) 0 <= nth j (knn_dists (knn_stop s) x) 0)%Qc)); [exact Hsort|exact Hi|exact Hj].
      + apply Hlt. eapply skipn_In, Hj.
      + now apply Hnj.
    - now rewrite <- (Hcnt nj w l Hnj Hl).
    - intro l'. rewrite <- (Hcnt nj w l Hnj Hl). destruct (in_dec eqL l' (map (fun j => fst (st j)) nj)) as [Hi|Hi].
      + apply in_map_iff in Hi as (j & <- & Hj). rewrite <- (Hcnt nj _ _ Hnj (Hlab j (Hnj j Hj))). apply Hmax'.
      + unfold votes. rewrite filter_none; [cbn; lia|]. intros p Hp. apply in_map_iff in Hp as (j & <- & Hj). destruct (eqL (fst (st j)) l') as [<-|]; [|reflexivity].
        exfalso. apply Hi. apply (in_map (fun j => fst (st j))). exact Hj.
  Qed.

  (** ** C56: nearest mean *)
  Fixpoint nm_run (d : nat) (s : nm_state) (calls : list (list vec * labels_arg L)) : option nm_state :=
    match calls with [] => Some s | (x, l) :: calls => match nm_train eqL enum d s x l with Some s => nm_run d s calls | None => None end end.
  (** the arithmetic mean of the samples with label l *)
  Definition class_mean (d : nat) (ps : list (L * vec)) (l : L) : vec :=
    let xs := map snd (filter (fun p => if eqL (fst p) l then true else false) ps) in
    map (fun j => (qsum (map (fun v => nth j v 0) xs) / qn (length xs))%Qc) (seq 0 d).
  Definition sum_vec (d : nat) (xs : list vec) : vec := map (fun j => qsum (map (fun v : vec => nth j v 0%Qc) xs)) (seq 0 d).
  Lemma vadd_map {A} (f g : A -> Qc) l : vadd (map f l) (map g l) = map (fun a => (f a + g a)%Qc) l.
  Proof. unfold vadd. induction l as [|a l IH]; cbn; [reflexivity|]. now rewrite IH. Qed.
  Lemma vadd_sum d a b : vadd (sum_vec d a) (sum_vec d b) = sum_vec d (a ++ b).
  Proof. unfold sum_vec. rewrite vadd_map. apply map_ext. intro j. now rewrite map_app, qsum_app. Qed.
  Lemma vadd_row d v xs : length v = d -> vadd v (sum_vec d xs) = sum_vec d (v :: xs).
  Proof.
    intros <-. replace v with (map (fun j => nth j v 0%Qc) (seq 0 (length v))) at 1 by apply map_nth_seq. unfold sum_vec. rewrite vadd_map. reflexivity.
  Qed.
  Lemma vsum_sum d xs : Forall (fun v => length v = d) xs -> vsum d xs = sum_vec d xs.
  Proof.
    intro H. induction H as [|v xs Hv _ IH]; cbn.
    - unfold sum_vec. cbn. assert (G : forall k, repeat 0%Qc d = map (fun _ => 0%Qc) (seq k d)) by (induction d as [|d IH]; intro k; cbn; [reflexivity|now rewrite <- IH]). apply G.
    - unfold vsum in IH. now rewrite IH, vadd_row.
  Qed.
  Definition nm_rep1 (d : nat) (v : vec * nat) (xs : list vec) : Prop := snd v = length xs /\ (Forall (fun v => length v = d) xs -> fst v = sum_vec d xs).
  Lemma nm_rep_run d calls : forall s ps s', dict_rep eqL (nm_rep1 d) s ps -> nm_run d s calls = Some s' -> dict_rep eqL (nm_rep1 d) s' (ps ++ training_data calls).
  Proof.
    induction calls as [|[x l] calls IH]; intros s ps s' H; cbn; [intros [= <-]; unfold training_data; cbn; now rewrite app_nil_r|].
    unfold nm_train. destruct (label_groups eqL enum x l) as [gs|] eqn:E; cbn; [|discriminate]. intro Hr. unfold training_data. cbn. rewrite app_assoc.
    apply (IH _ (ps ++ pairs x l) _) in Hr; [exact Hr|]. clear Hr IH.
    set (f := fun (g : list vec) (o : option (vec * nat)) => let '(m, n) := match o with Some v => v | None => (repeat 0%Qc d, 0) end in (vadd m (vsum d g), n + length g)).
    change (update_mean eqL d) with (fun dd (g : L * list vec) => dupd eqL (f (snd g)) (fst g) dd).
    apply (build_call eqL enum enum_ok f (nm_rep1 d)); [| |exact H|exact E].
    - intro g. split; [reflexivity|]. cbn. intro Hg. rewrite vsum_sum by assumption. replace (repeat 0%Qc d) with (sum_vec d []); [apply vadd_sum|]. symmetry. apply (vsum_sum d []). constructor.
    - intros g [m n] xs [Hn Hm]. split; [cbn in *; rewrite app_length; lia|]. cbn in *. intro Hf. apply Forall_app in Hf as [Hf1 Hf2]. rewrite Hm, vsum_sum by assumption. apply vadd_sum.
  Qed.
  Lemma nm_keys d calls : forall s s', Forall (fun c => fst c <> []) calls -> nm_run d s calls = Some s' -> forall l, In l (map fst s') -> In l (map fst s) \/ In l (map fst (training_data calls)).
  Proof.
    induction calls as [|[x l] calls IH]; intros s s' Hne; cbn; [intros [= <-]; auto|]. inversion Hne; subst.
    unfold nm_train. destruct (label_groups eqL enum x l) as [gs|] eqn:E; cbn; [|discriminate]. intros Hr k Hk.
    apply (IH _ _ H2 Hr) in Hk. unfold training_data. cbn. rewrite map_app, in_app_iff. fold (training_data calls). destruct Hk as [Hk|]; [|auto].
    change (update_mean eqL d) with (fun dd (g : L * list vec) => dupd eqL ((fun (g : list vec) (o : option (vec * nat)) => let '(m, n) := match o with Some v => v | None => (repeat 0%Qc d, 0) end in (vadd m (vsum d g), n + length g)) (snd g)) (fst g) dd) in Hk.
    apply (build_keys eqL (fun (g : list vec) (o : option (vec * nat)) => let '(m, n) := match o with Some v => v | None => (repeat 0%Qc d, 0) end in (vadd m (vsum d g), n + length g))) in Hk.
    destruct Hk as [Hk|]; [|auto]. right. left. pose proof (groups_ok eqL enum enum_ok x l gs E k) as Hg. pose proof (groups_nonempty eqL enum enum_ok x l gs E H1) as Hn.
    assert (Hx : group_of eqL k gs <> []).
    { clear -Hk Hn. unfold group_of. induction Hn as [|[a g] gs Hg Hn IH]; [destruct Hk|]. cbn [filter fst]. destruct (eqL a k) as [->|Hne]; [cbn in *; destruct g; [congruence|discriminate]|].
      apply IH. destruct Hk; [cbn in *; congruence|assumption]. }
    rewrite Hg in Hx. unfold of_label in Hx. destruct (filter (is_label eqL k) (pairs x l)) as [|[a v] r] eqn:Ef; [now destruct Hx|].
    assert (Hi : In (a, v) (filter (is_label eqL k) (pairs x l))) by (rewrite Ef; now left). apply filter_In in Hi as [Hi Hb]. unfold is_label in Hb. cbn in Hb.
    destruct (eqL a k) as [<-|]; [|discriminate]. now apply (in_map fst) in Hi.
  Qed.
  Lemma nm_means d calls s : nm_run d [] calls = Some s -> Forall (fun c => fst c <> []) calls -> Forall (fun p => length (snd p) = d) (training_data calls) ->
    NoDup (map fst (nm_stop s)) /\ (forall l, In l (map fst (nm_stop s)) <-> In l (map fst (training_data calls)))
    /\ (forall l m, In (l, m) (nm_stop s) -> m = class_mean d (training_data calls) l).
  Proof.
    intros Hr Hne Hd. assert (Hrep : dict_rep eqL (nm_rep1 d) s (training_data calls)).
    { change (training_data calls) with ([] ++ training_data calls). apply (nm_rep_run d calls [] [] s); [|assumption]. split; [constructor|reflexivity]. }
    destruct Hrep as [Hn Hrep]. unfold nm_stop. rewrite map_map. cbn [fst]. split; [exact Hn|]. split.
    - intro l. split.
      + intro Hi. destruct (nm_keys d calls [] s Hne Hr l Hi) as [[]|]; assumption.
      + intro Hi. specialize (Hrep l). destruct (dget eqL l s) as [v|] eqn:E; [apply dget_in in E; now apply (in_map fst) in E|]. cbn in Hrep. exfalso.
        apply in_map_iff in Hi as ([a v] & <- & Hi). cbn in *. assert (In v (of_label eqL a (training_data calls))) as Hv; [|now rewrite Hrep in Hv].
        unfold of_label. apply in_map_iff. exists (a, v). split; [reflexivity|]. apply filter_In. split; [assumption|]. unfold is_label. cbn. destruct (eqL a a); congruence.
    - intros l m Hi. apply in_map_iff in Hi as ([k [sm n]] & E & Hi). cbn in E. injection E as -> <-. specialize (Hrep l). rewrite (in_dget eqL l s _ Hn Hi) in Hrep.
      destruct Hrep as [H1 H2]. cbn in H1, H2. rewrite H2.
      + unfold class_mean. change (map snd (filter (fun p : L * vec => if eqL (fst p) l then true else false) (training_data calls))) with (of_label eqL l (training_data calls)).
        rewrite H1. unfold sum_vec. rewrite map_map. reflexivity.
      + unfold of_label. rewrite Forall_map. apply Forall_forall. intros p Hp. apply filter_In in Hp as [Hp _]. rewrite Forall_forall in Hd. now apply Hd.
  Qed.
  Theorem C56_nearest_mean (d : nat) calls s (x : vec) :
    nm_run d [] calls = Some s -> Forall (fun c => fst c <> []) calls -> Forall (fun p => length (snd p) = d) (training_data calls) -> calls <> [] ->
    exists l, nm_label (nm_stop s) x = Some l /\ In l (map fst (training_data calls))
      /\ forall l', In l' (map fst (training_data calls)) -> (sqdist x (class_mean d (training_data calls) l) <= sqdist x (class_mean d (training_data calls) l'))%Qc.
  Proof.
    intros Hr Hne Hd Hc. destruct (nm_means d calls s Hr Hne Hd) as (Hnd & Hk & Hm).
    assert (Hex : exists p ps, training_data calls = p :: ps).
    { destruct calls as [|[c l] calls]; [congruence|]. inversion Hne; subst. cbn in H1. cbn in Hr. unfold nm_train in Hr. unfold training_data. cbn [map concat].
      destruct c as [|v c]; [congruence|]. destruct l as [k|ls|ls]; cbn; [eauto| |]; cbn in Hr; destruct ls; cbn in *; try discriminate; eauto. }
    destruct Hex as (p & ps & Ep). unfold nm_label. set (ds := map (fun e => sqdist x (snd e)) (nm_stop s)).
    destruct (argmin ds) as [i|] eqn:Ei.
    2:{ exfalso. unfold ds in Ei. destruct (nm_stop s) eqn:E; [|discriminate]. destruct (proj2 (Hk (fst p))). rewrite Ep. now left. }
    apply argmin_spec in Ei as (Hi & Hmin & _). unfold ds in Hi. rewrite map_length in Hi. destruct (nth_error (nm_stop s) i) as [[l m]|] eqn:El; [|apply nth_error_None in El; lia].
    exists l. cbn. split; [reflexivity|]. pose proof (nth_error_In _ _ El) as Hin. split; [apply Hk; now apply (in_map fst) in Hin|]. intros l' Hl'. apply Hk in Hl'.
    apply in_map_iff in Hl' as ([l'' m'] & E & Hin'). cbn in E. subst l''. rewrite <- (Hm _ _ Hin), <- (Hm _ _ Hin').
    apply In_nth_error in Hin' as [j Hj]. assert (Hjl : j < length (nm_stop s)) by (apply nth_error_Some; congruence).
    specialize (Hmin j). unfold ds in Hmin. rewrite map_length in Hmin. specialize (Hmin Hjl).
    assert (G : forall j l m, nth_error (nm_stop s) j = Some (l, m) -> nth j (map (fun e : L * vec => sqdist x (snd e)) (nm_stop s)) 0%Qc = sqdist x m).
    { intros j0 l0 m0 H0. apply nth_error_nth with (d := 0%Qc). rewrite nth_error_map, H0. reflexivity. }
    rewrite (G _ _ _ El), (G _ _ _ Hj) in Hmin. exact Hmin.
  Qed.
  Lemma qsum_perm l k : Permutation l k -> qsum l = qsum k.
  Proof. induction 1; cbn; [reflexivity|now rewrite IHPermutation|ring|congruence]. Qed.
  Lemma class_mean_perm d ps qs l : Permutation ps qs -> class_mean d ps l = class_mean d qs l.
  Proof.
    intro H. unfold class_mean. pose proof (of_label_perm eqL l _ _ H) as Hp. unfold of_label, is_label in Hp. rewrite (Permutation_length Hp). apply map_ext. intro j.
    apply f_equal2; [apply qsum_perm, Permutation_map; exact Hp|reflexivity].
  Qed.
End ByLabel.
(** the means depend neither on the division into calls, nor on the order of the samples, nor on the order of the sets of labels *)
Theorem C56_order_independent {L} (eqL : forall a b : L, {a = b} + {a <> b}) (enum1 enum2 : list L -> list L) d calls1 calls2 s1 s2 :
  (forall ls, NoDup (enum1 ls) /\ forall l, In l (enum1 ls) <-> In l ls) -> (forall ls, NoDup (enum2 ls) /\ forall l, In l (enum2 ls) <-> In l ls) ->
  nm_run eqL enum1 d [] calls1 = Some s1 -> nm_run eqL enum2 d [] calls2 = Some s2 ->
  Forall (fun c => fst c <> []) calls1 -> Forall (fun c => fst c <> []) calls2 ->
  Forall (fun p => length (snd p) = d) (training_data calls1) -> Permutation (training_data calls1) (training_data calls2) ->
  Permutation (nm_stop s1) (nm_stop s2).
Proof.
  intros He1 He2 Hr1 Hr2 Hn1 Hn2 Hd Hp.
  destruct (nm_means eqL enum1 He1 d calls1 s1 Hr1 Hn1 Hd) as (Ha1 & Hb1 & Hc1).
  destruct (nm_means eqL enum2 He2 d calls2 s2 Hr2 Hn2 (Permutation_Forall Hp Hd)) as (Ha2 & Hb2 & Hc2).
  apply NoDup_Permutation.
  - eapply NoDup_map_inv. exact Ha1.
  - eapply NoDup_map_inv. exact Ha2.
  - assert (Hk : forall l, In l (map fst (nm_stop s1)) <-> In l (map fst (nm_stop s2))).
    { intro l. rewrite Hb1, Hb2. split; apply Permutation_in, Permutation_map; [exact Hp|now symmetry]. }
    intros [l m]. split; intro H.
    + pose proof (in_map fst _ _ H) as Hi. cbn in Hi. apply Hk in Hi. apply in_map_iff in Hi as ([l' m'] & E & Hi). cbn in E. subst l'.
      rewrite (Hc1 _ _ H), (class_mean_perm eqL d _ _ l Hp), <- (Hc2 _ _ Hi). exact Hi.
    + pose proof (in_map fst _ _ H) as Hi. cbn in Hi. apply Hk in Hi. apply in_map_iff in Hi as ([l' m'] & E & Hi). cbn in E. subst l'.
      rewrite (Hc2 _ _ H), <- (class_mean_perm eqL d _ _ l Hp), <- (Hc1 _ _ Hi). exact Hi.
Qed.
Definition q_ (n : Z) : Qc := Q2Qc (inject_Z n).
Example C55_ex : exists s, knn_run Nat.eq_dec (nodup Nat.eq_dec) [] [([[q_ 0]; [q_ 5]; [q_ 1]], Listed [7; 8; 7]); ([[q_ 6]], Single 8)] = Some s
  /\ knn_dists (knn_stop s) [q_ 4] = [q_ 1; q_ 4; q_ 16; q_ 9] /\ knn_label 3 (knn_stop s) [0; 1; 3; 2] = Some 8.
Proof.
  eexists. split; [reflexivity|]. split; [|vm_compute; reflexivity]. vm_compute. repeat (apply f_equal2; [apply Qc_is_canon; reflexivity|]). reflexivity.
Qed.
Example C56_ex : exists s, nm_run Nat.eq_dec (nodup Nat.eq_dec) 1 [] [([[q_ 0]; [q_ 5]; [q_ 1]], Listed [7; 8; 7]); ([[q_ 6]], Single 8)] = Some s /\ nm_label (nm_stop s) [q_ 4] = Some 8.
Proof. eexists. split; [reflexivity|]. vm_compute. reflexivity. Qed.
