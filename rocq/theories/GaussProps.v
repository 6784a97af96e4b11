(** C150, C151: the Gaussian classifier. *)
From Coq Require Import List Arith QArith Qcanon Bool Lia Permutation.
From Verif Require Import CovModel CovProofs ClassModel ClassProofs ClassProps GaussModel RecProps HopProps KMeansProps.
Import ListNotations.
Open Scope Qc_scope.

Section Gauss.
  Context {L : Type} (eqL : forall a b : L, {a = b} + {a <> b}) (enum : list L -> list L) (sorted : list L -> list L) (singular : mat -> bool) (density : mat -> row -> vec -> Qc).
  Hypothesis enum_ok : forall ls, NoDup (enum ls) /\ forall l, In l (enum ls) <-> In l ls.
  Hypothesis sorted_ok : forall ls, Permutation (sorted ls) ls.
  Fixpoint gauss_run (s : gauss) (calls : list (list vec * labels_arg L)) : option gauss :=
    match calls with [] => Some s | (x, l) :: calls => match gauss_train eqL enum s x l with Some s => gauss_run s calls | None => None end end.
  (** the samples of a class as rows *)
  Definition class_rows (l : L) (ps : list (L * vec)) : list row := map to_row (map snd (filter (fun p => if eqL (fst p) l then true else false) ps)).
  Definition g_rep1 (c : cov) (xs : list vec) : Prop := cov_rep c (map to_row xs) /\ c_acc c <> None.
  Definition upd (g : list vec) (o : option cov) : cov := cov_update (match o with Some c => c | None => cov_init end) (map to_row g).
  Lemma gauss_rep calls : forall s ps s', dict_rep eqL g_rep1 (g_objs s) ps -> gauss_run s calls = Some s' ->
    dict_rep eqL g_rep1 (g_objs s') (ps ++ training_data calls) /\ g_dets s' = g_dets s /\ g_invs s' = g_invs s /\ g_means s' = g_means s /\ g_p s' = g_p s.
  Proof.
    induction calls as [|[x l] calls IH]; intros s ps s' H; cbn; [intros [= <-]; unfold training_data; cbn; rewrite app_nil_r; auto|].
    unfold gauss_train. destruct (label_groups eqL enum x l) as [gs|] eqn:E; cbn; [|discriminate]. intro Hr. unfold training_data. cbn. rewrite app_assoc.
    apply (IH _ (ps ++ pairs x l) _) in Hr; [exact Hr|]. cbn [g_objs].
    change (update_covs eqL) with (fun d (g : L * list vec) => dupd eqL (upd (snd g)) (fst g) d).
    apply (build_call eqL enum enum_ok upd g_rep1); [| |exact H|exact E].
    - intro g. unfold g_rep1. change (map to_row g) with ([] ++ map to_row g) at 1. apply cov_rep_update. split; reflexivity.
    - intros g v xs [Hv _]. unfold g_rep1. rewrite map_app. now apply cov_rep_update.
  Qed.
  Lemma gauss_keys calls : forall s s', Forall (fun c => fst c <> []) calls -> gauss_run s calls = Some s' -> forall l, In l (map fst (g_objs s')) -> In l (map fst (g_objs s)) \/ In l (map fst (training_data calls)).
  Proof.
    induction calls as [|[x l] calls IH]; intros s s' Hne; cbn; [intros [= <-]; auto|]. inversion Hne as [|? ? H1 H2]; subst.
    unfold gauss_train. destruct (label_groups eqL enum x l) as [gs|] eqn:E; cbn; [|discriminate]. intros Hr k Hk.
    apply (IH _ _ H2 Hr) in Hk. unfold training_data. cbn. rewrite map_app, in_app_iff. fold (training_data calls). destruct Hk as [Hk|]; [|auto]. cbn [g_objs] in Hk.
    change (update_covs eqL) with (fun d (g : L * list vec) => dupd eqL (upd (snd g)) (fst g) d) in Hk. apply (build_keys eqL upd) in Hk. destruct Hk as [Hk|]; [|auto]. right. left.
    pose proof (groups_ok eqL enum enum_ok x l gs E k) as Hg. pose proof (groups_nonempty eqL enum enum_ok x l gs E H1) as Hn.
    assert (Hx : group_of eqL k gs <> []).
    { clear -Hk Hn. unfold group_of. induction Hn as [|[a g] gs Hg Hn IH]; [destruct Hk|]. cbn [filter fst]. destruct (eqL a k) as [->|Hne]; [cbn in *; destruct g; [congruence|discriminate]|].
      apply IH. destruct Hk; [cbn in *; congruence|assumption]. }
    rewrite Hg in Hx. unfold of_label in Hx. destruct (filter (is_label eqL k) (pairs x l)) as [|[a v] r] eqn:Ef; [now destruct Hx|].
    assert (Hi : In (a, v) (filter (is_label eqL k) (pairs x l))) by (rewrite Ef; now left). apply filter_In in Hi as [Hi Hb]. unfold is_label in Hb. cbn in Hb.
    destruct (eqL a k) as [<-|]; [|discriminate]. now apply (in_map fst) in Hi.
  Qed.
  (** what is stored for a class: covariance, mean *)
  Definition fits (l : L) (ps : list (L * vec)) (m : mat) (a : row) (p : Qc) : Prop :=
    (forall i j, m i j = codev (self_pairs (class_rows l ps)) i j / (qn (length (class_rows l ps)) - 1)) /\ (forall i, a i = mean (class_rows l ps) i) /\ p = qn (length (class_rows l ps)).
  Lemma fix_fits l ps c : (2 <= length (class_rows l ps))%nat -> g_rep1 c (of_label eqL l ps) -> exists m a, cov_fix false true c = (cov_init, Some (m, a, length (class_rows l ps))) /\ fits l ps m a (qn (length (class_rows l ps))).
  Proof.
    intros H2 [[Ht Ha] Hs]. change (map to_row (of_label eqL l ps)) with (class_rows l ps) in *. set (xs := class_rows l ps) in *. unfold cov_fix. destruct (c_acc c) as [[m a]|]; [|congruence]. destruct Ha as [Hm Ha]. rewrite Ht.
    eexists _, _. split; [reflexivity|]. destruct (norm_pos false (length xs) H2) as [N1 N2]. unfold norm in N1. split; [|split; [intro i; rewrite Ha; reflexivity|reflexivity]].
    intros i j. fold xs. rewrite codev_moment, fst_self, snd_self.
    2:{ unfold self_pairs. destruct xs; [cbn in H2; lia|discriminate]. }
    cbn beta. rewrite Hm. unfold outer. rewrite !Ha. replace (length (self_pairs xs)) with (length xs) by (symmetry; apply map_length). field. auto.
  Qed.
  Lemma stop_loop_ok ps ls : NoDup ls -> forall s n s' n', dict_rep eqL g_rep1 (g_objs s) ps \/ (NoDup (map fst (g_objs s)) /\ forall l, In l ls -> rep_at g_rep1 l (dget eqL l (g_objs s)) (of_label eqL l ps)) ->
    (forall l, In l ls -> (2 <= length (class_rows l ps))%nat) -> stop_loop eqL singular ls s n = (s', n', true) ->
    exists ms aa qs, g_invs s' = g_invs s ++ ms /\ g_means s' = g_means s ++ aa /\ g_p s' = g_p s ++ qs /\ g_labels s' = g_labels s
      /\ n' = (n + list_sum (map (fun l => length (class_rows l ps)) ls))%nat /\ length ms = length ls /\ length aa = length ls /\ length qs = length ls
      /\ forall i l, nth_error ls i = Some l -> fits l ps (nth i ms zero_mat) (nth i aa zero_row) (nth i qs 0) /\ singular (nth i ms zero_mat) = false.
  Proof.
    induction ls as [|l ls IH]; intros Hn s n s' n' Hrep H2; cbn [stop_loop].
    - intros [= <- <-]. exists [], [], []. rewrite !app_nil_r. repeat split; cbn; try lia; destruct i; discriminate.
    - assert (Hrep' : NoDup (map fst (g_objs s)) /\ forall k, In k (l :: ls) -> rep_at g_rep1 k (dget eqL k (g_objs s)) (of_label eqL k ps)) by (destruct Hrep as [[A B]|]; [split; auto|assumption]).
      destruct Hrep' as [Hnd Hrp]. inversion Hn as [|? ? Hnl Hn']; subst. pose proof (Hrp l (or_introl eq_refl)) as Hl. pose proof (H2 l (or_introl eq_refl)) as H2l.
      destruct (dget eqL l (g_objs s)) as [c|] eqn:Ec; [|discriminate]. cbn in Hl. destruct (fix_fits l ps c H2l Hl) as (m & a & Ef & Hf). rewrite Ef. destruct (singular m) eqn:Es; [discriminate|].
      intro Hs. apply IH in Hs; [|assumption| |intros; apply H2; now right].
      2:{ right. cbn [g_objs]. split; [now apply nodup_dupd|]. intros k Hk. rewrite dget_dupd. destruct (eqL k l) as [->|]; [contradiction|]. apply Hrp. now right. }
      cbn [g_invs g_means g_p g_labels] in Hs. destruct Hs as (ms & aa & qs & E1 & E2 & E3 & E4 & E5 & E6 & E7 & E8 & E9).
      exists (m :: ms), (a :: aa), (qn (length (class_rows l ps)) :: qs). rewrite E1, E2, E3, <- !app_assoc. cbn [app].
      split; [reflexivity|]. split; [reflexivity|]. split; [reflexivity|]. split; [assumption|]. split; [rewrite E5; cbn [map]; match goal with |- _ = (n + list_sum (?a :: ?l))%nat => change (list_sum (a :: l)) with (a + list_sum l)%nat end; lia|]. split; [cbn; congruence|]. split; [cbn; congruence|]. split; [cbn; congruence|].
      intros [|i] k Hk; cbn in *; [injection Hk as <-; auto|]. now apply E9.
  Qed.
  Lemma class_total ps ks : NoDup ks -> (forall p, In p ps -> In (fst p) ks) -> list_sum (map (fun l => length (class_rows l ps)) ks) = length ps.
  Proof.
    intros Hn Hk. pose proof (Permutation_length (by_label_perm eqL ks ps Hn Hk)) as E. rewrite <- E. clear. induction ks as [|k ks IH]; [reflexivity|].
    cbn [map concat]. rewrite app_length, <- IH. unfold class_rows at 1. rewrite !map_length. reflexivity.
  Qed.
  Lemma qsum_div (l : list Qc) c : qsum (map (fun a => a / c) l) = qsum l / c.
  Proof. unfold Qcdiv. rewrite (qsum_map_mulr (/ c) (fun a => a) l), map_id. reflexivity. Qed.

  (** ** C150: training fits every class and its relative frequency *)
  Theorem C150_fit calls s s' : gauss_run gauss_init calls = Some s -> Forall (fun c => fst c <> []) calls ->
    (forall l, In l (map fst (training_data calls)) -> (2 <= length (class_rows l (training_data calls)))%nat) ->
    gauss_stop eqL sorted singular s = (s', true) ->
    let ps := training_data calls in
    NoDup (g_labels s') /\ (forall l, In l (g_labels s') <-> In l (map fst ps))
    /\ length (g_invs s') = length (g_labels s') /\ length (g_means s') = length (g_labels s') /\ length (g_p s') = length (g_labels s')
    /\ (forall i l, nth_error (g_labels s') i = Some l ->
          (forall a b, nth i (g_invs s') zero_mat a b = codev (self_pairs (class_rows l ps)) a b / (qn (length (class_rows l ps)) - 1))
          /\ (forall a, nth i (g_means s') zero_row a = mean (class_rows l ps) a)
          /\ nth i (g_p s') 0 = qn (length (class_rows l ps)) / qn (length ps))
    /\ (ps <> [] -> qsum (g_p s') = 1).
  Proof.
    intros Hr Hne H2 Hs ps. destruct (gauss_rep calls gauss_init [] s) as ((Hnd & Hrep) & Hd & Hi & Hm & Hp); [split; [constructor|reflexivity]|assumption|]. cbn [app] in Hrep. fold ps in Hrep, H2.
    assert (Hkeys : forall l, In l (map fst (g_objs s)) <-> In l (map fst ps)).
    { intro l. split; intro H.
      - destruct (gauss_keys calls gauss_init s Hne Hr l H) as [[]|]; assumption.
      - specialize (Hrep l). destruct (dget eqL l (g_objs s)) as [v|] eqn:E; [apply dget_in in E; now apply (in_map fst) in E|]. cbn in Hrep. exfalso.
        apply in_map_iff in H as ([a v] & <- & H). cbn in *. assert (In v (of_label eqL a ps)) as Hv; [|now rewrite Hrep in Hv].
        unfold of_label. apply in_map_iff. exists (a, v). split; [reflexivity|]. apply filter_In. split; [assumption|]. unfold is_label. cbn. destruct (eqL a a); congruence. }
    unfold gauss_stop in Hs. set (ls := sorted (map fst (g_objs s))) in *. pose proof (sorted_ok (map fst (g_objs s))) as Hperm. fold ls in Hperm.
    assert (Hnl : NoDup ls) by (eapply Permutation_NoDup; [symmetry; exact Hperm|assumption]).
    assert (Hin : forall l, In l ls <-> In l (map fst ps)). { intro l. rewrite <- Hkeys. split; apply Permutation_in; [assumption|now symmetry]. }
    destruct (stop_loop eqL singular ls _ 0) as [[s1 n1] ok] eqn:El. destruct ok; [|discriminate]. injection Hs as <-.
    apply (stop_loop_ok ps ls Hnl) in El; [|left; now split|intros l Hl; apply H2; now apply Hin].
    destruct El as (ms & aa & qs & E1 & E2 & E3 & E4 & E5 & E6 & E7 & E8 & E9). cbn [g_invs g_means g_p g_labels] in *. rewrite Hi, Hm, Hp in *. cbn [app gauss_init g_invs g_means g_p] in *. subst n1.
    rewrite E4, E1, E2, E3. rewrite class_total by (try assumption; intros p Hpp; apply Hin; now apply in_map). cbn [plus]. rewrite map_length.
    split; [assumption|]. split; [assumption|]. split; [assumption|]. split; [assumption|]. split; [assumption|]. split.
    - intros i l Hl. destruct (E9 i l Hl) as [(F1 & F2 & F3) _]. split; [assumption|]. split; [assumption|]. rewrite <- F3.
      replace 0 with (0 / qn (length ps)) at 1 by (unfold Qcdiv; ring). rewrite (map_nth (fun p => p / qn (length ps)) qs 0). reflexivity.
    - intro Hps. rewrite qsum_div.
      assert (Eq : qs = map (fun l => qn (length (class_rows l ps))) ls).
      { apply nth_ext with (d := 0) (d' := 0); [now rewrite map_length|]. intros i Hil. rewrite E8 in Hil. destruct (nth_error ls i) as [l|] eqn:En; [|apply nth_error_None in En; lia].
        destruct (E9 i l En) as [(_ & _ & F3) _]. rewrite F3. symmetry. apply nth_error_nth. rewrite nth_error_map, En. reflexivity. }
      rewrite Eq, <- (map_map (fun l => length (class_rows l ps)) qn), <- qn_list_sum, class_total by (try assumption; intros p Hpp; apply Hin; now apply in_map).
      apply Qcmult_inv_r, qn_pos. destruct ps; [congruence|discriminate].
  Qed.

  (** ** C151: prob is normalised, proportional to prior times density, and label is a most probable class *)
  Theorem C151_posterior (s : @gauss L) (x : vec) : (forall m a, 0 < density m a x) -> g_labels s <> [] -> length (g_p s) = length (g_labels s) -> Forall (fun p => 0 < p) (g_p s) ->
    let pr := gauss_prob density s x in
    let weight i := density (nth i (g_invs s) zero_mat) (nth i (g_means s) zero_row) x * nth i (g_p s) 0 in
    map fst pr = g_labels s /\ qsum (map snd pr) = 1
    /\ (exists z, 0 < z /\ forall i, (i < length (g_labels s))%nat -> nth i (map snd pr) 0 * z = weight i)
    /\ exists i l, nth_error (g_labels s) i = Some l /\ gauss_label density s x = Some l /\ forall j, (j < length (g_labels s))%nat -> weight j <= weight i.
  Proof.
    intros Hd Hne Hlp Hp pr weight. unfold gauss_prob in pr. set (n := length (g_labels s)) in *. set (tmp := map weight (seq 0 n)).
    assert (Ec : class_probabilities density s x = map (fun a => a / qsum tmp) tmp) by reflexivity.
    assert (Hn : (0 < n)%nat) by (unfold n; destruct (g_labels s); [congruence|cbn; lia]).
    assert (Hlen : length (class_probabilities density s x) = n) by (rewrite Ec, map_length; unfold tmp; now rewrite map_length, seq_length).
    assert (Hw : forall i, (i < n)%nat -> 0 < weight i).
    { intros i Hi. unfold weight. set (pi := nth i (g_p s) 0). replace 0 with (0 * pi) by ring. apply Qcmult_lt_compat_r; [rewrite Forall_forall in Hp; apply Hp, nth_In; rewrite Hlp; exact Hi|apply Hd]. }
    assert (Hz : 0 < qsum tmp).
    { unfold tmp. replace 0 with (qsum (map (fun _ : nat => 0) (seq 0 n))) by apply qsum_zero. apply qsum_lt with (a := 0%nat); [apply in_seq; lia|now apply Hw|]. intros i Hi. apply in_seq in Hi. apply Qclt_le_weak, Hw. lia. }
    assert (Hz0 : qsum tmp <> 0) by (intro E; rewrite E in Hz; discriminate).
    assert (E1 : map fst pr = g_labels s) by (apply fst_comb; now rewrite Hlen). assert (E2 : map snd pr = class_probabilities density s x) by (apply snd_comb; now rewrite Hlen).
    assert (Hnth : forall i, (i < n)%nat -> nth i (class_probabilities density s x) 0 = weight i / qsum tmp).
    { intros i Hi. rewrite Ec. unfold tmp at 2. rewrite map_map. match goal with |- nth i (map ?f _) _ = _ => rewrite (nth_indep _ _ (f 0%nat)) by (now rewrite map_length, seq_length); rewrite (map_nth f (seq 0 n) 0%nat) end.
      now rewrite seq_nth by assumption. }
    split; [assumption|]. rewrite E2. split; [rewrite Ec, qsum_div; now apply Qcmult_inv_r|]. split.
    - exists (qsum tmp). split; [assumption|]. intros i Hi. rewrite Hnth by assumption. field. assumption.
    - unfold gauss_label, qargmax. destruct (argmin _) as [i|] eqn:Ea.
      2:{ exfalso. destruct (class_probabilities density s x); [cbn in Hlen; lia|discriminate]. }
      apply argmin_spec in Ea as (Hi & Hmin & _). rewrite map_length, Hlen in Hi. destruct (nth_error (g_labels s) i) as [l|] eqn:El; [|apply nth_error_None in El; fold n in El; lia].
      exists i, l. split; [exact El|]. split; [first [reflexivity|exact El]|]. intros j Hj. specialize (Hmin j). rewrite map_length, Hlen in Hmin. specialize (Hmin Hj).
      assert (Hneg : forall k, (k < n)%nat -> nth k (map (fun a => - a) (class_probabilities density s x)) 0 = - (weight k / qsum tmp)).
      { intros k Hk. replace 0 with (- 0) at 1 by ring. rewrite (map_nth Qcopp). now rewrite Hnth. }
      rewrite !Hneg in Hmin by assumption.
      assert (Hq : weight j / qsum tmp <= weight i / qsum tmp) by (set (u := weight j / qsum tmp) in *; set (v := weight i / qsum tmp) in *; clearbody u v; qlra).
      apply (Qcmult_le_compat_r _ _ (qsum tmp)) in Hq; [|now apply Qclt_le_weak].
      replace (weight j / qsum tmp * qsum tmp) with (weight j) in Hq by (field; assumption). replace (weight i / qsum tmp * qsum tmp) with (weight i) in Hq by (field; assumption). exact Hq.
  Qed.
End Gauss.

(** an example: one dimension, "singular" if the variance is 0, labels sorted *)
Definition ins_nat (a : nat) := fix ins (l : list nat) := match l with [] => [a] | b :: r => if (a <=? b)%nat then a :: l else b :: ins r end.
Definition sort_nat (l : list nat) : list nat := fold_right ins_nat [] l.
Definition sing1 (m : mat) : bool := if Qc_eq_dec (m 0%nat 0%nat) 0 then true else false.
Definition train_ex (calls : list (list vec * labels_arg nat)) (s : @gauss nat) : @gauss nat := match gauss_run Nat.eq_dec (nodup Nat.eq_dec) s calls with Some s => s | None => s end.
Example C150_ex : let (s, ok) := gauss_stop Nat.eq_dec sort_nat sing1 (train_ex [([[q_ 4]; [q_ 1]; [q_ 6]], Listed [2; 1; 2]%nat); ([[q_ 3]], Single 1%nat)] gauss_init) in
  ok = true /\ g_labels s = [1; 2]%nat /\ map (fun a : row => this (a 0%nat)) (g_means s) = [2%Q; 5%Q] /\ map this (g_p s) = [(1 # 2)%Q; (1 # 2)%Q].
Proof. vm_compute. repeat split. Qed.
(** ** C152: a stop_training that failed (a class with a singular covariance) leaves traces: after more data and a second, successful stop_training
    the mean used for the second class is that of the first, and the priors do not add up to 1 *)
Theorem C152_failed_stop_refuted : exists calls1 calls2 : list (list vec * labels_arg nat),
  match gauss_run Nat.eq_dec (nodup Nat.eq_dec) gauss_init calls1 with
  | None => False
  | Some s1 =>
    let (s1', ok1) := gauss_stop Nat.eq_dec sort_nat sing1 s1 in
    ok1 = false /\
    match gauss_run Nat.eq_dec (nodup Nat.eq_dec) s1' calls2 with
    | None => False
    | Some s2 =>
      let (s2', ok2) := gauss_stop Nat.eq_dec sort_nat sing1 s2 in
      ok2 = true /\ g_labels s2' = [1; 2]%nat /\ length (g_means s2') = 3%nat
      /\ this (nth 1 (g_means s2') zero_row 0%nat) = 5%Q (* all data of class 2 are between 0 and 2 *)
      /\ this (qsum (g_p s2')) = (3 # 2)%Q
    end
  end.
Proof.
  exists [([[q_ 4]; [q_ 6]], Single 1%nat); ([[q_ 0]; [q_ 0]], Single 2%nat)], [([[q_ 4]; [q_ 6]], Single 1%nat); ([[q_ 0]; [q_ 2]], Single 2%nat)].
  vm_compute. repeat split.
Qed.
