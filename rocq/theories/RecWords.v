(** The words of the recursive expansion are all words, and words are exponent vectors. *)
From Coq Require Import List Arith ZArith QArith Qcanon Bool Lia Permutation Sorted.
From Verif Require Import CovModel RoutModel RoutProps MiscModel ExpModel ExpProofs RecModel RecProofs.
Import ListNotations.
Local Open Scope nat_scope.

(** ** non-increasing words *)
Notation down := (StronglySorted ge).
Lemma down_app l1 l2 : down l1 -> down l2 -> (forall a b, In a l1 -> In b l2 -> a >= b) -> down (l1 ++ l2).
Proof.
  induction 1 as [|a l Hs IH Hf]; intros H2 H; [exact H2|]. cbn. constructor.
  - apply IH; auto. intros; apply H; auto. now right.
  - apply Forall_app. split; [exact Hf|]. apply Forall_forall. intros b Hb. apply H; [now left|exact Hb].
Qed.
Lemma down_app_inv l1 l2 : down (l1 ++ l2) -> down l1 /\ down l2 /\ forall a b, In a l1 -> In b l2 -> a >= b.
Proof.
  induction l1 as [|a l1 IH]; cbn; intro H; [split; [constructor|split; [exact H|intros ? ? []]]|]. apply StronglySorted_inv in H as [H Hf]. destruct (IH H) as (H1 & H2 & H3).
  rewrite Forall_app in Hf. destruct Hf as [Hf1 Hf2]. split; [now constructor|]. split; [exact H2|]. intros x b [<-|Hx] Hb; [|now apply H3]. rewrite Forall_forall in Hf2. now apply Hf2.
Qed.
Lemma down_repeat v d : down (repeat v d).
Proof. induction d as [|d IH]; cbn; constructor; auto. apply Forall_forall. intros a Ha. apply repeat_spec in Ha. lia. Qed.
Lemma split_head s : down s -> s <> [] -> exists v d s', s = repeat v (S d) ++ s' /\ down s' /\ Forall (fun a => a < v) s'.
Proof.
  induction 1 as [|v s Hs IH Hf]; intro Hne; [congruence|]. destruct s as [|u s]; [exists v, 0, []; repeat split; constructor|].
  destruct IH as (v' & d & s' & E & Hs' & Hf'); [discriminate|]. rewrite E in *. inversion Hf as [|? ? Hvu Hrest]; subst. cbn in Hvu. 
  destruct (Nat.eq_dec v v') as [->|Hvv].
  - exists v', (S d), s'. repeat split; auto.
  - exists v, 0, (repeat v' (S d) ++ s'). split; [reflexivity|]. split; [exact Hs|]. apply Forall_app. split.
    + apply Forall_forall. intros a Ha. apply repeat_spec in Ha. lia.
    + eapply Forall_impl; [|exact Hf']. cbn. lia.
Qed.
Lemma repeat_cancel (i : nat) : forall t t' (u u' : list nat), ~ In i u -> ~ In i u' -> repeat i t ++ u = repeat i t' ++ u' -> t = t' /\ u = u'.
Proof.
  induction t as [|t IH]; intros [|t'] u u' Hu Hu' E; cbn in E.
  - now split.
  - subst u. elim Hu. now left.
  - subst u'. elim Hu'. now left.
  - injection E as E. destruct (IH t' u u' Hu Hu' E) as [-> ->]. now split.
Qed.
Section Words.
  Context (deg n : nat).
  Notation blk := (blk deg). Notation D := (D deg).
  Lemma in_blk i w v d m : In m (blk i w v d) <-> exists t, t < deg - length w - d /\ m = repeat i (S t) ++ w ++ repeat v d.
  Proof. unfold RecProofs.blk. rewrite in_map_iff. split; intros (t & H1 & H2); exists t; [apply in_seq in H2; split; [lia|auto]|split; [auto|apply in_seq; lia]]. Qed.
  Lemma in_D : forall lv i w m, S (length w) <= deg -> In m (D (i, w, lv)) <->
    exists t s, m = repeat i (S t) ++ w ++ s /\ s <> [] /\ down s /\ Forall (fun a => a < lv) s /\ length m <= deg.
  Proof.
    induction lv as [lv IH] using lt_wf_ind. intros i w m Hw. rewrite D_unfold, in_flat_map. split.
    - intros (v & Hv & H). apply in_seq in Hv. apply in_flat_map in H. destruct H as (d & Hd & H). apply in_seq in Hd. apply in_app_iff in H. destruct H as [H|H].
      + apply in_blk in H. destruct H as (t & Ht & ->). exists t, (repeat v d). repeat split.
        * destruct d; [lia|discriminate].
        * apply down_repeat.
        * apply Forall_forall. intros a Ha. apply repeat_spec in Ha. lia.
        * rewrite !app_length, !repeat_length. lia.
      + apply IH in H; [|lia|rewrite app_length, repeat_length; lia]. destruct H as (t & s & -> & Hs & Hds & Hf & Hl). exists t, (repeat v d ++ s). rewrite <- app_assoc. repeat split.
        * destruct d; [lia|discriminate].
        * apply down_app; auto; [apply down_repeat|]. intros a b Ha Hb. apply repeat_spec in Ha. rewrite Forall_forall in Hf. specialize (Hf b Hb). lia.
        * apply Forall_app. split; [apply Forall_forall; intros a Ha; apply repeat_spec in Ha; lia|]. eapply Forall_impl; [|exact Hf]. cbn. lia.
        * rewrite <- app_assoc in Hl. exact Hl.
    - intros (t & s & -> & Hne & Hds & Hf & Hl). destruct (split_head s Hds Hne) as (v & d & s' & -> & Hds' & Hf'). rewrite !app_length, !repeat_length in Hl.
      apply Forall_app in Hf. destruct Hf as [Hfv _]. inversion Hfv as [|? ? Hv _]; subst. exists v. split; [apply in_seq; lia|]. apply in_flat_map. exists (S d). split; [apply in_seq; lia|].
      apply in_app_iff. destruct s' as [|a s'].
      + left. apply in_blk. exists t. cbn in Hl. rewrite app_nil_r. split; [lia|reflexivity].
      + right. apply IH; [lia|rewrite app_length, repeat_length; lia|]. exists t, (a :: s'). rewrite <- !app_assoc. repeat split; auto; [discriminate|]. rewrite !app_length, !repeat_length. lia.
  Qed.
  Lemma NoDup_blk i w v d : NoDup (blk i w v d).
  Proof.
    unfold RecProofs.blk. apply FinFun.Injective_map_NoDup; [|apply seq_NoDup]. intros a b E. apply (f_equal (@length nat)) in E. rewrite !app_length, !repeat_length in E. lia.
  Qed.
  Lemma word_cancel i w t t' s s' : Forall (fun a => a < i) w -> Forall (fun a => a < i) s -> Forall (fun a => a < i) s' ->
    repeat i (S t) ++ w ++ s = repeat i (S t') ++ w ++ s' -> t = t' /\ s = s'.
  Proof.
    intros Hw Hs Hs' E. rewrite Forall_forall in Hw, Hs, Hs'. apply repeat_cancel in E.
    - destruct E as [Et E]. apply app_inv_head in E. split; [lia|exact E].
    - rewrite in_app_iff. intros [H|H]; [specialize (Hw _ H)|specialize (Hs _ H)]; lia.
    - rewrite in_app_iff. intros [H|H]; [specialize (Hw _ H)|specialize (Hs' _ H)]; lia.
  Qed.
  Lemma Forall_lt_le (s : list nat) a b : a <= b -> Forall (fun x => x < a) s -> Forall (fun x => x < b) s.
  Proof. intros H Hs. eapply Forall_impl; [|exact Hs]. cbn. lia. Qed.
  Lemma Forall_lt_rep v d b : v < b -> Forall (fun x => x < b) (repeat v d).
  Proof. intro H. apply Forall_forall. intros a Ha. apply repeat_spec in Ha. lia. Qed.
  (** the words of branch (v, d) *)
  Lemma in_branch i w v d m : S (length w) <= deg -> 1 <= d <= deg - S (length w) -> In m (blk i w v d ++ D (i, w ++ repeat v d, v)) ->
    exists t s, m = repeat i (S t) ++ w ++ repeat v d ++ s /\ Forall (fun a => a < v) s.
  Proof.
    intros Hw Hd H. apply in_app_iff in H. destruct H as [H|H].
    - apply in_blk in H. destruct H as (t & _ & ->). exists t, []. rewrite app_nil_r. split; [reflexivity|constructor].
    - apply in_D in H; [|rewrite app_length, repeat_length; lia]. destruct H as (t & s & -> & _ & _ & Hf & _). exists t, s. now rewrite <- app_assoc.
  Qed.
  Lemma NoDup_D : forall lv i w, S (length w) <= deg -> lv <= i -> Forall (fun a => a < i) w -> NoDup (D (i, w, lv)).
  Proof.
    induction lv as [lv IH] using lt_wf_ind. intros i w Hw Hi Hf. rewrite D_unfold. apply NoDup_flat_map; [| |apply seq_NoDup].
    - intros v Hv. apply in_seq in Hv. apply NoDup_flat_map; [| |apply seq_NoDup].
      + intros d Hd. apply in_seq in Hd. assert (Hwd : Forall (fun a => a < i) (w ++ repeat v d)) by (apply Forall_app; split; [exact Hf|apply Forall_lt_rep; lia]).
        assert (N1 : NoDup (D (i, w ++ repeat v d, v))) by (apply IH; [lia|rewrite app_length, repeat_length; lia|lia|exact Hwd]).
        assert (Hdis : forall x, In x (blk i w v d) -> ~ In x (D (i, w ++ repeat v d, v))).
        { intros x Hx Hx'. apply in_blk in Hx. destruct Hx as (t & _ & ->). apply in_D in Hx'; [|rewrite app_length, repeat_length; lia].
          destruct Hx' as (t' & s & E & Hne & _ & Hs & _). rewrite <- (app_nil_r (w ++ repeat v d)) in E at 1.
          apply word_cancel in E; auto; [destruct E; auto|eapply Forall_lt_le; [|exact Hs]; lia]. }
        revert N1 Hdis. generalize (NoDup_blk i w v d). generalize (D (i, w ++ repeat v d, v)) as k2. generalize (blk i w v d) as k1. clear.
        induction k1 as [|y k IHk]; intros k2 Nk N2 Hdis; [exact N2|]. inversion Nk as [|? ? Hny Nk']; subst. cbn [app]. constructor.
        * rewrite in_app_iff. intros [H'|H']; [auto|]. apply (Hdis y); [now left|exact H'].
        * apply IHk; auto. intros x Hx. apply Hdis. now right.
      + intros d d' x Hd Hd' Hx Hx'. apply in_seq in Hd, Hd'. apply in_branch in Hx, Hx'; try lia. destruct Hx as (t & s & -> & Hs), Hx' as (t' & s' & E & Hs').
        apply word_cancel in E; auto.
        * destruct E as [_ E]. apply repeat_cancel in E; [lia| |]; intro H; [rewrite Forall_forall in Hs; specialize (Hs _ H)|rewrite Forall_forall in Hs'; specialize (Hs' _ H)]; lia.
        * apply Forall_app. split; [apply Forall_lt_rep; lia|eapply Forall_lt_le; [|exact Hs]; lia].
        * apply Forall_app. split; [apply Forall_lt_rep; lia|eapply Forall_lt_le; [|exact Hs']; lia].
    - intros v v' x Hv Hv' Hx Hx'. apply in_seq in Hv, Hv'. apply in_flat_map in Hx, Hx'. destruct Hx as (d & Hd & Hx), Hx' as (d' & Hd' & Hx').
      apply in_seq in Hd, Hd'. apply in_branch in Hx, Hx'; try lia. destruct Hx as (t & s & -> & Hs), Hx' as (t' & s' & E & Hs').
      apply word_cancel in E; auto.
      + destruct E as [_ E]. destruct d; [lia|]. destruct d'; [lia|]. cbn in E. congruence.
      + apply Forall_app. split; [apply Forall_lt_rep; lia|eapply Forall_lt_le; [|exact Hs]; lia].
      + apply Forall_app. split; [apply Forall_lt_rep; lia|eapply Forall_lt_le; [|exact Hs']; lia].
  Qed.
  (** ** all words *)
  Definition singles : list (list nat) := flat_map (fun v => map (fun k => repeat v (S k)) (seq 0 deg)) (seq 0 n).
  Definition groups : list group := map (fun i => (i, [], i)) (seq 1 (n - 1)).
  Definition allwords : list (list nat) := ([] :: singles) ++ flat_map D groups.
  Lemma in_singles m : In m singles <-> exists v d, v < n /\ S d <= deg /\ m = repeat v (S d).
  Proof.
    unfold singles. rewrite in_flat_map. split.
    - intros (v & Hv & H). apply in_seq in Hv. apply in_map_iff in H. destruct H as (k & <- & Hk). apply in_seq in Hk. exists v, k. repeat split; lia.
    - intros (v & d & Hv & Hd & ->). exists v. split; [apply in_seq; lia|]. apply in_map_iff. exists d. split; [reflexivity|apply in_seq; lia].
  Qed.
  Lemma in_groups m : 1 <= deg -> In m (flat_map D groups) <-> exists i t s, i < n /\ m = repeat i (S t) ++ s /\ s <> [] /\ down s /\ Forall (fun a => a < i) s /\ length m <= deg.
  Proof.
    intro Hdeg. unfold groups. rewrite in_flat_map. split.
    - intros (g & Hg & H). apply in_map_iff in Hg. destruct Hg as (i & <- & Hi). apply in_seq in Hi. apply in_D in H; [|exact Hdeg]. destruct H as (t & s & -> & H).
      exists i, t, s. split; [lia|]. now split.
    - intros (i & t & s & Hi & -> & Hne & Hds & Hf & Hl). exists (i, [], i). split.
      + apply in_map_iff. exists i. split; [reflexivity|]. apply in_seq. destruct s as [|a s]; [congruence|]. inversion Hf; subst. lia.
      + apply in_D; [exact Hdeg|]. exists t, s. repeat split; auto.
  Qed.
  Lemma in_allwords m : 1 <= deg -> In m allwords <-> down m /\ Forall (fun a => a < n) m /\ length m <= deg.
  Proof.
    intro Hdeg. unfold allwords. rewrite in_app_iff. cbn [In]. rewrite in_singles, in_groups by exact Hdeg. split.
    - intros [[<-|(v & d & Hv & Hd & ->)]|(i & t & s & Hi & -> & Hne & Hds & Hf & Hl)].
      + repeat split; try constructor. cbn. lia.
      + repeat split; [apply down_repeat|now apply Forall_lt_rep|rewrite repeat_length; exact Hd].
      + repeat split; [| |exact Hl].
        * apply down_app; auto; [apply down_repeat|]. intros a b Ha Hb. apply repeat_spec in Ha. rewrite Forall_forall in Hf. specialize (Hf b Hb). lia.
        * apply Forall_app. split; [now apply Forall_lt_rep|]. eapply Forall_lt_le; [|exact Hf]. lia.
    - intros (Hd & Hf & Hl). destruct m as [|a m]; [left; now left|]. destruct (split_head _ Hd ltac:(discriminate)) as (v & d & s & E & Hs & Hfs). rewrite E in *.
      apply Forall_app in Hf. destruct Hf as [Hv _]. inversion Hv as [|? ? Hvn _]; subst. rewrite app_length, repeat_length in Hl. destruct s as [|b s].
      + left. right. exists v, d. rewrite app_nil_r. repeat split; [exact Hvn|lia].
      + right. exists v, d, (b :: s). repeat split; auto; [discriminate|]. rewrite app_length, repeat_length. exact Hl.
  Qed.
  Lemma NoDup_app' {A} (k1 k2 : list A) : NoDup k1 -> NoDup k2 -> (forall x, In x k1 -> ~ In x k2) -> NoDup (k1 ++ k2).
  Proof.
    induction k1 as [|y k IHk]; intros Nk N2 Hdis; [exact N2|]. inversion Nk as [|? ? Hny Nk']; subst. cbn [app]. constructor.
    - rewrite in_app_iff. intros [H'|H']; [auto|]. apply (Hdis y); [now left|exact H'].
    - apply IHk; auto. intros x Hx. apply Hdis. now right.
  Qed.
  Lemma NoDup_allwords : 1 <= deg -> NoDup allwords.
  Proof.
    intro Hdeg. apply NoDup_app'.
    - constructor; [rewrite in_singles; intros (v & d & _ & _ & E); discriminate|]. apply NoDup_flat_map; [| |apply seq_NoDup].
      + intros v _. apply FinFun.Injective_map_NoDup; [|apply seq_NoDup]. intros a b E. apply (f_equal (@length nat)) in E. rewrite !repeat_length in E. lia.
      + intros v v' x _ _ Hx Hx'. apply in_map_iff in Hx, Hx'. destruct Hx as (k & <- & _), Hx' as (k' & E & _). cbn in E. congruence.
    - apply NoDup_flat_map.
      + intros g Hg. apply in_map_iff in Hg. destruct Hg as (i & <- & Hi). apply NoDup_D; [exact Hdeg|lia|constructor].
      + intros g g' x Hg Hg' Hx Hx'. apply in_map_iff in Hg, Hg'. destruct Hg as (i & <- & _), Hg' as (i' & <- & _). apply in_D in Hx, Hx'; auto.
        destruct Hx as (t & s & -> & _), Hx' as (t' & s' & E & _). cbn in E. congruence.
      + unfold groups. apply FinFun.Injective_map_NoDup; [|apply seq_NoDup]. intros a b E. congruence.
    - intros x [<-|Hx] Hx'; apply in_groups in Hx'; auto; destruct Hx' as (i & t & s & _ & E & Hne & _ & Hf & _).
      + discriminate.
      + apply in_singles in Hx. destruct Hx as (v & d & _ & _ & ->). assert (v = i) by (cbn in E; congruence). subst v. rewrite <- (app_nil_r (repeat i (S d))) in E.
        apply repeat_cancel in E; [destruct E; congruence|intros []|]. intro H. rewrite Forall_forall in Hf. specialize (Hf _ H). lia.
  Qed.
  Lemma sorted_rev_le m : StronglySorted le m -> down (rev m).
  Proof.
    induction 1 as [|a l Hs IH Hf]; [constructor|]. cbn. apply down_app; auto; [repeat constructor|]. intros x b Hx [<-|[]]. apply in_rev in Hx. rewrite Forall_forall in Hf. specialize (Hf _ Hx). lia.
  Qed.
  Lemma sorted_rev_ge m : down m -> StronglySorted le (rev m).
  Proof.
    induction 1 as [|a l Hs IH Hf]; [constructor|]. cbn. clear Hs. assert (G : forall k, StronglySorted le k -> Forall (fun x => x <= a) k -> StronglySorted le (k ++ [a])).
    { induction 1 as [|b k Hk IHk Hb]; intro Hle; cbn; [repeat constructor|]. inversion Hle; subst. constructor; [now apply IHk|]. apply Forall_app. split; [exact Hb|]. now repeat constructor. }
    apply G; [exact IH|]. apply Forall_forall. intros x Hx. apply in_rev in Hx. rewrite Forall_forall in Hf. specialize (Hf _ Hx). lia.
  Qed.
  Lemma allwords_length : 1 <= deg -> length allwords = S (length (mall n deg)).
  Proof.
    intro Hdeg. assert (P : Permutation allwords ([] :: map (@rev nat) (mall n deg))).
    { apply NoDup_Permutation; [now apply NoDup_allwords| |].
      - constructor.
        + rewrite in_map_iff. intros (m & E & Hm). apply in_mall in Hm. destruct m; [cbn in Hm; lia|]. apply (f_equal (@length nat)) in E. rewrite rev_length in E. discriminate.
        + apply FinFun.Injective_map_NoDup; [|apply NoDup_mall]. intros a b E. rewrite <- (rev_involutive a), E. apply rev_involutive.
      - intro m. rewrite in_allwords by exact Hdeg. cbn [In]. rewrite in_map_iff. split.
        + intros (Hd & Hf & Hl). destruct m as [|a m]; [now left|]. right. exists (rev (a :: m)). split; [apply rev_involutive|]. apply in_mall. rewrite rev_length. repeat split.
          * cbn. lia.
          * exact Hl.
          * now apply sorted_rev_ge.
          * now apply Forall_rev.
        + intros [<-|(m' & <- & Hm)]; [repeat split; try constructor; cbn; lia|]. apply in_mall in Hm. destruct Hm as (Hl & Hs & Hf). rewrite rev_length. repeat split; [now apply sorted_rev_le|now apply Forall_rev|lia]. }
    rewrite (Permutation_length P). cbn [length]. now rewrite map_length.
  Qed.
  (** ** exponents *)
  Definition exps (m : list nat) : list nat := map (count_occ Nat.eq_dec m) (seq 0 n).
  Lemma down_perm_eq : forall l k, down l -> down k -> Permutation l k -> l = k.
  Proof.
    induction l as [|a l IH]; intros k Hl Hk P; [symmetry; now apply Permutation_nil|]. destruct k as [|b k]; [apply Permutation_sym, Permutation_nil in P; discriminate|].
    apply StronglySorted_inv in Hl as [Hl Fl]. apply StronglySorted_inv in Hk as [Hk Fk]. rewrite Forall_forall in Fl, Fk.
    assert (a = b). { assert (Ha : In a (b :: k)) by (eapply Permutation_in; [exact P|now left]). assert (Hb : In b (a :: l)) by (eapply Permutation_in; [apply Permutation_sym; exact P|now left]).
      destruct Ha as [E|Ha]; [congruence|]. destruct Hb as [E|Hb]; [congruence|]. specialize (Fl _ Hb). specialize (Fk _ Ha). lia. }
    subst b. f_equal. apply IH; auto. eapply Permutation_cons_inv; eauto.
  Qed.
  Lemma exps_inj m m' : down m -> down m' -> Forall (fun a => a < n) m -> Forall (fun a => a < n) m' -> exps m = exps m' -> m = m'.
  Proof.
    intros Hd Hd' Hf Hf' E. apply down_perm_eq; auto. apply (Permutation_count_occ Nat.eq_dec). intro v. destruct (Nat.lt_ge_cases v n) as [Hv|Hv].
    - apply (f_equal (fun l => nth v l 0)) in E. unfold exps in E. now rewrite !nth_map_seq in E by exact Hv.
    - rewrite Forall_forall in Hf, Hf'. assert (count_occ Nat.eq_dec m v = 0) by (apply count_occ_not_In; intro H; specialize (Hf _ H); lia).
      assert (count_occ Nat.eq_dec m' v = 0) by (apply count_occ_not_In; intro H'; specialize (Hf' _ H'); lia). lia.
  Qed.
  (** the word of an exponent vector *)
  Fixpoint word_of (e : nat -> nat) (k : nat) : list nat := match k with O => [] | S k => repeat k (e k) ++ word_of e k end.
  Lemma word_of_lt e k : Forall (fun a => a < k) (word_of e k).
  Proof. induction k as [|k IH]; cbn; [constructor|]. apply Forall_app. split; [apply Forall_lt_rep; lia|]. eapply Forall_lt_le; [|exact IH]. lia. Qed.
  Lemma word_of_down e k : down (word_of e k).
  Proof. induction k as [|k IH]; cbn; [constructor|]. apply down_app; auto; [apply down_repeat|]. intros a b Ha Hb. apply repeat_spec in Ha. pose proof (word_of_lt e k) as F. rewrite Forall_forall in F. specialize (F _ Hb). lia. Qed.
  Lemma word_of_count e k v : count_occ Nat.eq_dec (word_of e k) v = if v <? k then e v else 0.
  Proof.
    induction k as [|k IH]; [reflexivity|]. cbn [word_of]. rewrite count_occ_app, count_repeat, IH. destruct (Nat.eq_dec k v) as [->|Hne].
    - rewrite Nat.ltb_irrefl. replace (v <? S v) with true by (symmetry; apply Nat.ltb_lt; lia). lia.
    - cbn [Nat.add]. destruct (Nat.ltb_spec v k), (Nat.ltb_spec v (S k)); auto; lia.
  Qed.
  Lemma length_exps m : Forall (fun a => a < n) m -> length m = fold_right Nat.add 0 (exps m).
  Proof.
    unfold exps. induction m as [|a m IH]; intro Hf.
    - cbn [length count_occ]. induction (seq 0 n) as [|u l IHl]; [reflexivity|]. cbn. exact IHl.
    - inversion Hf as [|? ? Ha Hf']; subst. cbn [length]. rewrite IH by exact Hf'. clear IH Hf Hf'.
      assert (G : forall l, NoDup l -> fold_right Nat.add 0 (map (count_occ Nat.eq_dec (a :: m)) l) = (if in_dec Nat.eq_dec a l then 1 else 0) + fold_right Nat.add 0 (map (count_occ Nat.eq_dec m) l)).
      { induction l as [|u l IHl]; intro Hn; [reflexivity|]. inversion Hn; subst. cbn [map fold_right]. rewrite IHl by assumption. cbn [count_occ].
        destruct (Nat.eq_dec a u) as [->|Hne].
        - destruct (in_dec Nat.eq_dec u l); [contradiction|]. destruct (in_dec Nat.eq_dec u (u :: l)) as [|Hx]; [lia|]. elim Hx. now left.
        - destruct (in_dec Nat.eq_dec a l) as [Hi|Hi], (in_dec Nat.eq_dec a (u :: l)) as [Hj|Hj]; try lia; [elim Hj; now right|destruct Hj; [congruence|contradiction]]. }
      rewrite G by apply seq_NoDup. destruct (in_dec Nat.eq_dec a (seq 0 n)) as [|Hx]; [reflexivity|]. elim Hx. apply in_seq. lia.
  Qed.
  (** all exponent vectors of sum at most deg *)
  Lemma exps_allwords : 1 <= deg -> NoDup (map exps allwords) /\ forall e, In e (map exps allwords) <-> length e = n /\ fold_right Nat.add 0 e <= deg.
  Proof.
    intro Hdeg. split.
    - assert (G : forall l, NoDup l -> (forall m, In m l -> down m /\ Forall (fun a => a < n) m) -> NoDup (map exps l)).
      { induction 1 as [|m l Hni Hn IH]; intro Hl; cbn; constructor.
        - rewrite in_map_iff. intros (m' & E & Hm'). apply Hni. destruct (Hl m (or_introl eq_refl)), (Hl m' (or_intror Hm')). rewrite <- (exps_inj m' m); auto.
        - apply IH. intros; apply Hl; now right. }
      apply G; [now apply NoDup_allwords|]. intros m Hm. apply in_allwords in Hm; auto. tauto.
    - intro e. rewrite in_map_iff. split.
      + intros (m & <- & Hm). apply in_allwords in Hm; auto. destruct Hm as (_ & Hf & Hl). split; [unfold exps; now rewrite map_length, seq_length|]. now rewrite <- length_exps.
      + intros [Hl Hs]. set (m := word_of (fun v => nth v e 0) n). assert (Em : exps m = e).
        { unfold exps. apply (nth_ext _ _ 0 0); [rewrite map_length, seq_length; lia|]. intros v Hv. rewrite map_length, seq_length in Hv. rewrite nth_map_seq by exact Hv.
          unfold m. rewrite word_of_count. replace (v <? n) with true by (symmetry; now apply Nat.ltb_lt). reflexivity. }
        exists m. split; [exact Em|]. apply in_allwords; auto. split; [apply word_of_down|]. split; [apply word_of_lt|]. rewrite length_exps by apply word_of_lt. fold m. now rewrite Em.
  Qed.
End Words.
