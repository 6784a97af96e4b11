(** Proofs about the result container and the base scheduler. *)
From Coq Require Import List Arith ZArith Lia Bool Permutation Sorted.
From Verif Require Import SchedModel.
Import ListNotations.
Open Scope nat_scope.

Section Sort.
  Variable R : Type.
  Notation sort := (sort R). Notation insert := (insert R).
  Lemma insert_perm x l : Permutation (x :: l) (insert x l).
  Proof. induction l as [|y l IH]; cbn; [auto|]. destruct (_ <=? _); [auto|]. rewrite <- IH. apply perm_swap. Qed.
  Lemma sort_perm l : Permutation l (sort l).
  Proof. induction l as [|x l IH]; cbn; [auto|]. rewrite IH at 1. apply insert_perm. Qed.
  Definition le_key (x y : R * nat) : Prop := snd x <= snd y.
  Lemma insert_sorted x l : StronglySorted le_key l -> StronglySorted le_key (insert x l).
  Proof.
    induction l as [|y l IH]; cbn; intros H; [repeat constructor|]. inversion H as [|? ? H1 H2]; subst. destruct (Nat.leb_spec (snd x) (snd y)).
    - constructor; [exact H|]. constructor; [exact H0|]. eapply Forall_impl; [|exact H2]. unfold le_key. intros a Ha. lia.
    - constructor; [apply IH; exact H1|]. rewrite Forall_forall in *. intros a Ha. apply (Permutation_in _ (Permutation_sym (insert_perm x l))) in Ha. destruct Ha as [<-|Ha]; [unfold le_key; lia|apply H2; exact Ha].
  Qed.
  Lemma sort_sorted l : StronglySorted le_key (sort l).
  Proof. induction l; cbn; [constructor|apply insert_sorted; assumption]. Qed.
  Lemma sorted_unique : forall l l', Permutation l l' -> NoDup (map snd l) -> StronglySorted le_key l -> StronglySorted le_key l' -> l = l'.
  Proof.
    induction l as [|x l IH]; intros [|y l'] Hp Hn H1 H2.
    - reflexivity.
    - apply Permutation_nil in Hp. discriminate.
    - apply Permutation_sym, Permutation_nil in Hp. discriminate.
    - inversion H1 as [|? ? A1 A2]; subst. inversion H2 as [|? ? B1 B2]; subst. cbn in Hn. inversion Hn as [|? ? N1 N2]; subst.
      assert (x = y) as ->.
      { pose proof (Permutation_in y (Permutation_sym Hp) (or_introl eq_refl)) as Hy. destruct Hy as [Hy|Hy]; [exact Hy|]. exfalso.
        pose proof (Permutation_in x Hp (or_introl eq_refl)) as Hx. destruct Hx as [Hx|Hx].
        - subst y. apply N1. apply in_map. exact Hy.
        - rewrite Forall_forall in A2, B2. specialize (A2 y Hy). specialize (B2 x Hx). unfold le_key in *. assert (snd x = snd y) as E by lia. apply N1. rewrite E. apply in_map. exact Hy. }
      f_equal. apply IH; auto. eapply Permutation_cons_inv. exact Hp.
  Qed.
  Lemma seq_sorted : forall (rs : list R) a, StronglySorted le_key (combine rs (seq a (length rs))).
  Proof.
    induction rs as [|r rs IH]; intros a; cbn; constructor; [apply IH|]. rewrite Forall_forall. intros [q i] Hi. apply in_combine_r in Hi. apply in_seq in Hi. unfold le_key. cbn. lia.
  Qed.
  Lemma map_snd_combine (rs : list R) (l : list nat) : length rs = length l -> map snd (combine rs l) = l.
  Proof. revert l. induction rs as [|r rs IH]; intros [|i l]; cbn; try discriminate; auto. intros [= H]. f_equal. auto. Qed.
  Lemma map_fst_combine (rs : list R) (l : list nat) : length rs = length l -> map fst (combine rs l) = rs.
  Proof. revert l. induction rs as [|r rs IH]; intros [|i l]; cbn; try discriminate; auto. intros [= H]. f_equal. auto. Qed.
  Lemma sort_combine (rs : list R) a l : Permutation l (combine rs (seq a (length rs))) -> map fst (sort l) = rs.
  Proof.
    intros H. assert (sort l = combine rs (seq a (length rs))) as ->.
    { symmetry. apply sorted_unique; [|rewrite map_snd_combine by (rewrite seq_length; reflexivity); apply seq_NoDup|apply seq_sorted|apply sort_sorted].
      rewrite <- H. apply sort_perm. }
    apply map_fst_combine. rewrite seq_length. reflexivity.
  Qed.
  Lemma get_combine (rs : list R) a l : rs <> [] -> Permutation l (combine rs (seq a (length rs))) -> get_container R l = ([], Some rs).
  Proof. intros Hn H. unfold get_container. rewrite (sort_combine rs a l H). destruct rs; [contradiction|reflexivity]. Qed.
End Sort.
