(** Properties: C516, C517 *)
From Coq Require Import List Arith Bool Lia.
From Verif Require Import ShowModel ShowProps PanelModel.
Import ListNotations.

(** slide [i] is the first of its section *)
Definition starts (l : list pid) (i : nat) : Prop := i < length l /\ (i = 0 \/ nth_error l i <> nth_error l (i - 1)).
Definition dflt : pid * nat := ((false, 0), 0).
Lemma loop_ok l : forall index last link, (index = 0 -> l <> [] /\ last = None) -> exists r : list (pid * nat), panel_loop index last link l = (if 0 <? index then [link] else []) ++ map Some r /\
  (forall id k, In (id, k) r <-> exists j, k = index + j /\ nth_error l j = Some id /\ match j with 0 => last <> Some id | S j' => nth_error l j' <> Some id end) /\
  (forall a b, a < b < length r -> snd (nth a r dflt) < snd (nth b r dflt)) /\ (forall x, In x r -> index <= snd x).
Proof.
  induction l as [|id l IH]; intros index last link Z0.
  { exists []. destruct index as [|index]; [destruct (Z0 eq_refl) as [X _]; now elim X|]. split; [reflexivity|]. split; [|split; [cbn; lia|intros ? []]]. intros x k. split; [intros []|]. intros (j & _ & J & _). destruct j; discriminate. }
  cbn [panel_loop]. destruct (opid_eqb last id) eqn:E.
  - assert (L : last = Some id) by (destruct last as [a|]; [cbn in E; apply pid_eqb_spec in E; now subst|discriminate]). destruct index as [|index]; [destruct (Z0 eq_refl); congruence|].
    destruct (IH (S (S index)) last link ltac:(lia)) as (r & R & M & O & B). exists r. split; [exact R|]. split; [|split; [exact O|intros x X; specialize (B x X); lia]]. intros x k. rewrite M. split.
    + intros (j & -> & J & N). exists (S j). split; [lia|]. split; [exact J|]. destruct j as [|j]; [cbn; congruence|exact N].
    + intros (j & -> & J & N). destruct j as [|j]; [cbn in J; congruence|]. exists j. split; [lia|]. split; [exact J|]. destruct j as [|j]; [cbn in N; congruence|exact N].
  - assert (L : last <> Some id) by (intros ->; cbn in E; rewrite (proj2 (pid_eqb_spec id id) eq_refl) in E; discriminate).
    destruct (IH (S index) (Some id) (Some (id, index)) ltac:(lia)) as (r & R & M & O & B). exists ((id, index) :: r). split; [rewrite R; reflexivity|]. split; [|split].
    + intros x k. cbn [In]. rewrite M. split.
      * intros [X|(j & -> & J & N)]; [injection X as <- <-; exists 0; split; [lia|split; [reflexivity|exact L]]|]. exists (S j). split; [lia|]. split; [exact J|]. destruct j as [|j]; exact N.
      * intros (j & -> & J & N). destruct j as [|j]; [left; cbn in J; injection J as <-; f_equal; lia|]. right. exists j. split; [lia|]. split; [exact J|]. destruct j as [|j]; exact N.
    + intros a b H. cbn [length] in H. destruct b as [|b]; [lia|]. destruct a as [|a]; cbn [nth].
      * specialize (B (nth b r dflt) ltac:(apply nth_In; lia)). cbn [snd]. lia.
      * apply O. lia.
    + intros x [<-|X]; [cbn; lia|]. specialize (B x X). lia.
Qed.
(** ** C516: one link for the first slide of every section, with its id, in the order of the slides, and no other text *)
Theorem C516_panel : forall l, l <> [] -> exists r : list (pid * nat), panel l = map Some r /\ (forall id k, In (id, k) r <-> starts l k /\ nth_error l k = Some id) /\ forall a b, a < b < length r -> snd (nth a r dflt) < snd (nth b r dflt).
Proof.
  intros l N. destruct (loop_ok l 0 None None (fun _ => conj N eq_refl)) as (r & R & M & O & _). exists r. split; [exact R|]. split; [|exact O]. intros id k. rewrite M. unfold starts. split.
  - intros (j & -> & J & X). cbn [Nat.add]. split; [|exact J]. split; [apply nth_error_Some; congruence|]. destruct j as [|j]; [now left|right]. cbn [Nat.sub]. rewrite Nat.sub_0_r. congruence.
  - intros [[_ X] J]. exists k. split; [reflexivity|]. split; [exact J|]. destruct k as [|k]; [discriminate|]. destruct X as [X|X]; [lia|]. replace (S k - 1) with k in X by lia. congruence.
Qed.
(** ** C517: the elements of the page have different ids - if no section occurs again after another one *)
Definition contiguous (l : list pid) : Prop := forall i j k a, i <= j <= k -> nth_error l i = Some a -> nth_error l k = Some a -> nth_error l j = Some a.
Lemma html_map (r : list (pid * nat)) : html_ids (map Some r) = map (fun x => snd (fst x)) r.
Proof. induction r as [|[id k] r IH]; [reflexivity|]. cbn. f_equal. exact IH. Qed.
Theorem C517_unique : forall l, l <> [] -> contiguous l -> unmixed l -> NoDup (html_ids (panel l)).
Proof.
  intros l N C U. destruct (C516_panel l N) as (r & R & M & O). assert (HM : html_ids (panel l) = map (fun x : pid * nat => snd (fst x)) r) by (rewrite R; exact (html_map r)). rewrite HM. apply (proj2 (NoDup_nth _ (snd (fst dflt)))). rewrite map_length. intros a b Ha Hb E.
  set (f := fun x : pid * nat => snd (fst x)) in E. change (snd (fst dflt)) with (f dflt) in E. rewrite (map_nth f r dflt a), (map_nth f r dflt b) in E. subst f. cbv beta in E.
  assert (W : forall a b, a < b < length r -> snd (fst (nth a r dflt)) = snd (fst (nth b r dflt)) -> False).
  { clear a b Ha Hb E. intros a b H E. pose proof (O a b H) as S1. assert (Ia := nth_In r dflt (n := a) ltac:(lia)). assert (Ib := nth_In r dflt (n := b) ltac:(lia)). destruct (nth a r dflt) as [x i], (nth b r dflt) as [y k]. cbn [fst snd] in *. apply M in Ia, Ib. destruct Ia as [_ X], Ib as [[_ Y0] Y].
    assert (x = y) as -> by (apply U; [eapply nth_error_In; exact X|eapply nth_error_In; exact Y|exact E]). destruct Y0 as [Y0|Y0]; [lia|]. apply Y0. rewrite Y. symmetry. apply (C i (k - 1) k y); [lia|exact X|exact Y]. }
  destruct (Nat.lt_trichotomy a b) as [L|[L|L]]; [exfalso; apply (W a b); [lia|exact E]|exact L|exfalso; apply (W b a); [lia|now symmetry]].
Qed.
(** a section which occurs again gives two elements with one id; getElementById finds the first only *)
Theorem C517_refuted : exists l, l <> [] /\ unmixed l /\ ~ NoDup (html_ids (panel l)).
Proof. exists (num [7; 8; 7]). split; [discriminate|]. split; [apply unmixed_num|]. cbn. intros D. inversion D as [|? ? X _]; subst. apply X. cbn. auto. Qed.
Example ex_C516 : panel (num [7; 7; 8; 8; 7]) = [Some (false, 7, 0); Some (false, 8, 2); Some (false, 7, 4)]. Proof. reflexivity. Qed.
Example ex_C517 : html_ids (panel (num [4; 4; 2; 9; 9])) = [4; 2; 9]. Proof. reflexivity. Qed.
