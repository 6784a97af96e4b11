(** Properties: C508-C510 *)
From Coq Require Import String List Arith ZArith Bool Lia Permutation Sorted.
From Verif Require Import SnapModel.
Import ListNotations.

(** ** C508: the snapshots are read in the order in which they were taken *)
Lemma leb10 : forall i j, i < 10 -> j < 10 -> str_leb (snapshot_name i) (snapshot_name j) = (i <=? j).
Proof. intros i j Hi Hj. do 10 (destruct i as [|i]; [do 10 (destruct j as [|j]; [reflexivity|]); lia|]). lia. Qed.
Lemma ins_perm n l : Permutation (ins n l) (n :: l).
Proof. induction l as [|m l IH]; cbn; [reflexivity|]. destruct (str_leb _ _); [reflexivity|]. eapply perm_trans; [apply perm_skip, IH|apply perm_swap]. Qed.
Lemma read_perm l : Permutation (read_order l) l.
Proof. induction l as [|n l IH]; [apply Permutation_refl|]. cbn. eapply perm_trans; [apply ins_perm|]. now constructor. Qed.
Lemma ins_sorted n l : n < 10 -> Forall (fun m => m < 10) l -> StronglySorted le l -> StronglySorted le (ins n l).
Proof.
  intros Hn F. induction F as [|m l Hm F IH]; intros S; cbn [ins]; [repeat constructor|]. inversion S as [|? ? S' A]; subst. rewrite leb10 by assumption. destruct (Nat.leb_spec n m) as [L|L].
  - constructor; [exact S|]. constructor; [exact L|]. apply Forall_forall. intros x I. rewrite Forall_forall in A. specialize (A x I). lia.
  - constructor; [now apply IH|]. apply Forall_forall. intros x I. apply (Permutation_in _ (ins_perm n l)) in I. destruct I as [<-|I]; [lia|]. rewrite Forall_forall in A. now apply A.
Qed.
Lemma sorted_eq (l r : list nat) : StronglySorted le l -> StronglySorted le r -> Permutation l r -> l = r.
Proof.
  revert r. induction l as [|a l IH]; intros r Sl Sr P; [apply Permutation_nil in P; now subst|]. destruct r as [|b r]; [apply Permutation_sym, Permutation_nil in P; discriminate|]. inversion Sl as [|? ? Sl' Al]; inversion Sr as [|? ? Sr' Ar]; subst. rewrite Forall_forall in Al, Ar.
  assert (a = b) as ->. { assert (Ia : In a (b :: r)) by (eapply Permutation_in; [exact P|now left]). assert (Ib : In b (a :: l)) by (eapply Permutation_in; [apply Permutation_sym, P|now left]). destruct Ia as [<-|Ia]; [reflexivity|]. destruct Ib as [<-|Ib]; [reflexivity|]. specialize (Ar a Ia). specialize (Al b Ib). lia. }
  f_equal. apply IH; auto. eapply Permutation_cons_inv. exact P.
Qed.
Lemma seq_sorted k : forall n, StronglySorted le (seq k n).
Proof. intros n. revert k. induction n as [|n IH]; intros k; [constructor|]. cbn. constructor; [apply IH|]. apply Forall_forall. intros x I. apply in_seq in I. lia. Qed.
Theorem C508_order : forall n listing, n <= 10 -> Permutation listing (seq 0 n) -> read_order listing = seq 0 n.
Proof.
  intros n listing Hn P. apply sorted_eq; [|apply seq_sorted|eapply perm_trans; [apply read_perm|exact P]].
  assert (F : Forall (fun m => m < 10) listing) by (apply Forall_forall; intros x I; apply (Permutation_in _ P), in_seq in I; lia). clear P.
  induction F as [|m l Hm F IH]; [constructor|]. cbn. apply ins_sorted; [exact Hm| |exact IH]. apply Forall_forall. intros x I. apply (Permutation_in _ (read_perm l)) in I. rewrite Forall_forall in F. now apply F.
Qed.
(** with eleven snapshots the last one is read before the third *)
Theorem C508_refuted : exists listing, Permutation listing (seq 0 11) /\ read_order listing = [0; 1; 10; 2; 3; 4; 5; 6; 7; 8; 9].
Proof. exists (seq 0 11). split; [reflexivity|vm_compute; reflexivity]. Qed.
(** every snapshot is read once *)
Theorem C508_once : forall listing, Permutation (read_order listing) listing.
Proof. exact read_perm. Qed.

(** ** C509: the sections of the slides *)
(** the section of each slide: phases numbered in order, train and stop *)
Fixpoint spec_phases (id : nat) (l : list (nat * nat)) : list nat := match l with [] => [] | (tr, st) :: l => repeat id tr ++ repeat (S id) st ++ spec_phases (S (S id)) l end.
Definition spec_sections (l : list (list (nat * nat))) : list nat := spec_phases 0 (concat l).
Lemma phases_spec l : forall id total, Forall (fun p => 0 < snd p) l -> let (t, e) := index_phases total l in sections_phases id total t = (spec_phases id l, id + 2 * length l, e).
Proof.
  induction l as [|[tr st] l IH]; intros id total F; [cbn; do 2 f_equal; lia|]. cbn [index_phases]. inversion F as [|? ? P F']; subst. cbn in P. specialize (IH (S (S id)) (total + Z.of_nat tr + Z.of_nat st)%Z F'). destruct (index_phases _ l) as [t e]. cbn [sections_phases].
  replace (total + Z.of_nat tr + Z.of_nat st - 1 + 1)%Z with (total + Z.of_nat tr + Z.of_nat st)%Z by lia. rewrite IH. destruct (Z.ltb_spec (total + Z.of_nat tr + Z.of_nat st - 1) (total + Z.of_nat tr - 1 + 1)) as [L|L]; [lia|]. unfold times.
  replace (Z.to_nat (total + Z.of_nat tr - 1 - total + 1)) with tr by lia. replace (Z.to_nat (total + Z.of_nat tr + Z.of_nat st - 1 - (total + Z.of_nat tr - 1 + 1) + 1)) with st by lia. f_equal. f_equal. cbn [length]. lia.
Qed.
Lemma spec_app a b : forall id, spec_phases id (a ++ b) = spec_phases id a ++ spec_phases (id + 2 * length a) b.
Proof. induction a as [|[tr st] a IH]; intros id; [cbn; f_equal; lia|]. cbn [app spec_phases length]. rewrite IH, <- !app_assoc. replace (id + 2 * S (length a)) with (S (S id) + 2 * length a) by lia. reflexivity. Qed.
(** every slide has the id of its part of the training, if every stop_training gave a slide *)
Theorem C509_sections : forall l, Forall (Forall (fun p => 0 < snd p)) l -> section_ids (index_table 0 l) = spec_sections l.
Proof.
  intros l F0. unfold section_ids, spec_sections.
  cut (forall id total, Forall (Forall (fun p => 0 < snd p)) l -> sections id total (index_table total l) = spec_phases id (concat l)); [intros H; now apply H|]. clear F0. induction l as [|n l IH]; intros id total F; [reflexivity|]. inversion F as [|? ? Fn F']; subst. pose proof (phases_spec n id total Fn) as P. cbn [index_table concat]. destruct (index_phases total n) as [t e]. cbn [sections]. rewrite P, spec_app. f_equal. now apply IH.
Qed.
Theorem C509_length : forall l, Forall (Forall (fun p => 0 < snd p)) l -> length (section_ids (index_table 0 l)) = list_sum (map (fun p => fst p + snd p) (concat l)).
Proof.
  intros l F. rewrite C509_sections by exact F. unfold spec_sections. generalize 0 as id. induction (concat l) as [|[tr st] r IH]; intros id; [reflexivity|]. cbn [spec_phases map list_sum fold_right fst snd]. rewrite !app_length, !repeat_length, IH. unfold list_sum. lia.
Qed.
(** a phase without a slide of stop_training (the case for which slideshow.py:205-207 is written) gives one section id more than slides *)
Theorem C509_refuted : exists l, length (section_ids (index_table 0 l)) <> list_sum (map (fun p => fst p + snd p) (concat l)).
Proof. exists [[(3, 0)]]. cbn. discriminate. Qed.
Example ex_C509 : index_table 0 [[(2, 1); (1, 1)]; [(0, 2)]] = [[(1, 2); (3, 4)]; [(4, 6)]]%Z /\ section_ids (index_table 0 [[(2, 1); (1, 1)]; [(0, 2)]]) = [0; 0; 1; 2; 3; 5; 5].
Proof. split; reflexivity. Qed.

(** ** C510: peek does not consume *)
Section Peek.
  Variable A : Type.
  Fixpoint spec_run (l : list A) (ops : list bool) : list (option A) :=
    match ops with [] => [] | peek :: ops => hd_error l :: spec_run (if peek then l else tl l) ops end.
  Definition rest (p : peeker A) : list A := p_cache A p ++ p_iter A p.
  Lemma step_ok p (peek : bool) : length (p_cache A p) <= 1 -> let (p', o) := (if peek then p_peek A else p_next A) p in length (p_cache A p') <= 1 /\ o = hd_error (rest p) /\ rest p' = if peek then rest p else tl (rest p).
  Proof. destruct p as [it ca]. cbn. intros L. destruct ca as [|c [|c' ca]]; cbn in L; try lia; destruct peek, it as [|x it]; cbn; auto. Qed.
  Lemma run_ok ops : forall p acc, length (p_cache A p) <= 1 -> exists p', fold_left (fun (s : peeker A * list (option A)) (peek : bool) => let (p, o) := (if peek then p_peek A else p_next A) (fst s) in (p, snd s ++ [o])%list) ops (p, acc) = (p', acc ++ spec_run (rest p) ops) /\ rest p' = skipn (length (filter negb ops)) (rest p).
  Proof.
    induction ops as [|b ops IH]; intros p acc L; [exists p; cbn; now rewrite app_nil_r|]. cbn [fold_left fst snd]. pose proof (step_ok p b L) as H. destruct ((if b then p_peek A else p_next A) p) as [p1 o]. destruct H as (L1 & -> & R1).
    destruct (IH p1 (acc ++ [hd_error (rest p)]) L1) as (p' & E & R). exists p'. rewrite E, R, R1. split; [cbn [spec_run]; now rewrite <- app_assoc|]. destruct b; [reflexivity|]. cbn. destruct (rest p); [now rewrite !skipn_nil|reflexivity].
  Qed.
  (** any sequence of peek and next: next returns the elements of the iterator in their order, peek the one which the following next will return; nothing is lost *)
  Theorem C510_peek : forall l ops, exists p, p_run A (mkP A l []) ops = (p, spec_run l ops) /\ rest p = skipn (length (filter negb ops)) l.
  Proof. intros l ops. unfold p_run. destruct (run_ok ops (mkP A l []) [] ltac:(cbn; lia)) as (p & E & R). exists p. split; [exact E|exact R]. Qed.
  (** first_iterable_elem returns the first element and an iterable with all elements; StopIteration for an empty one *)
  Theorem C510_first : forall b l, match l with [] => first_iterable_elem A b l = None | x :: _ => exists p, first_iterable_elem A b l = Some (x, p) /\ forall ops, snd (p_run A p ops) = spec_run l ops end.
  Proof.
    intros b [|x l]; [destruct b; reflexivity|]. destruct b; cbn; eexists; (split; [reflexivity|]); intros ops; unfold p_run.
    - destruct (run_ok ops (mkP A l [x]) [] ltac:(cbn; lia)) as (p & E & R). rewrite E. reflexivity.
    - destruct (run_ok ops (mkP A (x :: l) []) [] ltac:(cbn; lia)) as (p & E & R). rewrite E. reflexivity.
  Qed.
End Peek.
Example ex_C510 : snd (p_run nat (mkP nat [1; 2] []) [true; true; false; true; false; false; true]) = [Some 1; Some 1; Some 1; Some 2; Some 2; None; None].
Proof. reflexivity. Qed.
Example ex_C508 : read_order [3; 0; 2; 1] = [0; 1; 2; 3]. Proof. vm_compute. reflexivity. Qed.
