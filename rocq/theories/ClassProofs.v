(** Lemmas about the models of ClassModel.v. *)
From Coq Require Import List Arith ZArith QArith Qcanon Bool Lia Permutation Sorting.Sorted.
From Verif Require Import CovModel CovProofs ClassModel.
Import ListNotations.
Local Open Scope nat_scope.

Lemma qleb_le a b : qleb a b = true <-> (a <= b)%Qc.
Proof. unfold qleb. destruct (Qclt_le_dec b a); split; try easy. intro. exfalso. apply (Qclt_not_le _ _ q H). Qed.
Lemma qleb_gt a b : qleb a b = false <-> (b < a)%Qc.
Proof. unfold qleb. destruct (Qclt_le_dec b a); split; try easy. intro. exfalso. apply (Qclt_not_le _ _ H q). Qed.

(** ** dicts *)
Section Dict.
  Context {K V : Type} (eqK : forall a b : K, {a = b} + {a <> b}).
  Lemma dget_dupd f (k k' : K) (d : list (K * V)) : dget eqK k' (dupd eqK f k d) = if eqK k' k then Some (f (dget eqK k d)) else dget eqK k' d.
  Proof.
    induction d as [|[a v] d IH]; cbn.
    - destruct (eqK k' k); reflexivity.
    - destruct (eqK k a) as [<-|Ha]; cbn.
      + destruct (eqK k' k) as [->|]; reflexivity.
      + rewrite IH. destruct (eqK k' a) as [->|]; [|reflexivity]. destruct (eqK a k) as [->|]; [contradiction|reflexivity].
  Qed.
  Lemma keys_dupd f (k : K) (d : list (K * V)) : forall x, In x (map fst (dupd eqK f k d)) <-> x = k \/ In x (map fst d).
  Proof. induction d as [|[a v] d IH]; intro x; cbn; [intuition|]. destruct (eqK k a) as [<-|]; cbn; [|rewrite IH]; intuition. Qed.
  Lemma nodup_dupd f (k : K) (d : list (K * V)) : NoDup (map fst d) -> NoDup (map fst (dupd eqK f k d)).
  Proof.
    induction d as [|[a v] d IH]; intro H; cbn.
    - constructor; [intros []|constructor].
    - inversion H; subst. destruct (eqK k a) as [<-|Hn]; cbn; [assumption|]. constructor; [|now apply IH].
      rewrite keys_dupd. intros [E|E]; [congruence|contradiction].
  Qed.
  Lemma dget_in (k : K) (d : list (K * V)) v : dget eqK k d = Some v -> In (k, v) d.
  Proof. induction d as [|[a w] d IH]; cbn; [discriminate|]. destruct (eqK k a) as [<-|]; [intros [= ->]; now left|right; auto]. Qed.
  Lemma in_dget (k : K) (d : list (K * V)) v : NoDup (map fst d) -> In (k, v) d -> dget eqK k d = Some v.
  Proof.
    induction d as [|[a w] d IH]; cbn; intros Hn Hi; [destruct Hi|destruct Hi as [E|Hi]].
    - inversion E; subst. destruct (eqK k k); congruence.
    - inversion Hn; subst. destruct (eqK k a) as [->|]; [|auto]. exfalso. apply H1. now apply (in_map fst) in Hi.
  Qed.
  Lemma dget_none (k : K) (d : list (K * V)) : dget eqK k d = None <-> ~ In k (map fst d).
  Proof. induction d as [|[a w] d IH]; cbn; [intuition|]. destruct (eqK k a) as [<-|]; [split; [discriminate|intro H; now destruct H; left]|]. rewrite IH. intuition congruence. Qed.
End Dict.

(** ** sorting *)
Section Rank.
  Context {L : Type}.
  Lemma insert_perm (a : L * Qc) l : Permutation (insert_desc a l) (a :: l).
  Proof. induction l as [|b l IH]; cbn; [reflexivity|]. destruct (qleb (snd b) (snd a)); [reflexivity|]. rewrite IH. constructor. Qed.
  Lemma sorted_perm (l : list (L * Qc)) : Permutation (sorted_desc l) l.
  Proof. induction l as [|a l IH]; cbn; [reflexivity|]. rewrite insert_perm. now constructor. Qed.
  Definition desc (a b : L * Qc) : Prop := (snd b <= snd a)%Qc.
  Lemma insert_sorted a l : StronglySorted desc l -> StronglySorted desc (insert_desc a l).
  Proof.
    induction l as [|b l IH]; cbn; intro H; [constructor; constructor|]. inversion H as [|? ? Hs Hf]; subst.
    destruct (qleb (snd b) (snd a)) eqn:E.
    - apply qleb_le in E. constructor; [assumption|]. constructor; [exact E|]. eapply Forall_impl; [|exact Hf]. intros c Hc. unfold desc in *.
      now apply Qcle_trans with (snd b).
    - apply qleb_gt in E. constructor; [auto|]. eapply Permutation_Forall; [symmetry; apply insert_perm|]. constructor; [|assumption].
      unfold desc. now apply Qclt_le_weak.
  Qed.
  Lemma sorted_sorted (l : list (L * Qc)) : StronglySorted desc (sorted_desc l).
  Proof. induction l as [|a l IH]; cbn; [constructor|]. now apply insert_sorted. Qed.
  Definition has_val (v : Qc) (a : L * Qc) : bool := if Qc_eq_dec (snd a) v then true else false.
  Lemma insert_stable v a l : StronglySorted desc l -> filter (has_val v) (insert_desc a l) = filter (has_val v) (a :: l).
  Proof.
    induction l as [|b l IH]; intro Hs; [reflexivity|]. inversion Hs as [|? ? Hs' Hf]; subst. cbn [insert_desc].
    destruct (qleb (snd b) (snd a)) eqn:E; [reflexivity|]. apply qleb_gt in E. cbn [filter]. rewrite IH by assumption. cbn [filter].
    destruct (has_val v b) eqn:Eb, (has_val v a) eqn:Ea; try reflexivity. unfold has_val in Ea, Eb.
    destruct (Qc_eq_dec (snd b) v) as [Hb|]; [|discriminate]. destruct (Qc_eq_dec (snd a) v) as [Ha|]; [|discriminate].
    exfalso. rewrite Hb, Ha in E. exact (Qclt_not_eq _ _ E eq_refl).
  Qed.
  Lemma sorted_stable v (l : list (L * Qc)) : filter (has_val v) (sorted_desc l) = filter (has_val v) l.
  Proof. induction l as [|a l IH]; [reflexivity|]. cbn [sorted_desc fold_right]. rewrite insert_stable by apply sorted_sorted. cbn [filter]. fold (sorted_desc l). now rewrite IH. Qed.
End Rank.

(** ** argmin and argmax *)
Lemma argmin_from_spec l : forall best v i, best < i ->
  let r := argmin_from best v i l in
  (r = best /\ Forall (fun a => v <= a)%Qc l) \/
  (exists j, r = i + j /\ j < length l /\ (nth j l 0%Qc < v)%Qc /\ Forall (fun a => nth j l 0%Qc <= a)%Qc l /\ forall j', j' < j -> (nth j l 0%Qc < nth j' l 0%Qc)%Qc).
Proof.
  induction l as [|a l IH]; intros best v i Hb; cbn [argmin_from]; [left; auto|].
  destruct (qleb v a) eqn:E.
  - apply qleb_le in E. destruct (IH best v (S i)) as [[Hr Hf]|(j & Hr & Hj & Hv & Hf & Hlt)]; [lia|left; split; [assumption|now constructor]|].
    right. exists (S j). cbn. split; [lia|]. split; [lia|]. split; [assumption|]. split.
    + constructor; [|assumption]. apply Qclt_le_weak. now apply Qclt_le_trans with v.
    + intros [|j'] Hj'; [now apply Qclt_le_trans with v|]. apply Hlt. lia.
  - apply qleb_gt in E. right. destruct (IH i a (S i)) as [[Hr Hf]|(j & Hr & Hj & Hv & Hf & Hlt)]; [lia| |].
    + exists 0. cbn. split; [lia|]. split; [lia|]. split; [assumption|]. split; [constructor; [apply Qcle_refl|assumption]|lia].
    + exists (S j). cbn. split; [lia|]. split; [lia|]. split; [now apply Qclt_trans with a|]. split; [constructor; [now apply Qclt_le_weak|assumption]|].
      intros [|j'] Hj'; [assumption|]. apply Hlt. lia.
Qed.
Lemma argmin_spec l i : argmin l = Some i ->
  i < length l /\ (forall j, j < length l -> (nth i l 0%Qc <= nth j l 0%Qc)%Qc) /\ (forall j, j < i -> (nth i l 0%Qc < nth j l 0%Qc)%Qc).
Proof.
  destruct l as [|a l]; [discriminate|]. cbn [argmin]. intros [= Hi].
  destruct (argmin_from_spec l 0 a 1) as [[Hr Hf]|(j & Hr & Hj & Hv & Hf & Hlt)]; [lia| |]; rewrite Hi in Hr; clear Hi; subst i; cbn.
  - split; [lia|]. split; [|lia]. rewrite Forall_forall in Hf. intros [|j] Hj; [apply Qcle_refl|]. apply Hf, nth_In. lia.
  - split; [lia|]. rewrite Forall_forall in Hf. split; [intros [|j'] Hj'; [now apply Qclt_le_weak|apply Hf, nth_In; lia]|].
    intros [|j'] Hj'; [assumption|apply Hlt; lia].
Qed.
Lemma argmax_from_spec l : forall best v i, best < i ->
  let r := argmax_from best v i l in
  (r = best /\ Forall (fun a => a <= v) l) \/ (exists j, r = i + j /\ j < length l /\ v < nth j l 0 /\ Forall (fun a => a <= nth j l 0) l).
Proof.
  induction l as [|a l IH]; intros best v i Hb; cbn [argmax_from]; [left; auto|]. destruct (a <=? v) eqn:E.
  - apply Nat.leb_le in E. destruct (IH best v (S i)) as [[Hr Hf]|(j & Hr & Hj & Hv & Hf)]; [lia|left; split; [assumption|now constructor]|].
    right. exists (S j). cbn. repeat split; try lia. constructor; [lia|assumption].
  - apply Nat.leb_gt in E. right. destruct (IH i a (S i)) as [[Hr Hf]|(j & Hr & Hj & Hv & Hf)]; [lia| |].
    + exists 0. cbn. repeat split; try lia. constructor; [lia|assumption].
    + exists (S j). cbn. repeat split; try lia. constructor; [lia|assumption].
Qed.
Lemma argmax_spec l i : argmax l = Some i -> i < length l /\ forall j, nth j l 0 <= nth i l 0.
Proof.
  destruct l as [|a l]; [discriminate|]. cbn [argmax]. intros [= Hi].
  destruct (argmax_from_spec l 0 a 1) as [[Hr Hf]|(j & Hr & Hj & Hv & Hf)]; [lia| |]; rewrite Hi in Hr; clear Hi; subst i; cbn; rewrite Forall_forall in Hf; (split; [lia|]); intros [|j'].
  - lia.
  - destruct (Nat.lt_ge_cases j' (length l)); [apply Hf, nth_In; assumption|rewrite nth_overflow; lia].
  - lia.
  - destruct (Nat.lt_ge_cases j' (length l)); [apply Hf, nth_In; assumption|rewrite nth_overflow; lia].
Qed.

(** ** counting *)
Section Count.
  Context {K : Type} (eqK : forall a b : K, {a = b} + {a <> b}).
  Lemma dget_count (h : list K) : forall d k, geti (dget eqK k (fold_left (fun d k => dupd eqK incr k d) h d)) = geti (dget eqK k d) + count_occ eqK h k.
  Proof.
    induction h as [|a h IH]; intros d k; cbn [fold_left count_occ]; [lia|]. rewrite IH, dget_dupd.
    destruct (eqK k a) as [->|Hn]; [|destruct (eqK a k); [congruence|lia]].
    destruct (eqK a a); [|congruence]. unfold incr. destruct (dget eqK a d); cbn; lia.
  Qed.
  Lemma keys_fold (h : list K) : forall d x, In x (map fst (fold_left (fun d k => dupd eqK incr k d) h d)) <-> In x h \/ In x (map fst d).
  Proof. induction h as [|a h IH]; intros d x; cbn; [intuition|]. rewrite IH, keys_dupd. intuition. Qed.
  Lemma nodup_fold (h : list K) : forall d, NoDup (map fst d) -> NoDup (map fst (fold_left (fun d k => dupd eqK incr k d) h d)).
  Proof. induction h as [|a h IH]; intros d H; cbn; [assumption|]. now apply IH, nodup_dupd. Qed.
End Count.

(** ** samples by label *)
Section ByLabel.
  Context {L : Type} (eqL : forall a b : L, {a = b} + {a <> b}) (enum : list L -> list L).
  Hypothesis enum_ok : forall ls, NoDup (enum ls) /\ forall l, In l (enum ls) <-> In l ls.
  Definition is_label (l : L) (p : L * vec) : bool := if eqL (fst p) l then true else false.
  Definition of_label (l : L) (ps : list (L * vec)) : list vec := map snd (filter (is_label l) ps).
  Lemma of_label_app l p q : of_label l (p ++ q) = of_label l p ++ of_label l q.
  Proof. unfold of_label. now rewrite filter_app, map_app. Qed.
  Definition pairs (x : list vec) (labels : labels_arg L) : list (L * vec) :=
    match labels with Single l => map (fun v => (l, v)) x | Listed ls | Arrayed ls => combine ls x end.

  (** the groups of a call hold the samples of its pairs *)
  Definition group_of (l : L) (gs : list (L * list vec)) : list vec := concat (map snd (filter (fun g => if eqL (fst g) l then true else false) gs)).
  Lemma group_of_enum l ls x ks : NoDup ks -> group_of l (map (fun k => (k, compress eqL k ls x)) ks) = if in_dec eqL l ks then compress eqL l ls x else [].
  Proof.
    induction ks as [|k ks IH]; intro Hn; [reflexivity|]. inversion Hn; subst. unfold group_of in *. cbn [map filter fst].
    destruct (eqL k l) as [->|Hne].
    - cbn [map concat snd]. rewrite IH by assumption. destruct (in_dec eqL l ks); [contradiction|]. rewrite app_nil_r.
      destruct (in_dec eqL l (l :: ks)) as [|Hx]; [reflexivity|]. exfalso. apply Hx. now left.
    - rewrite IH by assumption. destruct (in_dec eqL l ks) as [Hi|Hi]; destruct (in_dec eqL l (k :: ks)) as [Hj|Hj]; try reflexivity.
      + exfalso. apply Hj. now right.
      + exfalso. destruct Hj; [congruence|contradiction].
  Qed.
  Lemma filter_none {A} (f : A -> bool) l : (forall a, In a l -> f a = false) -> filter f l = [].
  Proof. induction l as [|a l IH]; intro H; cbn; [reflexivity|]. rewrite H by now left. apply IH. intros. apply H. now right. Qed.
  Lemma filter_all {A} (f : A -> bool) l : (forall a, In a l -> f a = true) -> filter f l = l.
  Proof. induction l as [|a l IH]; intro H; cbn; [reflexivity|]. rewrite H by now left. rewrite IH; [reflexivity|]. intros. apply H. now right. Qed.
  Lemma groups_ok x labels gs : label_groups eqL enum x labels = Some gs -> forall l, group_of l gs = of_label l (pairs x labels).
  Proof.
    assert (Hl : forall ls l, group_of l (map (fun k => (k, compress eqL k ls x)) (enum ls)) = of_label l (combine ls x)).
    { intros ls l. destruct (enum_ok ls) as [Hn Hi]. rewrite group_of_enum by assumption. destruct (in_dec eqL l (enum ls)) as [H|H]; [reflexivity|].
      rewrite Hi in H. unfold of_label. rewrite filter_none; [reflexivity|]. intros [a v] Ha. unfold is_label. cbn. destruct (eqL a l) as [->|]; [|reflexivity].
      exfalso. apply H. now apply in_combine_l in Ha. }
    destruct labels as [k|ls|ls]; cbn [label_groups pairs].
    - intros [= <-] l. unfold group_of, of_label. cbn [filter fst]. destruct (eqL k l) as [->|Hn]; cbn [map concat snd].
      + rewrite app_nil_r, filter_all, map_map; [now rewrite map_id|]. intros a Ha. apply in_map_iff in Ha as (v & <- & _). unfold is_label. cbn. destruct (eqL l l); congruence.
      + rewrite filter_none; [reflexivity|]. intros a Ha. apply in_map_iff in Ha as (v & <- & _). unfold is_label. cbn. destruct (eqL k l); congruence.
    - destruct (length ls =? length x); [intros [= <-]; apply Hl|discriminate].
    - destruct (length ls =? length x); [intros [= <-]; apply Hl|discriminate].
  Qed.
  Lemma groups_nonempty x labels gs : label_groups eqL enum x labels = Some gs -> x <> [] -> Forall (fun g => snd g <> []) gs.
  Proof.
    assert (Hl : forall ls, length ls = length x -> Forall (fun g : L * list vec => snd g <> []) (map (fun l => (l, compress eqL l ls x)) (enum ls))).
    { intros ls Hlen. apply Forall_forall. intros g Hg. apply in_map_iff in Hg as (l & <- & Hi). cbn. apply (proj1 (proj2 (enum_ok ls) l)) in Hi. revert x Hlen Hi. unfold compress.
      induction ls as [|a ls IH]; intros x Hlen Hi; [destruct Hi|]. destruct x as [|v x]; [discriminate|]. cbn [combine filter fst]. destruct (eqL a l); [discriminate|].
      destruct Hi; [contradiction|]. apply IH; [now injection Hlen|assumption]. }
    destruct labels as [k|ls|ls]; cbn [label_groups].
    - intros [= <-] Hx. constructor; [assumption|constructor].
    - destruct (length ls =? length x) eqn:E; [|discriminate]. intros [= <-] _. apply Hl. now apply Nat.eqb_eq.
    - destruct (length ls =? length x) eqn:E; [|discriminate]. intros [= <-] _. apply Hl. now apply Nat.eqb_eq.
  Qed.

  (** a dict built by dupd from groups: every value stands for the samples of its label *)
  Section Build.
    Context {V : Type} (f : list vec -> option V -> V) (rep : V -> list vec -> Prop).
    Hypothesis f_none : forall g, rep (f g None) g.
    Hypothesis f_some : forall g v xs, rep v xs -> rep (f g (Some v)) (xs ++ g).
    Definition rep_at (l : L) (o : option V) (xs : list vec) : Prop := match o with Some v => rep v xs | None => xs = [] end.
    Definition dict_rep (d : list (L * V)) (ps : list (L * vec)) : Prop := NoDup (map fst d) /\ forall l, rep_at l (dget eqL l d) (of_label l ps).
    Lemma build_groups gs : forall d l xs, rep_at l (dget eqL l d) xs ->
      rep_at l (dget eqL l (fold_left (fun d g => dupd eqL (f (snd g)) (fst g) d) gs d)) (xs ++ group_of l gs).
    Proof.
      induction gs as [|[k g] gs IH]; intros d l xs H; cbn [fold_left].
      - unfold group_of. cbn. now rewrite app_nil_r.
      - unfold group_of. cbn [filter fst snd]. destruct (eqL k l) as [->|Hn]; cbn [map concat snd].
        + rewrite app_assoc. apply IH. rewrite dget_dupd. destruct (eqL l l); [|congruence]. cbn. destruct (dget eqL l d); cbn in *; [now apply f_some|subst; apply f_none].
        + apply IH. rewrite dget_dupd. destruct (eqL l k); [congruence|assumption].
    Qed.
    Lemma build_nodup (gs : list (L * list vec)) : forall d, NoDup (map fst d) -> NoDup (map fst (fold_left (fun d g => dupd eqL (f (snd g)) (fst g) d) gs d)).
    Proof. induction gs as [|g gs IH]; intros d H; cbn; [assumption|]. now apply IH, nodup_dupd. Qed.
    Lemma build_call d ps x labels gs : dict_rep d ps -> label_groups eqL enum x labels = Some gs ->
      dict_rep (fold_left (fun d g => dupd eqL (f (snd g)) (fst g) d) gs d) (ps ++ pairs x labels).
    Proof.
      intros [Hn Hr] Hg. split; [now apply build_nodup|]. intro l. rewrite of_label_app, <- (groups_ok x labels gs Hg l). now apply build_groups.
    Qed.
    Lemma build_keys (gs : list (L * list vec)) : forall d l, In l (map fst (fold_left (fun d g => dupd eqL (f (snd g)) (fst g) d) gs d)) <-> In l (map fst gs) \/ In l (map fst d).
    Proof. induction gs as [|g gs IH]; intros d l; cbn; [intuition|]. rewrite IH, keys_dupd. intuition. Qed.
  End Build.

  Lemma partition_perm {A} (g : A -> bool) l : Permutation (filter g l ++ filter (fun a => negb (g a)) l) l.
  Proof.
    induction l as [|a l IH]; cbn; [reflexivity|]. destruct (g a); cbn; [now constructor|]. now rewrite <- Permutation_middle, IH.
  Qed.
  Lemma by_label_perm ks : forall ps : list (L * vec), NoDup ks -> (forall p, In p ps -> In (fst p) ks) ->
    Permutation (concat (map (fun k => filter (is_label k) ps) ks)) ps.
  Proof.
    induction ks as [|k ks IH]; intros ps Hn Hk.
    - destruct ps as [|p ps]; [reflexivity|]. destruct (Hk p). now left.
    - inversion Hn; subst. cbn. rewrite <- (partition_perm (is_label k) ps) at 2. apply Permutation_app_head.
      rewrite <- (IH (filter (fun a => negb (is_label k a)) ps)).
      + match goal with |- Permutation ?a ?b => enough (a = b) as ->; [reflexivity|] end. f_equal. apply map_ext_in. intros k' Hk'.
        assert (k' <> k) as Hne by congruence. clear -Hne. induction ps as [|p ps IH]; cbn; [reflexivity|]. unfold is_label in *.
        destruct (eqL (fst p) k) as [E|]; cbn; [destruct (eqL (fst p) k'); [congruence|assumption]|]. destruct (eqL (fst p) k'); [now rewrite IH|assumption].
      + assumption.
      + intros p Hp. apply filter_In in Hp as [Hp Hb]. destruct (Hk p Hp) as [E|]; [|assumption]. unfold is_label in Hb. destruct (eqL (fst p) k); [discriminate|congruence].
  Qed.
  Lemma of_label_pairs l (ps : list (L * vec)) : map (fun v => (l, v)) (of_label l ps) = filter (is_label l) ps.
  Proof. unfold of_label. induction ps as [|[a v] ps IH]; cbn; [reflexivity|]. change (is_label l (a, v)) with (if eqL a l then true else false). destruct (eqL a l) as [->|]; cbn; now rewrite IH. Qed.
  Lemma of_label_perm l ps qs : Permutation ps qs -> Permutation (of_label l ps) (of_label l qs).
  Proof.
    intro H. unfold of_label. apply Permutation_map. induction H; cbn.
    - reflexivity.
    - destruct (is_label l x); [now constructor|assumption].
    - destruct (is_label l x), (is_label l y); try reflexivity. constructor.
    - now rewrite IHPermutation1.
  Qed.
End ByLabel.
