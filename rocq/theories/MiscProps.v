(** Properties of the nodes of misc_nodes.py (C44-C48, C126-C130). *)
From Coq Require Import List Arith ZArith QArith Qcanon Bool Lia Permutation Sorted.
From Verif Require Import CovModel CovProofs MiscModel.
Import ListNotations.

(** ** C47 Hit parade *)
Local Open Scope Z_scope.
Lemma set_length {A} (v : A) : forall l k, length (set k v l) = length l.
Proof. induction l as [|a l IH]; intros [|k]; cbn; auto. Qed.
Lemma nth_set {A} (v d : A) : forall l j k, (j < length l)%nat -> nth k (set j v l) d = if (k =? j)%nat then v else nth k l d.
Proof.
  induction l as [|a l IH]; intros j k H; cbn [length] in H; [lia|]. destruct j as [|j], k as [|k]; cbn; auto. apply IH. lia.
Qed.
Lemma argmin_from_spec l : forall best besti i d, (besti < i)%nat -> let k := argmin_from best besti i l in
  (k = besti /\ Forall (fun a => best <= a) l) \/ ((i <= k < i + length l)%nat /\ nth (k - i) l d < best /\ Forall (fun a => nth (k - i) l d <= a) l).
Proof.
  induction l as [|a l IH]; intros best besti i d Hi; cbn [argmin_from]; [now left|]. destruct (Z.ltb_spec a best) as [Hlt|Hge].
  - destruct (IH a i (S i) d) as [[E F]|(H & F1 & F2)]; [lia| |]; right.
    + rewrite E, Nat.sub_diag. cbn [length nth]. repeat split; try lia. constructor; [lia|exact F].
    + set (k := argmin_from a i (S i) l) in *. replace (k - i)%nat with (S (k - S i)) by lia. cbn [length nth]. repeat split; try lia. constructor; [lia|exact F2].
  - destruct (IH best besti (S i) d) as [[E F]|(H & F1 & F2)]; [lia| |].
    + left. split; [exact E|]. constructor; [lia|exact F].
    + right. set (k := argmin_from best besti (S i) l) in *. replace (k - i)%nat with (S (k - S i)) by lia. cbn [length nth]. repeat split; try lia. constructor; [lia|exact F2].
Qed.
Lemma argmin_spec l : l <> [] -> (argmin l < length l)%nat /\ forall k, (k < length l)%nat -> nth (argmin l) l 0 <= nth k l 0.
Proof.
  destruct l as [|a l]; [congruence|]. intros _. unfold argmin. destruct (argmin_from_spec l a 0 1 0) as [[E F]|(H & F1 & F2)]; [lia| |].
  - rewrite E. cbn [length nth]. split; [lia|]. intros [|k] Hk; [lia|]. rewrite Forall_forall in F. apply F, nth_In. lia.
  - set (k := argmin_from a 0 1 l) in *. cbn [length]. split; [lia|].
    replace (nth k (a :: l) 0) with (nth (k - 1) l 0) by (destruct k; [lia|]; cbn [nth]; f_equal; lia).
    intros [|j] Hj; cbn [nth]; [lia|]. rewrite Forall_forall in F2. apply F2, nth_In. lia.
Qed.
(** what the slots hold after the points [xs]: unused slots hold [lo] *)
Record hit_inv (n : nat) (d lo : Z) (xs : list Z) (h : hits) : Prop := {
  hi_len : length (h_M h) = n /\ length (h_iM h) = n /\ (h_lM h < n)%nat;
  hi_slot : forall k, (k < n)%nat -> nth k (h_M h) 0 = lo \/ exists i, (i < length xs)%nat /\ nth k (h_iM h) 0 = Z.of_nat i /\ nth i xs 0 = nth k (h_M h) 0;
  hi_sep : forall j k, (j < n)%nat -> (k < n)%nat -> j <> k -> nth j (h_M h) 0 <> lo -> nth k (h_M h) 0 <> lo -> d < Z.abs (nth j (h_iM h) 0 - nth k (h_iM h) 0);
  hi_last : 0 <= nth (h_lM h) (h_iM h) 0 <= Z.of_nat (length xs) /\ forall k, (k < n)%nat -> nth k (h_M h) 0 <> lo -> nth k (h_iM h) 0 <= nth (h_lM h) (h_iM h) 0;
  hi_max : xs <> [] -> exists k, (k < n)%nat /\ forall v, In v xs -> v <= nth k (h_M h) 0;
  hi_used : xs <> [] -> nth (h_lM h) (h_M h) 0 <> lo }.
Lemma hit_inv_init n d lo : (1 <= n)%nat -> hit_inv n d lo [] (hit_init n lo).
Proof.
  intro Hn. assert (Hr : forall (v : Z) k, nth k (repeat v n) v = v) by (intros; apply nth_repeat).
  assert (HM : forall k, (k < n)%nat -> nth k (repeat lo n) 0 = lo) by (intros k Hk; rewrite (nth_indep _ 0 lo) by (rewrite repeat_length; exact Hk); apply Hr).
  constructor; cbn [h_M h_iM h_lM hit_init].
  - rewrite !repeat_length. lia.
  - intros k Hk. left. auto.
  - intros j k Hj _ _ H. elim H. auto.
  - rewrite Hr. cbn. split; [lia|]. intros k Hk H. elim H. auto.
  - congruence.
  - congruence.
Qed.
Lemma hit_inv_step n d lo xs h x : 0 <= d -> lo < x -> Forall (fun v => lo < v) xs -> (1 <= n)%nat -> hit_inv n d lo xs h ->
  hit_inv n d lo (xs ++ [x]) (hit_step d h (x, Z.of_nat (length xs))).
Proof.
  intros Hd Hlo Hxs Hn I. destruct I as [[L1 [L2 L3]] Is Ip [Il0 Il] Im If]. unfold hit_step.
  destruct (argmin_spec (h_M h)) as [A1 A2]; [destruct (h_M h); [cbn in L1; lia|discriminate]|]. rewrite L1 in *.
  set (k1 := argmin (h_M h)) in *. set (T := Z.of_nat (length xs)) in *. set (lM := h_lM h) in *.
  assert (Hlen : Z.of_nat (length (xs ++ [x])) = T + 1) by (unfold T; rewrite app_length; cbn [length]; lia).
  assert (Hgrow : forall k, (k < n)%nat -> nth k (h_M h) 0 = lo \/ exists i, (i < length (xs ++ [x]))%nat /\ nth k (h_iM h) 0 = Z.of_nat i /\ nth i (xs ++ [x]) 0 = nth k (h_M h) 0).
  { intros k Hk. destruct (Is k Hk) as [E|(i & Hi & E1 & E2)]; [now left|]. right. exists i. rewrite app_length, app_nth1 by exact Hi. cbn [length]. repeat split; auto. lia. }
  assert (Hnew : nth (length xs) (xs ++ [x]) 0 = x) by (rewrite app_nth2, Nat.sub_diag by lia; reflexivity).
  (* writing the new point to slot s, whose rivals are far enough away *)
  assert (Hwrite : forall s, (s < n)%nat -> (forall k, (k < n)%nat -> k <> s -> nth k (h_M h) 0 <> lo -> d < T - nth k (h_iM h) 0) -> nth s (h_M h) 0 < x ->
            hit_inv n d lo (xs ++ [x]) (mkH (set s x (h_M h)) (set s T (h_iM h)) s)).
  { intros s Hs Hfar Hsx. constructor; cbn [h_M h_iM h_lM].
    - now rewrite !set_length.
    - intros k Hk. rewrite !nth_set by lia. destruct (Nat.eqb_spec k s) as [->|]; [|auto]. right. exists (length xs). rewrite app_length. cbn [length]. repeat split; auto. lia.
    - intros j k Hj Hk Hjk. rewrite !nth_set by lia. destruct (Nat.eqb_spec j s), (Nat.eqb_spec k s); subst; try congruence.
      + intros _ Hf. specialize (Hfar k Hk n0 Hf). lia.
      + intros Hf _. specialize (Hfar j Hj n0 Hf). lia.
      + now apply Ip.
    - rewrite nth_set, Nat.eqb_refl by lia. split; [lia|]. intros k Hk. rewrite !nth_set by lia. destruct (Nat.eqb_spec k s) as [->|]; [lia|].
      intro Hf. destruct (Is k Hk) as [E|(i & Hi & E1 & _)]; [congruence|]. rewrite E1. unfold T. lia.
    - intros _. destruct xs as [|v0 xs'] eqn:Exs.
      + exists s. split; [exact Hs|]. intros v [<-|[]]. rewrite nth_set, Nat.eqb_refl by lia. lia.
      + destruct Im as (j & Hj & Hmax); [discriminate|]. rewrite <- Exs in *. destruct (Z.le_gt_cases (nth j (h_M h) 0) x) as [Hle|Hgt].
        * exists s. split; [exact Hs|]. intros v Hv. rewrite nth_set, Nat.eqb_refl by lia. apply in_app_iff in Hv as [Hv|[<-|[]]]; [|lia].
          specialize (Hmax v Hv). lia.
        * exists j. split; [exact Hj|]. intros v Hv. rewrite nth_set by lia. destruct (Nat.eqb_spec j s) as [->|]; [lia|].
          apply in_app_iff in Hv as [Hv|[<-|[]]]; [auto|lia].
    - intros _. rewrite nth_set, Nat.eqb_refl by lia. lia. }
  (* leaving everything as it is *)
  assert (Hkeep : xs <> [] -> (exists k, (k < n)%nat /\ x <= nth k (h_M h) 0) -> hit_inv n d lo (xs ++ [x]) h).
  { intros Hne (k0 & Hk0 & Hx). constructor; auto.
    - fold lM. split; [lia|exact Il].
    - intros _. destruct (Im Hne) as (j & Hj & Hmax). exists j. split; [exact Hj|]. intros v Hv. apply in_app_iff in Hv as [Hv|[<-|[]]]; [auto|].
      destruct (Is k0 Hk0) as [E|(i & Hi & E1 & E2)]; [lia|]. rewrite <- E2 in Hx. specialize (Hmax (nth i xs 0) (nth_In _ _ Hi)). lia.
  }
  destruct (Z.ltb_spec (nth k1 (h_M h) 0) x) as [H1|H1].
  - destruct (Z.leb_spec (T - nth lM (h_iM h) 0) d) as [H2|H2]; cbn [andb].
    + destruct (Z.ltb_spec (nth lM (h_M h) 0) x) as [H3|H3].
      * apply Hwrite; auto. intros k Hk Hne Hf. pose proof (Il k Hk Hf) as Hle. fold lM in Hle.
        destruct (Z.eq_dec (nth lM (h_M h) 0) lo) as [E|Hl].
        -- (* the last slot is unused: only before the first point *) exfalso.
           destruct xs as [|v xs']; [destruct (Is k Hk) as [E'|(i & Hi & _)]; [congruence|cbn in Hi; lia]|].
           now apply If.
        -- pose proof (Ip lM k L3 Hk (not_eq_sym Hne) Hl Hf). lia.
      * destruct (Z.ltb_spec d (T - nth lM (h_iM h) 0)) as [H4|H4]; [lia|]. apply Hkeep; [|eauto].
        intros ->. destruct (Is lM L3) as [E|(i & Hi & _)]; [lia|cbn in Hi; lia].
    + destruct (Z.ltb_spec d (T - nth lM (h_iM h) 0)) as [H4|H4]; [|lia]. apply Hwrite; auto.
      intros k Hk Hne Hf. specialize (Il k Hk Hf). fold lM in Il. lia.
  - apply Hkeep; [|eauto]. intros ->. destruct (Is k1 A1) as [E|(i & Hi & _)]; [lia|cbn in Hi; lia].
Qed.

Lemma hit_update_app d h a b : hit_update d h (a ++ b) = hit_update d (hit_update d h a) b.
Proof. apply fold_left_app. Qed.
Lemma arange_app a l k : arange a (l ++ k) = arange a l ++ arange (a + length l) k.
Proof.
  unfold arange. rewrite app_length, seq_app, map_app. revert a. induction l as [|x l IH]; intro a; cbn [app length seq map combine].
  - now rewrite Nat.add_0_r.
  - f_equal. rewrite <- Nat.add_succ_comm. apply IH.
Qed.
Lemma hit_train_chunks d chunks : forall h t, fold_left (hit_train d) chunks (h, t) = (hit_update d h (arange t (concat chunks)), (t + length (concat chunks))%nat).
Proof.
  induction chunks as [|x chunks IH]; intros h t; cbn [fold_left concat].
  - now rewrite Nat.add_0_r.
  - cbn [hit_train]. rewrite IH, arange_app, hit_update_app, app_length, Nat.add_assoc. reflexivity.
Qed.
Lemma hit_inv_all n d lo xs : 0 <= d -> (1 <= n)%nat -> Forall (fun v => lo < v) xs -> hit_inv n d lo xs (hit_update d (hit_init n lo) (arange 0 xs)).
Proof.
  intros Hd Hn. induction xs as [|x xs IH] using rev_ind; intro Hf; [now apply hit_inv_init|].
  apply Forall_app in Hf as [Hf Hx]. inversion Hx; subst. rewrite arange_app, hit_update_app. apply hit_inv_step; auto.
Qed.
(** every used slot holds a point of the signal with its position; used slots are more than d apart; the largest value is held;
    and the way the signal is cut into chunks does not matter *)
Theorem C47_hit_parade : forall n d lo chunks, let xs := concat chunks in 0 <= d -> (1 <= n)%nat -> Forall (fun v => lo < v) xs -> xs <> [] ->
  let (h, tlen) := fold_left (hit_train d) chunks (hit_init n lo, 0%nat) in
  tlen = length xs /\ length (h_M h) = n /\ length (h_iM h) = n /\
  (forall k, (k < n)%nat -> nth k (h_M h) 0 = lo \/ exists i, (i < length xs)%nat /\ nth k (h_iM h) 0 = Z.of_nat i /\ nth i xs 0 = nth k (h_M h) 0) /\
  (forall j k, (j < n)%nat -> (k < n)%nat -> j <> k -> nth j (h_M h) 0 <> lo -> nth k (h_M h) 0 <> lo -> d < Z.abs (nth j (h_iM h) 0 - nth k (h_iM h) 0)) /\
  (exists k, (k < n)%nat /\ (forall v, In v xs -> v <= nth k (h_M h) 0) /\ In (nth k (h_M h) 0) xs).
Proof.
  intros n d lo chunks xs Hd Hn Hf Hne. rewrite hit_train_chunks. fold xs. cbn [Nat.add].
  destruct (hit_inv_all n d lo xs Hd Hn Hf) as [(L1 & L2 & L3) Is Ip _ Im _].
  split; [reflexivity|]. repeat (split; [first [exact L1|exact L2|exact Is|exact Ip]|]).
  destruct (Im Hne) as (k & Hk & Hm). exists k. repeat split; auto.
  destruct (Is k Hk) as [E|(i & Hi & E1 & E2)]; [|rewrite <- E2; now apply nth_In].
  exfalso. destruct xs as [|v xs']; [congruence|]. inversion Hf; subst. specialize (Hm v (or_introl eq_refl)). lia.
Qed.
Theorem C47_chunking : forall d s ch1 ch2, concat ch1 = concat ch2 -> fold_left (hit_train d) ch1 s = fold_left (hit_train d) ch2 s.
Proof. intros d [h t] ch1 ch2 E. now rewrite !hit_train_chunks, E. Qed.
Example C47_example : fold_left (hit_train 1) [[1; 5; 2]; [7; 3]; [0; 6]] (hit_init 3 (-100), 0%nat) = (mkH [5; 7; 6] [1; 3; 6] 2, 7%nat).
Proof. reflexivity. Qed.
(** C126 (refuted): the hits are local maxima: no larger value within distance d *)
Theorem C126_local_maxima_refuted : exists n d lo xs k i, let h := fst (hit_train d (hit_init n lo, 0%nat) xs) in
  Forall (fun v => lo < v) xs /\ (k < n)%nat /\ nth k (h_M h) 0 <> lo /\ (i < length xs)%nat /\ Z.abs (Z.of_nat i - nth k (h_iM h) 0) <= d /\ nth k (h_M h) 0 < nth i xs 0.
Proof. exists 2%nat, 1, (-100), [5; 4; 3], 1%nat, 1%nat. vm_compute. repeat split; try discriminate; repeat constructor. Qed.

(** ** C44 Time frames *)
Section Frames.
  Context {A : Type} (z : A).
  Local Open Scope nat_scope.
  Lemma all_some_map {B C} (f : B -> option C) (g : B -> C) l : (forall b, In b l -> f b = Some (g b)) -> all_some (map f l) = Some (map g l).
  Proof. induction l as [|b l IH]; intro H; cbn; [reflexivity|]. rewrite (H b) by now left. rewrite IH; [reflexivity|]. intros; apply H; now right. Qed.
  Lemma all_some_none {B C} (f : B -> option C) l b : In b l -> f b = None -> all_some (map f l) = None.
  Proof. induction l as [|c l IH]; intros Hi E; [destruct Hi|]. destruct Hi as [->|H]; cbn; [now rewrite E|]. destruct (f c); [|reflexivity]. now rewrite IH. Qed.
  Lemma nth_slice a b l t (d : A) : t < b - a -> nth t (slice a b l) d = nth (a + t) l d.
  Proof. 
    intro H. unfold slice. assert (G : forall n (l : list A) t, t < n -> nth t (firstn n l) d = nth t l d).
    { clear. induction n as [|n IH]; intros [|x l] [|t] H; try lia; cbn; auto. apply IH. lia. }
    rewrite G by exact H. clear G H. revert l t. induction a as [|a IH]; intros [|x l] t; cbn; auto. destruct t; reflexivity.
  Qed.
  Lemma slice_length a n (l : list A) : a + n <= length l -> length (slice a (a + n) l) = n.
  Proof. intro H. unfold slice. rewrite firstn_length, skipn_length. lia. Qed.
  (** row t of the result: the rows t, t+gap, t+2gap, ... of the input *)
  Theorem C44_execute : forall frames gap x, (frames - 1) * gap <= length x -> 1 <= frames ->
    frames_execute z frames gap x = Some (map (fun t => map (fun f => nth (t + gap * f) x z) (seq 0 frames)) (seq 0 (length x - (frames - 1) * gap))).
  Proof.
    intros frames gap x H Hf. unfold frames_execute.
    replace (Z.of_nat (length x) - (Z.of_nat frames - 1) * Z.of_nat gap)%Z with (Z.of_nat (length x - (frames - 1) * gap)) by (rewrite Nat2Z.inj_sub, Nat2Z.inj_mul, Nat2Z.inj_sub by lia; reflexivity).
    destruct (Z.ltb_spec (Z.of_nat (length x - (frames - 1) * gap)) 0) as [Hl|_]; [lia|]. rewrite Nat2Z.id.
    set (tf := length x - (frames - 1) * gap).
    rewrite (all_some_map _ (fun f => slice (gap * f) (gap * f + tf) x)).
    - f_equal. unfold of_blocks. apply map_ext_in. intros t Ht. apply in_seq in Ht. rewrite map_map. apply map_ext_in. intros f Hi. rewrite nth_slice by lia. f_equal. lia.
    - intros f Hi. apply in_seq in Hi. unfold fit. rewrite slice_length, Nat.eqb_refl; [reflexivity|]. assert (gap * f <= (frames - 1) * gap) by nia. lia.
  Qed.
  Theorem C44_too_short : forall frames gap x, length x < (frames - 1) * gap -> frames_execute z frames gap x = None.
  Proof.
    intros frames gap x H. unfold frames_execute. destruct (Z.ltb_spec (Z.of_nat (length x) - (Z.of_nat frames - 1) * Z.of_nat gap) 0) as [_|Hl]; [reflexivity|].
    destruct frames; nia.
  Qed.
  (** the pseudo inverse: position p of the result after the assignments for the first [c] frames *)
  Lemma nth_firstn' (l : list A) n t : t < n -> nth t (firstn n l) z = nth t l z.
  Proof. revert l t. induction n as [|n IH]; intros [|x l] [|t] H; try lia; cbn; auto. apply IH. lia. Qed.
  Lemma nth_skipn' (l : list A) n t : nth t (skipn n l) z = nth (n + t) l z.
  Proof. revert l t. induction n as [|n IH]; intros [|x l] t; cbn; auto. now destruct t. Qed.
  Lemma assign_ok row src (x : list A) : row + length src <= length x ->
    exists x', assign row (length src) src x = Some x' /\ length x' = length x /\
      forall p, nth p x' z = if (row <=? p) && (p <? row + length src) then nth (p - row) src z else nth p x z.
  Proof.
    intro H. unfold assign. replace (Nat.min (length src) (length x - row)) with (length src) by lia. unfold fit. rewrite Nat.eqb_refl.
    eexists; split; [reflexivity|]. split; [rewrite !app_length, firstn_length, skipn_length; lia|]. intro p.
    destruct (Nat.leb_spec row p) as [H1|H1]; cbn [andb].
    - rewrite app_nth2 by (rewrite firstn_length; lia). rewrite firstn_length, Nat.min_l by lia.
      destruct (Nat.ltb_spec p (row + length src)) as [H2|H2]; [now rewrite app_nth1 by lia|].
      rewrite app_nth2 by lia. rewrite nth_skipn'. f_equal. lia.
    - rewrite app_nth1 by (rewrite firstn_length; lia). now rewrite nth_firstn' by lia.
  Qed.
  Lemma range_n_spec step : 0 < step -> forall k fuel a b, (forall i, i < k -> a + i * step < b) -> b <= a + k * step -> k <= fuel -> range_n fuel a b step = map (fun i => a + i * step) (seq 0 k).
  Proof.
    intro Hs. induction k as [|k IH]; intros fuel a b H1 H2 Hf.
    - destruct fuel; [reflexivity|]. cbn [range_n seq map]. destruct (Nat.ltb_spec a b); [lia|reflexivity].
    - destruct fuel as [|fuel]; [lia|]. cbn [range_n seq map]. destruct (Nat.ltb_spec a b) as [H|H]; [|specialize (H1 0); lia].
      f_equal; [lia|]. rewrite <- seq_shift, map_map. rewrite (IH fuel (a + step) b); try lia.
      + apply map_ext. intro i. lia.
      + intros i Hi. specialize (H1 (S i)). lia.
  Qed.
  Lemma pinv_loop_ok (y : list (list A)) e bsz gap start : length y = e -> bsz <= e -> 0 < bsz -> bsz <= gap ->
    forall k c x, start + (k - 1) * gap + bsz <= length x -> 
    exists x', pinv_loop z y bsz (map (fun i => start + i * gap) (seq 0 k)) c x = Some x' /\ length x' = length x /\
      forall p, nth p x' z = if (start <=? p) && ((p - start) / gap <? k) && ((p - start) mod gap <? bsz)
                             then nth (c + (p - start) / gap) (nth (e - bsz + (p - start) mod gap) y []) z else nth p x z.
  Proof.
    intros Hy Hb Hb0 Hg. intros k. revert start. induction k as [|k IH]; intros start c x Hlen.
    - exists x. split; [reflexivity|]. split; [reflexivity|]. intro p. replace ((p - start) / gap <? 0) with false by (symmetry; apply Nat.ltb_ge; lia).
      now rewrite andb_false_r.
    - cbn [seq map pinv_loop]. rewrite Nat.add_0_r.
      set (src := map (fun r => nth c r z) (last_rows bsz y)).
      assert (Hs : length src = bsz). { unfold src, last_rows. destruct (Nat.eqb_spec bsz 0); [lia|]. rewrite map_length, skipn_length. lia. }
      destruct (assign_ok start src x) as (x1 & E & L & N); [rewrite Hs; nia|]. rewrite Hs in E. rewrite E. rewrite <- seq_shift, map_map.
      assert (Hsrc : forall q, q < bsz -> nth q src z = nth c (nth (e - bsz + q) y []) z).
      { intros q Hq. unfold src, last_rows. destruct (Nat.eqb_spec bsz 0); [lia|].
        rewrite (nth_indep _ z (nth c [] z)) by (rewrite map_length, skipn_length; lia). rewrite (map_nth (fun r => nth c r z)). f_equal.
        rewrite Hy. clear. generalize (e - bsz) as a. intro a. revert q. induction a as [|a IH] in y |- *; intro q; destruct y; cbn; auto. now destruct q. }
      destruct k as [|k].
      + cbn [seq map pinv_loop]. exists x1. split; [reflexivity|]. split; [exact L|]. intro p. rewrite N, Hs.
        destruct (Nat.leb_spec start p) as [H1|H1]; cbn [andb]; [|reflexivity].
        destruct (Nat.ltb_spec p (start + bsz)) as [H2|H2].
        * rewrite Nat.div_small, Nat.mod_small by lia. replace (p - start <? bsz) with true by (symmetry; apply Nat.ltb_lt; lia).
          cbn [Nat.ltb Nat.leb andb]. rewrite Nat.add_0_r. apply Hsrc. lia.
        * destruct (Nat.ltb_spec ((p - start) / gap) 1) as [H3|H3]; cbn [andb]; [|reflexivity].
          assert (p - start < gap). { destruct (Nat.lt_ge_cases (p - start) gap); auto. assert (1 <= (p - start) / gap) by (apply Nat.div_le_lower_bound; lia). lia. }
          rewrite Nat.mod_small by lia. destruct (Nat.ltb_spec (p - start) bsz); [lia|reflexivity].
      + destruct (IH (start + gap) (S c) x1) as (x' & E' & L' & N'); [rewrite L; cbn [Nat.sub] in *; rewrite Nat.sub_0_r; nia|].
        exists x'. split; [rewrite <- E'; f_equal; apply map_ext; intro; lia|]. split; [congruence|].
        intro p. rewrite N', N, Hs.
        destruct (Nat.leb_spec start p) as [H1|H1]; cbn [andb].
        2:{ replace (start + gap <=? p) with false by (symmetry; apply Nat.leb_gt; lia). reflexivity. }
        destruct (Nat.leb_spec (start + gap) p) as [H2|H2]; cbn [andb].
        * replace (p - start) with ((p - (start + gap)) + 1 * gap) by lia. rewrite Nat.div_add, Nat.mod_add by lia. set (q := p - (start + gap)).
          replace (q / gap + 1 <? S (S k)) with (q / gap <? S k) by (apply eq_true_iff_eq; rewrite !Nat.ltb_lt; lia).
          destruct (q / gap <? S k) eqn:E1, (q mod gap <? bsz) eqn:E2; cbn [andb];
            [f_equal; lia|..]; destruct (Nat.ltb_spec p (start + bsz)); try reflexivity; lia.
        * rewrite Nat.div_small, Nat.mod_small by lia. change (0 <? S (S k)) with true; cbn [andb].
          destruct (Nat.ltb_spec p (start + bsz)) as [H3|H3]; destruct (Nat.ltb_spec (p - start) bsz) as [H4|H4]; try lia; [|reflexivity].
          rewrite Nat.add_0_r. apply Hsrc. exact H4.
  Qed.
  Lemma pinv_loop_empty : forall rows c (x : list A), pinv_loop z [] 0 rows c x = Some x.
  Proof.
    induction rows as [|row rows IH]; intros c x; cbn [pinv_loop]; [reflexivity|]. unfold assign, last_rows. cbn [Nat.eqb map Nat.min]. unfold fit. cbn [length Nat.eqb].
    rewrite Nat.add_0_r. cbn [app]. rewrite firstn_skipn. apply IH.
  Qed.
  (** the pseudo inverse of an executed signal of [e] rows: the signal, with zeros where p mod gap >= e *)
  Theorem C44_pseudo_inverse : forall frames gap x, 1 <= frames -> 1 <= gap -> (frames - 1) * gap < length x ->
    exists y x', frames_execute z frames gap x = Some y /\ pseudo_inverse z frames gap y = Some x' /\ length x' = length x /\
      forall p, p < length x -> nth p x' z = if p mod gap <? length y then nth p x z else z.
  Proof.
    intros frames gap x Hf Hg He. rewrite C44_execute by lia. set (k := frames - 1) in *. set (e := length x - k * gap).
    set (y := map (fun t => map (fun f => nth (t + gap * f) x z) (seq 0 frames)) (seq 0 e)).
    assert (Hy : length y = e) by (unfold y; now rewrite map_length, seq_length).
    assert (Hyn : forall t f, t < e -> f < frames -> nth f (nth t y []) z = nth (t + gap * f) x z).
    { intros t f Ht Hf'. unfold y. rewrite (nth_indep _ [] ((fun t => map (fun f => nth (t + gap * f) x z) (seq 0 frames)) 0)) by now rewrite map_length, seq_length.
      rewrite (map_nth (fun t => map (fun f => nth (t + gap * f) x z) (seq 0 frames))), seq_nth by exact Ht.
      rewrite (nth_indep _ z ((fun f => nth (0 + t + gap * f) x z) 0)) by now rewrite map_length, seq_length.
      rewrite (map_nth (fun f => nth (0 + t + gap * f) x z)), seq_nth by exact Hf'. reflexivity. }
    exists y. unfold pseudo_inverse. destruct (Nat.eqb_spec gap 0); [lia|]. rewrite Hy. fold k.
    set (x0 := map (fun r => nth 0 r z) y ++ repeat z (e + k * gap - e)).
    assert (Hx0 : length x0 = length x) by (unfold x0; rewrite app_length, map_length, repeat_length, Hy; lia).
    assert (Nx0 : forall p, nth p x0 z = if p <? e then nth p x z else z).
    { intro p. unfold x0. destruct (Nat.ltb_spec p e) as [Hp|Hp].
      - rewrite app_nth1 by (rewrite map_length; lia). rewrite (nth_indep _ z (nth 0 [] z)) by (rewrite map_length; lia).
        rewrite (map_nth (fun r => nth 0 r z)), Hyn by lia. f_equal. lia.
      - rewrite app_nth2 by (rewrite map_length; lia). apply nth_repeat. }
    assert (He1 : 1 <= e) by lia.
    assert (Hrange : range_n (e + k * gap) (Nat.max e gap) (e + k * gap) gap = map (fun i => Nat.max e gap + i * gap) (seq 0 k)).
    { apply range_n_spec; try nia; intros; destruct (Nat.max_spec e gap) as [[_ ->]|[_ ->]]; nia. }
    rewrite Hrange.
    assert (Hsmall : forall p, p < gap -> p mod gap = p) by (intros; apply Nat.mod_small; lia).
    assert (Hmod : forall p, p mod gap < gap) by (intros; apply Nat.mod_upper_bound; lia).
    destruct (Nat.eq_dec k 0) as [Hk|Hk].
    - rewrite Hk. cbn [seq map pinv_loop]. exists x0. repeat split; auto. intros p Hp. rewrite Nx0.
      pose proof (Nat.mod_le p gap ltac:(lia)). replace (p <? e) with true by (symmetry; apply Nat.ltb_lt; lia).
      replace (p mod gap <? e) with true by (symmetry; apply Nat.ltb_lt; lia). reflexivity.
    - destruct (pinv_loop_ok y e (Nat.min gap e) gap (Nat.max e gap) Hy) with (k := k) (c := 1) (x := x0) as (x' & E & L & N); try lia.
      { rewrite Hx0. assert (k * gap = gap + (k - 1) * gap) by (destruct k; [lia|cbn [Nat.sub]; rewrite Nat.sub_0_r; lia]). lia. }
      exists x'. split; [reflexivity|]. split; [exact E|]. split; [congruence|]. intros p Hp. rewrite N, Nx0.
      pose proof (Nat.div_mod (p - Nat.max e gap) gap ltac:(lia)) as Hdm. pose proof (Hmod (p - Nat.max e gap)).
      destruct (Nat.leb_spec (Nat.max e gap) p) as [H1|H1]; cbn [andb].
      + assert (Hq : (p - Nat.max e gap) / gap < k) by (apply Nat.div_lt_upper_bound; nia). apply Nat.ltb_lt in Hq as Hqb. rewrite Hqb. cbn [andb].
        destruct (Nat.le_gt_cases gap e) as [Hge|Hge].
        * rewrite Nat.min_l, Nat.max_l in * by lia. replace ((p - e) mod gap <? gap) with true by (symmetry; apply Nat.ltb_lt; lia).
          rewrite Hyn by lia. replace (p mod gap <? e) with true by (symmetry; apply Nat.ltb_lt; specialize (Hmod p); lia). f_equal. nia.
        * rewrite Nat.min_r, Nat.max_r in * by lia. assert (Em : p mod gap = (p - gap) mod gap).
          { replace p with ((p - gap) + 1 * gap) at 1 by lia. apply Nat.mod_add. lia. }
          rewrite Em. destruct (Nat.ltb_spec ((p - gap) mod gap) e) as [Hl|Hl].
          -- rewrite Hyn by lia. f_equal. nia.
          -- destruct (Nat.ltb_spec p e); [lia|reflexivity].
      + destruct (Nat.lt_ge_cases p e) as [Hpe|Hpe].
        * replace (p <? e) with true by (symmetry; apply Nat.ltb_lt; lia). pose proof (Nat.mod_le p gap ltac:(lia)).
          replace (p mod gap <? e) with true by (symmetry; apply Nat.ltb_lt; lia). reflexivity.
        * rewrite Hsmall by lia. reflexivity.
  Qed.
  (** with at least gap rows of output, the signal itself *)
  Theorem C44_inverse : forall frames gap x y, 1 <= frames -> 1 <= gap -> frames_execute z frames gap x = Some y -> gap <= length y -> pseudo_inverse z frames gap y = Some x.
  Proof.
    intros frames gap x y Hf Hg E Hy. assert (Hlen : (frames - 1) * gap < length x).
    { destruct (Nat.lt_ge_cases (length x) ((frames - 1) * gap)); [rewrite C44_too_short in E by lia; discriminate|]. rewrite C44_execute in E by lia.
      injection E as <-. rewrite map_length, seq_length in Hy. lia. }
    destruct (C44_pseudo_inverse frames gap x Hf Hg Hlen) as (y' & x' & E' & P & L & N). rewrite E in E'. injection E' as <-. rewrite P. f_equal.
    apply (nth_ext x' x z z L). intros p Hp. rewrite N by lia.
    replace (p mod gap <? length y) with true; [reflexivity|]. symmetry. apply Nat.ltb_lt. pose proof (Nat.mod_upper_bound p gap ltac:(lia)). lia.
  Qed.
  (** always: executing the pseudo inverse gives the same result *)
  Theorem C44_execute_inverse : forall frames gap x y, 1 <= frames -> 1 <= gap -> frames_execute z frames gap x = Some y ->
    exists x', pseudo_inverse z frames gap y = Some x' /\ frames_execute z frames gap x' = Some y.
  Proof.
    intros frames gap x y Hf Hg E.
    assert (Hlen : (frames - 1) * gap <= length x) by (destruct (Nat.lt_ge_cases (length x) ((frames - 1) * gap)); [rewrite C44_too_short in E by lia; discriminate|lia]).
    destruct (Nat.eq_dec ((frames - 1) * gap) (length x)) as [Heq|Hne].
    - rewrite C44_execute in E by lia. rewrite Heq, Nat.sub_diag in E. injection E as <-. cbn [seq map].
      unfold pseudo_inverse. destruct (Nat.eqb_spec gap 0); [lia|]. cbn [length map app]. rewrite Nat.min_0_r, pinv_loop_empty. eexists; split; [reflexivity|].
      rewrite C44_execute by (rewrite ?repeat_length; lia). rewrite repeat_length. replace (0 + (frames - 1) * gap - 0 - (frames - 1) * gap) with 0 by lia. reflexivity.
    - destruct (C44_pseudo_inverse frames gap x Hf Hg) as (y' & x' & E' & P & L & N); [lia|]. rewrite E in E'. injection E' as <-. exists x'. split; [exact P|].
      rewrite C44_execute in * by lia. rewrite L. injection E as <-. f_equal. apply map_ext_in. intros t Ht. apply in_seq in Ht. apply map_ext_in. intros f Hfi. apply in_seq in Hfi.
      rewrite N by nia. rewrite map_length, seq_length. replace ((t + gap * f) mod gap) with (t mod gap).
      + pose proof (Nat.mod_le t gap ltac:(lia)). replace (t mod gap <? _) with true by (symmetry; apply Nat.ltb_lt; lia). reflexivity.
      + rewrite (Nat.mul_comm gap f). symmetry. apply Nat.mod_add. lia.
  Qed.

  (** ** C45 Time delay: row t holds the rows t, t-gap, t-2gap, ... and zeros before the start *)
  Definition delayed (x : list A) (gap t f : nat) : A := if t <? gap * f then z else nth (t - gap * f) x z.
  Definition short_frame (rows gap f : nat) : Prop := rows < gap * f /\ gap * f + 2 <= 2 * rows.
  Lemma delay_block_ok gap f x : ~ short_frame (length x) gap f ->
    exists b, delay_block z (length x) gap f x = Some b /\ forall t, t < length x -> nth t b z = delayed x gap t f.
  Proof.
    intro H. unfold delay_block, upto, delayed, short_frame in *. set (g := gap * f) in *. destruct (Z.ltb_spec (Z.of_nat (length x) - Z.of_nat g) 0) as [Hl|Hl].
    - set (l := firstn _ x). assert (Hll : length l <= 1) by (unfold l; rewrite firstn_length; lia).
      replace (length x - g) with 0 by lia. unfold fit. destruct l as [|a [|b l]]; cbn [length Nat.eqb repeat] in *; try lia;
        (eexists; split; [reflexivity|]; intros t Ht; replace (t <? g) with true by (symmetry; apply Nat.ltb_lt; lia); rewrite app_nil_r; apply nth_repeat).
    - replace (Z.to_nat (Z.of_nat (length x) - Z.of_nat g)) with (length x - g) by lia. unfold fit. rewrite firstn_length, Nat.min_l, Nat.eqb_refl by lia.
      eexists; split; [reflexivity|]. intros t Ht. destruct (Nat.ltb_spec t g) as [Hg|Hg].
      + rewrite app_nth1 by (rewrite repeat_length; lia). apply nth_repeat.
      + rewrite app_nth2 by (rewrite repeat_length; lia). rewrite repeat_length, Nat.min_r by lia. apply nth_firstn'. lia.
  Qed.
  Lemma delay_block_none gap f x : short_frame (length x) gap f -> delay_block z (length x) gap f x = None.
  Proof.
    intros [H1 H2]. unfold delay_block, upto. set (g := gap * f) in *. destruct (Z.ltb_spec (Z.of_nat (length x) - Z.of_nat g) 0) as [Hl|Hl]; [|lia].
    set (l := firstn _ x). assert (Hll : 2 <= length l) by (unfold l; rewrite firstn_length; lia). replace (length x - g) with 0 by lia.
    unfold fit. destruct l as [|a [|b l]]; cbn [length Nat.eqb] in *; try lia. reflexivity.
  Qed.
  Theorem C45_delay : forall frames gap x, (forall f, f < frames -> ~ short_frame (length x) gap f) ->
    delay_execute z frames gap x = Some (map (fun t => map (delayed x gap t) (seq 0 frames)) (seq 0 (length x))).
  Proof.
    intros frames gap x H. unfold delay_execute.
    set (g := fun f => match delay_block z (length x) gap f x with Some b => b | None => [] end).
    rewrite (all_some_map _ g).
    - f_equal. unfold of_blocks. apply map_ext_in. intros t Ht. apply in_seq in Ht. rewrite map_map. apply map_ext_in. intros f Hf. apply in_seq in Hf.
      unfold g. destruct (delay_block_ok gap f x) as (b & -> & N); [apply H; lia|]. apply N. lia.
    - intros f Hf. apply in_seq in Hf. unfold g. destruct (delay_block_ok gap f x) as (b & -> & _); [apply H; lia|reflexivity].
  Qed.
  (** in particular if the input is at least as long as the longest delay *)
  Corollary C45_delay_long : forall frames gap x, (frames - 1) * gap <= length x ->
    delay_execute z frames gap x = Some (map (fun t => map (delayed x gap t) (seq 0 frames)) (seq 0 (length x))).
  Proof. intros frames gap x H. apply C45_delay. intros f Hf [H1 _]. nia. Qed.
  (** otherwise ValueError *)
  Theorem C45_short_input_raises : forall frames gap x f, f < frames -> short_frame (length x) gap f -> delay_execute z frames gap x = None.
  Proof. intros frames gap x f Hf Hs. unfold delay_execute. rewrite (all_some_none _ _ f); [reflexivity|apply in_seq; lia|now apply delay_block_none]. Qed.

  (** ** C46 Sliding window *)
  Lemma removelast_map {B C} (g : B -> C) l : removelast (map g l) = map g (removelast l).
  Proof. induction l as [|a [|b l] IH]; [reflexivity|reflexivity|]. cbn [map removelast] in *. now rewrite IH. Qed.
  Lemma removelast_seq a n : removelast (seq a n) = seq a (n - 1).
  Proof. destruct n; [reflexivity|]. rewrite seq_S, removelast_last. f_equal. lia. Qed.
  Lemma nth_wset {B} (v d : B) l k i : k < length l -> nth i (wset k v l) d = if i =? k then v else nth i l d.
  Proof.
    revert k i. induction l as [|a l IH]; intros k i H; cbn [length] in H; [lia|]. destruct k as [|k]; [destruct i; reflexivity|].
    destruct i; [reflexivity|]. change (wset (S k) v (a :: l)) with (a :: wset k v l). cbn [nth Nat.eqb]. apply IH. lia.
  Qed.
  Lemma wset_length {B} (v : B) l k : k < length l -> length (wset k v l) = length l.
  Proof. intro H. unfold wset. rewrite app_length, firstn_length. cbn [length]. rewrite skipn_length. lia. Qed.
  Lemma nth_shift {B} (d e : B) l i : i + 1 < length l -> nth i (tl l ++ [e]) d = nth (i + 1) l d.
  Proof. destruct l as [|a l]; cbn [length tl]; intro H; [lia|]. rewrite app_nth1 by lia. rewrite Nat.add_1_r. reflexivity. Qed.
  Definition out (xs : list A) (frames gap t : nat) : list A := map (delayed xs gap t) (seq 0 frames).
  Lemma out_cons xs frames gap t : 1 <= frames -> 1 <= gap ->
    out xs frames gap t = nth t xs z :: (if gap <=? t then removelast (out xs frames gap (t - gap)) else repeat z (frames - 1)).
  Proof.
    intros Hf Hg. unfold out. destruct frames as [|n]; [lia|]. cbn [Nat.sub]. rewrite Nat.sub_0_r. rewrite removelast_map, removelast_seq. cbn [Nat.sub]. rewrite Nat.sub_0_r.
    cbn [seq map]. f_equal; [unfold delayed; rewrite Nat.mul_0_r, Nat.sub_0_r; reflexivity|]. rewrite <- seq_shift, map_map. destruct (Nat.leb_spec gap t) as [H|H].
    - apply map_ext. intro f. unfold delayed. replace (t <? gap * S f) with (t - gap <? gap * f) by (apply eq_true_iff_eq; rewrite !Nat.ltb_lt; nia).
      destruct (t - gap <? gap * f); [reflexivity|]. f_equal. nia.
    - assert (G : forall a n, map (fun f => delayed xs gap t (S f)) (seq a n) = repeat z n).
      { intros a n'. revert a. induction n' as [|n' IH]; intro a; [reflexivity|]. cbn [seq map repeat]. rewrite IH. f_equal.
        unfold delayed. replace (t <? gap * S a) with true by (symmetry; apply Nat.ltb_lt; nia). reflexivity. }
      apply G.
  Qed.
  Definition win_inv (xs : list A) (frames gap t : nat) (w : window) : Prop :=
    length (w_wnd w) = gap + 1 /\
    (t <= gap /\ w_cur w = t /\ w_slide w = false /\ (forall i, i < t -> nth i (w_wnd w) [] = out xs frames gap i)
     \/ gap < t /\ w_cur w = gap /\ w_slide w = true /\ (forall i, i <= gap -> nth i (w_wnd w) [] = out xs frames gap (t - 1 - gap + i))).
  Lemma win_step xs frames gap t w : 1 <= frames -> 1 <= gap -> win_inv xs frames gap t w ->
    let (w', r) := window_execute z frames gap w (nth t xs z) in r = out xs frames gap t /\ win_inv xs frames gap (S t) w'.
  Proof.
    intros Hf Hg [HL Hw]. unfold window_execute. rewrite HL. replace (gap + 1 - 1) with gap by lia.
    destruct Hw as [(Ht & -> & -> & Hn)|(Ht & -> & -> & Hn)].
    - assert (Hr : (if gap <=? t then nth t xs z :: removelast (nth (t - gap) (w_wnd w) []) else nth t xs z :: repeat z (frames - 1)) = out xs frames gap t).
      { rewrite (out_cons xs frames gap t) by assumption. destruct (Nat.leb_spec gap t); [|reflexivity]. now rewrite Hn by lia. }
      rewrite Hr. destruct (Nat.ltb_spec t gap) as [Hlt|Hge]; split; auto; split; cbn [w_wnd w_cur w_slide]; rewrite ?wset_length by lia; try exact HL.
      + left. repeat split; try lia. intros i Hi. rewrite nth_wset by lia. destruct (Nat.eqb_spec i t); [now subst|]. apply Hn. lia.
      + right. repeat split; try lia. intros i Hi. rewrite nth_wset by lia. replace (S t - 1 - gap + i) with i by lia.
        destruct (Nat.eqb_spec i t); [now subst|]. apply Hn. lia.
    - set (wnd := tl (w_wnd w) ++ [last (w_wnd w) []]).
      assert (HLw : length wnd = gap + 1) by (unfold wnd; rewrite app_length; cbn [length]; destruct (w_wnd w); cbn [length tl] in *; lia).
      assert (Hsh : forall i, i < gap -> nth i wnd [] = out xs frames gap (t - gap + i)).
      { intros i Hi. unfold wnd. rewrite nth_shift by lia. rewrite Hn by lia. f_equal. lia. }
      rewrite Nat.leb_refl, Nat.sub_diag, Hsh by lia. rewrite Nat.add_0_r.
      assert (Hr : nth t xs z :: removelast (out xs frames gap (t - gap)) = out xs frames gap t).
      { rewrite (out_cons xs frames gap t) by assumption. replace (gap <=? t) with true by (symmetry; apply Nat.leb_le; lia). reflexivity. }
      rewrite Hr, Nat.ltb_irrefl. split; auto. split; cbn [w_wnd w_cur w_slide]; [rewrite wset_length by lia; exact HLw|].
      right. repeat split; try lia. intros i Hi. rewrite nth_wset by lia. destruct (Nat.eqb_spec i gap) as [->|]; [f_equal; lia|].
      rewrite Hsh by lia. f_equal. lia.
  Qed.
  Lemma win_run xs frames gap : 1 <= frames -> 1 <= gap -> forall suf pre w, xs = pre ++ suf -> win_inv xs frames gap (length pre) w ->
    window_run z frames gap w suf = map (out xs frames gap) (seq (length pre) (length suf)).
  Proof.
    intros Hf Hg. induction suf as [|x suf IH]; intros pre w E I; [reflexivity|]. cbn [window_run length seq map].
    pose proof (win_step xs frames gap (length pre) w Hf Hg I) as H.
    replace (nth (length pre) xs z) with x in H by (rewrite E, app_nth2, Nat.sub_diag by lia; reflexivity).
    destruct (window_execute z frames gap w x) as [w' r]. destruct H as [-> I']. f_equal.
    rewrite (IH (pre ++ [x])); [rewrite app_length; cbn [length]; now rewrite Nat.add_1_r|rewrite <- app_assoc; exact E|].
    rewrite app_length. cbn [length]. now rewrite Nat.add_1_r.
  Qed.
  (** one row after the other gives the delayed rows, for every stream *)
  Theorem C46_sliding_window : forall frames gap xs, 1 <= frames -> 1 <= gap ->
    window_run z frames gap (window_init z frames gap) xs = map (fun t => map (delayed xs gap t) (seq 0 frames)) (seq 0 (length xs)).
  Proof.
    intros frames gap xs Hf Hg. rewrite (win_run xs frames gap Hf Hg xs []); [reflexivity|reflexivity|]. split; [cbn [w_wnd window_init]; apply repeat_length|].
    left. cbn. repeat split; lia.
  Qed.
  Corollary C46_as_batch : forall frames gap xs, 1 <= frames -> 1 <= gap -> (frames - 1) * gap <= length xs ->
    delay_execute z frames gap xs = Some (window_run z frames gap (window_init z frames gap) xs).
  Proof. intros. now rewrite C46_sliding_window, C45_delay_long. Qed.
End Frames.
Example C44_example : frames_execute 0 3 2 [1; 2; 3; 4; 5; 6; 7; 8] = Some [[1; 3; 5]; [2; 4; 6]; [3; 5; 7]; [4; 6; 8]] /\
  pseudo_inverse 0 3 2 [[1; 3; 5]; [2; 4; 6]; [3; 5; 7]; [4; 6; 8]] = Some [1; 2; 3; 4; 5; 6; 7; 8] /\
  pseudo_inverse 0 3 2 [[1; 3; 5]] = Some [1; 0; 3; 0; 5].
Proof. repeat split. Qed.
(** C45 (refuted): an input of 3 rows with gap 2 and 3 frames raises *)
Theorem C45_delay_refuted : exists (frames gap : nat) (x : list Z), (1 <= frames /\ 1 <= gap /\ x <> [])%nat /\ delay_execute 0 frames gap x = None.
Proof. exists 3%nat, 2%nat, [1; 2; 3]. repeat split; try lia; try discriminate. Qed.
Example C45_example : delay_execute 0 3 2 [1; 2; 3; 4; 5; 6] = Some [[1; 0; 0]; [2; 0; 0]; [3; 1; 0]; [4; 2; 0]; [5; 3; 1]; [6; 4; 2]].
Proof. reflexivity. Qed.
Example C46_example : window_run 0 3 2 (window_init 0 3 2) [1; 2; 3; 4; 5; 6] = [[1; 0; 0]; [2; 0; 0]; [3; 1; 0]; [4; 2; 0]; [5; 3; 1]; [6; 4; 2]].
Proof. reflexivity. Qed.
(** C127 (refuted): also with gap 0 *)
Theorem C127_gap_zero_refuted : exists (frames : nat) (xs : list Z), delay_execute 0 frames 0 xs <> Some (window_run 0 frames 0 (window_init 0 frames 0) xs).
Proof. exists 2%nat, [1; 2]. vm_compute. discriminate. Qed.

(** ** C48 Cutoff *)
Ltac leb_cases := match goal with |- context [?a <=? ?b] => lazymatch a with context [if _ then _ else _] => fail | _ => destruct (Z.leb_spec a b) end end.
Theorem C48_cutoff : forall lo hi x, let y := cutoff lo hi x in
  (forall h, hi = Some h -> y <= h) /\
  (forall l, lo = Some l -> (forall h, hi = Some h -> l <= h) -> l <= y) /\
  ((forall l, lo = Some l -> l <= x) -> (forall h, hi = Some h -> x <= h) -> y = x) /\
  cutoff lo hi y = y.
Proof.
  intros lo hi x y. unfold y, cutoff. split; [|split; [|split]].
  - intros h ->. destruct lo; repeat leb_cases; lia.
  - intros l -> H. destruct hi as [h|]; [specialize (H h eq_refl)|]; repeat leb_cases; lia.
  - intros Hl Hh. destruct lo as [l|]; [specialize (Hl l eq_refl)|]; (destruct hi as [h|]; [specialize (Hh h eq_refl)|]);
      repeat leb_cases; lia.
  - destruct lo, hi; repeat (leb_cases; try lia); try lia.
Qed.
(** monotone: the order of the data is kept *)
Theorem C48_monotone : forall lo hi x y, x <= y -> cutoff lo hi x <= cutoff lo hi y.
Proof.
  intros lo hi x y H. unfold cutoff. destruct lo as [l|], hi as [h|]; cbn; repeat leb_cases; lia.
Qed.
Example C48_example : map (cutoff (Some (-1)) (Some 2)) [-5; -1; 0; 2; 9] = [-1; -1; 0; 2; 2].
Proof. reflexivity. Qed.

(** ** C128 Adaptive cutoff *)
Lemma insert_perm a l : Permutation (a :: l) (insert a l).
Proof. induction l as [|b l IH]; cbn; [reflexivity|]. destruct (a <=? b); [reflexivity|]. rewrite perm_swap. now constructor. Qed.
Lemma sort_perm l : Permutation l (sort l).
Proof. induction l as [|a l IH]; [reflexivity|]. cbn. rewrite <- insert_perm. now constructor. Qed.
Lemma insert_sorted a l : StronglySorted Z.le l -> StronglySorted Z.le (insert a l).
Proof.
  induction 1 as [|b l Hs IH Hf]; cbn; [repeat constructor|]. destruct (Z.leb_spec a b) as [H|H].
  - constructor; [now constructor|]. constructor; [exact H|]. eapply Forall_impl; [|exact Hf]. cbn. lia.
  - constructor; [exact IH|]. eapply Permutation_Forall; [apply insert_perm|]. constructor; [lia|exact Hf].
Qed.
Lemma sort_sorted l : StronglySorted Z.le (sort l).
Proof. induction l as [|a l IH]; [constructor|]. now apply insert_sorted. Qed.
Lemma filter_perm (f : Z -> bool) l k : Permutation l k -> length (filter f l) = length (filter f k).
Proof.
  induction 1; cbn; auto; try congruence.
  - destruct (f x); cbn; auto.
  - destruct (f x), (f y); reflexivity.
Qed.
Lemma sorted_count l : StronglySorted Z.le l -> NoDup l -> forall i b, nth_error l i = Some b ->
  length (filter (fun a => a <? b) l) = i /\ length (filter (fun a => b <? a) l) = (length l - 1 - i)%nat.
Proof.
  induction 1 as [|a l Hs IH Hf]; intros Hn i b Hb; [destruct i; discriminate|]. inversion Hn as [|? ? Hni Hn']; subst. rewrite Forall_forall in Hf.
  assert (Hlt : forall c, In c l -> a < c) by (intros c Hc; specialize (Hf c Hc); assert (a <> c) by (intros ->; auto); lia).
  destruct i as [|i]; cbn [nth_error] in Hb.
  - injection Hb as <-. cbn [filter length]. rewrite Z.ltb_irrefl. split.
    + assert (G : forall k, (forall c, In c k -> a < c) -> filter (fun c => c <? a) k = []).
      { induction k as [|c k IHk]; intro Hk; [reflexivity|]. cbn. destruct (Z.ltb_spec c a) as [H|H]; [specialize (Hk c (or_introl eq_refl)); lia|].
        apply IHk. intros; apply Hk; now right. }
      now rewrite G.
    + assert (G : forall k, (forall c, In c k -> a < c) -> filter (fun c => a <? c) k = k).
      { induction k as [|c k IHk]; intro Hk; [reflexivity|]. cbn. destruct (Z.ltb_spec a c) as [H|H]; [|specialize (Hk c (or_introl eq_refl)); lia].
        f_equal. apply IHk. intros; apply Hk; now right. }
      rewrite G by exact Hlt. lia.
  - pose proof (Hlt b (nth_error_In _ _ Hb)) as Hab. destruct (IH Hn' i b Hb) as [E1 E2]. cbn [filter length].
    destruct (Z.ltb_spec a b) as [_|H]; [|lia]. destruct (Z.ltb_spec b a) as [H|_]; [lia|]. cbn [length]. rewrite E1, E2. split; lia.
Qed.
(** for different values: the lower bound cuts off floor(f*n) values, the upper bound n-1-floor(n-f*n) *)
Lemma bound_counts data i b : NoDup data -> nth_error (sort data) i = Some b ->
  length (filter (fun a => a <? b) data) = i /\ length (filter (fun a => b <? a) data) = (length data - 1 - i)%nat.
Proof.
  intros Hn Hb. rewrite (filter_perm _ _ _ (sort_perm data)), (filter_perm (fun a => b <? a) _ _ (sort_perm data)), (Permutation_length (sort_perm data)).
  apply sorted_count; auto; [apply sort_sorted|]. eapply Permutation_NoDup; [apply sort_perm|exact Hn].
Qed.
Lemma lower_index_lt (f : Q) n : (f < 1)%Q -> (0 < n)%nat -> (lower_index f n < n)%nat.
Proof.
  intros H Hn. unfold lower_index. destruct f as [a b]. unfold Qlt in H. cbn in *. rewrite Z.mul_1_r in H. rewrite Pos.mul_1_r.
  assert ((a * Z.of_nat n / Zpos b) < Z.of_nat n) by (apply Z.div_lt_upper_bound; nia). lia.
Qed.
Lemma upper_index_lt (f : Q) n : (0 < f)%Q -> (0 < n)%nat -> (upper_index f n < n)%nat.
Proof.
  intros H Hn. unfold upper_index. destruct f as [a b]. unfold Qlt in H. cbn in *. rewrite Z.mul_1_r in H.
  match goal with |- (Z.to_nat (?u / ?v) < n)%nat => assert (u / v < Z.of_nat n) by (apply Z.div_lt_upper_bound; nia) end. lia.
Qed.
Theorem C128_lower : forall (f : Q) data, (0 < f)%Q -> (f < 1)%Q -> data <> [] -> NoDup data -> exists b, lower_bound f data = Some b /\
  length (filter (fun a => a <? b) data) = lower_index f (length data).
Proof.
  intros f data _ Hf Hne Hn. unfold lower_bound. destruct (nth_error (sort data) (lower_index f (length data))) as [b|] eqn:E.
  - exists b. split; [reflexivity|]. now apply bound_counts.
  - exfalso. apply nth_error_None in E. rewrite <- (Permutation_length (sort_perm data)) in E.
    pose proof (lower_index_lt f (length data) Hf). destruct data; [congruence|]. cbn [length] in *. lia.
Qed.
Theorem C128_upper : forall (f : Q) data, (0 < f)%Q -> (f < 1)%Q -> data <> [] -> NoDup data -> exists b, upper_bound f data = Some b /\
  length (filter (fun a => b <? a) data) = (length data - 1 - upper_index f (length data))%nat.
Proof.
  intros f data Hf _ Hne Hn. unfold upper_bound. destruct (nth_error (sort data) (upper_index f (length data))) as [b|] eqn:E.
  - exists b. split; [reflexivity|]. now apply bound_counts.
  - exfalso. apply nth_error_None in E. rewrite <- (Permutation_length (sort_perm data)) in E.
    pose proof (upper_index_lt f (length data) Hf). destruct data; [congruence|]. cbn [length] in *. lia.
Qed.
(** C128 (refuted): an upper fraction cuts off as much as the same lower fraction *)
Theorem C128_upper_fraction_refuted : exists (f : Q) data b, NoDup data /\ lower_index f (length data) = 2%nat /\ (f * inject_Z (Z.of_nat (length data)) == 2)%Q /\
  upper_bound f data = Some b /\ length (filter (fun a => b <? a) data) = 1%nat.
Proof.
  exists (1 # 2)%Q, [4; 1; 3; 2], 3. repeat split; try reflexivity. repeat constructor; cbn; intuition discriminate.
Qed.
(** C129 (refuted): any fraction from 0 to 1 can be given *)
Theorem C129_fraction_one_refuted : exists f data, (0 < f)%Q /\ (f <= 1)%Q /\ data <> [] /\ lower_bound f data = None.
Proof. exists 1%Q, [1; 2]. repeat split; discriminate. Qed.

(** ** C130 Eta values: unbiased variance and mean squared derivative of the points (without the last of each chunk) *)
Local Open Scope Qc_scope.
Lemma eta_chunks chunks : forall s, let s' := fold_left eta_train chunks s in let xs := concat (map (@removelast Qc) chunks) in
  e_mean s' = e_mean s + qsum xs /\ e_var s' = e_var s + qsum (map (fun v => v * v) xs) /\ e_tlen s' = (e_tlen s + length xs)%nat /\
  e_diff2 s' = e_diff2 s + qsum (map (fun v => v * v) (concat (map timediff chunks))).
Proof.
  induction chunks as [|x chunks IH]; intro s; cbn [fold_left map concat].
  - cbn. repeat split; ring || lia.
  - destruct (IH (eta_train s x)) as (E1 & E2 & E3 & E4). rewrite E1, E2, E3, E4. cbn [eta_train e_mean e_var e_tlen e_diff2]. rewrite !map_app, !qsum_app, !app_length.
    repeat split; try ring; lia.
Qed.
Lemma sq_dev (xs : list Qc) m : qsum (map (fun v => (v - m) * (v - m)) xs) = qsum (map (fun v => v * v) xs) - (1 + 1) * m * qsum xs + qn (length xs) * (m * m).
Proof. induction xs as [|v xs IH]; cbn [map qsum length qn]; [ring|]. rewrite IH. ring. Qed.
Theorem C130_eta : forall chunks, let xs := concat (map (@removelast Qc) chunks) in let ds := concat (map timediff chunks) in let n := qn (length xs) in (2 <= length xs)%nat ->
  let m := qsum xs / n in let var := qsum (map (fun v => (v - m) * (v - m)) xs) / (n - 1) in
  eta_stop (fold_left eta_train chunks eta_init) = (var, qsum (map (fun v => v * v) ds) / n / var).
Proof.
  intros chunks xs ds n Hn m var. destruct (eta_chunks chunks eta_init) as (E1 & E2 & E3 & E4). fold xs in E1, E2, E3. fold ds in E4. unfold eta_stop.
  rewrite E1, E2, E3, E4. cbn [eta_init e_mean e_var e_tlen e_diff2 Nat.add]. fold n. rewrite !Qcplus_0_l.
  assert (Hn0 : n <> 0) by (apply qn_pos; lia). assert (Ev : (qsum (map (fun v => v * v) xs) - qsum xs * qsum xs / n) / (n - 1) = var).
  { unfold var. f_equal. rewrite sq_dev. fold n. unfold m. field. exact Hn0. }
  rewrite Ev. reflexivity.
Qed.
(** the derivative never spans two chunks *)
Theorem C130_timediff : forall x t d, (S t < length x)%nat -> length (timediff x) = (length x - 1)%nat /\ nth t (timediff x) d = nth (S t) x d - nth t x d.
Proof.
  intros x t d H. unfold timediff. assert (Hl : length (removelast x) = (length x - 1)%nat).
  { clear. destruct x as [|a x] using rev_ind; [reflexivity|]. rewrite removelast_last, app_length. cbn. lia. }
  split; [rewrite map_length, combine_length, Hl; destruct x; cbn [length tl]; lia|].
  revert t H Hl. induction x as [|a [|b x] IH]; intros t H Hl; cbn [length] in H; try lia. destruct t as [|t]; [reflexivity|].
  change (removelast (a :: b :: x)) with (a :: removelast (b :: x)). cbn [tl combine map].
  specialize (IH t). cbn [length] in IH. change (nth (S (S t)) (a :: b :: x) d) with (nth (S t) (b :: x) d). change (nth (S t) (a :: b :: x) d) with (nth t (b :: x) d).
  rewrite <- IH; [reflexivity|lia|]. change (removelast (a :: b :: x)) with (a :: removelast (b :: x)) in Hl. cbn [length] in Hl |- *. lia.
Qed.
Example C130_example : let q z := Q2Qc (inject_Z z) in
  eta_stop (fold_left eta_train [[q 0; q 2; q 3]; [q 4; q 4; q 1]]%Z eta_init) = (Q2Qc (11 # 3), Q2Qc (21 # 22)).
Proof. vm_compute. f_equal; apply Qc_is_canon; reflexivity. Qed.
