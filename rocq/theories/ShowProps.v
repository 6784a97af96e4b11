(** Properties: C511-C513 *)
From Coq Require Import List Arith ZArith Bool Lia.
From Verif Require Import SnapModel SnapProps ShowModel.
Import ListNotations.

Lemma oeqb_spec a b : oeqb a b = true <-> a = b.
Proof. destruct a as [a|], b as [b|]; cbn; rewrite ?Nat.eqb_eq; split; congruence. Qed.
Lemma pid_eqb_spec a b : pid_eqb a b = true <-> a = b.
Proof. destruct a as [a k], b as [b m]. unfold pid_eqb. cbn. rewrite andb_true_iff, eqb_true_iff, Nat.eqb_eq. split; [intros [-> ->]; reflexivity|intros E; now injection E as -> ->]. Qed.
(** numbers and strings with the same text are not mixed *)
Definition unmixed (l : list pid) : Prop := forall a b, In a l -> In b l -> snd a = snd b -> a = b.
Lemma one_false l : unmixed l -> only_one_section l = Some false -> forall c : option nat, exists i, i < length l /\ nth_error (js_ids l) i <> c.
Proof.
  intros U. destruct l as [|a r]; [discriminate|]. unfold only_one_section. intros H c. remember (a :: r) as l eqn:El. injection H as H. apply negb_false_iff, existsb_exists in H. destruct H as (b & I & N).
  assert (Ia : nth_error l 0 = Some a) by now subst l. assert (D : snd b <> snd a). { intros E. rewrite (U b a I (nth_error_In _ _ Ia) E) in N. assert (pid_eqb a a = true) by now apply pid_eqb_spec. rewrite H in N. discriminate. }
  destruct (In_nth_error _ _ I) as [k K]. unfold js_ids. destruct (oeqb (Some (snd a)) c) eqn:E.
  - apply oeqb_spec in E. subst c. exists k. split; [apply nth_error_Some; congruence|]. rewrite (map_nth_error snd _ _ K). congruence.
  - exists 0. split; [apply nth_error_Some; congruence|]. rewrite (map_nth_error snd _ _ Ia). intros X. apply oeqb_spec in X. congruence.
Qed.
Lemma one_true l : only_one_section l = Some true -> forall i j, i < length l -> j < length l -> nth_error (js_ids l) i = nth_error (js_ids l) j.
Proof.
  destruct l as [|a r]; [discriminate|]. unfold only_one_section. intros H. remember (a :: r) as l. injection H as H. apply negb_true_iff in H. assert (A : forall x, In x l -> x = a).
  { intros x I. destruct (pid_eqb x a) eqn:E; [now apply pid_eqb_spec|]. exfalso. assert (T : existsb (fun i => negb (pid_eqb i a)) l = true) by (apply existsb_exists; exists x; split; [exact I|]; now rewrite E). congruence. }
  intros i j Hi Hj. apply nth_error_Some in Hi, Hj. destruct (nth_error l i) as [x|] eqn:X; [|congruence]. destruct (nth_error l j) as [y|] eqn:Y; [|congruence]. unfold js_ids. rewrite (map_nth_error snd _ _ X), (map_nth_error snd _ _ Y). apply nth_error_In in X, Y. now rewrite (A _ X), (A _ Y).
Qed.
Lemma least (P : nat -> bool) m : P m = true -> exists k, k <= m /\ P k = true /\ forall j, j < k -> P j = false.
Proof.
  revert P. induction m as [|m IH]; intros P H; [exists 0; repeat split; auto; lia|]. destruct (P 0) eqn:Z; [exists 0; repeat split; auto; lia|]. destruct (IH (fun i => P (S i)) H) as (k & L & Pk & A). exists (S k). repeat split; [lia|exact Pk|]. intros [|j] J; [exact Z|]. apply A. lia.
Qed.

Section Show.
  Variable n : nat.
  Variable loop : bool.
  Variable ids : list nat.
  Hypothesis Hn : length ids = n.

  Lemma iter_in {A} (f : A -> A) j : forall i, Nat.iter (S j) f i = Nat.iter j f (f i).
  Proof. clear. induction j as [|j IH]; intros i; [reflexivity|]. cbn in IH |- *. now rewrite IH. Qed.
  Lemma leave_first go c k : forall fuel i, k < fuel -> (forall j, j < k -> nth_error ids (Nat.iter j go i) = c) -> nth_error ids (Nat.iter k go i) <> c -> leave ids fuel go c i = Some (Nat.iter k go i).
  Proof.
    clear Hn. induction k as [|k IH]; intros [|f] i L A N; try lia; cbn [leave].
    - destruct (oeqb c (nth_error ids i)) eqn:E; [apply oeqb_spec in E; cbn in N; congruence|reflexivity].
    - specialize (A 0 ltac:(lia)) as A0. cbn in A0. assert (E : oeqb c (nth_error ids i) = true) by (apply oeqb_spec; congruence). rewrite E.
      rewrite iter_in in N |- *. apply IH; [lia| |exact N]. intros j J. rewrite <- iter_in. apply A. lia.
  Qed.
  Lemma next_up i k : i + k < n -> Nat.iter k (go_next n) i = i + k.
  Proof. clear. induction k as [|k IH]; intros H; [cbn; lia|]. cbn [Nat.iter nat_rect]. change (go_next n (Nat.iter k (go_next n) i) = i + S k). rewrite IH by lia. unfold go_next. destruct (Nat.ltb_spec (i + k + 1) n); lia. Qed.
  Lemma prev_down i k : k <= i -> Nat.iter k (go_prev n) i = i - k.
  Proof. clear. induction k as [|k IH]; intros H; [cbn; lia|]. change (go_prev n (Nat.iter k (go_prev n) i) = i - S k). rewrite IH by lia. unfold go_prev. destruct (Nat.ltb_spec 0 (i - k)); lia. Qed.
  Lemma iter_add {A} (f : A -> A) a b i : Nat.iter (a + b) f i = Nat.iter a f (Nat.iter b f i).
  Proof. clear. induction a as [|a IH]; [reflexivity|]. change (f (Nat.iter (a + b) f i) = f (Nat.iter a f (Nat.iter b f i))). now rewrite IH. Qed.
  Lemma next_all i k : i < n -> k < n -> Nat.iter k (go_next n) i = if i + k <? n then i + k else i + k - n.
  Proof.
    clear. intros Hi Hk. destruct (Nat.ltb_spec (i + k) n) as [L|L]; [now apply next_up|]. cut (Nat.iter ((i + k - n) + S (n - 1 - i)) (go_next n) i = i + k - n); [intros H; now replace (i + k - n + S (n - 1 - i)) with k in H by lia|]. rewrite iter_add. change (Nat.iter (S (n - 1 - i)) (go_next n) i) with (go_next n (Nat.iter (n - 1 - i) (go_next n) i)).
    rewrite (next_up i (n - 1 - i)) by lia. replace (go_next n (i + (n - 1 - i))) with 0 by (unfold go_next; destruct (Nat.ltb_spec (i + (n - 1 - i) + 1) n); lia). rewrite next_up; lia.
  Qed.
  Lemma prev_all i k : i < n -> k < n -> Nat.iter k (go_prev n) i = if k <=? i then i - k else i + n - k.
  Proof.
    clear. intros Hi Hk. destruct (Nat.leb_spec k i) as [L|L]; [now apply prev_down|]. cut (Nat.iter ((k - i - 1) + S i) (go_prev n) i = i + n - k); [intros H; now replace (k - i - 1 + S i) with k in H by lia|]. rewrite iter_add. change (Nat.iter (S i) (go_prev n) i) with (go_prev n (Nat.iter i (go_prev n) i)).
    rewrite (prev_down i i) by lia. rewrite Nat.sub_diag. change (go_prev n 0) with (n - 1). rewrite prev_down; lia.
  Qed.
  Definition after (i k : nat) : nat := if i + k <? n then i + k else i + k - n.
  Definition before (i k : nat) : nat := if k <=? i then i - k else i + n - k.
  Lemma leave_ok go pos : (forall i k, i < n -> k < n -> Nat.iter k go i = pos i k) -> (forall i j, i < n -> j < n -> exists k, k < n /\ pos i k = j) ->
    forall i j, i < n -> j < n -> nth_error ids j <> nth_error ids i ->
    exists k, k < n /\ leave ids (S n) go (nth_error ids i) i = Some (pos i k) /\ nth_error ids (pos i k) <> nth_error ids i /\ forall m, m < k -> nth_error ids (pos i m) = nth_error ids i.
  Proof.
    clear Hn. intros G R i j Hi Hj D. destruct (R i j Hi Hj) as (m & Hm & Em). destruct (least (fun k => negb (oeqb (nth_error ids (pos i k)) (nth_error ids i))) m) as (k & L & Pk & A).
    { rewrite Em. apply negb_true_iff. destruct (oeqb _ _) eqn:E; [apply oeqb_spec in E; contradiction|reflexivity]. }
    assert (N : nth_error ids (pos i k) <> nth_error ids i) by (intros E; apply oeqb_spec in E; rewrite E in Pk; discriminate).
    assert (B : forall q, q < k -> nth_error ids (pos i q) = nth_error ids i) by (intros q Q; apply oeqb_spec; apply negb_false_iff; now apply A).
    exists k. split; [lia|]. split; [|now split]. rewrite <- G by lia. apply leave_first; [lia| |rewrite G by lia; exact N]. intros q Q. rewrite G by lia. now apply B.
  Qed.
  Lemma reach_after i j : i < n -> j < n -> exists k, k < n /\ after i k = j.
  Proof. clear. intros Hi Hj. unfold after. destruct (le_lt_dec i j); [exists (j - i)|exists (j + n - i)]; (split; [lia|]); destruct (Nat.ltb_spec (i + (j - i)) n), (Nat.ltb_spec (i + (j + n - i)) n); lia. Qed.
  Lemma reach_before i j : i < n -> j < n -> exists k, k < n /\ before i k = j.
  Proof. clear. intros Hi Hj. unfold before. destruct (le_lt_dec j i); [exists (i - j)|exists (i + n - j)]; (split; [lia|]); destruct (Nat.leb_spec (i - j) i), (Nat.leb_spec (i + n - j) i); lia. Qed.
  Lemma section_start_ok c i : section_start ids c i <= i /\ (forall q, section_start ids c i <= q < i -> nth_error ids q = c) /\ (forall q, section_start ids c i = S q -> nth_error ids q <> c).
  Proof.
    clear. induction i as [|i (L & A & B)]; [cbn; repeat split; intros; lia|]. cbn [section_start]. destruct (oeqb c (nth_error ids i)) eqn:E.
    - apply oeqb_spec in E. split; [lia|]. split; [|exact B]. intros q Q. destruct (Nat.eq_dec q i) as [->|]; [congruence|]. apply A. lia.
    - split; [lia|]. split; [intros; lia|]. intros q Q X. injection Q as <-. symmetry in X. apply oeqb_spec in X. congruence.
  Qed.
  Definition valid (s : show) : Prop := cur s < n /\ sec s = nth_error ids (cur s).
  Definition op_ok (o : op) : Prop := match o with Select i => i < n | _ => True end.
  Variable one : bool.
  Hypothesis Hone : one = false -> forall c : option nat, exists j, j < n /\ nth_error ids j <> c.

  Lemma next_ok s : valid s -> one = false -> exists k, k < n /\ next_section n ids one (S n) s = Some (update ids s (after (cur s) k)) /\ nth_error ids (after (cur s) k) <> nth_error ids (cur s) /\ forall m, m < k -> nth_error ids (after (cur s) m) = nth_error ids (cur s).
  Proof.
    intros [V E] O. destruct (Hone O (nth_error ids (cur s))) as (j & J & D). destruct (leave_ok (go_next n) after next_all reach_after (cur s) j V J D) as (k & K & L & N & A). exists k. unfold next_section. rewrite O, E, L. cbn. auto.
  Qed.
  Lemma prev_ok s : valid s -> one = false -> exists k, k < n /\ nth_error ids (before (cur s) k) <> nth_error ids (cur s) /\ (forall m, m < k -> nth_error ids (before (cur s) m) = nth_error ids (cur s)) /\
    exists r, previous_section n ids one (S n) s = Some (update ids s r) /\ r <= before (cur s) k /\ (forall q, r <= q <= before (cur s) k -> nth_error ids q = nth_error ids (before (cur s) k)) /\ (forall q, r = S q -> nth_error ids q <> nth_error ids (before (cur s) k)).
  Proof.
    intros [V E] O. destruct (Hone O (nth_error ids (cur s))) as (j & J & D). destruct (leave_ok (go_prev n) before prev_all reach_before (cur s) j V J D) as (k & K & L & N & A). exists k. split; [exact K|]. split; [exact N|]. split; [exact A|].
    set (p := before (cur s) k) in *. destruct (section_start_ok (nth_error ids p) p) as (S1 & S2 & S3). exists (section_start ids (nth_error ids p) p). unfold previous_section. rewrite O, E, L. cbn. split; [reflexivity|]. split; [exact S1|]. split; [|exact S3]. intros q Q. destruct (Nat.eq_dec q p) as [->|]; [reflexivity|]. apply S2. lia.
  Qed.
  Lemma update_valid s i : i < n -> valid (update ids s i).
  Proof. now split. Qed.
  Lemma after_lt i k : i < n -> k < n -> after i k < n.
  Proof. clear. unfold after. intros. destruct (Nat.ltb_spec (i + k) n); lia. Qed.
  Lemma before_lt i k : i < n -> k < n -> before i k < n.
  Proof. clear. unfold before. intros. destruct (Nat.leb_spec k i); lia. Qed.
  Lemma auto_valid s c : valid s -> (c = Z.of_nat (cur s) \/ c = -1)%Z -> valid (show_auto n loop ids s c).
  Proof.
    intros [V E] C. unfold show_auto. destruct (playing s); [|now split]. destruct (Z.eqb_spec c (Z.of_nat n - 1)) as [X|X].
    - destruct loop; [apply update_valid; lia|]. destruct C as [-> | ->]; [|lia]. split; cbn; rewrite Nat2Z.id; assumption.
    - apply update_valid. lia.
  Qed.
  Lemma step_ok s o : valid s -> op_ok o -> exists s', step n loop ids one (S n) s o = Some s' /\ valid s'.
  Proof.
    intros V O. destruct V as [V E]. assert (V' : valid s) by now split. destruct o; cbn [step].
    - eexists. split; [reflexivity|]. destruct (Nat.ltb_spec (cur s + 1) n); [now apply update_valid|]. destruct loop; [apply update_valid; lia|exact V'].
    - eexists. split; [reflexivity|]. destruct (0 <? cur s); [apply update_valid; lia|]. destruct loop; [apply update_valid; lia|exact V'].
    - eexists. split; [reflexivity|]. apply update_valid. lia.
    - eexists. split; [reflexivity|]. apply update_valid. lia.
    - eexists. split; [reflexivity|]. now apply update_valid.
    - eexists. split; [reflexivity|]. destruct (playing s); [now split|]. apply auto_valid; [now split|]. cbn [cur]. destruct (negb loop && _); auto.
    - eexists. split; [reflexivity|]. apply auto_valid; auto.
    - assert (OO : one = true \/ one = false) by (clear; destruct one; auto). destruct OO as [O1|O1]; [exists s; unfold next_section; rewrite O1; now split|]. destruct (next_ok s V' O1) as (k & K & -> & _). eexists. split; [reflexivity|]. apply update_valid. now apply after_lt.
    - assert (OO : one = true \/ one = false) by (clear; destruct one; auto). destruct OO as [O1|O1]; [exists s; unfold previous_section; rewrite O1; now split|]. destruct (prev_ok s V' O1) as (k & K & _ & _ & r & -> & R & _). eexists. split; [reflexivity|]. apply update_valid. pose proof (before_lt (cur s) k V K). lia.
  Qed.
  Lemma run_valid l : forall s, valid s -> Forall op_ok l -> exists s', run n loop ids one (S n) s l = Some s' /\ valid s'.
  Proof.
    induction l as [|o l IH]; intros s V F; [exists s; now split|]. inversion F as [|? ? O F']. subst. cbn [run]. destruct (step_ok s o V) as (s1 & -> & V1); [assumption|]. now apply IH.
  Qed.
End Show.

(** ** C511: the controls of a slideshow with sections always end, and the highlighted section is that of the slide shown *)
Theorem C511_run : forall l loop one ops, only_one_section l = Some one -> unmixed l -> Forall (op_ok (length l)) ops ->
  exists s, run (length l) loop (js_ids l) one (S (length l)) (start (js_ids l)) ops = Some s /\ cur s < length l /\ sec s = nth_error (js_ids l) (cur s).
Proof.
  intros l loop one ops O U F. assert (H : one = false -> forall c : option nat, exists j, j < length l /\ nth_error (js_ids l) j <> c) by (intros ->; now apply one_false).
  assert (V : valid (length l) (js_ids l) (start (js_ids l))) by (split; [destruct l; [discriminate|]; cbn; lia|reflexivity]). assert (Hl : length (js_ids l) = length l) by apply map_length.
  eapply run_valid; eauto.
Qed.
(** the ids can be a string or a number: for the number 1 and the string 1 the check finds two sections, the script only one; the loop does not end *)
Lemma leave_stuck ids go c : (forall i, i < length ids -> go i < length ids /\ nth_error ids i = c) -> forall fuel i, i < length ids -> leave ids fuel go c i = None.
Proof. intros H. induction fuel as [|f IH]; intros i I; [reflexivity|]. cbn. destruct (H i I) as [G E]. assert (X : oeqb c (nth_error ids i) = true) by now apply oeqb_spec. rewrite X. now apply IH. Qed.
Theorem C511_refuted : exists l one, only_one_section l = Some one /\ forall loop fuel, run (length l) loop (js_ids l) one fuel (start (js_ids l)) [NextSection] = None.
Proof.
  exists [(false, 1); (true, 1)], false. split; [reflexivity|]. intros loop fuel. cbn [run step next_section]. unfold next_section. rewrite (leave_stuck (js_ids [(false, 1); (true, 1)])); [reflexivity| |cbn; lia]. intros i I. cbn in I. destruct i as [|[|i]]; cbn; try lia; split; auto.
Qed.

(** the slide after each of the other controls, and whether the slideshow is running *)
Definition at_ (r : option show) (i : nat) (p : bool) : Prop := exists s, r = Some s /\ cur s = i /\ playing s = p.
Theorem C511_controls : forall n loop ids one fuel s, cur s < n -> let go := step n loop ids one fuel s in let p := playing s in
  (cur s + 1 < n -> at_ (go Next) (cur s + 1) p) /\ (cur s + 1 = n -> at_ (go Next) (if loop then 0 else cur s) p) /\
  (0 < cur s -> at_ (go Previous) (cur s - 1) p) /\ (cur s = 0 -> at_ (go Previous) (if loop then n - 1 else 0) p) /\
  at_ (go First) 0 p /\ at_ (go Last) (n - 1) p /\ (forall i, at_ (go (Select i)) i p) /\
  (p = true -> at_ (go StartStop) (cur s) false) /\ (p = false -> cur s + 1 < n -> at_ (go StartStop) (cur s + 1) true) /\ (p = false -> cur s + 1 = n -> at_ (go StartStop) 0 true) /\
  (p = false -> go Tick = Some s) /\ (p = true -> cur s + 1 < n -> at_ (go Tick) (cur s + 1) true) /\ (p = true -> cur s + 1 = n -> at_ (go Tick) (if loop then 0 else cur s) loop).
Proof.
  intros n loop ids one fuel [c se pl] H. cbn in H. cbv zeta. cbn [step cur playing sec]. unfold at_. repeat split; intros; subst; try (eexists; split; [reflexivity|]).
  - destruct (Nat.ltb_spec (c + 1) n); [now split|lia].
  - destruct (Nat.ltb_spec (c + 1) (c + 1)); [lia|]. destruct loop; now split.
  - destruct (Nat.ltb_spec 0 c); [now split|lia].
  - cbn. destruct loop; now split.
  - now split.
  - now split.
  - now split.
  - now split.
  - destruct (Z.eqb_spec (Z.of_nat c) (Z.of_nat n - 1)); [lia|]. rewrite andb_false_r. unfold show_auto. cbn [playing]. destruct (Z.eqb_spec (Z.of_nat c) (Z.of_nat n - 1)); [lia|]. cbn. split; [lia|reflexivity].
  - destruct (Z.eqb_spec (Z.of_nat c) (Z.of_nat (c + 1) - 1)); [|lia]. unfold show_auto. cbn [playing]. destruct loop; cbn [negb andb].
    + destruct (Z.eqb_spec (Z.of_nat c) (Z.of_nat (c + 1) - 1)); [now split|lia].
    + destruct (Z.eqb_spec (-1) (Z.of_nat (c + 1) - 1)); [lia|now split].
  - reflexivity.
  - unfold show_auto. cbn [playing]. destruct (Z.eqb_spec (Z.of_nat c) (Z.of_nat n - 1)); [lia|]. cbn. split; [lia|reflexivity].
  - unfold show_auto. cbn [playing]. destruct (Z.eqb_spec (Z.of_nat c) (Z.of_nat (c + 1) - 1)); [|lia]. destruct loop; cbn; [now split|]. now rewrite Nat2Z.id.
Qed.

(** ** C512: where the section buttons lead *)
(** next section: the first slide after the present one, cyclically, in another section *)
Theorem C512_next : forall l s, only_one_section l = Some false -> unmixed l -> cur s < length l -> sec s = nth_error (js_ids l) (cur s) ->
  exists k, k < length l /\ next_section (length l) (js_ids l) false (S (length l)) s = Some (update (js_ids l) s ((cur s + k) mod length l)) /\
  nth_error (js_ids l) ((cur s + k) mod length l) <> sec s /\ forall m, m < k -> nth_error (js_ids l) ((cur s + m) mod length l) = sec s.
Proof.
  intros l s O U C E. assert (M : forall m, m < length l -> after (length l) (cur s) m = (cur s + m) mod length l).
  { intros m Hm. unfold after. destruct (Nat.ltb_spec (cur s + m) (length l)); [now rewrite Nat.mod_small|]. apply (Nat.mod_unique _ _ 1); lia. }
  destruct (next_ok (length l) (js_ids l) false (fun _ => one_false l U O) s (conj C E) eq_refl) as (k & K & R & N & A). exists k. rewrite M in R, N by exact K. rewrite E. repeat split; [exact K|exact R|exact N|]. intros m Hm. rewrite <- M by lia. now apply A.
Qed.
(** previous section: the first slide of the section of the last slide before the present one, cyclically, in another section *)
Theorem C512_previous : forall l s, only_one_section l = Some false -> unmixed l -> cur s < length l -> sec s = nth_error (js_ids l) (cur s) ->
  exists k r, k < length l /\ let p := (cur s + length l - k) mod length l in
  nth_error (js_ids l) p <> sec s /\ (forall m, m < k -> nth_error (js_ids l) ((cur s + length l - m) mod length l) = sec s) /\
  previous_section (length l) (js_ids l) false (S (length l)) s = Some (update (js_ids l) s r) /\ r <= p /\
  (forall q, r <= q <= p -> nth_error (js_ids l) q = nth_error (js_ids l) p) /\ (forall q, r = S q -> nth_error (js_ids l) q <> nth_error (js_ids l) p).
Proof.
  intros l s O U C E. assert (M : forall m, m < length l -> before (length l) (cur s) m = (cur s + length l - m) mod length l).
  { intros m Hm. unfold before. destruct (Nat.leb_spec m (cur s)); [apply (Nat.mod_unique _ _ 1); lia|now rewrite Nat.mod_small by lia]. }
  destruct (prev_ok (length l) (js_ids l) (map_length snd l) false (fun _ => one_false l U O) s (conj C E) eq_refl) as (k & K & N & A & r & R & L & B & D). exists k, r. cbv zeta. rewrite <- (M k K), E. repeat split; auto. intros m Hm. rewrite <- M by lia. now apply A.
Qed.
(** one section only: nothing happens *)
Theorem C512_one : forall l s fuel, only_one_section l = Some true -> next_section (length l) (js_ids l) true fuel s = Some s /\ previous_section (length l) (js_ids l) true fuel s = Some s /\ forall i j, i < length l -> j < length l -> nth_error (js_ids l) i = nth_error (js_ids l) j.
Proof. intros l s fuel O. split; [reflexivity|]. split; [reflexivity|]. now apply one_true. Qed.

(** ** C513: the section buttons of TrainHTMLSlideShow *)
Definition num (l : list nat) : list pid := map (fun k => (false, k)) l.
Lemma js_num l : js_ids (num l) = l.
Proof. unfold js_ids, num. rewrite map_map. apply map_id. Qed.
Lemma unmixed_num l : unmixed (num l).
Proof. intros [a k] [b m] A B E. apply in_map_iff in A, B. destruct A as (x & A & _), B as (y & B & _). cbn in E. congruence. Qed.
Theorem C513_train : forall t loop one ops, Forall (Forall (fun p => 0 < snd p)) t -> let ids := section_ids (index_table 0 t) in let slides := list_sum (map (fun p => fst p + snd p) (concat t)) in
  only_one_section (num ids) = Some one -> Forall (op_ok slides) ops -> exists s, run slides loop ids one (S slides) (start ids) ops = Some s /\ cur s < slides /\ sec s = nth_error ids (cur s).
Proof.
  intros t loop one ops F ids slides O Op. assert (H : length ids = slides) by now apply C509_length. assert (X : length (num ids) = slides) by (unfold num; now rewrite map_length). destruct (C511_run (num ids) loop one ops O (unmixed_num ids)) as (s & R & C & S2); [now rewrite X|]. rewrite js_num, X in *. exists s. auto.
Qed.
(** three slides of train and none of stop: there seem to be two sections, no slide is in the second one, and the loop does not end *)
Theorem C513_refuted : exists t, let ids := section_ids (index_table 0 t) in only_one_section (num ids) = Some false /\ forall loop fuel, run (list_sum (map (fun p => fst p + snd p) (concat t))) loop ids false fuel (start ids) [NextSection] = None.
Proof.
  exists [[(3, 0)]]. cbv zeta. split; [reflexivity|]. intros loop fuel. change (section_ids (index_table 0 [[(3, 0)]])) with [0; 0; 0; 1]. change (list_sum _) with 3. cbn [run step]. unfold next_section. assert (L : forall i, i < 3 -> leave [0; 0; 0; 1] fuel (go_next 3) (Some 0) i = None).
  { induction fuel as [|f IH]; intros i I; [reflexivity|]. destruct i as [|[|[|i]]]; try lia; cbn; apply IH; lia. }
  change (sec (start [0; 0; 0; 1])) with (Some 0). change (cur (start [0; 0; 0; 1])) with 0. rewrite L by lia. reflexivity.
Qed.
Example ex_C511 : run 5 false [7; 7; 8; 8; 7] false 6 (start [7; 7; 8; 8; 7]) [NextSection; Next; NextSection; NextSection; PreviousSection; Last; StartStop; Tick] = Some (mkS 1 (Some 7) true).
Proof. reflexivity. Qed.
Example ex_C512 : option_map cur (previous_section 5 [7; 7; 8; 8; 7] false 6 (mkS 1 (Some 7) false)) = Some 2 /\ option_map cur (next_section 5 [7; 7; 8; 8; 7] false 6 (mkS 4 (Some 7) false)) = Some 2.
Proof. split; reflexivity. Qed.
