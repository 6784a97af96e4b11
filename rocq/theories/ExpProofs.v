(** Monomials as words and the loops of the polynomial expansion. *)
From Coq Require Import List Arith ZArith Bool Lia Permutation Sorted.
From Verif Require Import RoutModel RoutProps MiscModel ExpModel.
Import ListNotations.

(** ** words: the monomials of degree i+1 starting with variable j, as non-decreasing lists of variables *)
Fixpoint mblock (n i j : nat) : list (list nat) :=
  match i with O => [[j]] | S i => map (cons j) (flat_map (mblock n i) (seq j (n - j))) end.
Definition mdeg (n i : nat) : list (list nat) := flat_map (mblock n i) (seq 0 n).
Definition mall (n d : nat) : list (list nat) := flat_map (mdeg n) (seq 0 d).

Lemma in_mblock n : forall i j m, j < n -> In m (mblock n i j) <-> exists m', m = j :: m' /\ length m' = i /\ StronglySorted le m /\ Forall (fun v => v < n) m.
Proof.
  induction i as [|i IH]; intros j m Hj; cbn [mblock].
  - split.
    + intros [<-|[]]. exists []. repeat split; repeat constructor. exact Hj.
    + intros (m' & -> & Hl & _). destruct m'; [now left|discriminate].
  - rewrite in_map_iff. split.
    + intros (m' & <- & Hm). apply in_flat_map in Hm. destruct Hm as (k & Hk & Hm). apply in_seq in Hk. apply IH in Hm; [|lia].
      destruct Hm as (m'' & -> & Hl & Hs & Hf). exists (k :: m''). split; [reflexivity|]. split; [cbn; lia|]. split.
      * constructor; [exact Hs|]. apply StronglySorted_inv in Hs as [_ Hf']. constructor; [lia|]. eapply Forall_impl; [|exact Hf']. cbn. lia.
      * constructor; [exact Hj|exact Hf].
    + intros (m' & -> & Hl & Hs & Hf). exists m'. split; [reflexivity|]. destruct m' as [|k m']; [discriminate|].
      apply StronglySorted_inv in Hs as [Hs Hle]. inversion Hle as [|? ? Hjk _]; subst. inversion Hf as [|? ? _ Hf']; subst. inversion Hf' as [|? ? Hk _]; subst.
      apply in_flat_map. exists k. split; [apply in_seq; lia|]. apply IH; [exact Hk|]. exists m'. repeat split; auto.
Qed.
Lemma NoDup_flat_map {A B} (f : A -> list B) l : (forall a, In a l -> NoDup (f a)) -> (forall a b x, In a l -> In b l -> In x (f a) -> In x (f b) -> a = b) -> NoDup l -> NoDup (flat_map f l).
Proof.
  induction l as [|a l IH]; intros Hf Hd Hn; cbn [flat_map]; [constructor|]. inversion Hn as [|? ? Hna Hn']; subst.
  assert (NoDup (flat_map f l)) by (apply IH; auto; intros; [apply Hf; now right|eapply Hd; eauto; now right]).
  assert (Hdis : forall x, In x (f a) -> ~ In x (flat_map f l)).
  { intros x Hx Hx'. apply in_flat_map in Hx'. destruct Hx' as (b & Hb & Hxb). assert (a = b) by (apply (Hd a b x); auto; [now left|now right]). subst. auto. }
  assert (Na : NoDup (f a)) by (apply Hf; now left). revert Na Hdis. generalize (f a) as k. induction k as [|y k IHk]; intros Nk Hdis; [assumption|].
  inversion Nk as [|? ? Hny Nk']; subst. cbn [app]. constructor.
  - rewrite in_app_iff. intros [H'|H']; [auto|]. apply (Hdis y); [now left|exact H'].
  - apply IHk; auto. intros x Hx. apply Hdis. now right.
Qed.
Lemma NoDup_map_cons {A} (a : A) l : NoDup l -> NoDup (map (cons a) l).
Proof. induction 1 as [|x l Hn _ IH]; cbn; constructor; auto. rewrite in_map_iff. intros (y & E & Hy). injection E as ->. auto. Qed.
Lemma NoDup_blocks n : forall i j, j <= n -> NoDup (flat_map (mblock n i) (seq j (n - j))).
Proof.
  induction i as [|i IH]; intros j Hj; apply NoDup_flat_map; try apply seq_NoDup.
  - intros k _. repeat constructor. intros [].
  - intros a b x _ _ [<-|[]] [E|[]]. congruence.
  - intros k Hk. apply in_seq in Hk. cbn [mblock]. apply NoDup_map_cons. apply IH. lia.
  - intros a b x Ha Hb Hxa Hxb. apply in_seq in Ha, Hb. apply in_mblock in Hxa, Hxb; try lia. destruct Hxa as (? & -> & _), Hxb as (? & E & _). congruence.
Qed.
Lemma in_mdeg n i m : In m (mdeg n i) <-> length m = S i /\ StronglySorted le m /\ Forall (fun v => v < n) m.
Proof.
  unfold mdeg. rewrite in_flat_map. split.
  - intros (j & Hj & Hm). apply in_seq in Hj. apply in_mblock in Hm; [|lia]. destruct Hm as (m' & -> & Hl & Hs & Hf). cbn. auto.
  - intros (Hl & Hs & Hf). destruct m as [|j m']; [discriminate|]. inversion Hf; subst. exists j. split; [apply in_seq; lia|].
    apply in_mblock; [assumption|]. exists m'. cbn in Hl. repeat split; auto.
Qed.
Lemma in_mall n d m : In m (mall n d) <-> 1 <= length m <= d /\ StronglySorted le m /\ Forall (fun v => v < n) m.
Proof.
  unfold mall. rewrite in_flat_map. split.
  - intros (i & Hi & Hm). apply in_seq in Hi. apply in_mdeg in Hm. intuition lia.
  - intros (Hl & Hs & Hf). exists (length m - 1). split; [apply in_seq; lia|]. apply in_mdeg. repeat split; auto. lia.
Qed.
Lemma NoDup_mall n d : NoDup (mall n d).
Proof.
  apply NoDup_flat_map; [| |apply seq_NoDup].
  - intros i _. unfold mdeg. replace (seq 0 n) with (seq 0 (n - 0)) by (f_equal; lia). apply NoDup_blocks. lia.
  - intros a b x _ _ Ha Hb. apply in_mdeg in Ha, Hb. lia.
Qed.
(** numbers *)
Lemma flat_map_length_cons {A B} (f : A -> list B) a l : length (flat_map f (a :: l)) = length (f a) + length (flat_map f l).
Proof. cbn. now rewrite app_length. Qed.
Lemma binom_0 k : binom 0 (S k) = 0. Proof. reflexivity. Qed.
Lemma blocks_length n : forall i m j, j + m = n -> length (flat_map (mblock n i) (seq j m)) = binom (m + i) (S i).
Proof.
  induction i as [|i IHi]; induction m as [|m IHm]; intros j Hj; cbn [seq].
  - reflexivity.
  - rewrite flat_map_length_cons, IHm by lia. cbn [mblock length]. rewrite !Nat.add_0_r. cbn [binom]. destruct m; reflexivity.
  - cbn [flat_map length]. rewrite Nat.add_0_l. clear. assert (G : forall a b, a < b -> binom a b = 0).
    { induction a as [|a IH]; intros [|b] H; try lia; [reflexivity|]. rewrite binom_SS, !IH by lia. reflexivity. }
    symmetry. apply G. lia.
  - rewrite flat_map_length_cons, IHm by lia. cbn [mblock]. rewrite map_length. replace (n - j) with (S m) by lia. rewrite IHi by lia.
    replace (S m + S i) with (S (m + S i)) by lia. rewrite binom_SS. replace (m + S i) with (S m + i) by lia. reflexivity.
Qed.
Lemma mdeg_length n i : length (mdeg n i) = binom (n + i) (S i).
Proof. apply blocks_length. reflexivity. Qed.
Lemma mall_S n d : mall n (S d) = mall n d ++ mdeg n d.
Proof. unfold mall. rewrite seq_S, flat_map_app. cbn [flat_map]. now rewrite app_nil_r. Qed.
Lemma mall_length n d : S (length (mall n d)) = binom (n + d) d.
Proof.
  induction d as [|d IH]; [destruct n; reflexivity|]. rewrite mall_S, app_length, mdeg_length. replace (n + S d) with (S (n + d)) by lia. rewrite binom_SS, <- IH. lia.
Qed.
Lemma nmonomials_binom n i : nmonomials (Z.of_nat (S i)) (Z.of_nat n) = Z.of_nat (length (mdeg n i)).
Proof. unfold nmonomials. replace (Z.of_nat n + Z.of_nat (S i) - 1)%Z with (Z.of_nat (n + i)) by lia. now rewrite C42_comb, choose_binom, mdeg_length. Qed.
Lemma expanded_dim_length n d : expanded_dim (Z.of_nat d) (Z.of_nat n) = Z.of_nat (length (mall n d)).
Proof. unfold expanded_dim. rewrite <- Nat2Z.inj_add, C42_comb, choose_binom, <- mall_length. lia. Qed.

(** ** the loops *)
Lemma assign_exact {A} (z : A) pre s r : length s <= r -> assign (length pre) (length s) s (pre ++ repeat z r) = Some (pre ++ s ++ repeat z (r - length s)).
Proof.
  intro H. unfold assign. rewrite app_length, repeat_length. replace (Nat.min (length s) (length pre + r - length pre)) with (length s) by lia.
  unfold fit. rewrite Nat.eqb_refl. rewrite firstn_app, Nat.sub_diag, firstn_all, firstn_O, app_nil_r. f_equal. f_equal. f_equal.
  rewrite skipn_app, skipn_all2 by lia. replace (length pre + length s - length pre) with (length s) by lia. cbn [app].
  clear H. revert r. generalize (length s) as k. induction k as [|k IH]; intros [|r]; cbn; auto.
Qed.
Lemma set_app {A} (v b0 : A) a b : set (length a) v (a ++ b0 :: b) = a ++ v :: b.
Proof. induction a as [|x a IH]; [reflexivity|]. cbn. now rewrite IH. Qed.
Lemma cumsum_length l : forall s, length (cumsum_from s l) = length l.
Proof. induction l as [|a l IH]; intro s; cbn; auto. Qed.
Lemma cumsum_nth l : forall s j, j < length l -> nth j (cumsum_from s l) 0 = s + fold_right Nat.add 0 (firstn (S j) l).
Proof.
  induction l as [|a l IH]; intros s j H; cbn [length] in H; [lia|]. destruct j as [|j]; [cbn; lia|]. cbn [cumsum_from nth]. rewrite IH by lia. cbn [firstn fold_right]. lia.
Qed.
Lemma skipn_blocks {B} (f : nat -> list B) : forall j a m, j <= m -> skipn (fold_right Nat.add 0 (map (fun l => length (f l)) (seq a j))) (flat_map f (seq a m)) = flat_map f (seq (a + j) (m - j)).
Proof.
  induction j as [|j IH]; intros a m H; [cbn; now rewrite Nat.add_0_r, Nat.sub_0_r|]. destruct m as [|m]; [lia|]. cbn [seq map fold_right flat_map Nat.sub].
  rewrite skipn_app. rewrite skipn_all2 by lia. cbn [app]. replace (length (f a) + _ - length (f a)) with (fold_right Nat.add 0 (map (fun l => length (f l)) (seq (S a) j))) by lia.
  rewrite IH by lia. f_equal. f_equal. lia.
Qed.
Lemma removelast_map' {B C} (g : B -> C) l : removelast (map g l) = map g (removelast l).
Proof. induction l as [|a [|b l] IH]; [reflexivity|reflexivity|]. cbn [map removelast] in *. now rewrite IH. Qed.
Section Poly.
  Context {A : Type} (zero : A) (mul : A -> A -> A) (x : list A).
  (** the value of a monomial *)
  Fixpoint mono (m : list nat) : A := match m with [] => zero | [j] => nth j x zero | j :: m => mul (nth j x zero) (mono m) end.
  Let n := length x.
  Lemma mono_cons j m : m <> [] -> mono (j :: m) = mul (nth j x zero) (mono m).
  Proof. destruct m; [congruence|reflexivity]. Qed.
  Lemma blocks_nonempty i l m : In m (flat_map (mblock n i) l) -> m <> [].
  Proof. rewrite in_flat_map. intros (j & _ & H). destruct i; cbn in H; [destruct H as [<-|[]]; discriminate|]. apply in_map_iff in H. destruct H as (? & <- & _). discriminate. Qed.
  Lemma inner_ok q lens : (forall j, j < n -> nth j lens 0 = fold_right Nat.add 0 (map (fun l => length (mblock n q l)) (seq 0 j))) ->
    forall m j D r a b, j + m = n -> length a = S j -> length b = m -> length (flat_map (mblock n (S q)) (seq j m)) <= r ->
    inner zero mul x (map mono (mdeg n q)) lens (seq j m) (mkP (map mono D ++ repeat zero r) (length D) (a ++ b)) =
    Some (mkP (map mono (D ++ flat_map (mblock n (S q)) (seq j m)) ++ repeat zero (r - length (flat_map (mblock n (S q)) (seq j m))))
              (length (D ++ flat_map (mblock n (S q)) (seq j m))) (a ++ map (fun l => length (mblock n (S q) l)) (seq j m))).
  Proof.
    intro Hlens. induction m as [|m IH]; intros j D r a b Hj Ha Hb Hr; cbn [seq inner flat_map map].
    - destruct b; [|discriminate]. now rewrite !app_nil_r, Nat.sub_0_r.
    - cbn [p_k p_dexp p_lens]. rewrite Hlens by lia.
      assert (E : skipn (fold_right Nat.add 0 (map (fun l => length (mblock n q l)) (seq 0 j))) (map mono (mdeg n q)) = map mono (flat_map (mblock n q) (seq j (n - j)))).
      { rewrite skipn_map. f_equal. unfold mdeg. rewrite skipn_blocks by lia. reflexivity. }
      rewrite E.
      assert (E2 : map (mul (nth j x zero)) (map mono (flat_map (mblock n q) (seq j (n - j)))) = map mono (mblock n (S q) j)).
      { cbn [mblock]. rewrite !map_map. apply map_ext_in. intros w Hw. symmetry. apply mono_cons. eapply blocks_nonempty; eauto. }
      cbn [seq] in Hr. rewrite flat_map_length_cons in Hr.
      assert (E3 : length (map mono (flat_map (mblock n q) (seq j (n - j)))) = length (mblock n (S q) j)) by (cbn [mblock]; now rewrite !map_length).
      pose proof (assign_exact zero (map mono D) (map mono (mblock n (S q) j)) r) as Ea. rewrite !map_length in Ea. specialize (Ea ltac:(lia)).
      cbv zeta. rewrite E2, E3, Ea.
      destruct b as [|b0 b]; [discriminate|]. pose proof (set_app (length (mblock n (S q) j)) b0 a b) as Es. rewrite Ha in Es. cbn [p_lens] in *. rewrite Es.
      rewrite app_assoc, <- map_app, <- app_length. replace (a ++ length (mblock n (S q) j) :: b) with ((a ++ [length (mblock n (S q) j)]) ++ b) by now rewrite <- app_assoc.
      rewrite IH; [|lia|rewrite app_length; cbn; lia|cbn in Hb; lia|lia]. rewrite <- !app_assoc. cbn [app]. rewrite (app_length (mblock n (S q) j)). do 3 f_equal. f_equal. lia.
  Qed.
  Lemma outer_ok : forall todo q r, length (mall n (S q + todo)) = length (mall n (S q)) + r ->
    outer zero mul n x todo (q + 2) (length (mall n q)) (mkP (map mono (mall n (S q)) ++ repeat zero r) (length (mall n (S q))) (0 :: map (fun j => length (mblock n q j)) (seq 0 n))) =
    Some (mkP (map mono (mall n (S q + todo))) (length (mall n (S q + todo))) (0 :: map (fun j => length (mblock n (q + todo) j)) (seq 0 n))).
  Proof.
    induction todo as [|todo IH]; intros q r Hr; cbn [outer].
    - rewrite !Nat.add_0_r in *. replace r with 0 by lia. cbn [repeat]. now rewrite app_nil_r.
    - cbn [p_dexp p_k p_lens].
      replace (Z.of_nat (q + 2) - 1)%Z with (Z.of_nat (S q)) by lia. rewrite nmonomials_binom, Nat2Z.id.
      assert (Hs : slice (length (mall n q)) (length (mall n q) + length (mdeg n q)) (map mono (mall n (S q)) ++ repeat zero r) = map mono (mdeg n q)).
      { unfold slice. rewrite mall_S, map_app, <- app_assoc. rewrite skipn_app, map_length, Nat.sub_diag. cbn [skipn]. rewrite skipn_all2 by (rewrite map_length; lia). cbn [app].
        replace (length (mall n q) + length (mdeg n q) - length (mall n q)) with (length (map mono (mdeg n q))) by (rewrite map_length; lia).
        rewrite firstn_app, Nat.sub_diag, firstn_all, firstn_O. apply app_nil_r. }
      rewrite Hs. assert (Hm : length (mall n (S (S q))) = length (mall n (S q)) + length (mdeg n (S q))) by (rewrite (mall_S n (S q)), app_length; reflexivity).
      assert (Hle : length (mall n (S (S q))) <= length (mall n (S q + S todo))).
      { clear. replace (S q + S todo) with (S (S q) + todo) by lia. induction todo as [|t IHt]; [rewrite Nat.add_0_r; lia|].
        replace (S (S q) + S t) with (S (S (S q) + t)) by lia. rewrite (mall_S n (S (S q) + t)), app_length. lia. }
      replace (repeat 0 (n + 1)) with ([0] ++ repeat 0 n) by now rewrite Nat.add_1_r.
      rewrite inner_ok; [|  | lia | reflexivity | apply repeat_length | change (length (mdeg n (S q)) <= r); lia].
      + fold (mdeg n (S q)). rewrite <- mall_S. cbn [app]. replace (S (q + 2)) with (S q + 2) by lia. rewrite <- app_length, <- mall_S.
        rewrite IH by (replace (S (S q) + todo) with (S q + S todo) by lia; lia). replace (S (S q) + todo) with (S q + S todo) by lia. replace (S q + todo) with (q + S todo) by lia. reflexivity.
      + intros j Hj. destruct n as [|n'] eqn:En; [lia|]. rewrite <- En in *.
        change (0 :: map (fun j => length (mblock n q j)) (seq 0 n)) with ([0] ++ map (fun j => length (mblock n q j)) (seq 0 n)).
        rewrite removelast_app by (rewrite En; discriminate). cbn [app]. rewrite cumsum_nth.
        * cbn [firstn fold_right Nat.add]. f_equal. rewrite removelast_map', firstn_map. f_equal. rewrite En, seq_S, removelast_last.
          clear - Hj En. rewrite En in Hj. clear En. assert (G : forall k a, j <= k -> firstn j (seq a k) = seq a j).
          { clear. induction j as [|j IH]; intros k a H; [reflexivity|]. destruct k; [lia|]. cbn. f_equal. apply IH. lia. }
          apply G. lia.
        * cbn [length]. rewrite removelast_map', map_length, En, seq_S, removelast_last, seq_length. lia.
  Qed.
  Lemma seq_map_nth (l : list A) : map (fun j => nth j l zero) (seq 0 (length l)) = l.
  Proof. induction l as [|a l IH]; [reflexivity|]. cbn [length seq map nth]. f_equal. rewrite <- seq_shift, map_map. exact IH. Qed.
  Lemma mall_1 : map mono (mall n 1) = x.
  Proof.
    unfold mall. cbn [seq flat_map]. rewrite app_nil_r. unfold mdeg. rewrite flat_map_concat_map. cbn [mblock]. transitivity (map (fun j => nth j x zero) (seq 0 n)); [|apply seq_map_nth].
    generalize (seq 0 n) as l. induction l as [|j l IH]; [reflexivity|]. cbn. now rewrite IH.
  Qed.
  Lemma mall_incl d : 1 <= d -> n <= length (mall n d).
  Proof.
    intro H. destruct d as [|d]; [lia|]. clear H. induction d as [|d IH].
    - rewrite <- (map_length mono), mall_1. reflexivity.
    - rewrite mall_S, app_length. lia.
  Qed.
  Theorem poly_ok d : 1 <= d -> poly_execute zero mul d x = Some (map mono (mall n d)).
  Proof.
    intro Hd. unfold poly_execute. fold n. rewrite expanded_dim_length, Nat2Z.id.
    pose proof (mall_incl d Hd) as Hi. pose proof (assign_exact zero [] x (length (mall n d)) Hi) as Ha. cbn [app length] in Ha. fold n in Ha. rewrite Ha.
    assert (L1 : length (mall n 1) = n) by (rewrite <- (map_length mono), mall_1; reflexivity).
    pose proof (outer_ok (d - 1) 0 (length (mall n d) - n)) as Ho. rewrite mall_1, L1 in Ho. replace (1 + (d - 1)) with d in Ho by lia. change (length (mall n 0)) with 0 in Ho. change (0 + 2) with 2 in Ho.
    assert (E : map (fun j => length (mblock n 0 j)) (seq 0 n) = repeat 1 n).
    { cbn [mblock length]. assert (G : forall k a, map (fun _ : nat => 1) (seq a k) = repeat 1 k) by (induction k as [|k IH]; intro a; cbn; [|rewrite IH]; reflexivity). apply G. }
    rewrite E in Ho. cbn [length] in Ho. rewrite Ho; [reflexivity|]. lia.
  Qed.
End Poly.
