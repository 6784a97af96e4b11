(** Properties of the expansion nodes (C49, C50, C131). *)
From Coq Require Import List Arith ZArith Bool Lia Permutation Sorted.
From Verif Require Import RoutModel RoutProps MiscModel MiscProps ExpModel ExpProofs.
Import ListNotations.

(** ** C49 every monomial of degree 1..d exactly once: monomials are the non-decreasing lists of variables *)
Theorem C49_polynomial : forall (A : Type) (zero : A) (mul : A -> A -> A) d x, 1 <= d ->
  exists ms, poly_execute zero mul d x = Some (map (mono zero mul x) ms) /\ NoDup ms /\
    (forall m, In m ms <-> 1 <= length m <= d /\ StronglySorted le m /\ Forall (fun v => v < length x) m) /\
    Z.of_nat (length ms) = expanded_dim (Z.of_nat d) (Z.of_nat (length x)).
Proof.
  intros A zero mul d x Hd. exists (mall (length x) d). split; [now apply poly_ok|]. split; [apply NoDup_mall|]. split; [apply in_mall|].
  symmetry. apply expanded_dim_length.
Qed.
(** the monomials of lower degree come first, ordered by degree *)
Theorem C49_by_degree : forall (A : Type) (zero : A) (mul : A -> A -> A) d x, 1 <= d ->
  exists last, poly_execute zero mul (S d) x = option_map (fun y => y ++ last) (poly_execute zero mul d x) /\
    Z.of_nat (length last) = nmonomials (Z.of_nat (S d)) (Z.of_nat (length x)).
Proof.
  intros A zero mul d x Hd. rewrite !poly_ok by lia. rewrite mall_S, map_app. exists (map (mono zero mul x) (mdeg (length x) d)). split; [reflexivity|].
  now rewrite map_length, nmonomials_binom.
Qed.
(** expanded_dim and nmonomials count *)
Theorem C49_counts : forall d n, expanded_dim (Z.of_nat d) (Z.of_nat n) = (Z.of_nat (choose_count (n + d) d) - 1)%Z /\
  nmonomials (Z.of_nat (S d)) (Z.of_nat n) = Z.of_nat (choose_count (n + d) (S d)).
Proof.
  intros d n. split.
  - unfold expanded_dim. now rewrite <- Nat2Z.inj_add, C42_comb.
  - now rewrite nmonomials_binom, mdeg_length, choose_binom.
Qed.
Example C49_example : poly_execute 0%Z Z.mul 3 [2; 3; 5]%Z =
  Some [2; 3; 5; 4; 6; 10; 9; 15; 25; 8; 12; 20; 18; 30; 50; 27; 45; 75; 125]%Z /\ expanded_dim 3 3 = 19%Z.
Proof. split; reflexivity. Qed.
(** C131 (refuted): every degree can be executed: degree 0 raises for two variables and more *)
Theorem C131_degree_zero_refuted : exists x, x <> [] /\ poly_execute 0%Z Z.mul 0 x = None.
Proof. exists [1; 2]%Z. split; [discriminate|reflexivity]. Qed.

(** ** C50 General expansion *)
Section General.
  Context {A : Type} (zero : A).
  Definition shaped (y : arr (A := A)) : Prop := Forall (fun r => length r = a_cols y) (a_rows y).
  (** a function working on all rows, whose number of columns depends on the number of columns only *)
  Definition column_function (f : arr (A := A) -> arr) : Prop :=
    exists w, forall y, shaped y -> shaped (f y) /\ length (a_rows (f y)) = length (a_rows y) /\ a_cols (f y) = w (a_cols y).
  Lemma combine_map {B} (N : nat) (ys : list (list A)) (g : nat -> B) : length ys = N -> combine ys (map g (seq 0 N)) = map (fun t => (nth t ys [], g t)) (seq 0 N).
  Proof.
    intros <-. revert g. induction ys as [|y ys IH]; intro g; [reflexivity|]. cbn [length seq map combine nth]. f_equal.
    rewrite <- seq_shift, !map_map. rewrite (IH (fun t => g (S t))). reflexivity.
  Qed.
  Lemma general_loop_ok x : shaped x -> forall funcs pre sizes r pos (P : nat -> list A), Forall column_function funcs ->
    sizes = map (fun f => a_cols (f x)) funcs -> r = fold_right Nat.add 0 sizes -> (forall t, t < length (a_rows x) -> length (P t) = pos) ->
    (forall t, t < length (a_rows x) -> P t = flat_map (fun f => nth t (a_rows (f x)) []) pre) ->
    general_loop funcs sizes pos x (map (fun t => P t ++ repeat zero r) (seq 0 (length (a_rows x)))) =
    Some (map (fun t => flat_map (fun f => nth t (a_rows (f x)) []) (pre ++ funcs)) (seq 0 (length (a_rows x)))).
  Proof.
    intro Hx. induction funcs as [|f funcs IH]; intros pre sizes r pos P Hf Es Er HP HE; cbn [general_loop].
    - rewrite app_nil_r. cbn in Es. subst sizes. cbn in Er. subst r. f_equal. apply map_ext_in. intros t Ht. apply in_seq in Ht. cbn [repeat]. rewrite app_nil_r. apply HE. lia.
    - inversion Hf as [|? ? (w & Hw) Hf']; subst. destruct (Hw x Hx) as (Hs & Hl & Hc). cbn [map hd tl fold_right]. unfold put.
      rewrite map_length, seq_length. unfold fit at 1. rewrite Hl, Nat.eqb_refl. rewrite combine_map by exact Hl. rewrite map_map. cbn [fst snd].
      set (g := fun t => (P t ++ nth t (a_rows (f x)) []) ++ repeat zero (fold_right Nat.add 0 (map (fun f => a_cols (f x)) funcs))).
      rewrite (all_some_map _ g).
      + unfold g. replace (pre ++ f :: funcs) with ((pre ++ [f]) ++ funcs) by now rewrite <- app_assoc. apply IH; auto.
        * intros t Ht. rewrite app_length, HP by exact Ht. f_equal. unfold shaped in Hs. rewrite Forall_forall in Hs. apply Hs. apply nth_In. lia.
        * intros t Ht. rewrite flat_map_app. cbn [flat_map]. rewrite app_nil_r. f_equal. now apply HE.
      + intros t Ht. apply in_seq in Ht. unfold put_row, g. assert (Hlen : length (nth t (a_rows (f x)) []) = a_cols (f x)).
        { unfold shaped in Hs. rewrite Forall_forall in Hs. apply Hs. apply nth_In. lia. }
        rewrite <- Hlen, <- (HP t) by lia. rewrite assign_exact by lia. f_equal. rewrite <- app_assoc. do 3 f_equal. lia.
  Qed.
  Theorem C50_general : forall funcs x, Forall column_function funcs -> shaped x ->
    general_execute zero funcs x = Some (map (fun t => flat_map (fun f => nth t (a_rows (f x)) []) funcs) (seq 0 (length (a_rows x)))).
  Proof.
    intros funcs x Hf Hx. unfold general_execute, general_dim, output_sizes.
    assert (E : map (fun f => a_cols (f (mkA (a_cols x) [repeat zero (a_cols x)]))) funcs = map (fun f => a_cols (f x)) funcs).
    { apply map_ext_in. intros f Hi. rewrite Forall_forall in Hf. destruct (Hf f Hi) as (w & Hw). destruct (Hw x Hx) as (_ & _ & ->).
      apply (Hw (mkA (a_cols x) [repeat zero (a_cols x)])). repeat constructor. apply repeat_length. }
    rewrite E. replace (repeat (repeat zero _) (length (a_rows x))) with (map (fun t : nat => ([] : list A) ++ repeat zero (fold_right Nat.add 0 (map (fun f => a_cols (f x)) funcs))) (seq 0 (length (a_rows x)))).
    - apply (general_loop_ok x Hx funcs []); auto.
    - cbn [app]. generalize (repeat zero (fold_right Nat.add 0 (map (fun f => a_cols (f x)) funcs))) as v. generalize 0 as a. induction (length (a_rows x)) as [|k IH]; intros a v; [reflexivity|]. cbn. now rewrite IH.
  Qed.
  (** output_dim is the number of columns *)
  Theorem C50_output_dim : forall funcs x y, Forall column_function funcs -> shaped x -> general_execute zero funcs x = Some y ->
    Forall (fun r => length r = general_dim zero funcs (a_cols x)) y /\ length y = length (a_rows x).
  Proof.
    intros funcs x y Hf Hx E. rewrite C50_general in E by assumption. injection E as <-. split; [|now rewrite map_length, seq_length].
    apply Forall_forall. intros r Hr. apply in_map_iff in Hr. destruct Hr as (t & <- & Ht). apply in_seq in Ht. unfold general_dim, output_sizes.
    induction Hf as [|f funcs (w & Hw) Hf IH]; [reflexivity|]. cbn [flat_map map fold_right]. rewrite app_length, IH. f_equal.
    destruct (Hw x Hx) as (Hs & Hl & Hc). assert (S1 : shaped (mkA (a_cols x) [repeat zero (a_cols x)])) by (repeat constructor; apply repeat_length).
    destruct (Hw _ S1) as (_ & _ & ->). cbn [a_cols]. rewrite <- Hc. unfold shaped in Hs. rewrite Forall_forall in Hs. apply Hs. apply nth_In. lia.
  Qed.
End General.
Example C50_example : let sq y := mkA (a_cols y) (map (map (fun a => a * a)%Z) (a_rows y)) in let sum y := mkA 1 (map (fun r => [fold_right Z.add 0 r]%Z) (a_rows y)) in
  general_execute 0%Z [sq; sum; fun y => y] (mkA 2 [[1; 2]; [3; 4]; [5; 6]]%Z) = Some [[1; 4; 3; 1; 2]; [9; 16; 7; 3; 4]; [25; 36; 11; 5; 6]]%Z.
Proof. reflexivity. Qed.
