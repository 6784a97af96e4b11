(** Lemmas about the model of NIPALSNode (NipModel). *)
From Coq Require Import List Arith Bool Lia Field Permutation.
From Verif Require Import OField LinAlg IncModel IncProofs NipModel.
Import ListNotations.
Open Scope nat_scope.

Section Nip.
  Context {K : ofield}.
  Add Field Knp1 : (fth K).
  Notation vec := (vec (K := K)).
  Variable sq : K -> K.
  Hypothesis SQ : is_sqrt sq.

  (** Cauchy and Schwarz, from the nonnegative values of the form *)
  Lemma cauchy_form (a b c : K) : (forall s t : K, fle f0 (s * s * a + (s * t * b + s * t * b) + t * t * c)%of) -> fle (b * b)%of (a * c)%of.
  Proof.
    intros H. assert (C : fle f0 c) by (pose proof (H f0 f1) as E; replace (f0 * f0 * a + (f0 * f1 * b + f0 * f1 * b) + f1 * f1 * c)%of with c in E by ring; exact E).
    assert (A : fle f0 a) by (pose proof (H f1 f0) as E; replace (f1 * f1 * a + (f1 * f0 * b + f1 * f0 * b) + f0 * f0 * c)%of with a in E by ring; exact E).
    destruct (feq_dec c f0) as [->|N].
    - pose proof (H b (- (a + f1))%of) as E. match type of E with fle _ ?z => replace z with (- (b * b * (a + f1 + f1)))%of in E by ring end.
      assert (P : fle f0 (b * b * (a + f1 + f1))%of) by (apply fle_mul0; [apply fsq|]; replace f0 with (f0 + f0 : K)%of by ring; apply fle_add2; [|apply flt_le, f01]; replace f0 with (f0 + f0 : K)%of by ring; apply fle_add2; [exact A|apply flt_le, f01]).
      assert (Z : (b * b * (a + f1 + f1))%of = f0). { apply fle_antisym; [|exact P]. apply fle_sub. replace (f0 - b * b * (a + f1 + f1))%of with (- (b * b * (a + f1 + f1)))%of by ring. exact E. }
      destruct (fmul_eq0 _ _ Z) as [Z1|Z1]; [rewrite Z1; replace (a * f0)%of with (f0 : K) by ring; apply fle_refl|]. exfalso.
      assert (L : flt f0 (a + f1 + f1)%of) by (replace (a + f1 + f1)%of with (f1 + (a + f1))%of by ring; apply fadd_pos; [apply f01|]; replace f0 with (f0 + f0 : K)%of by ring; apply fle_add2; [exact A|apply flt_le, f01]).
      rewrite Z1 in L. unfold flt in L. rewrite flt_irrefl in L. discriminate.
    - pose proof (H c (- b)%of) as E. match type of E with fle _ ?z => replace z with ((a * c - b * b) * c)%of in E by ring end.
      assert (P : flt f0 c) by now apply fle_ne_lt. apply fle_sub. destruct (fle_or_lt f0 (a * c - b * b)%of) as [L|L]; [exact L|exfalso].
      assert (Q : flt f0 ((- (a * c - b * b)) * c)%of) by (apply flt_mul; [now apply fopp_pos|exact P]).
      apply (flt_not_le _ _ Q). apply fle_sub. replace (f0 - - (a * c - b * b) * c)%of with ((a * c - b * b) * c)%of by ring. exact E.
  Qed.
  (** the form of the data: the sum over the rows of the products of two scores *)
  Definition form (n : nat) (X : list vec) (v w : vec) : K := fsum (map (fun r => dot n r v * dot n r w)%of X).
  Lemma form_sq n X v : fle f0 (form n X v v). Proof. apply fsum_map_nonneg. intros. apply fsq. Qed.
  Lemma form_sym n X v w : form n X v w = form n X w v. Proof. apply fsum_map_ext. intros. ring. Qed.
  Lemma dot_cauchy n (a b : vec) : fle (dot n a b * dot n a b)%of (dot n a a * dot n b b)%of.
  Proof.
    apply cauchy_form. intros s t. replace (s * s * dot n a a + (s * t * dot n a b + s * t * dot n a b) + t * t * dot n b b)%of with (dot n (fun i => s * a i + t * b i)%of (fun i => s * a i + t * b i)%of); [apply dot_sq|].
    rewrite dot_add_l, !dot_add_r, ?dot_scale_l, ?dot_scale, ?dot_scale_l. rewrite (dot_sym n b a). ring.
  Qed.
  Lemma fsum_cauchy {A} (l : list A) (f g : A -> K) : fle (fsum (map (fun x => f x * g x)%of l) * fsum (map (fun x => f x * g x)%of l))%of (fsum (map (fun x => f x * f x)%of l) * fsum (map (fun x => g x * g x)%of l))%of.
  Proof.
    apply cauchy_form. intros s t. match goal with |- fle _ ?z => replace z with (fsum (map (fun x => (s * f x + t * g x) * (s * f x + t * g x))%of l)); [apply fsum_map_nonneg; intros; apply fsq|] end.
    rewrite (fsum_map_ext l _ (fun x => (s * s * (f x * f x) + (s * t * (f x * g x) + s * t * (f x * g x))) + t * t * (g x * g x))%of) by (intros; ring). rewrite !fsum_map_add, !fsum_map_mul. ring.
  Qed.
  Lemma form_cauchy n X v w : fle (form n X v w * form n X v w)%of (form n X v v * form n X w w)%of.
  Proof. apply fsum_cauchy. Qed.

  Lemma combine_map {A B} (f : A -> B) l : combine l (map f l) = map (fun a => (a, f a)) l. Proof. induction l; cbn; congruence. Qed.
  Lemma combine_maps {A B C} (f : A -> B) (g : A -> C) l : combine (map f l) (map g l) = map (fun a => (f a, g a)) l. Proof. induction l; cbn; congruence. Qed.
  Lemma over_in n (v : vec) d i : i < n -> over n v d i = (v i / d)%of. Proof. intros. unfold over. now rewrite tab_in. Qed.

  (** one turn of the inner loop, for scores t = X q *)
  Lemma turn_spec n X q : match turn sq n X (scores n X q) with
    | None => form n X q q = f0
    | Some (p, t', diff) => form n X q q <> f0 /\ t' = scores n X p /\ diff = fsum (map (fun r => (dot n r p - dot n r q) * (dot n r p - dot n r q))%of X) /\ dot n p p = f1 /\
        exists c, flt f0 c /\ forall i, i < n -> (c * p i)%of = fsum (map (fun r => r i * dot n r q)%of X)
    end.
  Proof.
    unfold turn. assert (T : sumsq (scores n X q) = form n X q q) by (unfold sumsq, scores; now rewrite map_map). rewrite T. destruct (iszero (form n X q q)) eqn:Z; [now apply iszero_spec|].
    assert (NZ : form n X q q <> f0) by (intros E; rewrite E in Z; now rewrite (proj2 (iszero_spec f0) eq_refl) in Z).
    assert (TP : flt f0 (form n X q q)) by (apply fle_ne_lt; [apply form_sq|exact NZ]).
    set (tt := form n X q q) in *. set (g := loading X (scores n X q)). assert (G : forall i, g i = fsum (map (fun r => r i * dot n r q)%of X)).
    { intros i. unfold g, loading, scores. rewrite combine_map, map_map. reflexivity. }
    assert (GQ : dot n g q = tt). { unfold dot. rewrite (fsumn_ext _ _ (fun i => fsum (map (fun r : vec => r i * dot n r q * q i)%of X))) by (intros; rewrite G, <- fsum_map_mulr; reflexivity). rewrite fsumn_fsum. apply fsum_map_ext. intros r _. rewrite (fsumn_ext _ _ (fun i => dot n r q * (r i * q i))%of) by (intros; ring). rewrite fsumn_mul. reflexivity. }
    set (h := over n g tt). assert (H : forall i, i < n -> h i = (g i / tt)%of) by (intros; now apply over_in).
    assert (HQ : dot n h q = f1). { rewrite (dot_ext n h (fun i => (f1 / tt) * g i)%of q q); [rewrite dot_scale_l, GQ; field; exact NZ| |reflexivity]. intros i Hi. rewrite H by exact Hi. field. exact NZ. }
    assert (HN : dot n h h <> f0). { intros E. pose proof (dot_cauchy n h q) as C. rewrite E, HQ in C. apply (flt_not_le (f0 : K) f1); [apply f01|]. replace (f1 * f1)%of with (f1 : K) in C by ring. replace (f0 * dot n q q)%of with (f0 : K) in C by ring. exact C. }
    destruct (iszero (dot n h h)) eqn:Z2; [apply iszero_spec in Z2; now elim HN|]. pose proof (norm_pos sq SQ n h HN) as NP. unfold norm in NP. set (s := sq (dot n h h)) in *. assert (SN : s <> f0) by now apply flt_ne0.
    split; [exact NZ|]. split; [reflexivity|]. split; [unfold scores at 1 2; rewrite combine_maps; unfold sumsq; rewrite !map_map; reflexivity|].
    assert (P : forall i, i < n -> over n h s i = (h i / s)%of) by (intros; now apply over_in). split; [apply (unit_norm sq SQ n h); [exact SN|exact P]|].
    exists (s * tt)%of. split; [now apply flt_mul|]. intros i Hi. rewrite (P i Hi), (H i Hi), <- G. field. now split.
  Qed.

  Lemma row0_scores n (X : list vec) : 0 < n -> map (fun r => r 0) X = scores n X (unit_vec 0).
  Proof. intros H. unfold scores. apply map_ext. intros r. symmetry. now apply dot_unit. Qed.
  Lemma unit_unit n : 0 < n -> dot n (unit_vec (K := K) 0) (unit_vec 0) = f1.
  Proof. intros H. rewrite (dot_unit n _ 0 H). reflexivity. Qed.

  (** what the inner loop ends with *)
  Definition found_ (n : nat) (X : list vec) (conv : K) (p : vec) : Prop :=
    dot n p p = f1 /\ exists q c, flt f0 c /\ fle (fsum (map (fun r => (dot n r p - dot n r q) * (dot n r p - dot n r q))%of X)) conv /\ (forall i, i < n -> (c * p i)%of = fsum (map (fun r => r i * dot n r q)%of X)).
  Lemma turn_grows n X q p t d : dot n q q = f1 -> turn sq n X (scores n X q) = Some (p, t, d) -> fle (form n X q q) (form n X p p).
  Proof.
    intros Q E. pose proof (turn_spec n X q) as S. rewrite E in S. destruct S as (NZ & _ & _ & P & c & C & G).
    assert (F : forall w, (c * dot n p w)%of = form n X q w).
    { intros w. rewrite <- dot_scale_l. unfold dot. rewrite (fsumn_ext _ _ (fun i => fsum (map (fun r : vec => r i * dot n r q * w i)%of X))) by (intros i Hi; rewrite G by exact Hi; rewrite <- fsum_map_mulr; reflexivity). rewrite fsumn_fsum. apply fsum_map_ext. intros r _. rewrite (fsumn_ext _ _ (fun i => dot n r q * (r i * w i))%of) by (intros; ring). rewrite fsumn_mul. reflexivity. }
    pose proof (F p) as FP. rewrite P in FP. replace (c * f1)%of with c in FP by ring. pose proof (F q) as FQ. set (a := form n X q q) in *. set (b := form n X p p) in *. set (u := dot n p q) in *.
    assert (AP : flt f0 a) by (apply fle_ne_lt; [apply form_sq|exact NZ]).
    assert (UP : fle u f1). { destruct (fle_or_lt u f1) as [L|L]; [exact L|exfalso]. pose proof (dot_cauchy n p q) as CS. fold u in CS. rewrite P, Q in CS. replace (f1 * f1)%of with (f1 : K) in CS by ring. apply (flt_not_le f1 (u * u)%of); [|exact CS].
      apply flt_sub. replace (u * u - f1)%of with ((u - f1) * (u + f1))%of by ring. apply flt_mul; [now apply (proj1 (flt_sub _ _))|]. replace (u + f1)%of with (f1 + u)%of by ring. apply fadd_pos; [apply f01|]. apply flt_le. apply (fle_lt_trans _ f1); [apply flt_le, f01|exact L]. }
    assert (AC : fle a c). { rewrite <- FQ. apply fle_sub. replace (c - c * u)%of with (c * (f1 - u))%of by ring. apply fle_mul0; [now apply flt_le|now apply (proj1 (fle_sub _ _))]. }
    pose proof (form_cauchy n X q p) as CS. rewrite <- FP in CS. fold a b in CS.
    assert (AA : fle (a * a)%of (c * c)%of). { apply fle_sub. replace (c * c - a * a)%of with ((c - a) * (c + a))%of by ring. apply fle_mul0; [now apply (proj1 (fle_sub _ _))|]. replace f0 with (f0 + f0 : K)%of by ring. apply fle_add2; now apply flt_le. }
    pose proof (fle_trans _ _ _ AA CS) as L. apply fle_sub. destruct (fle_or_lt f0 (b - a)%of) as [G0|G0]; [exact G0|exfalso].
    assert (W : flt f0 (a * - (b - a))%of) by (apply flt_mul; [exact AP|now apply fopp_pos]). apply (flt_not_le _ _ W). apply fle_sub. replace (f0 - a * - (b - a))%of with (a * b - a * a)%of by ring. now apply (proj1 (fle_sub _ _)).
  Qed.
  Lemma turns_spec n X conv k : forall q, dot n q q = f1 -> match turns sq n X conv k (scores n X q) with
    | CNan => form n X q q = f0
    | CFail => True
    | CDone p t => t = scores n X p /\ found_ n X conv p /\ form n X q q <> f0 /\ fle (form n X q q) (form n X p p)
    end.
  Proof.
    induction k as [|k IH]; intros q Q; cbn [turns]; [exact I|]. pose proof (turn_spec n X q) as S. pose proof (turn_grows n X q) as GR. destruct (turn sq n X (scores n X q)) as [[[p t] d]|]; [|exact S].
    destruct S as (NZ & -> & D & P & c & C & G). specialize (GR p _ _ Q eq_refl). destruct (fltb conv d) eqn:E.
    - specialize (IH p P). destruct (turns sq n X conv k (scores n X p)) as [| |p2 t2]; [|exact I|].
      + elim NZ. apply fle_antisym; [rewrite <- IH; exact GR|apply form_sq].
      + destruct IH as (I1 & I2 & I3 & I4). split; [exact I1|]. split; [exact I2|]. split; [exact NZ|]. now apply (fle_trans _ (form n X p p)).
    - split; [reflexivity|]. split; [|split; [exact NZ|exact GR]]. split; [exact P|]. exists q, c. split; [exact C|]. split; [|exact G]. rewrite <- D. exact E.
  Qed.

  (** what is left of a row after the components P *)
  Definition rest (n : nat) (P : list vec) (y : vec) : vec := fold_left (fun r p => tab n (fun i => r i - dot n r p * p i)%of) P y.
  Lemma rest_snoc n P p y : rest n (P ++ [p]) y = tab n (fun i => rest n P y i - dot n (rest n P y) p * p i)%of.
  Proof. unfold rest. now rewrite fold_left_app. Qed.
  Lemma rest_snoc_dot n P p y v : dot n (rest n (P ++ [p]) y) v = (dot n (rest n P y) v - dot n (rest n P y) p * dot n p v)%of.
  Proof. rewrite rest_snoc, dot_tab_l. rewrite (dot_sub_l n (rest n P y) (fun i => dot n (rest n P y) p * p i)%of v), dot_scale_l. reflexivity. Qed.
  Lemma deflate_scores n (X : list vec) (p : vec) : deflate n X (scores n X p) p = map (fun r => tab n (fun i => r i - dot n r p * p i)%of) X.
  Proof. unfold deflate, scores. rewrite combine_map, map_map. reflexivity. Qed.
  Definition perp (n : nat) (P : list vec) (v : vec) : Prop := forall w, In w P -> dot n v w = f0.
  Definition split_ (n : nat) (P : list vec) : Prop := orthonormal n P /\ (forall y, perp n P (rest n P y)) /\ (forall y v, perp n P v -> dot n (rest n P y) v = dot n y v).
  Lemma split_nil n : split_ n [].
  Proof. split; [intros i j Hi; cbn in Hi; lia|]. split; [intros y w []|reflexivity]. Qed.
  Lemma split_snoc n P p : split_ n P -> dot n p p = f1 -> perp n P p -> split_ n (P ++ [p]).
  Proof.
    intros (O & A & B) U V. split; [|split].
    - intros i j Hi Hj. rewrite app_length in Hi, Hj. cbn [length] in Hi, Hj. destruct (Nat.eq_dec i (length P)) as [->|Ni], (Nat.eq_dec j (length P)) as [->|Nj].
      + rewrite !nth_middle, U. unfold delta. now rewrite Nat.eqb_refl.
      + rewrite nth_middle, (app_nth1 P) by lia. rewrite V by (apply nth_In; lia). unfold delta. rewrite (proj2 (Nat.eqb_neq _ _)) by lia. reflexivity.
      + rewrite nth_middle, (app_nth1 P) by lia. rewrite dot_sym, V by (apply nth_In; lia). unfold delta. rewrite (proj2 (Nat.eqb_neq _ _)) by lia. reflexivity.
      + rewrite !(app_nth1 P) by lia. apply O; lia.
    - intros y w H. rewrite rest_snoc_dot. apply in_app_or in H. destruct H as [H|[<-|[]]].
      + rewrite (A y w H), (V w H). ring.
      + rewrite U. ring.
    - intros y v H. rewrite rest_snoc_dot. rewrite (B y v) by (intros w Hw; apply H, in_or_app; now left). rewrite (dot_sym n p v), (H p) by (apply in_or_app; right; now left). ring.
  Qed.
  Lemma form_rest n P Y v : split_ n P -> perp n P v -> form n (map (rest n P) Y) v v = form n Y v v.
  Proof. intros (_ & _ & B) H. unfold form. rewrite map_map. apply fsum_map_ext. intros y _. now rewrite (B y v H). Qed.
  Lemma found_perp n P Y conv p : split_ n P -> found_ n (map (rest n P) Y) conv p -> perp n P p.
  Proof.
    intros (_ & A & _) (_ & q & c & C & _ & G) w Hw. assert (E : (c * dot n p w)%of = f0).
    { rewrite <- dot_scale_l. unfold dot. rewrite (fsumn_ext _ _ (fun i => fsum (map (fun r : vec => r i * dot n r q * w i)%of (map (rest n P) Y)))) by (intros i Hi; rewrite G by exact Hi; rewrite <- fsum_map_mulr; reflexivity). rewrite fsumn_fsum. apply fsum_map_zero. intros r Hr. apply in_map_iff in Hr. destruct Hr as (y & <- & _).
      rewrite (fsumn_ext _ _ (fun i => dot n (rest n P y) q * (rest n P y i * w i))%of) by (intros; ring). rewrite fsumn_mul. fold (dot n (rest n P y) w). rewrite (A y w Hw). ring. }
    destruct (fmul_eq0 _ _ E) as [Z|Z]; [|exact Z]. rewrite Z in C. unfold flt in C. rewrite flt_irrefl in C. discriminate.
  Qed.

  Section Extract.
    Variables (n : nat) (conv : K) (M T : nat) (var : K) (des : option K) (Y : list vec).
    Hypothesis N0 : 0 < n.
    (** the share of the rows in the first coordinate *)
    Definition first_sq (R : list vec) : K := fsum (map (fun r : vec => r 0%nat * r 0%nat)%of R).
    Lemma form_first R : form n R (unit_vec 0) (unit_vec 0) = first_sq R.
    Proof. unfold form, first_sq. apply fsum_map_ext. intros r _. now rewrite (dot_unit n r 0 N0). Qed.
    Definition comp_ok (P : list vec) (c : vec * K) : Prop :=
      let R := map (rest n P) Y in found_ n R conv (fst c) /\ snd c = (form n Y (fst c) (fst c) / (fn T - f1))%of /\ first_sq R <> f0 /\ fle (first_sq R) (form n Y (fst c) (fst c)).
    Definition sum_d (ps : list (vec * K)) : K := fsum (map (fun c => snd c / var)%of ps).
    Lemma power_form p : dot n p p = f1 -> forall R, power n (scores n R p) p T = (form n R p p / (fn T - f1))%of.
    Proof. intros U R. unfold power, scores, sumsq, form. rewrite !map_map. f_equal. apply fsum_map_ext. intros r _. rewrite dot_scale_l, U. ring. Qed.
    Lemma extract_spec k : forall P ev, split_ n P -> match extract sq n conv M T var des k (map (rest n P) Y) ev with
      | None => True
      | Some (l, e, b) => exists ps j, l = map Some ps ++ repeat None j /\ split_ n (P ++ map fst ps) /\ (b = false -> length l = k) /\ length l <= k /\
          (j = 0 -> e = Some (ev + sum_d ps)%of) /\ (j <> 0 -> e = None /\ b = false /\ first_sq (map (rest n (P ++ map fst ps)) Y) = f0) /\
          (b = true -> exists q, des = Some q /\ fle q (ev + sum_d ps)%of /\ ps <> [] /\ j = 0) /\
          (forall i, S i < length ps \/ (i < length ps /\ b = false) -> match des with Some q => flt (ev + sum_d (firstn (S i) ps))%of q | None => True end) /\
          (forall i, i < length ps -> comp_ok (P ++ firstn i (map fst ps)) (nth i ps (vzero, f0)))
      end.
    Proof.
      induction k as [|k IH]; intros P ev SP; cbn [extract].
      - exists [], 0. cbn. rewrite app_nil_r. split; [reflexivity|]. split; [exact SP|]. split; [reflexivity|]. split; [lia|]. split; [intros _; f_equal; unfold sum_d; cbn; ring|]. split; [easy|]. split; [discriminate|]. split; intros i Hi; cbn in Hi; lia.
      - rewrite (row0_scores n _ N0). pose proof (turns_spec n (map (rest n P) Y) conv M (unit_vec 0) (unit_unit n N0)) as TS. rewrite !form_first in TS. destruct (turns sq n (map (rest n P) Y) conv M (scores n (map (rest n P) Y) (unit_vec 0))) as [| |p t].
        + exists [], (S k). cbn [map app firstn length]. rewrite app_nil_r. split; [reflexivity|]. split; [exact SP|]. split; [intros _; now rewrite repeat_length|]. split; [now rewrite repeat_length|]. split; [discriminate|]. split; [now repeat split|]. split; [discriminate|]. split; intros i Hi; cbn in Hi; lia.
        + exact I.
        + destruct TS as (-> & FO & FN & FL). pose proof (found_perp n P Y conv p SP FO) as PP. destruct FO as (U & FO). pose proof (conj U FO : found_ n (map (rest n P) Y) conv p) as FO'.
          rewrite (power_form p U). rewrite (form_rest n P Y p SP PP) in *. set (d := (form n Y p p / (fn T - f1))%of). pose proof (split_snoc n P p SP U PP) as SP'.
          assert (CO : comp_ok P (p, d)) by (split; [exact FO'|]; split; [reflexivity|]; split; [exact FN|exact FL]).
          destruct (match des with Some q => negb (fltb (ev + d / var)%of q) | None => false end) eqn:ED.
          * exists [(p, d)], 0. cbn [map app repeat fst length]. split; [reflexivity|]. split; [exact SP'|]. split; [discriminate|]. split; [lia|]. unfold sum_d. cbn [map fsum snd]. split; [intros _; f_equal; ring|]. split; [easy|].
            split; [intros _; destruct des as [q|]; [|discriminate]; exists q; split; [reflexivity|]; split; [|now split]; apply negb_true_iff in ED; replace (ev + (d / var + f0))%of with (ev + d / var)%of by ring; exact ED|].
            split; [intros i [Hi|[_ Hb]]; [lia|discriminate]|]. intros i Hi. assert (i = 0) by lia. subst i. cbn [firstn nth]. rewrite app_nil_r. exact CO.
          * rewrite deflate_scores, map_map. replace (map (fun y => tab n (fun i => rest n P y i - dot n (rest n P y) p * p i)%of) Y) with (map (rest n (P ++ [p])) Y) by (apply map_ext; intros; apply rest_snoc).
            specialize (IH (P ++ [p]) (ev + d / var)%of SP'). destruct (extract sq n conv M T var des k (map (rest n (P ++ [p])) Y) (ev + d / var)%of) as [[[l e] b]|]; [|exact I].
            destruct IH as (ps & j & -> & S1 & LB & LK & E0 & E1 & EB & ET & EC). exists ((p, d) :: ps), j. cbn [map fst]. rewrite <- app_assoc in S1. cbn [app] in S1. split; [reflexivity|]. split; [exact S1|].
            assert (SD : forall ps, (ev + sum_d ((p, d) :: ps))%of = (ev + d / var + sum_d ps)%of) by (intros; unfold sum_d; cbn [map fsum snd]; ring).
            split; [intros Hb; cbn [app length]; f_equal; now apply LB|]. split; [cbn [app length]; lia|]. rewrite SD. split; [exact E0|]. split; [intros Hj; destruct (E1 Hj) as (A1 & A2 & A3); split; [exact A1|]; split; [exact A2|]; rewrite <- app_assoc in A3; exact A3|].
            split; [intros Hb; destruct (EB Hb) as (q & Q1 & Q2 & Q3 & Q4); exists q; split; [exact Q1|]; split; [exact Q2|]; split; [discriminate|exact Q4]|].
            split.
            -- intros i Hi. cbn [firstn]. rewrite SD. destruct i as [|i].
               ++ cbn [firstn]. unfold sum_d. cbn [map fsum]. destruct des as [q|]; [|exact I]. apply negb_false_iff in ED. replace (ev + d / var + f0)%of with (ev + d / var)%of by ring. exact ED.
               ++ apply ET. cbn [length] in Hi. destruct Hi as [Hi|[Hi Hb]]; [left; lia|right; split; [lia|exact Hb]].
            -- intros i Hi. destruct i as [|i]; cbn [firstn nth]; [rewrite app_nil_r; exact CO|]. cbn [length] in Hi. specialize (EC i ltac:(lia)). rewrite <- app_assoc in EC. exact EC.
    Qed.
  End Extract.
End Nip.
