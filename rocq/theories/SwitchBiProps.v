(** Properties of SwitchBiModel.v: BiSwitchboard, BiClassifier, the switchboard factory; and more about MeanInverseSwitchboard *)
From Coq Require Import String List ZArith QArith Qcanon Bool Lia Permutation Sorted Field.
From Verif Require Import BiModel SwitchModel SwitchProofs SwitchProps SwitchBiModel OField.
Import ListNotations.
Open Scope Z_scope.

(** ** C360, C361: MeanInverseSwitchboard *)
Section Least.
  Context {K : ofield}.
  Add Field Kswitchbi : (fth K).
  Local Open Scope of_scope.
  Definition mean (n : Z) (conns : list Z) (sort : list nat) (x : list K) : sres (list K) :=
    mean_inverse (0 : K) fadd (fun a k => a / fn (Z.to_nat k)) n conns sort x.
  (** the squared distance of the given outputs x to those of the input z *)
  Definition misfit (conns : list Z) (x z : list K) : K :=
    fsumn (length conns) (fun j => let d := nth j x 0 - nth (Z.to_nat (nth j conns 0%Z)) z 0 in d * d).
  Definition hit (conns : list Z) (i j : nat) : bool := (nth j conns 0 =? Z.of_nat i)%Z.

  Lemma fsum_filter {B} (p : B -> bool) (f : B -> K) l : fsum (map f (filter p l)) = fsum (map (fun b => if p b then f b else 0) l).
  Proof. induction l as [|a l IH]; [reflexivity|]. cbn. destruct (p a); cbn; rewrite IH; ring. Qed.
  Lemma np_sum_fsum l : np_sum (0 : K) fadd l = fsum l.
  Proof. induction l as [|a l IH]; [reflexivity|]. cbn. now rewrite <- IH. Qed.
  (** sums over the connections, input by input *)
  Lemma by_input n conns (f : nat -> nat -> K) : (forall c, In c conns -> (0 <= c < n)%Z) ->
    fsumn (length conns) (fun j => f (Z.to_nat (nth j conns 0%Z)) j) = fsumn (Z.to_nat n) (fun i => fsumn (length conns) (fun j => if hit conns i j then f i j else 0)).
  Proof.
    intros H. rewrite fsumn_swap. apply fsumn_ext. intros j Hj.
    pose proof (H _ (nth_In conns 0%Z Hj)) as Hc. set (c := Z.to_nat (nth j conns 0%Z)).
    rewrite (fsumn_ext _ _ (fun i => f i j * delta c i)).
    - rewrite fsumn_delta; [reflexivity|]. unfold c. lia.
    - intros i Hi. unfold hit, delta. subst c. destruct (Z.eqb_spec (nth j conns 0%Z) (Z.of_nat i)) as [E|E].
      + replace (Z.to_nat (nth j conns 0%Z) =? i)%nat with true by (symmetry; apply Nat.eqb_eq; lia). ring.
      + replace (Z.to_nat (nth j conns 0%Z) =? i)%nat with false by (symmetry; apply Nat.eqb_neq; lia). ring.
  Qed.
  Section S.
    Variables (n : Z) (conns : list Z) (sort : list nat) (x : list K).
    Hypothesis Hi : sw_init n conns = SOk conns.
    Hypothesis Hp : forall c, In c conns -> (0 <= c)%Z.
    Hypothesis Hs : is_argsort sort conns.
    Hypothesis Hx : length x = length conns.
    Lemma conns_range : forall c, In c conns -> (0 <= c < n)%Z.
    Proof. intros c Hc. split; [auto|]. apply C86_accepted in Hi. now apply Hi. Qed.
    (** the residuals of the outputs connected to one input add up to zero *)
    Lemma mean_normal : exists y, mean n conns sort x = SOk y /\ Z.of_nat (length y) = n /\
      (forall i, (i < length y)%nat -> fsumn (length conns) (fun j => if hit conns i j then nth j x 0 - nth i y 0 else 0) = 0) /\
      (forall i, (i < length y)%nat -> ~ In (Z.of_nat i) conns -> nth i y 0 = 0).
    Proof.
      destruct (C20_mean_inverse K 0 fadd (fun a k => a / fn (Z.to_nat k))) with (n := n) (conns := conns) (sort := sort) (x := x) as (y & E & L & H); auto; [intros; ring|intros; ring|].
      exists y. split; [exact E|]. split; [exact L|]. split.
      - intros i Hl. specialize (H i Hl). cbn zeta in H. change (fun j : nat => (nth j conns 0 =? Z.of_nat i)%Z) with (hit conns i) in H.
        transitivity (fsum (map (fun j => nth j x 0 - nth i y 0) (filter (hit conns i) (seq 0 (length conns))))); [now rewrite fsum_filter|].
        set (g := filter (hit conns i) (seq 0 (length conns))) in *.
        rewrite fsum_map_sub, fsum_map_const, H. destruct g as [|j g]; [cbn; ring|].
        change (fold_right fadd 0) with (np_sum (0 : K) fadd). rewrite np_sum_fsum, Nat2Z.id.
        field. apply fn_ne. discriminate.
      - intros i Hl Hn. specialize (H i Hl). cbn zeta in H.
        destruct (filter (fun j => (nth j conns 0 =? Z.of_nat i)%Z) (seq 0 (length conns))) as [|j g] eqn:F; [exact H|].
        exfalso. apply Hn. assert (In j (j :: g)) as Hj by now left. rewrite <- F in Hj. apply filter_In in Hj as [Hj Ej]. apply Z.eqb_eq in Ej. rewrite <- Ej. apply nth_In. apply in_seq in Hj. lia.
    Qed.
    Lemma misfit_split y z : Z.of_nat (length y) = n ->
      (forall i, (i < length y)%nat -> fsumn (length conns) (fun j => if hit conns i j then nth j x 0 - nth i y 0 else 0) = 0) ->
      misfit conns x z = misfit conns x y + fsumn (length conns) (fun j => let d := nth (Z.to_nat (nth j conns 0%Z)) y 0 - nth (Z.to_nat (nth j conns 0%Z)) z 0 in d * d).
    Proof.
      intros L H.
      assert (fsumn (length conns) (fun j => (nth j x 0 - nth (Z.to_nat (nth j conns 0%Z)) y 0) * (nth (Z.to_nat (nth j conns 0%Z)) y 0 - nth (Z.to_nat (nth j conns 0%Z)) z 0)) = 0) as C.
      { rewrite (by_input n conns (fun i j => (nth j x 0 - nth i y 0) * (nth i y 0 - nth i z 0))) by exact conns_range.
        apply fsumn_zero. intros i Hl. transitivity (fsumn (length conns) (fun j => (if hit conns i j then nth j x 0 - nth i y 0 else 0) * (nth i y 0 - nth i z 0))).
        - apply fsumn_ext. intros j _. destruct (hit conns i j); ring.
        - rewrite fsumn_mulr, H by lia. ring. }
      match type of C with ?c = _ => transitivity (misfit conns x y + fsumn (length conns) (fun j => let d := nth (Z.to_nat (nth j conns 0%Z)) y 0 - nth (Z.to_nat (nth j conns 0%Z)) z 0 in d * d) + (1 + 1) * c) end.
      - unfold misfit. rewrite <- fsumn_mul, <- !fsumn_add. apply fsumn_ext. intros j _. cbn zeta. ring.
      - rewrite C. ring.
    Qed.
  End S.
  Theorem C360_least : forall n conns sort x, sw_init n conns = SOk conns -> (forall c, In c conns -> (0 <= c)%Z) -> is_argsort sort conns -> length x = length conns ->
    exists y, mean n conns sort x = SOk y /\ Z.of_nat (length y) = n /\ (forall z, misfit conns x y <= misfit conns x z) /\
      (forall z, misfit conns x z = misfit conns x y -> forall c, In c conns -> nth (Z.to_nat c) z 0 = nth (Z.to_nat c) y 0) /\
      (forall i, (i < length y)%nat -> ~ In (Z.of_nat i) conns -> nth i y 0 = 0).
  Proof.
    intros n conns sort x Hi Hp Hs Hx. destruct (mean_normal n conns sort x) as (y & E & L & H & H0); auto.
    exists y. split; [exact E|]. split; [exact L|].
    pose proof (misfit_split n conns x Hi Hp Hx) as M.
    split; [|split; [|exact H0]].
    - intros z. rewrite (M y z L H). apply fle_sub. match goal with |- 0 <= ?a + ?b - ?a => replace (a + b - a) with b by ring end.
      apply fsumn_nonneg. intros j _. apply fsq.
    - intros z Ez c Hc. rewrite (M y z L H) in Ez.
      assert (fsumn (length conns) (fun j => let d := nth (Z.to_nat (nth j conns 0%Z)) y 0 - nth (Z.to_nat (nth j conns 0%Z)) z 0 in d * d) = 0) as S0.
      { match type of Ez with ?a + ?b = ?a => transitivity (a + b - a); [ring|rewrite Ez; ring] end. }
      apply (In_nth _ _ 0%Z) in Hc as (j & Hj & <-).
      pose proof (fsum_map_eq0 _ _ (fun j _ => fsq _) S0 j) as D. cbn beta in D. specialize (D ltac:(apply in_seq; lia)). apply fsq0 in D.
      match type of D with ?a - ?b = _ => transitivity (a - (a - b)); [ring|rewrite D; ring] end.
  Qed.
  Theorem C361_back : forall n conns sort row out, sw_init n conns = SOk conns -> (forall c, In c conns -> (0 <= c)%Z) -> is_argsort sort conns -> Z.of_nat (length row) = n ->
    sw_execute conns row = SOk out -> exists y, mean n conns sort out = SOk y /\ length y = length row /\
      (forall i, (i < length row)%nat -> nth i y 0 = if existsb (Z.eqb (Z.of_nat i)) conns then nth i row 0 else 0) /\ sw_execute conns y = SOk out.
  Proof.
    intros n conns sort row out Hi Hp Hs Hr He.
    assert (forall r : list K, Z.of_nat (length r) = n -> sw_execute conns r = SOk (map (fun c => nth (Z.to_nat c) r 0) conns)) as R.
    { intros r Lr. pose proof (C19_routing K n conns r Hi Hp Lr) as (o & Eo & Lo & No). rewrite Eo. f_equal. apply nth_ext with (d := 0) (d' := 0); [now rewrite map_length|].
      intros j Hj. rewrite Lo in Hj. rewrite (No j 0 Hj). rewrite (nth_indep (map _ conns) 0 ((fun c => nth (Z.to_nat c) r 0) 0%Z)) by (rewrite map_length; lia). now rewrite (map_nth (fun c => nth (Z.to_nat c) r 0)). }
    rewrite (R row Hr) in He. injection He as <-.
    destruct (C360_least n conns sort (map (fun c => nth (Z.to_nat c) row 0) conns)) as (y & E & L & Min & Uni & Zero); auto; [now rewrite map_length|].
    assert (misfit conns (map (fun c => nth (Z.to_nat c) row 0) conns) row = 0) as M0.
    { apply fsumn_zero. intros j Hj. cbn zeta. rewrite (nth_indep (map _ conns) 0 ((fun c => nth (Z.to_nat c) row 0) 0%Z)) by (now rewrite map_length). rewrite (map_nth (fun c => nth (Z.to_nat c) row 0)). ring. }
    assert (misfit conns (map (fun c => nth (Z.to_nat c) row 0) conns) y = 0) as M1.
    { apply fle_antisym; [specialize (Min row); now rewrite M0 in Min|]. apply fsumn_nonneg. intros. apply fsq. }
    assert (forall c, In c conns -> nth (Z.to_nat c) row 0 = nth (Z.to_nat c) y 0) as Same. { apply Uni. now rewrite M0, M1. }
    exists y. split; [exact E|]. assert (length y = length row) as Ll by lia. split; [exact Ll|]. split.
    - intros i Hl. destruct (existsb (Z.eqb (Z.of_nat i)) conns) eqn:Ex.
      + apply existsb_exists in Ex as (c & Hc & Ec). apply Z.eqb_eq in Ec. subst c. specialize (Same _ Hc). now rewrite Nat2Z.id in Same.
      + apply Zero; [lia|]. intros Hc. rewrite <- not_true_iff_false in Ex. apply Ex. apply existsb_exists. exists (Z.of_nat i). split; [exact Hc|]. apply Z.eqb_refl.
    - rewrite (R y L). f_equal. apply map_ext_in. intros c Hc. symmetry. now apply Same.
  Qed.
End Least.
Example C360_ex : (match @mean Qc_of 3 [0; 0; 2] [0; 1; 2]%nat (map (fun z => Q2Qc (inject_Z z)) [1; 3; 5]) with SOk y => map (fun a => this a) y | SErr _ => [] end) = map (fun z => inject_Z z) [2; 0; 5].
Proof. vm_compute. reflexivity. Qed.
Example C361_ex : (match sw_execute [0; 0; 2] (map (fun z => Q2Qc (inject_Z z)) [4; 7; 5]) with SOk out => match @mean Qc_of 3 [0; 0; 2] [0; 1; 2]%nat out with SOk y => map (fun a => this a) y | SErr _ => [] end | SErr _ => [] end) = map (fun z => inject_Z z) [4; 0; 5].
Proof. vm_compute. reflexivity. Qed.

(** ** C362: messages of a BiSwitchboard *)
Section Bi.
  Context {A O : Type}.
  Notation bval := (bval A O). Notation bmsg := (bmsg A O). Notation bout := (bout A O).
  Variables (n : Z) (conns : list Z).
  (** arrays have rows of one length *)
  Definition regular (c : Z) (rows : list (list A)) : Prop := Forall (fun r => Z.of_nat (length r) = c) rows.
  Definition wfv (v : bval) : Prop := match v with BArr c rows => regular c rows | BObj _ => True end.
  Definition wfm (m : bmsg) : Prop := Forall (fun p => wfv (snd p)) m.
  (** row r' has the entries of row r given by the connections *)
  Definition routed (r r' : list A) : Prop := length r' = length conns /\ forall j d, (j < length conns)%nat -> nth j r' d = nth (Z.to_nat (nth j conns 0)) r d.
  Definition routedv (v v' : bval) : Prop :=
    match v, v' with
    | BArr c rows, BArr c' rows' => if c =? n then c' = out_dim conns /\ Forall2 routed rows rows' else c' = c /\ rows' = rows
    | _, _ => v' = v
    end.
  Hypothesis Hi : sw_init n conns = SOk conns.
  Hypothesis Hp : forall c, In c conns -> 0 <= c.

  Lemma execute_rows_ok rows : regular n rows -> exists rows', execute_rows conns rows = SOk rows' /\ Forall2 routed rows rows'.
  Proof.
    induction 1 as [|r rows Hr _ IH]; [exists []; split; [reflexivity|constructor]|].
    destruct IH as (rs & E & F). destruct (C19_routing A n conns r Hi Hp Hr) as (r' & E' & L & N).
    exists (r' :: rs). unfold execute_rows in *. cbn [mapm]. rewrite E'. cbn. rewrite E. split; [reflexivity|]. constructor; [now split|exact F].
  Qed.
  Definition item_ (p : string * bval) : sres (string * bval) :=
    match snd p with BArr cols rows => if cols =? n then sbind (execute_rows conns rows) (fun r => SOk (fst p, BArr (out_dim conns) r)) else SOk p | BObj _ => SOk p end.
  Lemma items_ok m : wfm m -> exists m', mapm item_ m = SOk m' /\ Forall2 (fun p q => fst q = fst p /\ routedv (snd p) (snd q)) m m'.
  Proof.
    induction 1 as [|[k v] m Hv _ IH]; [exists []; split; [reflexivity|constructor]|].
    destruct IH as (m' & E & F). cbn [mapm]. unfold item_ at 1. cbn [fst snd]. destruct v as [c rows|o]; cbn in Hv.
    - destruct (Z.eqb_spec c n) as [->|Hc].
      + destruct (execute_rows_ok rows Hv) as (rows' & E' & F'). rewrite E'. cbn [sbind]. rewrite E. cbn [sbind].
        eexists. split; [reflexivity|]. constructor; [|exact F]. cbn. rewrite Z.eqb_refl. auto.
      + cbn [sbind]. rewrite E. eexists. split; [reflexivity|]. constructor; [|exact F]. cbn. apply Z.eqb_neq in Hc. rewrite Hc. auto.
    - cbn [sbind]. rewrite E. eexists. split; [reflexivity|]. constructor; [|exact F]. cbn. auto.
  Qed.
  Theorem C362_routed : forall x m, (forall r, x = Some r -> regular n r) -> wfm m -> m <> [] ->
    exists y m', bi_execute n conns x (Some m) = SOk (BPair y m') /\
      match x, y with None, None => True | Some rows, Some rows' => Forall2 routed rows rows' | _, _ => False end /\
      Forall2 (fun p q => fst q = fst p /\ routedv (snd p) (snd q)) m m'.
  Proof.
    intros x m Hx Hm Hne. destruct (items_ok m Hm) as (m' & E & F).
    unfold bi_execute, execute_msg. destruct m as [|p m]; [contradiction|]. fold item_. rewrite E. cbn [sbind].
    assert (exists p' l', m' = p' :: l') as (p' & l' & ->) by (inversion F; eauto).
    destruct x as [rows|]; cbn [omap].
    - destruct (execute_rows_ok rows (Hx _ eq_refl)) as (rows' & E' & F'). rewrite E'. cbn. eauto.
    - cbn. exists None. eauto.
  Qed.
  Theorem C362_plain : forall rows (m : option bmsg), regular n rows -> m = None \/ m = Some [] -> exists rows', bi_execute n conns (Some rows) m = SOk (BPlain (Some rows')) /\ Forall2 routed rows rows'.
  Proof. intros rows m Hr Hm. destruct (execute_rows_ok rows Hr) as (rows' & E & F). exists rows'. split; [|exact F]. unfold bi_execute. cbn. rewrite E. now destruct Hm as [->| ->]. Qed.
  (** and back *)
  Variable sort : list nat.
  Hypothesis Hinv : invertible n conns = true.
  Hypothesis Hs : is_argsort sort conns.
  Lemma dims : out_dim conns = n.
  Proof. unfold invertible in Hinv. apply andb_true_iff in Hinv as [H _]. apply Z.eqb_eq in H. unfold out_dim. lia. Qed.
  Lemma rows_back rows rows' : regular n rows -> execute_rows conns rows = SOk rows' -> inverse_rows n conns sort rows' = SOk rows.
  Proof.
    intros Hr. unfold inverse_rows. rewrite Hinv. cbn. revert rows'. induction Hr as [|r rows Hr _ IH]; intros rows' E; [injection E as <-; reflexivity|].
    destruct (C19_inverse A n conns sort r Hi Hp Hinv Hs Hr) as (o & b & E1 & E2 & _). unfold execute_rows in *. cbn [mapm] in E. rewrite E1 in E. cbn in E.
    destruct (mapm (sw_execute conns) rows) as [rs|] eqn:Er; [|discriminate]. injection E as <-. cbn [mapm]. rewrite E2. cbn. now rewrite (IH rs eq_refl).
  Qed.
  Theorem C362_back : forall x m, (forall r, x = Some r -> regular n r) -> wfm m ->
    exists y m', bi_execute n conns x (Some m) = SOk (match m with [] => BPlain y | _ => BPair y m' end) /\
      bi_inverse n conns sort y (Some m') = SOk (match m with [] => BPlain x | _ => BPair x m end).
  Proof.
    intros x m Hx Hm.
    assert (exists y, omap (execute_rows conns) x = SOk y /\ omap (inverse_rows n conns sort) y = SOk x) as (y & Ey & Ey').
    { destruct x as [rows|]; [|exists None; auto]. destruct (execute_rows_ok rows (Hx _ eq_refl)) as (r' & E & _). exists (Some r'). cbn. rewrite E. split; [reflexivity|]. cbn.
      now rewrite (rows_back rows r' (Hx _ eq_refl) E). }
    assert (exists m', mapm item_ m = SOk m' /\ mapm (fun p => match snd p with BArr cols rows => if cols =? out_dim conns then sbind (inverse_rows n conns sort rows) (fun r => SOk (fst p, BArr n r)) else SOk p | BObj _ => SOk p end) m' = SOk m) as (m' & Em & Em').
    { clear x Hx y Ey Ey'. induction Hm as [|[k v] m Hv _ IH]; [exists []; auto|]. destruct IH as (m' & E & E'). cbn [mapm]. unfold item_ at 1. cbn [fst snd]. destruct v as [c rows|o]; cbn in Hv.
      - destruct (Z.eqb_spec c n) as [->|Hc].
        + destruct (execute_rows_ok rows Hv) as (rows' & Er & _). rewrite Er. cbn [sbind]. rewrite E. cbn [sbind]. eexists. split; [reflexivity|].
          cbn [mapm fst snd]. rewrite Z.eqb_refl, (rows_back rows rows' Hv Er). cbn [sbind]. now rewrite E'.
        + cbn [sbind]. rewrite E. eexists. split; [reflexivity|]. cbn [mapm fst snd]. rewrite dims. apply Z.eqb_neq in Hc. rewrite Hc. cbn [sbind]. rewrite dims in E'. now rewrite E'.
      - cbn [sbind]. rewrite E. eexists. split; [reflexivity|]. cbn [mapm fst snd sbind]. now rewrite E'. }
    exists y, m'. unfold bi_execute, bi_inverse, execute_msg, inverse_msg. rewrite Ey, Ey'. cbn [sbind]. destruct m as [|p m].
    - cbn in Em. injection Em as <-. split; reflexivity.
    - fold item_. rewrite Em. destruct m' as [|p' m']; [discriminate|]. rewrite Em'. split; reflexivity.
  Qed.
End Bi.
(** ** C363: the way down *)
(** connections which are not invertible: no array goes down, neither as data nor in the message; other values do *)
Theorem C363_never : forall (A O : Type) n conns sort (x : list (list A)) (m : option (bmsg A O)), invertible n conns = false ->
  bi_inverse n conns sort (Some x) m = SErr SNotInvertible /\
  (forall l k rows r, Forall (fun p => match snd p with BArr c _ => c <> out_dim conns | BObj _ => True end) l ->
     bi_inverse n conns sort None (Some (l ++ (k, BArr (out_dim conns) rows) :: r) : option (bmsg A O)) = SErr SNotInvertible).
Proof.
  intros A O n conns sort x m H. split; [unfold bi_inverse, omap, inverse_rows; now rewrite H|].
  intros l k rows r F. unfold bi_inverse, inverse_msg. cbn [omap sbind].
  match goal with |- context [mapm ?f] => set (g := f) end.
  assert (mapm g (l ++ (k, BArr (out_dim conns) rows) :: r) = SErr SNotInvertible) as E.
  { induction F as [|[k' v] l Hv _ IH]; cbn [app mapm].
    - unfold g at 1. cbn [fst snd]. rewrite Z.eqb_refl. unfold inverse_rows. now rewrite H.
    - rewrite IH. unfold g at 1. cbn [fst snd] in *. destruct v as [c rs|o]; [|reflexivity]. apply Z.eqb_neq in Hv. now rewrite Hv. }
  rewrite E. now destruct (l ++ _).
Qed.
Theorem C363_others : forall (A O : Type) n conns sort (m : bmsg A O), m <> [] ->
  Forall (fun p => match snd p with BArr c _ => c <> out_dim conns | BObj _ => True end) m -> bi_inverse n conns sort None (Some m) = SOk (BPair None m).
Proof.
  intros A O n conns sort m Hne F. unfold bi_inverse, inverse_msg. cbn [omap sbind]. match goal with |- context [mapm ?f] => set (g := f) end.
  assert (mapm g m = SOk m) as E.
  { clear Hne. induction F as [|[k v] m Hv _ IH]; [reflexivity|]. cbn [mapm]. rewrite IH. unfold g at 1. cbn [fst snd] in *. destruct v as [c rs|o]; [|reflexivity]. apply Z.eqb_neq in Hv. now rewrite Hv. }
  rewrite E. now destruct m.
Qed.
Theorem C363_refuted : exists n conns, sw_init n conns = SOk conns /\ (forall c, In c conns -> 0 <= c < n) /\
  forall sort, is_argsort sort conns -> @bi_inverse Z unit n conns sort (Some [[5; 6; 7]]) None = SErr SNotInvertible.
Proof. exists 2, [0; 1; 0]. split; [reflexivity|]. split; [cbn; lia|]. intros. reflexivity. Qed.
Example C362_ex : @bi_execute Z bool 3 [2; 0; 1] (Some [[10; 11; 12]]) (Some [("grad", BArr 3 [[1; 2; 3]; [4; 5; 6]]); ("w", BArr 2 [[8; 9]]); ("flag", BObj true)])%string
  = SOk (BPair (Some [[12; 10; 11]]) [("grad", BArr 3 [[3; 1; 2]; [6; 4; 5]]); ("w", BArr 2 [[8; 9]]); ("flag", BObj true)]%string) /\
  @bi_inverse Z bool 3 [2; 0; 1] [1; 2; 0]%nat (Some [[12; 10; 11]]) (Some [("grad", BArr 3 [[3; 1; 2]; [6; 4; 5]]); ("flag", BObj true)])%string
  = SOk (BPair (Some [[10; 11; 12]]) [("grad", BArr 3 [[1; 2; 3]; [4; 5; 6]]); ("flag", BObj true)]%string).
Proof. split; reflexivity. Qed.

(** ** C364: BiClassifier *)
Section Cls.
  Context {X V : Type}.
  Variables label prob rank : X -> V.
  Notation classify := (classify label prob rank).
  Lemma append_inj a b s t : String.length s = String.length t -> (a ++ s = b ++ t)%string -> a = b /\ s = t.
  Proof.
    intros L. revert b. induction a as [|c a IH]; intros [|d b] E; cbn in E; auto.
    - subst s. cbn in L. exfalso. assert (forall u v, String.length (u ++ v) = (String.length u + String.length v)%nat) as La by (induction u; cbn; auto). rewrite La in L. lia.
    - subst t. cbn in L. exfalso. assert (forall u v, String.length (u ++ v) = (String.length u + String.length v)%nat) as La by (induction u; cbn; auto). rewrite La in L. lia.
    - injection E as -> E. apply IH in E as [-> ->]. auto.
  Qed.
  (** the same last characters *)
  Fixpoint slast (s : string) (a b : Ascii.ascii) : Ascii.ascii * Ascii.ascii := match s with EmptyString => (a, b) | String c s => slast s b c end.
  Lemma slast_app u s a b : slast (u ++ s) a b = slast s (fst (slast u a b)) (snd (slast u a b)).
  Proof. revert a b. induction u as [|c u IH]; intros; [reflexivity|]. cbn. apply IH. Qed.
  Lemma differ a b : (a ++ "labels" <> b ++ "probs")%string /\ (a ++ "labels" <> b ++ "ranks")%string /\ (a ++ "probs" <> b ++ "ranks")%string.
  Proof. repeat split; intros E; apply (f_equal (fun s => slast s Ascii.zero Ascii.zero)) in E; rewrite !slast_app in E; cbn in E; discriminate. Qed.
  Lemma dget_put f name (v : V) (m : dict V) k : dget k (put f name v m) = if asked f && String.eqb k (prefix_of f ++ name) then Some v else dget k m.
  Proof.
    unfold put. destruct (asked f); [|reflexivity]. cbn [andb]. induction m as [|[k' v'] m IH]; cbn [dset dget]; [reflexivity|].
    destruct (String.eqb_spec (prefix_of f ++ name) k') as [E|E]; cbn [dget].
    - subst k'. destruct (String.eqb k (prefix_of f ++ name)); reflexivity.
    - destruct (String.eqb_spec k k') as [->|Hk]; [|exact IH]. replace (String.eqb k' (prefix_of f ++ name)) with false; [reflexivity|]. symmetry. apply String.eqb_neq. congruence.
  Qed.
  Theorem C364_results : forall x l p r, fst (classify x l p r) = x /\
    forall k, dget k (snd (classify x l p r)) =
      if asked l && String.eqb k (prefix_of l ++ "labels") then Some (label x) else
      if asked p && String.eqb k (prefix_of p ++ "probs") then Some (prob x) else
      if asked r && String.eqb k (prefix_of r ++ "ranks") then Some (rank x) else None.
  Proof.
    intros x l p r. split; [reflexivity|]. intros k. unfold classify. cbn [snd]. rewrite !dget_put. cbn [dget].
    destruct (differ (prefix_of l) (prefix_of p)) as (D1 & _ & _). destruct (differ (prefix_of l) (prefix_of r)) as (_ & D2 & _). destruct (differ (prefix_of p) (prefix_of r)) as (_ & _ & D3).
    destruct (String.eqb_spec k (prefix_of l ++ "labels")) as [E1|E1], (String.eqb_spec k (prefix_of p ++ "probs")) as [E2|E2], (String.eqb_spec k (prefix_of r ++ "ranks")) as [E3|E3]; try congruence;
      destruct (asked l), (asked p), (asked r); reflexivity.
  Qed.
  Theorem C364_all : forall x l p r, (asked l = true -> dget (prefix_of l ++ "labels") (snd (classify x l p r)) = Some (label x)) /\
    (asked p = true -> dget (prefix_of p ++ "probs") (snd (classify x l p r)) = Some (prob x)) /\ (asked r = true -> dget (prefix_of r ++ "ranks") (snd (classify x l p r)) = Some (rank x)) /\
    length (snd (classify x l p r)) = ((if asked l then 1 else 0) + (if asked p then 1 else 0) + (if asked r then 1 else 0))%nat.
  Proof.
    intros x l p r. destruct (differ (prefix_of l) (prefix_of p)) as (D1 & _ & _). destruct (differ (prefix_of l) (prefix_of r)) as (_ & D2 & _). destruct (differ (prefix_of p) (prefix_of r)) as (_ & _ & D3).
    destruct (C364_results x l p r) as [_ H]. repeat split.
    - intros E. rewrite H, E, String.eqb_refl. reflexivity.
    - intros E. rewrite H, E, String.eqb_refl. rewrite (proj2 (String.eqb_neq _ _)) by congruence. now rewrite andb_false_r.
    - intros E. rewrite H, E, String.eqb_refl. rewrite !(proj2 (String.eqb_neq _ _)) by congruence. now rewrite !andb_false_r.
    - unfold classify, put. cbn [snd]. apply String.eqb_neq in D1, D2, D3. rewrite String.eqb_sym in D1, D2, D3.
      destruct (asked l), (asked p), (asked r); cbn [dset length]; rewrite ?D1, ?D2, ?D3; cbn [dset length]; rewrite ?D1, ?D2, ?D3; reflexivity.
  Qed.
  (** an empty prefix asks for nothing *)
  Theorem C364_refuted : forall x, exists f, f = FStr "" /\ snd (classify x f FOff FOff) = [] /\ snd (classify x (FOther true) FOff FOff) = [("labels", label x)]%string.
  Proof. intros x. exists (FStr ""). repeat split; reflexivity. Qed.
End Cls.
Example C364_ex : classify (fun x => x * 2) (fun x => x + 1) (fun x => x) 5 (FStr "a_") (FOther true) (FStr "") = (5, [("a_labels", 10); ("probs", 6)])%string.
Proof. reflexivity. Qed.

(** ** C365: the input of a created switchboard is the output of the layer before *)
(** switchboards made by the constructors *)
Inductive made : psw -> Prop :=
| made_channel n l o i b : ch_init n l o i = SOk b -> made (SWChannel b)
| made_rect X Y fx fy sx sy cd ic b xy : rect_init X Y fx fy sx sy cd ic = SOk (b, xy) -> made (SWRect b xy)
| made_double X Y fx fy cd ic b xy : drect_init X Y fx fy cd ic = SOk (b, xy) -> made (SWDouble b xy)
| made_rhomb X Y d cd b xy : rhomb_init X Y d cd = SOk (b, xy) -> made (SWRhomb b xy).
Lemma sbind_ok {A B} (r : sres A) (f : A -> sres B) b : sbind r f = SOk b -> exists a, r = SOk a /\ f a = SOk b.
Proof. destruct r; cbn; [eauto|discriminate]. Qed.
Lemma sguard_ok {B} c e (k : sres B) b : sguard c e k = SOk b -> c = false /\ k = SOk b.
Proof. destruct c; cbn; [discriminate|auto]. Qed.
Lemma ch_init_board n l o i b : ch_init n l o i = SOk b -> b_in b = n /\ b_conns b = l /\ b_out_chan_dim b = o /\ o <> 0.
Proof.
  unfold ch_init. intros H. apply sbind_ok in H as (l' & E & H). unfold sw_init in E. apply sguard_ok in E as [_ E]. apply sguard_ok in E as [_ E]. injection E as <-.
  apply sbind_ok in H as (m & Em & H). apply sguard_ok in H as [_ H]. apply sbind_ok in H as (m' & _ & H). apply sguard_ok in H as [_ H]. injection H as <-.
  repeat split. unfold pymod in Em. destruct (Z.eqb_spec o 0); [discriminate|assumption].
Qed.
Lemma buffer_length n l c : buffer n l = SOk c -> Z.of_nat (length c) = n.
Proof.
  unfold buffer. intros H. apply sguard_ok in H as [G1 H]. apply sguard_ok in H as [G2 H]. injection H as <-. rewrite app_length, repeat_length. apply Z.ltb_ge in G1, G2. lia.
Qed.
Ltac board_tac H := unfold output_channels;
  repeat match type of H with sbind _ _ = _ => apply sbind_ok in H as (? & ? & H) | sguard _ _ _ = _ => apply sguard_ok in H as [_ H] end;
  injection H as <- <- <-;
  match goal with H : ch_init _ _ _ _ = SOk _ |- _ => apply ch_init_board in H as (-> & -> & -> & Ho) end; split; [reflexivity|];
  match goal with H : buffer _ _ = SOk _ |- _ => apply buffer_length in H; rewrite H; now apply Z.div_mul end.
Lemma rect_board X Y fx fy sx sy cd ic b xo yo : rect_init X Y fx fy sx sy cd ic = SOk (b, (xo, yo)) -> b_in b = cd * X * Y /\ output_channels b = xo * yo.
Proof. unfold rect_init. intros H. board_tac H. Qed.
Lemma drect_board X Y fx fy cd ic b xo yo : drect_init X Y fx fy cd ic = SOk (b, (xo, yo)) -> b_in b = cd * X * Y /\ output_channels b = xo * yo + (xo - 1) * (yo - 1).
Proof. unfold drect_init. intros H. board_tac H. Qed.
Lemma rhomb_board X Y d cd b xo yo : rhomb_init X Y d cd = SOk (b, (xo, yo)) -> b_in b = (2 * X * Y - X - Y + 1) * cd /\ output_channels b = xo * yo.
Proof. unfold rhomb_init. intros H. board_tac H. Qed.
Lemma fbind_ok {A B} (r : fres A) (f : A -> fres B) b : fbind r f = FOk b -> exists a, r = FOk a /\ f a = FOk b.
Proof. destruct r; cbn; [eauto|discriminate]. Qed.
Lemma lift_ok {A} (r : sres A) a : lift r = FOk a -> r = SOk a.
Proof. destruct r; cbn; congruence. Qed.
Lemma construct_made k kw s : construct k kw = FOk s -> made s.
Proof.
  destruct k; unfold construct, with_names; destruct (_ && _); try discriminate; intros H;
    repeat match type of H with fbind _ _ = _ => let a := fresh in let E := fresh in apply fbind_ok in H as (a & E & H) end; injection H as <-;
    match goal with E : lift _ = FOk ?r |- _ => apply lift_ok in E; try destruct r as [b xy] end; cbn [fst snd]; econstructor; eassumption.
Qed.
Theorem C365_made : forall k fp prev pod fp' s, create k fp prev pod = (fp', FOk s) -> made s.
Proof.
  intros k fp prev pod fp' s. unfold create. destruct (negb _); [discriminate|]. destruct (pydiv _ _); [|discriminate]. intros [= _ H].
  apply fbind_ok in H as (kw & _ & H). eapply construct_made, H.
Qed.
Lemma kind_ok k fp prev pod fp' s : create k fp prev pod = (fp', FOk s) -> exists cd kw, compatible k prev = true /\ output_channels (board_of prev) <> 0 /\ cd = pod / output_channels (board_of prev) /\
  kwargs k (sanitize k fp) prev cd pod = FOk kw /\ construct k kw = FOk s.
Proof.
  unfold create. destruct (compatible k prev); cbn [negb]; [|discriminate]. unfold pydiv. destruct (Z.eqb_spec (output_channels (board_of prev)) 0) as [E|E]; [discriminate|].
  intros [= _ H]. apply fbind_ok in H as (kw & Ek & H). exists (pod / output_channels (board_of prev)), kw. auto.
Qed.
Lemma kw_double_eq (a b : pval) (cd : Z) i s : construct KDouble [("in_channels_xy", a); ("field_channels_xy", b); ("in_channel_dim", PInt cd); ("ignore_cover", i)]%string = FOk s ->
  exists X Y f bd xy, to_xy a = FOk (X, Y) /\ to_xy b = FOk f /\ drect_init X Y (fst f) (snd f) cd (to_bool i) = SOk (bd, xy) /\ s = SWDouble bd xy.
Proof.
  unfold construct, with_names. cbn [forallb existsb map fst String.eqb Ascii.eqb Bool.eqb andb orb get_or dget]. intros H.
  apply fbind_ok in H as ([X Y] & E1 & H). apply fbind_ok in H as (f & E2 & H). apply fbind_ok in H as (d & E3 & H). apply fbind_ok in H as ([bd xy] & E4 & H).
  cbn in E1, E2, E3. injection E3 as <-. injection H as <-. apply lift_ok in E4. exists X, Y, f, bd, xy. auto.
Qed.
Lemma kw_rect_eq (a b c : pval) (cd : Z) i s : construct KRect [("in_channels_xy", a); ("field_channels_xy", b); ("field_spacing_xy", c); ("in_channel_dim", PInt cd); ("ignore_cover", i)]%string = FOk s ->
  exists X Y f sp bd xy, to_xy a = FOk (X, Y) /\ to_xy b = FOk f /\ to_xy c = FOk sp /\ rect_init X Y (fst f) (snd f) (fst sp) (snd sp) cd (to_bool i) = SOk (bd, xy) /\ s = SWRect bd xy.
Proof.
  unfold construct, with_names. cbn [forallb existsb map fst String.eqb Ascii.eqb Bool.eqb andb orb get_or dget]. intros H.
  apply fbind_ok in H as ([X Y] & E1 & H). apply fbind_ok in H as (f & E2 & H). apply fbind_ok in H as (sp & E2' & H). apply fbind_ok in H as (d & E3 & H). apply fbind_ok in H as ([bd xy] & E4 & H).
  cbn in E1, E2, E2', E3. injection E3 as <-. injection H as <-. apply lift_ok in E4. exists X, Y, f, sp, bd, xy. auto 6.
Qed.
Lemma prev_channels prev : made prev -> compatible KRect prev = true -> exists b xo yo, board_of prev = b /\ xy_of prev = PXY xo yo /\ output_channels b = xo * yo.
Proof.
  intros M H. destruct M as [n l o i b E|X Y fx fy sx sy cd ic b [xo yo] E|X Y fx fy cd ic b [xo yo] E|X Y d cd b [xo yo] E]; try discriminate; exists b, xo, yo; repeat split.
  - apply rect_board in E. tauto.
  - apply rhomb_board in E. tauto.
Qed.
Theorem C365_dim : forall k fp prev pod fp' s, made prev -> create k fp prev pod = (fp', FOk s) ->
  b_in (board_of s) = match k with KChannel => pod | _ => pod / output_channels (board_of prev) * output_channels (board_of prev) end.
Proof.
  intros k fp prev pod fp' s M H. apply kind_ok in H as (cd & kw & C & N & Ecd & Ek & Ec). destruct k.
  - cbn in Ek. injection Ek as <-. unfold construct, with_names in Ec. cbn [forallb existsb map fst String.eqb Ascii.eqb Bool.eqb andb orb get_or dget to_int to_list fbind] in Ec.
    apply fbind_ok in Ec as (b & E & Ec). injection Ec as <-. apply lift_ok in E. apply ch_init_board in E. cbn. tauto.
  - destruct (prev_channels prev M C) as (b & xo & yo & Eb & Ex & Eo). unfold kwargs in Ek. apply fbind_ok in Ek as (f & _ & Ek). apply fbind_ok in Ek as (sp & _ & Ek). apply fbind_ok in Ek as (i & _ & Ek). injection Ek as <-.
    apply kw_rect_eq in Ec as (X & Y & f' & sp' & bd & [xo' yo'] & E1 & _ & _ & E2 & ->). rewrite Ex in E1. injection E1 as <- <-. apply rect_board in E2 as [E2 _]. cbn [board_of]. rewrite E2, Ecd, Eb, Eo. ring.
  - destruct (prev_channels prev M C) as (b & xo & yo & Eb & Ex & Eo). unfold kwargs in Ek. apply fbind_ok in Ek as (f & _ & Ek). apply fbind_ok in Ek as (i & _ & Ek). injection Ek as <-.
    apply kw_double_eq in Ec as (X & Y & f' & bd & [xo' yo'] & E1 & _ & E2 & ->). rewrite Ex in E1. injection E1 as <- <-. apply drect_board in E2 as [E2 _]. cbn [board_of]. rewrite E2, Ecd, Eb, Eo. ring.
  - exfalso. unfold kwargs in Ek. apply fbind_ok in Ek as (f & _ & Ek). injection Ek as <-. unfold construct, with_names in Ec. cbn in Ec. discriminate.
Qed.
Theorem C365_multiple : forall k fp prev pod fp' s, made prev -> create k fp prev pod = (fp', FOk s) -> pod mod output_channels (board_of prev) = 0 -> b_in (board_of s) = pod.
Proof.
  intros k fp prev pod fp' s M H Hm. pose proof (kind_ok _ _ _ _ _ _ H) as (_ & _ & _ & N & _). rewrite (C365_dim k fp prev pod fp' s M H).
  destruct k; [reflexivity| | |]; rewrite (Z.div_mod pod _ N) at 2; rewrite Hm; ring.
Qed.
(** an image of 2 x 2 pixels *)
Definition image2 : psw := SWRect (mkB 4 [0; 1; 2; 3] 1 1) (2, 2).
Definition halves : dict pval := [("field_channels_xy", PXY 2 1); ("field_spacing_xy", PXY 1 1)]%string.
Theorem C365_refuted : exists k fp prev pod fp' s, made prev /\ create k fp prev pod = (fp', FOk s) /\ 0 < pod /\ b_in (board_of s) <> pod.
Proof.
  exists KRect, halves, image2, 7. eexists. eexists. split; [|split; [vm_compute; reflexivity|vm_compute; split; [reflexivity|discriminate]]].
  apply (made_rect 2 2 1 1 1 1 1 false). reflexivity.
Qed.
Example C365_ex : image_board (PInt 2) = FOk image2 /\ exists fp', create KRect halves image2 8 = (fp', FOk (SWRect (mkB 8 [0; 1; 2; 3; 4; 5; 6; 7] 4 2) (1, 2))).
Proof. split; [reflexivity|]. eexists. reflexivity. Qed.

(** ** C366: free_params *)
Lemma dset_get {V} k (v : V) d : dget k (dset k v d) = Some v.
Proof. induction d as [|[k' w] d IH]; cbn; [now rewrite String.eqb_refl|]. destruct (String.eqb k k') eqn:E; cbn; rewrite E; auto. Qed.
Lemma sanitize_twice k fp : sanitize k (sanitize k fp) = sanitize k fp.
Proof. destruct k; cbn [sanitize]; try reflexivity; destruct (dget "ignore_cover" fp) eqn:E; try (now rewrite E); now rewrite dset_get. Qed.
(** the dict can be used again, for any other layer of the same kind *)
Theorem C366_again : forall k fp prev pod prev' pod', let fp' := fst (create k fp prev pod) in snd (create k fp' prev' pod') = snd (create k fp prev' pod').
Proof.
  intros k fp prev pod prev' pod'. cbv zeta. unfold create at 2. destruct (negb (compatible k prev)); [reflexivity|]. destruct (pydiv pod _); [|reflexivity]. cbn [fst].
  unfold create. destruct (negb _); [reflexivity|]. destruct (pydiv pod' _); [|reflexivity]. cbn [snd]. now rewrite sanitize_twice.
Qed.
(** nothing but ignore_cover is entered *)
Theorem C366_others : forall k fp prev pod q, q <> "ignore_cover"%string -> dget q (fst (create k fp prev pod)) = dget q fp.
Proof.
  intros k fp prev pod q Hq. unfold create. destruct (negb _); [reflexivity|]. destruct (pydiv _ _); [|reflexivity]. cbn [fst]. destruct k; cbn [sanitize]; try reflexivity;
    destruct (dget "ignore_cover" fp); try reflexivity; induction fp as [|[k w] fp IH]; cbn [dset dget]; rewrite ?(proj2 (String.eqb_neq _ _) Hq); try reflexivity;
    (destruct (String.eqb_spec "ignore_cover" k) as [<-|Hk]; cbn [dget]; [now rewrite (proj2 (String.eqb_neq _ _) Hq)|]; rewrite IH; reflexivity).
Qed.
Theorem C366_refuted : exists k fp prev pod s, made prev /\ snd (create k fp prev pod) = FOk s /\ fst (create k fp prev pod) <> fp /\
  dget "ignore_cover" fp = None /\ dget "ignore_cover" (fst (create k fp prev pod)) = Some (PBool true).
Proof.
  exists KRect, halves, image2, 8. eexists. split; [apply (made_rect 2 2 1 1 1 1 1 false); reflexivity|]. split; [vm_compute; reflexivity|]. split; [vm_compute; discriminate|]. split; reflexivity.
Qed.
(** the version with node_id makes the same switchboards *)
Lemma to_xy_pair v : to_xy (match v with PInt z => PXY z z | PBool b => PXY (b2z b) (b2z b) | _ => v end) = to_xy v.
Proof. now destruct v. Qed.
Definition paired (q : string) (v : pval) : pval := if ends_xy q then match v with PInt z => PXY z z | PBool b => PXY (b2z b) (b2z b) | _ => v end else v.
Lemma dget_pairs q fp : dget q (pairs fp) = option_map (paired q) (dget q fp).
Proof.
  induction fp as [|[k v] fp IH]; [reflexivity|]. cbn [pairs map dget fst snd]. unfold paired. destruct (ends_xy k) eqn:E.
  - destruct v; cbn [dget fst snd]; (destruct (String.eqb_spec q k) as [->|Hk]; [cbn; rewrite E; reflexivity|exact IH]).
  - cbn [dget]. destruct (String.eqb_spec q k) as [->|Hk]; [cbn; rewrite E; reflexivity|exact IH].
Qed.
Lemma dset_pairs q v fp : ends_xy q = false -> dset q v (pairs fp) = pairs (dset q v fp).
Proof.
  intros Hq. induction fp as [|[k w] fp IH]; cbn [pairs map dset fst snd]; [now rewrite Hq|]. fold (pairs fp).
  destruct (ends_xy k) eqn:E; [destruct w|]; cbn [dset]; (destruct (String.eqb_spec q k) as [->|Hk]; cbn [map fst snd]; [congruence||now rewrite E|rewrite E; fold (pairs (dset q v fp)); now rewrite <- IH]).
Qed.
Theorem C366_bi : forall k fp prev pod, snd (bi_create k fp prev pod) = snd (create k fp prev pod).
Proof.
  intros k fp prev pod. unfold bi_create, create. destruct (negb _); [reflexivity|]. destruct (pydiv _ _) as [cd|]; [|reflexivity]. cbn [snd].
  assert (sanitize k (pairs fp) = pairs (sanitize k fp)) as ->.
  { destruct k; cbn [sanitize]; try reflexivity; rewrite dget_pairs; destruct (dget "ignore_cover" fp); cbn [option_map]; try reflexivity; now apply dset_pairs. }
  generalize (sanitize k fp) as d. intros d. destruct k; cbn [kwargs]; try reflexivity; unfold item; rewrite !dget_pairs.
  - destruct (dget "field_channels_xy" d) as [f|]; [|reflexivity]. destruct (dget "field_spacing_xy" d) as [s|]; [|reflexivity]. destruct (dget "ignore_cover" d) as [i|]; [|reflexivity].
    cbn [option_map fbind]. change (paired "ignore_cover" i) with i. destruct f, s; reflexivity.
  - destruct (dget "field_channels_xy" d) as [f|]; [|reflexivity]. destruct (dget "ignore_cover" d) as [i|]; [|reflexivity].
    cbn [option_map fbind]. change (paired "ignore_cover" i) with i. destruct f; reflexivity.
  - destruct (dget "field_size" d) as [f|]; reflexivity.
Qed.

(** ** C367: rhombic switchboards *)
Theorem C367_never : forall fp prev pod, exists e, snd (create KRhomb fp prev pod) = FErr e.
Proof.
  intros fp prev pod. unfold create. destruct (negb _); [cbn; eauto|]. destruct (pydiv _ _); [|cbn; eauto]. cbn [snd kwargs]. unfold item.
  destruct (dget "field_size" (sanitize KRhomb fp)); [|cbn; eauto]. cbn [fbind]. exists FEType. reflexivity.
Qed.
(** with the right name of the argument it is the switchboard for the outputs of the one before *)
Theorem C367_direct : forall b xo yo pod d cd s, made (SWDouble b (xo, yo)) -> pod = cd * output_channels b ->
  construct KRhomb [("long_in_channels_xy", PXY xo yo); ("diag_field_channels", PInt d); ("in_channel_dim", PInt cd)]%string = FOk s -> b_in (board_of s) = pod.
Proof.
  intros b xo yo pod d cd s M Hp H. inversion M as [|?|X Y fx fy cd' ic b' xy E Eb|]; subst. apply drect_board in E as [_ E].
  unfold construct, with_names in H. cbn [forallb existsb map fst String.eqb Ascii.eqb Bool.eqb andb orb get_or dget to_xy to_int fbind] in H.
  apply fbind_ok in H as ([b2 [x2 y2]] & E2 & H). injection H as <-. apply lift_ok in E2. cbn [fst snd] in E2. apply rhomb_board in E2 as [E2 _]. cbn [board_of fst]. rewrite E2, E. ring.
Qed.
Theorem C367_refuted : exists fp prev pod s, made prev /\ snd (create KRhomb fp prev pod) = FErr FEType /\
  construct KRhomb [("long_in_channels_xy", xy_of prev); ("diag_field_channels", PInt 2); ("in_channel_dim", PInt 1)]%string = FOk s /\
  fp = [("field_size", PInt 2)]%string /\ b_in (board_of s) = pod.
Proof.
  assert (exists b, drect_init 6 4 2 2 1 true = SOk (b, (3, 2))) as [b E] by (eexists; vm_compute; reflexivity).
  exists [("field_size", PInt 2)]%string, (SWDouble b (3, 2)), 8. eexists. split; [eapply made_double, E|]. split; [|split; [vm_compute; reflexivity|split; reflexivity]].
  vm_compute in E. injection E as <-. vm_compute. reflexivity.
Qed.
