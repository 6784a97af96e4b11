(** Properties of the recursive expansion nodes (C132-C137). *)
From Coq Require Import List Arith ZArith QArith Qcanon Bool Lia Permutation Sorted.
From Verif Require Import CovModel CovProofs RoutModel RoutProps MiscModel ExpModel ExpProofs RecModel RecProofs RecWords.
Import ListNotations.
Local Open Scope nat_scope.

(** ** the families of functions, as in textbooks *)
Local Open Scope Qc_scope.
Definition bonnet (P : nat -> Qc -> Qc) : Prop := (forall x, P 0%nat x = 1) /\ (forall x, P 1%nat x = x) /\
  forall k x, qn (S (S k)) * P (S (S k)) x = ((1 + 1) * qn (S k) + 1) * x * P (S k) x - qn (S k) * P k x.
Definition textbook (kd : kind) (P : nat -> Qc -> Qc) : Prop :=
  match kd with
  | Standard => forall k x, P k x = x ^ k
  | Legendre => bonnet P
  | Rational => exists L, bonnet L /\ forall k x, P k x = L k (ratio x)
  | Chebyshev => (forall x, P 0%nat x = 1) /\ (forall x, P 1%nat x = x) /\ forall k x, P (S (S k)) x = (1 + 1) * x * P (S k) x - P k x
  end.
(** what the code computes *)
Definition steps (kd : kind) (P : nat -> Qc -> Qc) (x : Qc) : Prop :=
  P 0%nat x = 1 /\ P 1%nat x = match kd with Rational => ratio x | _ => x end /\
  match kd with
  | Standard => forall k, P (S k) x = P k x * x
  | Legendre => forall k, P (S (S k)) x = ((1 + 1) * qn (S (S k)) - 1) / qn (S (S k)) * x * P (S k) x - (qn (S (S k)) - 1) / qn (S (S k)) * P k x
  | Rational => forall k, P (S (S k)) x = ((1 + 1) * qn (S (S k)) - 1) / qn (S (S k)) * (x - 1) / (x + 1) * P (S k) x - (qn (S (S k)) - 1) / qn (S (S k)) * P k x
  | Chebyshev => forall k, P (S (S k)) x = (1 + 1) * x * P (S k) x - P k x
  end.
Lemma qn_ne k : qn (S k) <> 0.
Proof. apply qn_pos. lia. Qed.
Lemma bonnet_step P : bonnet P -> forall k x, P (S (S k)) x = ((1 + 1) * qn (S (S k)) - 1) / qn (S (S k)) * x * P (S k) x - (qn (S (S k)) - 1) / qn (S (S k)) * P k x.
Proof.
  intros (_ & _ & H) k x. pose proof (qn_ne (S k)) as Hn. assert (E : P (S (S k)) x = (qn (S (S k)) * P (S (S k)) x) / qn (S (S k))) by (field; exact Hn).
  rewrite E, H. change (qn (S (S k))) with (1 + qn (S k)) in *. generalize dependent (qn (S k)). intros q Hq _. field. exact Hq.
Qed.
Lemma textbook_steps kd P : textbook kd P -> forall x, steps kd P x.
Proof.
  intros H x. unfold steps. destruct kd; cbn [textbook] in H.
  - rewrite !H. repeat split; cbn; try ring. intro k. rewrite !H. cbn. ring.
  - pose proof (bonnet_step P H) as Hs. destruct H as (H0 & H1 & _). auto.
  - destruct H as (L & HL & HP). pose proof (bonnet_step L HL) as Hs. destruct HL as (H0 & H1 & _). rewrite !HP, H0, H1. repeat split; auto.
    intro k. rewrite !HP, Hs. unfold ratio. unfold Qcdiv. ring.
  - destruct H as (H0 & H1 & H2). auto.
Qed.
(** ** the loop over the variables *)
Local Open Scope nat_scope.
Definition vcells (l : list Qc) (r : nat) : list cell := map Some l ++ repeat None r.
Lemma wr_vcells l r v : wr (length l) (Some v) (vcells l (S r)) = Some (vcells (l ++ [v]) r).
Proof.
  unfold wr, vcells. rewrite app_length, map_length, repeat_length. replace (length l <? length l + S r) with true by (symmetry; apply Nat.ltb_lt; lia).
  cbn [repeat]. replace (length l) with (length (map (@Some Qc) l)) by apply map_length. unfold cell. rewrite set_app, map_app. cbn [map]. now rewrite <- app_assoc.
Qed.
Lemma rd_vcells l r k d : k < length l -> rd k (vcells l r) = Some (nth k l d).
Proof. intro H. unfold rd, vcells. rewrite app_nth1 by now rewrite map_length. rewrite (nth_indep _ None (Some d)) by now rewrite map_length. apply map_nth. Qed.
Section Vars.
  Context (kd : kind) (P : nat -> Qc -> Qc) (deg : nat).
  Lemma recursion_ok x pre : steps kd P x -> forall todo n r, 2 <= n -> (kd <> Standard -> 3 <= n) ->
    let l := pre ++ map (fun k => P (S k) x) (seq 0 (n - 1)) in todo <= r ->
    recursion kd todo (vcells l r) x (length pre) n (length l) = Some (vcells (pre ++ map (fun k => P (S k) x) (seq 0 (n - 1 + todo))) (r - todo), length l + todo).
  Proof.
    intros Hst. induction todo as [|todo IH]; intros n r Hn Hn3 l Hr; cbn [recursion].
    - now rewrite !Nat.add_0_r, Nat.sub_0_r.
    - destruct r as [|r]; [lia|]. assert (Hl : length l = length pre + (n - 1)) by (unfold l; now rewrite app_length, map_length, seq_length).
      assert (N : forall j, j < n - 1 -> rd (length pre + j) (vcells l (S r)) = Some (P (S j) x)).
      { intros j Hj. rewrite (rd_vcells _ _ _ (P 0 x)) by lia. f_equal. unfold l. rewrite app_nth2 by lia. replace (length pre + j - length pre) with j by lia.
        apply (nth_map_seq (fun k => P (S k) x)). exact Hj. }
      assert (E : recf kd (vcells l (S r)) x (length pre) n (length l) = Some (P n x)).
      { destruct n as [|[|n]]; try lia. destruct Hst as (H0 & H1 & Hst). unfold recf. destruct kd.
        - rewrite Hl. replace (length pre + (S (S n) - 1) - 1) with (length pre + n) by lia. rewrite (N n) by lia. pose proof (N 0 ltac:(lia)) as N0. rewrite Nat.add_0_r in N0. rewrite N0. cbn [ap2]. rewrite H1, (Hst (S n)). reflexivity.
        - specialize (Hn3 ltac:(discriminate)). destruct n as [|n]; [lia|]. rewrite Hl. replace (length pre + (S (S (S n)) - 1) - 1) with (length pre + S n) by lia. replace (length pre + (S (S (S n)) - 1) - 2) with (length pre + n) by lia.
          rewrite (N (S n)), (N n) by lia. pose proof (N 0 ltac:(lia)) as N0. rewrite Nat.add_0_r in N0. rewrite N0. cbn [ap2 ap1]. rewrite H1, (Hst (S n)). reflexivity.
        - specialize (Hn3 ltac:(discriminate)). destruct n as [|n]; [lia|]. rewrite Hl. replace (length pre + (S (S (S n)) - 1) - 1) with (length pre + S n) by lia. replace (length pre + (S (S (S n)) - 1) - 2) with (length pre + n) by lia.
          rewrite (N (S n)), (N n) by lia. cbn [ap2 ap1]. rewrite (Hst (S n)). reflexivity.
        - specialize (Hn3 ltac:(discriminate)). destruct n as [|n]; [lia|]. rewrite Hl. replace (length pre + (S (S (S n)) - 1) - 1) with (length pre + S n) by lia. replace (length pre + (S (S (S n)) - 1) - 2) with (length pre + n) by lia.
          rewrite (N (S n)), (N n) by lia. cbn [ap2 ap1]. rewrite (Hst (S n)). reflexivity. }
      rewrite E, wr_vcells.
      assert (El : l ++ [P n x] = pre ++ map (fun k => P (S k) x) (seq 0 (S n - 1))).
      { unfold l. rewrite <- app_assoc. f_equal. replace (S n - 1) with (S (n - 1)) by lia. rewrite seq_S, map_app. cbn [map Nat.add]. do 2 f_equal. f_equal. lia. }
      specialize (IH (S n) r). cbv zeta in IH. rewrite <- El in IH. rewrite app_length in IH. cbn [length] in IH. rewrite Nat.add_1_r in IH.
      rewrite IH; [|lia|intro; lia|lia]. apply (f_equal Some), f_equal2; [|lia]. apply f_equal2; [|lia]. do 3 f_equal. lia.
  Qed.
  (** one variable *)
  Lemma variable_ok x pre r : 2 <= deg -> steps kd P x -> deg <= r ->
    match r_init kd (vcells pre r) x (length pre) with
    | Some (res, (pos, n, special)) => recursion kd (deg + 1 - n) res x special n pos
    | None => None
    end = Some (vcells (pre ++ map (fun k => P (S k) x) (seq 0 deg)) (r - deg), length pre + deg).
  Proof.
    intros Hdeg Hst Hr. destruct r as [|[|r]]; [lia|lia|]. pose proof Hst as (H0 & H1 & Hs). pose proof (recursion_ok x pre Hst) as HR. cbv zeta in HR.
    assert (L1 : length (pre ++ [P 1 x]) = S (length pre)) by (rewrite app_length; cbn; lia).
    assert (L2 : length ((pre ++ [P 1 x]) ++ [P 2 x]) = S (S (length pre))) by (rewrite !app_length; cbn; lia).
    assert (R0 : forall v r', rd (length pre) (vcells (pre ++ [v]) r') = Some v).
    { intros v r'. rewrite (rd_vcells _ _ _ v) by (rewrite app_length; cbn; lia). rewrite app_nth2, Nat.sub_diag by lia. reflexivity. }
    assert (W2 : forall r', wr (S (length pre)) (Some (P 2 x)) (vcells (pre ++ [P 1 x]) (S r')) = Some (vcells ((pre ++ [P 1 x]) ++ [P 2 x]) r')).
    { intro r'. rewrite <- L1. apply wr_vcells. }
    assert (T3 : kd <> Standard -> recursion kd (deg + 1 - 3) (vcells ((pre ++ [P 1 x]) ++ [P 2 x]) r) x (length pre) 3 (S (S (length pre))) =
      Some (vcells (pre ++ map (fun k => P (S k) x) (seq 0 deg)) (S (S r) - deg), length pre + deg)).
    { intro Hk. specialize (HR (deg + 1 - 3) 3 r ltac:(lia) ltac:(lia) ltac:(lia)). change (map (fun k => P (S k) x) (seq 0 (3 - 1))) with [P 1 x; P 2 x] in HR.
      replace (pre ++ [P 1 x; P 2 x]) with ((pre ++ [P 1 x]) ++ [P 2 x]) in HR by now rewrite <- app_assoc. rewrite L2 in HR. rewrite HR.
      replace (3 - 1 + (deg + 1 - 3)) with deg by lia. apply (f_equal Some), f_equal2; [|lia]. apply f_equal2; [reflexivity|lia]. }
    assert (W1 : wr (length pre) (Some match kd with Rational => ratio x | _ => x end) (vcells pre (S (S r))) = Some (vcells (pre ++ [P 1 x]) (S r))) by (rewrite wr_vcells, H1; reflexivity).
    unfold r_init. destruct kd.
    - rewrite W1. specialize (HR (deg + 1 - 2) 2 (S r) ltac:(lia) ltac:(congruence) ltac:(lia)). change (map (fun k => P (S k) x) (seq 0 (2 - 1))) with [P 1 x] in HR.
      rewrite L1 in HR. rewrite HR. replace (2 - 1 + (deg + 1 - 2)) with deg by lia. apply (f_equal Some), f_equal2; [|lia]. apply f_equal2; [reflexivity|lia].
    - rewrite W1, R0. cbn [ap1].
      replace (three * half * P 1 x * P 1 x - half)%Qc with (P 2 x); [|rewrite (Hs 0), H0, H1; unfold three, half; change (qn 2) with (1 + (1 + 0))%Qc; field; repeat split; discriminate].
      rewrite W2. apply T3. discriminate.
    - rewrite W1, R0. cbn [ap1].
      replace (three * half * (x - 1) / (x + 1) * P 1 x - half)%Qc with (P 2 x).
      + rewrite W2.
        assert (Irr : forall todo res sp n pos, recursion Rational todo res x sp n pos = recursion Rational todo res x (length pre) n pos).
        { clear. induction todo as [|todo IH]; intros; cbn [recursion]; [reflexivity|]. cbn [recf]. destruct (wr pos _ res); [apply IH|reflexivity]. }
        rewrite Irr. apply T3. discriminate.
      + rewrite (Hs 0), H0, H1. unfold three, half, ratio. change (qn 2) with (1 + (1 + 0))%Qc.
        replace (((1 + 1) * (1 + (1 + 0)) - 1) / (1 + (1 + 0)))%Qc with ((1 + 1 + 1) * (1 / (1 + 1)))%Qc by (field; repeat split; discriminate).
        replace ((1 + (1 + 0) - 1) / (1 + (1 + 0)) * 1)%Qc with (1 / (1 + 1))%Qc by (field; repeat split; discriminate). reflexivity.
    - rewrite W1, R0. cbn [ap1]. replace ((1 + 1) * x * P 1 x - 1)%Qc with (P 2 x) by (rewrite (Hs 0), H0, H1; reflexivity).
      rewrite W2. apply T3. discriminate.
  Qed.
  Lemma variables_ok : 2 <= deg -> forall xs pre r, (forall x, In x xs -> steps kd P x) -> length xs * deg <= r ->
    variables kd deg xs (vcells pre r) (length pre) =
    Some (vcells (pre ++ flat_map (fun x => map (fun k => P (S k) x) (seq 0 deg)) xs) (r - length xs * deg), length pre + length xs * deg).
  Proof.
    intro Hdeg. induction xs as [|x xs IH]; intros pre r Hst Hr; cbn [variables flat_map length].
    - now rewrite app_nil_r, Nat.sub_0_r, Nat.add_0_r.
    - cbn [length Nat.mul] in Hr. pose proof (variable_ok x pre r Hdeg (Hst x (or_introl eq_refl)) ltac:(lia)) as E.
      destruct (r_init kd (vcells pre r) x (length pre)) as [[res [[pos n] special]]|]; [|discriminate]. rewrite E.
      specialize (IH (pre ++ map (fun k => P (S k) x) (seq 0 deg)) (r - deg) (fun y Hy => Hst y (or_intror Hy)) ltac:(lia)).
      rewrite app_length, map_length, seq_length in IH. rewrite IH. rewrite <- app_assoc. apply (f_equal Some), f_equal2; [|lia]. apply f_equal2; [reflexivity|lia].
  Qed.
End Vars.

Lemma products_mono deg : forall fuel s res, products fuel deg s = Done res -> forall fuel', fuel <= fuel' -> products fuel' deg s = Done res.
Proof.
  induction fuel as [|fuel IH]; intros s res H fuel' Hf.
  - cbn in H. destruct fuel'; cbn; destruct (r_todo s); auto; discriminate.
  - destruct fuel' as [|fuel']; [lia|]. cbn in *. destruct (r_todo s); auto. destruct (process e deg _); [|discriminate]. eapply IH; eauto. lia.
Qed.
(** the value of an exponent vector *)
Definition product_value (P : nat -> Qc -> Qc) (x : list Qc) (e : list nat) : Qc := fold_right Qcmult 1%Qc (map (fun q => P (fst q) (snd q)) (combine e x)).
Lemma val_product P x w : val (length x) (fun v k => P k (nth v x 0%Qc)) w = product_value P x (exps (length x) w).
Proof.
  unfold val, product_value, exps, qprod. f_equal.
  assert (G : forall (x : list Qc) (f : nat -> nat), map (fun v => P (f v) (nth v x 0%Qc)) (seq 0 (length x)) = map (fun q => P (fst q) (snd q)) (combine (map f (seq 0 (length x))) x)).
  { clear. induction x as [|a x IH]; intro f; [reflexivity|]. cbn [length seq map combine nth fst snd]. f_equal. rewrite <- seq_shift, !map_map. apply (IH (fun v => f (S v))). }
  apply G.
Qed.
Lemma groups_valid deg n ms : 1 <= deg -> based deg n ms -> Forall2 (valid deg n ms) (map (fun i => (i * deg, i, 1)) (seq 1 (n - 1))) (groups n).
Proof.
  intros Hdeg Hb. unfold groups. assert (H : Forall (fun i => 1 <= i < n) (seq 1 (n - 1))) by (apply Forall_forall; intros i Hi; apply in_seq in Hi; lia).
  induction H as [|i l Hi Hl IH]; cbn [map]; constructor; auto. repeat split; cbn [length]; auto; try lia.
  - destruct (Hb i deg) as [H1 _]; [lia|lia|]. nia.
  - intros t Ht. destruct (Hb i (S t)) as [_ H2]; [lia|lia|]. rewrite app_nil_r, <- H2. f_equal. nia.
Qed.
Lemma based_singles deg n : 1 <= deg -> based deg n ([] :: singles deg n).
Proof.
  intros Hdeg. assert (G : forall m a v k, v < m -> k < deg -> v * deg + k < length (flat_map (fun v => map (fun k => repeat v (S k)) (seq 0 deg)) (seq a m)) /\
    nth (v * deg + k) (flat_map (fun v => map (fun k => repeat v (S k)) (seq 0 deg)) (seq a m)) [] = repeat (a + v) (S k)).
  { induction m as [|m IH]; intros a v k Hv Hk; [lia|]. cbn [seq flat_map]. rewrite app_length, map_length, seq_length. destruct v as [|v].
    - split; [lia|]. cbn [Nat.mul Nat.add]. rewrite app_nth1 by now rewrite map_length, seq_length. rewrite (nth_map_seq (fun k => repeat a (S k))) by exact Hk. now rewrite Nat.add_0_r.
    - destruct (IH (S a) v k) as [H1 H2]; [lia|lia|]. split; [nia|]. rewrite app_nth2 by (rewrite map_length, seq_length; nia). rewrite map_length, seq_length.
      replace (S v * deg + k - deg) with (v * deg + k) by nia. rewrite H2. f_equal. lia. }
  intros v d Hv Hd. destruct (G n 0 v (d - 1)) as [H1 H2]; [lia|lia|]. replace (deg * v + d) with (S (v * deg + (d - 1))) by nia. cbn [length nth]. unfold singles. split; [lia|].
  rewrite H2. f_equal. lia.
Qed.
Lemma singles_values P deg (x : list Qc) : (forall x, P 0 x = 1%Qc) ->
  map (val (length x) (fun v k => P k (nth v x 0%Qc))) (singles deg (length x)) = flat_map (fun a => map (fun k => P (S k) a) (seq 0 deg)) x.
Proof.
  intro H0. unfold singles. rewrite flat_map_concat_map, concat_map, map_map.
  rewrite (map_ext_in _ (fun v => map (fun k => P (S k) (nth v x 0%Qc)) (seq 0 deg))).
  - rewrite <- flat_map_concat_map. clear. assert (G : forall (g : Qc -> list Qc), flat_map (fun v => g (nth v x 0%Qc)) (seq 0 (length x)) = flat_map g x).
    { intro g. induction x as [|a x IH]; [reflexivity|]. cbn [length seq flat_map nth]. f_equal. rewrite <- IH, <- seq_shift, flat_map_concat_map, map_map, <- flat_map_concat_map. reflexivity. }
    apply (G (fun a => map (fun k => P (S k) a) (seq 0 deg))).
  - intros v Hv. apply in_seq in Hv. rewrite map_map. apply map_ext. intro k. rewrite val_rep by (auto; lia). reflexivity.
Qed.
Lemma singles_length deg n : length (singles deg n) = n * deg.
Proof.
  unfold singles. assert (G : forall m a, length (flat_map (fun v => map (fun k => repeat v (S k)) (seq 0 deg)) (seq a m)) = m * deg); [|apply G].
  induction m as [|m IH]; intro a; [reflexivity|]. cbn [seq flat_map]. rewrite app_length, map_length, seq_length, IH. lia.
Qed.

(** ** C132 the product of one function per variable, for every choice of degrees of sum at most deg, exactly once *)
Definition rec_fuel (deg n : nat) : nat := length (groups n) + length (flat_map (D deg) (groups n)).
Definition rec_words (deg n : nat) : list (list nat) := ([] :: singles deg n) ++ tail_of deg (rec_fuel deg n) (groups n).
Lemma rec_core kd P deg (x : list Qc) : textbook kd P -> 1 <= deg -> (kd = Rational -> 2 <= deg) ->
  let ms := rec_words deg (length x) in let fuel := rec_fuel deg (length x) in (forall fuel', fuel <= fuel' -> rec_execute kd true fuel' deg x = Done (map Some (map (product_value P x) (map (exps (length x)) ms)))) /\
    (forall fuel', fuel <= fuel' -> rec_execute kd false fuel' deg x = Done (tl (map Some (map (product_value P x) (map (exps (length x)) ms))))) /\
    Permutation ms (allwords deg (length x)) /\ hd [1] ms = [].
Proof.
  intros HT Hdeg Hrat ms fuel. set (n := length x) in *. pose proof (textbook_steps kd P HT) as Hst. assert (H0 : forall y, P 0 y = 1%Qc) by (intro y; apply Hst).
  set (p := fun v k => P k (nth v x 0%Qc)). assert (Hp : forall v, p v 0 = 1%Qc) by (intro v; apply H0).
  set (ms0 := [] :: singles deg n). set (r := length (flat_map (D deg) (groups n))). set (todo := map (fun i => (i * deg, i, 1)) (seq 1 (n - 1))).
  assert (Hdim : forall with0, Z.to_nat (rec_dim with0 deg n + (if with0 then 0 else 1)) = length ms0 + r).
  { intro with0. unfold rec_dim. rewrite expanded_dim_length. transitivity (S (length (mall n deg))); [destruct with0; lia|]. rewrite <- (allwords_length deg n Hdeg).
    unfold allwords. rewrite app_length. reflexivity. }
  assert (Hcells : cells n p ms0 r = vcells (1%Qc :: flat_map (fun a => map (fun k => P (S k) a) (seq 0 deg)) x) r).
  { unfold cells, ms0, vcells. cbn [map]. rewrite val_nil by exact Hp. do 2 f_equal. f_equal. now apply singles_values. }
  pose proof (based_singles deg n Hdeg) as Hb. pose proof (groups_valid deg n ms0 Hdeg Hb) as Hv. fold todo in Hv.
  
  destruct (products_ok deg n p Hp fuel ms0 r todo (groups n) Hv Hb ltac:(unfold ms0; cbn; lia) (Nat.le_refl _) (Nat.le_refl _)) as (E & PM). set (tail := tail_of deg fuel (groups n)) in *.
  change (ms0 ++ tail) with ms in E. unfold r in E. rewrite Nat.sub_diag in E. fold r in E.
  assert (Ecells : cells n p ms 0 = map Some (map (product_value P x) (map (exps n) ms))).
  { unfold cells. cbn [repeat]. rewrite app_nil_r. f_equal. rewrite map_map. apply map_ext. intro w. apply val_product. }
  rewrite Ecells in E.
  assert (Hrun : forall with0 fuel', fuel <= fuel' -> rec_execute kd with0 fuel' deg x = finish with0 (Done (map Some (map (product_value P x) (map (exps n) ms))))).
  { intros with0 fuel' Hf. pose proof (products_mono deg fuel _ _ E fuel' Hf) as E'. unfold rec_execute. fold n. rewrite Hdim. unfold ms0 at 1. cbn [length Nat.add repeat].
    unfold wr at 1. cbn [length Nat.ltb Nat.leb set].
    assert (HL : length (singles deg n) = n * deg) by apply singles_length.
    assert (E0 : Some 1%Qc :: repeat (None : cell) (length (singles deg n) + r) = vcells [1%Qc] (n * deg + r)) by (rewrite HL; reflexivity).
    unfold cell in *. rewrite E0. destruct deg as [|[|deg']] eqn:Ed; [lia| |].
    - (* degree 1 *)
      assert (H1 : forall y, P 1 y = y) by (intro y; destruct (Hst y) as (_ & E1 & _); destruct kd; try exact E1; exfalso; specialize (Hrat eq_refl); lia).
      assert (Hgr : flat_map (D 1) (groups n) = []).
      { clear. unfold groups. induction (seq 1 (n - 1)) as [|i l IH]; [reflexivity|]. cbn [map flat_map]. rewrite IH, D_full by (cbn; lia). reflexivity. }
      assert (Hr0 : r = 0) by (unfold r; rewrite Hgr; reflexivity).
      assert (Ex : flat_map (fun a => map (fun k => P (S k) a) (seq 0 1)) x = x).
      { clear - H1. induction x as [|a x IH]; [reflexivity|]. cbn. rewrite H1. f_equal. exact IH. }
      pose proof (assign_exact (None : option Qc) [Some 1%Qc] (map Some x) (n * 1 + r)) as Ha. rewrite map_length in Ha. cbn [length] in Ha. fold n in Ha.
      unfold vcells in *. cbn [map app] in Ha |- *. rewrite Ha by lia. rewrite Hr0 in *. replace (n * 1 + 0 - n) with 0 by lia. cbn [repeat]. rewrite app_nil_r.
      rewrite Ex in Hcells. cbn [map repeat] in Hcells. rewrite app_nil_r in Hcells. fold todo. 
      (* the position is not used as no product is formed *)
      assert (Hpos : forall fuel s pos', (forall e, In e (r_todo s) -> snd e = 1) -> products fuel 1 (mkR pos' (r_res s) (r_todo s)) = match products fuel 1 s with o => o end).
      { clear. induction fuel as [|fuel IH]; intros s pos' Hs; destruct s as [pos res td]; cbn [r_res r_todo] in *; [destruct td; reflexivity|]. destruct td as [|[[off lv] ld] td]; [reflexivity|].
        cbn [products r_todo r_pos r_res]. pose proof (Hs _ (or_introl eq_refl)) as Hld. cbn in Hld. subst ld. unfold process.
        assert (Hpv : forall vs s, proc_v 1 off lv 1 vs s = Some s) by (induction vs as [|v vs IHv]; intro s; cbn [proc_v Nat.sub seq proc_d]; auto).
        rewrite !Hpv. specialize (IH (mkR pos res td) pos'). cbn [r_res r_todo] in IH. apply IH. intros e He. apply Hs. now right. }
      rewrite <- Hcells. specialize (Hpos fuel' (mkR (length ms0) (cells n p ms0 0) todo) 1). cbn [r_res r_todo] in Hpos. rewrite Hpos; [rewrite E'; reflexivity|].
      intros e He. unfold todo in He. apply in_map_iff in He. destruct He as (i & <- & _). reflexivity.
    - 
      pose proof (variables_ok kd P (S (S deg')) ltac:(lia) x [1%Qc] (n * S (S deg') + r) (fun y _ => Hst y) ltac:(fold n; lia)) as Ev. cbn [length] in Ev.
      rewrite Ev. fold n. fold todo. cbn [app]. replace (n * S (S deg') + r - n * S (S deg')) with r by lia. rewrite <- Hcells.
      replace (1 + n * S (S deg')) with (length ms0) by (unfold ms0; cbn [length]; rewrite HL; reflexivity). rewrite E'. reflexivity. }
  split; [intros; now apply Hrun|]. split; [intros fuel' Hf; rewrite (Hrun false fuel' Hf); reflexivity|]. split; [|reflexivity].
  unfold ms, rec_words, allwords. apply Permutation_app_head. exact PM.
Qed.

Lemma rec_words_ok deg n : 1 <= deg -> let es := map (exps n) (rec_words deg n) in
  NoDup es /\ (forall e, In e es <-> length e = n /\ fold_right Nat.add 0 e <= deg) /\ hd [1] es = repeat 0 n /\ Z.of_nat (length es) = rec_dim true deg n.
Proof.
  intros Hdeg es. assert (HP : Permutation (rec_words deg n) (allwords deg n)).
  { unfold rec_words, allwords. apply Permutation_app_head.
    destruct (products_ok deg n (fun _ _ => 1%Qc) (fun _ => eq_refl) (rec_fuel deg n) ([] :: singles deg n) (length (flat_map (D deg) (groups n))) _ (groups n) (groups_valid deg n _ Hdeg (based_singles deg n Hdeg)) (based_singles deg n Hdeg)) as [_ H]; auto. cbn; lia. }
  destruct (exps_allwords deg n Hdeg) as [ND HI]. pose proof (Permutation_map (exps n) HP) as HP'. fold es in HP'. repeat split.
  - eapply Permutation_NoDup; [symmetry; exact HP'|exact ND].
  - apply HI. eapply Permutation_in; eauto.
  - apply HI. eapply Permutation_in; eauto.
  - intro H. apply HI in H. eapply Permutation_in; [symmetry; exact HP'|exact H].
  - cbn [es rec_words map app hd]. unfold es, rec_words. cbn [map app hd]. unfold exps. assert (G : forall m a, map (count_occ Nat.eq_dec []) (seq a m) = repeat 0 m); [|apply G]. induction m as [|m IH]; intro a; [reflexivity|]. cbn [seq map repeat]. rewrite IH. reflexivity.
  - rewrite (Permutation_length HP'), map_length, allwords_length by exact Hdeg. unfold rec_dim. rewrite expanded_dim_length. lia.
Qed.
(** the order of the columns is fixed by degree and number of variables, so all samples of an array are expanded alike *)
Theorem C132_recursive deg n : 1 <= deg -> exists (es : list (list nat)) (fuel : nat),
  NoDup es /\ (forall e, In e es <-> length e = n /\ fold_right Nat.add 0 e <= deg) /\ hd [1] es = repeat 0 n /\
  forall kd P x, textbook kd P -> (kd = Rational -> 2 <= deg) -> length x = n ->
    forall fuel', fuel <= fuel' ->
      rec_execute kd true fuel' deg x = Done (map Some (map (product_value P x) es)) /\
      rec_execute kd false fuel' deg x = Done (map Some (map (product_value P x) (tl es))).
Proof.
  intro Hdeg. exists (map (exps n) (rec_words deg n)), (rec_fuel deg n). destruct (rec_words_ok deg n Hdeg) as (H1 & H2 & H3 & _). split; [exact H1|]. split; [exact H2|]. split; [exact H3|].
  intros kd P x HT HR <- fuel' Hf. destruct (rec_core kd P deg x HT Hdeg HR) as (E1 & E2 & _). split; [now apply E1|]. rewrite E2 by exact Hf. f_equal.
Qed.
(** the number of columns is the output dimension the node announces *)
Theorem C132_output_dim deg n kd P x with0 : 1 <= deg -> textbook kd P -> (kd = Rational -> 2 <= deg) -> length x = n ->
  exists fuel l, rec_execute kd with0 fuel deg x = Done l /\ Z.of_nat (length l) = rec_dim with0 deg n /\ Forall (fun c => c <> None) l.
Proof.
  intros Hdeg HT HR <-. destruct (rec_words_ok deg (length x) Hdeg) as (_ & _ & _ & HL). destruct (rec_core kd P deg x HT Hdeg HR) as (E1 & E2 & _).
  assert (FA : forall l : list Qc, Forall (fun c => c <> None) (map Some l)) by (intro l; apply Forall_forall; intros c Hc; apply in_map_iff in Hc; destruct Hc as (y & <- & _); discriminate).
  rewrite map_length in HL. exists (rec_fuel deg (length x)). destruct with0.
  - eexists. split; [now apply E1|]. split; [now rewrite !map_length|]. apply FA.
  - eexists. split; [now apply E2|]. unfold rec_words in *. cbn [app map tl length] in *. rewrite !map_length. split; [unfold rec_dim in *; lia|]. apply FA.
Qed.
(** every family exists *)
Fixpoint leg (k : nat) (x : Qc) : Qc * Qc := match k with O => (1, x)%Qc | S k => let '(a, b) := leg k x in (b, (((1 + 1) * qn (S k) + 1) * x * b - qn (S k) * a) / qn (S (S k)))%Qc end.
Fixpoint cheb (k : nat) (x : Qc) : Qc * Qc := match k with O => (1, x)%Qc | S k => let '(a, b) := cheb k x in (b, (1 + 1) * x * b - a)%Qc end.
Lemma bonnet_leg : bonnet (fun k x => fst (leg k x)).
Proof.
  repeat split. intros k x. assert (H : forall j, fst (leg (S j) x) = snd (leg j x)) by (intro j; cbn [leg]; destruct (leg j x); reflexivity).
  rewrite (H (S k)). rewrite (H k). cbn [leg]. destruct (leg k x) as [a b]. cbn [fst snd]. pose proof (qn_ne (S k)). field. assumption.
Qed.
Theorem C132_families kd : exists P, textbook kd P.
Proof.
  destruct kd; cbn [textbook].
  - now exists (fun k x => x ^ k)%Qc.
  - exists (fun k x => fst (leg k x)). exact bonnet_leg.
  - exists (fun k x => fst (leg k (ratio x))), (fun k x => fst (leg k x)). split; [exact bonnet_leg|reflexivity].
  - exists (fun k x => fst (cheb k x)). repeat split. intros k x. assert (H : forall j, fst (cheb (S j) x) = snd (cheb j x)) by (intro j; cbn [cheb]; destruct (cheb j x); reflexivity).
    rewrite (H (S k)), (H k). cbn [cheb]. destruct (cheb k x). reflexivity.
Qed.
Definition qz (z : Z) : Qc := Q2Qc (inject_Z z).
(** degree 3 in 2 variables: 1, x, x^2, x^3, y, y^2, y^3, xy, xy^2, x^2 y *)
Example C132_example : rec_execute Standard true 10 3 [qz 2; qz 3] = Done (map (fun z => Some (qz z)) [1; 2; 4; 8; 3; 9; 27; 6; 18; 12]%Z)
  /\ rec_execute Chebyshev false 10 2 [qz 2; qz 3] = Done (map (fun z => Some (qz z)) [2; 7; 3; 17; 6]%Z).
Proof. split; vm_compute; repeat f_equal; apply Qc_is_canon; reflexivity. Qed.
(** ** C133 giving input_dim to the constructor raises AttributeError *)
Theorem C133_input_dim_refuted : exists deg n, rec_init deg true (Some n) = None /\ rec_init deg true None = Some (None, deg).
Proof. now exists 3, 2. Qed.
Theorem C133_later deg with0 n : exists d, rec_init deg with0 None = Some (None, d) /\ set_input_dim (Some d) with0 n = Some (n, rec_dim with0 deg n).
Proof. now exists deg. Qed.
(** ** C134 Legendre rational functions of degree 1 *)
Theorem C134_rational_degree_one_refuted : exists x P, textbook Rational P /\ rec_execute Rational false 1 1 [x] = Done [Some x] /\ P 1 x <> x.
Proof.
  exists (qz 3), (fun k x => fst (leg k (ratio x))). repeat split.
  - exists (fun k x => fst (leg k x)). split; [exact bonnet_leg|reflexivity].
  - vm_compute. discriminate.
Qed.
(** ** C135 degree 0 *)
Theorem C135_degree_zero_refuted : exists x, rec_execute Standard true 1 0 x = Done [Some 1%Qc; Some 1%Qc] /\ rec_dim true 0 (length x) = 1%Z.
Proof. exists [qz 2; qz 3]. split; reflexivity. Qed.
(** ** C136 the data seen in training is moved into the domain *)
Local Open Scope Qc_scope.
From Coq Require Import Lqa.
Lemma this_plus a b : (this (a + b) == this a + this b)%Q. Proof. apply Qred_correct. Qed.
Lemma this_opp a : (this (- a) == - this a)%Q. Proof. apply Qred_correct. Qed.
Lemma this_mult a b : (this (a * b) == this a * this b)%Q. Proof. apply Qred_correct. Qed.
Lemma this_minus a b : (this (a - b) == this a - this b)%Q. Proof. unfold Qcminus, Qminus. now rewrite this_plus, this_opp. Qed.
Lemma this_half a : (this (a / (1 + 1)) == this a * (1 # 2))%Q.
Proof. unfold Qcdiv. rewrite this_mult. reflexivity. Qed.
Ltac qlra :=
  unfold Qcle, Qclt in *;
  repeat match goal with H : Qle _ _ |- _ => progress (repeat rewrite ?this_half, ?this_minus, ?this_plus, ?this_opp in H) | H : Qlt _ _ |- _ => progress (repeat rewrite ?this_half, ?this_minus, ?this_plus, ?this_opp in H) end;
  repeat rewrite ?this_half, ?this_minus, ?this_plus, ?this_opp; change (this 0) with 0%Q in *; change (this 1) with 1%Q in *; lra.
Lemma qmax_ub a b : a <= qmax a b /\ b <= qmax a b.
Proof. unfold qmax. destruct (Qclt_le_dec a b); split; try qlra. Qed.
Lemma qmin_lb a b : qmin a b <= a /\ qmin a b <= b.
Proof. unfold qmin. destruct (Qclt_le_dec b a); split; try qlra. Qed.
Lemma list_max_ub : forall l a v, In v (a :: l) -> v <= list_max a l.
Proof.
  induction l as [|b l IH]; intros a v [->|Hv]; cbn [list_max fold_left] in *; try contradiction; try apply Qcle_refl.
  - eapply Qcle_trans; [|apply (IH (qmax v b)); left; reflexivity]. apply qmax_ub.
  - destruct Hv as [->|Hv]; [eapply Qcle_trans; [|apply (IH (qmax a v)); left; reflexivity]; apply qmax_ub|]. apply IH. now right.
Qed.
Lemma list_min_lb : forall l a v, In v (a :: l) -> list_min a l <= v.
Proof.
  induction l as [|b l IH]; intros a v [->|Hv]; cbn [list_min fold_left] in *; try contradiction; try apply Qcle_refl.
  - eapply Qcle_trans; [apply (IH (qmin v b)); left; reflexivity|]. apply qmin_lb.
  - destruct Hv as [->|Hv]; [eapply Qcle_trans; [apply (IH (qmin a v)); left; reflexivity|]; apply qmin_lb|]. apply IH. now right.
Qed.
Lemma amax_ub l v : In v l -> v <= amax l.
Proof. destruct l; [contradiction|]. apply list_max_ub. Qed.
Lemma amin_lb l v : In v l -> amin l <= v.
Proof. destruct l; [contradiction|]. apply list_min_lb. Qed.
(** v is a value of column i of the chunk *)
Definition seen (i : nat) (v : Qc) (x : list column) : Prop := exists c, nth_error x i = Some c /\ In v (fst c :: snd c).
Definition bounds (k : nat) (s : norm) (i : nat) (v : Qc) : Prop :=
  match s with Some (mx, mn) => length mx = k /\ length mn = k /\ nth i mn 0 <= v /\ v <= nth i mx 0 | None => False end.
Definition shape (k : nat) (s : norm) : Prop := match s with Some (mx, mn) => length mx = k /\ length mn = k | None => True end.
Lemma shape_train k s x : shape k s -> length x = k -> shape k (norm_train s x).
Proof. destruct s as [[mx mn]|]; cbn; intros; rewrite ?map_length, ?combine_length, ?map_length; lia. Qed.
Lemma nth_combine_map (f : Qc * Qc -> Qc) : forall (a b : list Qc) i, (i < length a)%nat -> length a = length b -> nth i (map f (combine a b)) 0 = f (nth i a 0, nth i b 0).
Proof. induction a as [|a l IH]; intros [|b m] i Hi Hl; cbn in *; try lia. destruct i; [reflexivity|]. apply IH; lia. Qed.
Lemma train_new k s x i v : shape k s -> length x = k -> seen i v x -> bounds k (norm_train s x) i v.
Proof.
  intros Hs Hx (c & Hc & Hv). assert (Hi : (i < length x)%nat) by (apply nth_error_Some; congruence).
  assert (Mx : nth i (map col_max x) 0 = col_max c) by (apply nth_error_nth; rewrite nth_error_map, Hc; reflexivity).
  assert (Mn : nth i (map col_min x) 0 = col_min c) by (apply nth_error_nth; rewrite nth_error_map, Hc; reflexivity).
  pose proof (list_max_ub (snd c) (fst c) v Hv) as U. pose proof (list_min_lb (snd c) (fst c) v Hv) as Lo.
  destruct s as [[mx mn]|]; cbn in *.
  - destruct Hs as [H1 H2]. rewrite !map_length, !combine_length, !map_length. repeat split; try lia.
    + rewrite nth_combine_map by (rewrite ?map_length; lia). cbn. rewrite Mn. eapply Qcle_trans; [apply qmin_lb|exact Lo].
    + rewrite nth_combine_map by (rewrite ?map_length; lia). cbn. rewrite Mx. eapply Qcle_trans; [exact U|apply qmax_ub].
  - rewrite !map_length. rewrite Mx, Mn. auto.
Qed.
Lemma train_old k s x i v : (i < k)%nat -> length x = k -> bounds k s i v -> bounds k (norm_train s x) i v.
Proof.
  intros Hi Hx. destruct s as [[mx mn]|]; [|contradiction]. cbn. intros (H1 & H2 & H3 & H4). rewrite !map_length, !combine_length, !map_length. repeat split; try lia.
  - rewrite nth_combine_map by (rewrite ?map_length; lia). cbn [fst snd]; eapply Qcle_trans; [exact (proj1 (qmin_lb _ _))|exact H3].
  - rewrite nth_combine_map by (rewrite ?map_length; lia). cbn [fst snd]; eapply Qcle_trans; [exact H4|exact (proj1 (qmax_ub _ _))].
Qed.
Lemma train_all k i v : (i < k)%nat -> forall chunks s, shape k s -> Forall (fun x => length x = k) chunks -> (bounds k s i v \/ Exists (seen i v) chunks) -> bounds k (fold_left norm_train chunks s) i v.
Proof.
  intro Hi. induction chunks as [|x chunks IH]; intros s Hs HF H; cbn [fold_left].
  - destruct H as [H|H]; [exact H|inversion H].
  - inversion HF; subst. apply IH; [now apply shape_train|assumption|]. destruct H as [H|H]; [left; now apply train_old|]. inversion H; subst; [left; now apply train_new|now right].
Qed.
Definition in_domain (lower upper : option Qc) (y : Qc) : Prop :=
  match lower with Some l => l <= y | None => True end /\ match upper with Some u => y <= u | None => True end.
Lemma scaled a b m c d : 0 < m -> c * m = d -> 0 < d -> a <= b * m -> c * a <= d * b.
Proof.
  intros Hm Hc Hd Ha. assert (Hcp : 0 <= c).
  { destruct (Qclt_le_dec c 0) as [H|H]; [|exact H]. exfalso. pose proof (Qcmult_lt_compat_r c 0 m Hm H) as H'. rewrite Hc in H'. replace (0 * m) with 0 in H' by ring. qlra. }
  rewrite <- Hc. replace (c * m * b) with (b * m * c) by ring. rewrite (Qcmult_comm c a). apply Qcmult_le_compat_r; assumption.
Qed.
Theorem C136_normalised k lower upper chunks i v : (forall l u, lower = Some l -> upper = Some u -> l < u) -> Forall (fun x => length x = k) chunks -> Exists (seen i v) chunks ->
  match fold_left norm_train chunks None with
  | Some (mx, mn) => in_domain lower upper (transform lower upper mx mn i v)
  | None => False
  end.
Proof.
  intros Hlu HF HE. assert (Hi : (i < k)%nat).
  { clear - HF HE. induction HE as [x l (c & Hc & _)|x l H IH]; inversion HF; subst; [|auto]. apply nth_error_Some. congruence. }
  pose proof (train_all k i v Hi chunks None I HF (or_intror HE)) as HB. destruct (fold_left norm_train chunks None) as [[mx mn]|]; [|exact HB].
  destruct HB as (H1 & H2 & H3 & H4). unfold in_domain, transform.
  assert (Ix : (i < length mx)%nat) by lia. assert (In : (i < length mn)%nat) by lia.
  pose proof (amax_ub mx (nth i mx 0) (nth_In _ _ Ix)) as HM. pose proof (amin_lb mn (nth i mn 0) (nth_In _ _ In)) as Hm.
  destruct lower as [l|], upper as [u|]; try (split; exact I).
  - specialize (Hlu l u eq_refl eq_refl). set (xmax := amax mx) in *. set (xmin := amin mn) in *.
    assert (A1 : xmin <= v) by (eapply Qcle_trans; eauto). assert (A2 : v <= xmax) by (eapply Qcle_trans; eauto).
    clear H3 H4 HM Hm. clearbody xmax xmin. assert (In1 : xmax < u -> l < xmin -> l <= v /\ v <= u) by (intros; split; qlra).
    assert (In2 : xmax - xmin < u - l -> l <= v + (- ((xmax + xmin) / (1 + 1)) + (l + (u - l) / (1 + 1))) /\ v + (- ((xmax + xmin) / (1 + 1)) + (l + (u - l) / (1 + 1))) <= u) by (intros; split; qlra).
    assert (In3 : u - l <= xmax - xmin -> let y := (v + (- ((xmax + xmin) / (1 + 1)) + (l + (u - l) / (1 + 1)) * (xmax - xmin) / (u - l))) * ((u - l) / (xmax - xmin)) in l <= y /\ y <= u).
    { intros Hd y. assert (Hmd : 0 < xmax - xmin) by qlra. assert (Hdd : 0 < u - l) by qlra.
      assert (N1 : xmax - xmin <> 0) by (intro E; rewrite E in Hmd; discriminate). assert (N2 : u - l <> 0) by (intro E; rewrite E in Hdd; discriminate).
      set (c := (u - l) / (xmax - xmin)). assert (Hc : c * (xmax - xmin) = u - l) by (unfold c; field; exact N1).
      assert (Ey : y = c * (v - (xmax + xmin) / (1 + 1)) + (l + (u - l) / (1 + 1))) by (unfold y, c; field; repeat split; try assumption; discriminate).
      pose proof (scaled (v - (xmax + xmin) / (1 + 1)) (1 / (1 + 1)) (xmax - xmin) c (u - l) Hmd Hc Hdd) as S1.
      pose proof (scaled (- (v - (xmax + xmin) / (1 + 1))) (1 / (1 + 1)) (xmax - xmin) c (u - l) Hmd Hc Hdd) as S2.
      replace (1 / (1 + 1) * (xmax - xmin)) with ((xmax - xmin) / (1 + 1)) in * by (field; discriminate).
      replace ((u - l) * (1 / (1 + 1))) with ((u - l) / (1 + 1)) in * by (field; discriminate).
      replace (c * - (v - (xmax + xmin) / (1 + 1))) with (- (c * (v - (xmax + xmin) / (1 + 1)))) in S2 by ring.
      specialize (S1 ltac:(qlra)). specialize (S2 ltac:(qlra)). rewrite Ey. set (z := c * (v - (xmax + xmin) / (1 + 1))) in *. clearbody z. split; qlra. }
    cbv zeta. destruct (Qclt_le_dec xmax u) as [C1|C1]; [destruct (Qclt_le_dec l xmin) as [C2|C2]; [now apply In1|]|];
      destruct (Qclt_le_dec (xmax - xmin) (u - l)) as [C3|C3]; try (now apply In2); now apply In3.
  - split; [|exact I]. pose proof (qmin_lb (nth i mn 0 - l) 0) as [Q1 _]. qlra.
  - split; [exact I|]. pose proof (qmax_ub (nth i mx 0 - u) 0) as [Q1 _]. qlra.
Qed.
(** two chunks of one column with values 3, 1 and 5: 5 is mapped to 1, 3 to 0 and 1 to -1 *)
Example C136_example : exists mx mn, fold_left norm_train [[(qz 3, [qz 1])]; [(qz 5, [])]] None = Some (mx, mn) /\
  map (transform (Some (qz (-1))) (Some (qz 1)) mx mn 0) [qz 5; qz 3; qz 1] = [qz 1; qz 0; qz (-1)].
Proof. eexists _, _. split; [reflexivity|]. cbn [map]. repeat (apply f_equal2; [apply Qc_is_canon; vm_compute; reflexivity|]). reflexivity. Qed.
(** ** C137 execute writes into the array of the caller; a second execute of the same array expands other data *)
Theorem C137_in_place_refuted : exists mx mn x, norm_train None [(qz 1, [qz 5])] = Some (mx, mn) /\
  let '(x', y) := norm_execute None (Some (qz 4)) mx mn x in x' <> x /\ snd (norm_execute None (Some (qz 4)) mx mn x') <> y.
Proof. exists [qz 5], [qz 1], [qz 5]. split; [reflexivity|]. vm_compute. split; intro H; inversion H. Qed.
(** data inside the domain is left alone *)
Theorem C137_inside lower upper mx mn x : (forall l, lower = Some l -> l < amin mn /\ (forall i, (i < length x)%nat -> l <= nth i mn 0)) ->
  (forall u, upper = Some u -> amax mx < u /\ (forall i, (i < length x)%nat -> nth i mx 0 <= u)) -> norm_execute lower upper mx mn x = (x, x).
Proof.
  intros HL HU. unfold norm_execute.
  assert (E : map (fun p => transform lower upper mx mn (fst p) (snd p)) (combine (seq 0 (length x)) x) = x); [|now rewrite E].
  assert (T : forall i v, (i < length x)%nat -> transform lower upper mx mn i v = v).
  { intros i v Hi. unfold transform. destruct lower as [l|], upper as [u|]; auto.
    - cbv zeta. destruct (HL l eq_refl) as [A _]. destruct (HU u eq_refl) as [B _].
      destruct (Qclt_le_dec (amax mx) u) as [|C]; [|exfalso; qlra]. destruct (Qclt_le_dec l (amin mn)) as [|C]; [reflexivity|exfalso; qlra].
    - destruct (HL l eq_refl) as [_ A]. specialize (A i Hi). unfold qmin. destruct (Qclt_le_dec 0 (nth i mn 0 - l)) as [|C]; [ring|].
      replace (nth i mn 0 - l) with 0; [ring|]. apply Qcle_antisym; qlra.
    - destruct (HU u eq_refl) as [_ A]. specialize (A i Hi). unfold qmax. destruct (Qclt_le_dec (nth i mx 0 - u) 0) as [|C]; [ring|].
      replace (nth i mx 0 - u) with 0; [ring|]. apply Qcle_antisym; qlra. }
  clear HL HU. assert (G : forall (l : list Qc) a, (a + length l <= length x)%nat -> map (fun p => transform lower upper mx mn (fst p) (snd p)) (combine (seq a (length l)) l) = l).
  { induction l as [|v l IH]; intros a Ha; [reflexivity|]. cbn [length seq combine map fst snd] in *. rewrite T by lia. f_equal. apply IH. lia. }
  apply G. lia.
Qed.
