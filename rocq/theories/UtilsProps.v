(** Properties of the small utilities of UtilsModel.v. *)
From Coq Require Import String Ascii List Arith ZArith QArith Qround Qabs Bool Lia Lqa DecimalString FinFun NArith Nnat.
From Verif Require Import UtilsModel.
Import ListNotations.
Open Scope nat_scope.

(** ** C459: progressinfo gives the values of the sequence *)
Definition yields {A} (ev : list (event A)) : list A := flat_map (fun e => match e with EYield v => [v] | _ => [] end) ev.
Definition draws {A} (ev : list (event A)) : list Q := flat_map (fun e => match e with EDraw p => [p] | _ => [] end) ev.
Section Progress.
  Variables (A : Type) (val : A -> Q).
  Notation progressinfo := (progressinfo A val). Notation loop := (loop A val).
  Lemma loop_spec len : ~ (len == 0)%Q -> forall l items c, exists ev, loop len items c l = (ev, None) /\ yields ev = l /\
    draws ev = (if items then map (fun v => (val v / len)%Q) l else map (fun i => (inject_Z (Z.of_nat i) / len)%Q) (seq c (length l))).
  Proof.
    intros Hl. induction l as [|v l IH]; intros items c; [exists []; destruct items; auto|]. cbn [UtilsModel.loop]. unfold div. destruct (Qeq_bool len 0) eqn:E; [apply Qeq_bool_eq in E; contradiction|]. destruct (IH items (S c)) as (ev & -> & Y & Dr). eexists. split; [reflexivity|]. unfold yields, draws in *. cbn [flat_map app]. rewrite Y, Dr. destruct items; split; reflexivity.
  Qed.
  (** a sized, nonempty sequence: all values, in order; the fractions 0, 1/n, ..., n/n are drawn; the last event is the newline *)
  Theorem C459_sized l arg : l <> [] -> let n := inject_Z (Z.of_nat (length l)) in exists ev, progressinfo true arg l = (ev ++ [EEnd], None) /\ yields ev = l /\
    draws ev = map (fun i => (inject_Z (Z.of_nat i) / n)%Q) (seq 0 (S (length l))).
  Proof.
    intros Hl n. unfold UtilsModel.progressinfo. cbn [get_length]. fold n. assert (Hn : ~ (n == 0)%Q). { unfold n, Qeq. cbn. destruct l; [contradiction|]. cbn [length]. lia. }
    destruct (loop_spec n Hn l false 0) as (ev & -> & Y & Dr). destruct l as [|v l]; [contradiction|]. unfold div. destruct (Qeq_bool n 0) eqn:E; [apply Qeq_bool_eq in E; contradiction|].
    exists (ev ++ [EDraw (inject_Z (Z.of_nat (length (v :: l))) / n)%Q]). split; [rewrite <- app_assoc; reflexivity|]. unfold yields, draws in *. rewrite !flat_map_app, Y, Dr. cbn [flat_map]. rewrite app_nil_r. split; [reflexivity|]. rewrite seq_S, map_app. reflexivity.
  Qed.
  (** every bar is drawn before its value is given *)
  Definition steps (len : Q) (c : nat) (l : list A) : list (event A) := flat_map (fun p : nat * A => [EDraw (inject_Z (Z.of_nat (fst p)) / len)%Q; EYield (snd p)]) (combine (seq c (length l)) l).
  Theorem C459_order l arg : l <> [] -> let n := inject_Z (Z.of_nat (length l)) in progressinfo true arg l = (steps n 0 l ++ [EDraw (n / n)%Q; EEnd], None).
  Proof.
    intros Hl n. unfold UtilsModel.progressinfo. cbn [get_length]. fold n. assert (Hn : ~ (n == 0)%Q). { unfold n, Qeq. cbn. destruct l; [contradiction|]. cbn [length]. lia. }
    assert (L : forall l c, loop n false c l = (steps n c l, None)).
    { induction l0 as [|v l0 IH]; intros c; [reflexivity|]. cbn [UtilsModel.loop]. unfold div. destruct (Qeq_bool n 0) eqn:E; [apply Qeq_bool_eq in E; contradiction|]. rewrite IH. reflexivity. }
    rewrite L. destruct l as [|v l]; [contradiction|]. unfold div. destruct (Qeq_bool n 0) eqn:E; [apply Qeq_bool_eq in E; contradiction|]. reflexivity.
  Qed.
  (** a generator with the length given (nonzero; negative: the values are the progress) *)
  Theorem C459_unsized l z : (z <> 0)%Z -> (z < 0 \/ l <> [])%Z -> exists ev, progressinfo false (Some z) l = (ev ++ [EEnd], None) /\ yields ev = l.
  Proof.
    intros Hz Hl. unfold UtilsModel.progressinfo, get_length. destruct (Z.ltb_spec z 0) as [N|N].
    - assert (Hn : ~ (inject_Z (- z) == 0)%Q) by (unfold Qeq; cbn; lia). destruct (loop_spec _ Hn l true 0) as (ev & -> & Y & _). exists (ev ++ [EDraw 1%Q]). split; [now rewrite <- app_assoc|]. unfold yields in *. rewrite flat_map_app, Y. cbn. now rewrite app_nil_r.
    - assert (Hn : ~ (inject_Z z == 0)%Q) by (unfold Qeq; cbn; lia). destruct Hl as [Hl|Hl]; [lia|]. destruct (loop_spec _ Hn l false 0) as (ev & -> & Y & _). destruct l as [|v l]; [contradiction|]. unfold div. destruct (Qeq_bool (inject_Z z) 0) eqn:E; [apply Qeq_bool_eq in E; contradiction|]. eexists (ev ++ [EDraw _]). split; [now rewrite <- app_assoc|]. unfold yields in *. rewrite flat_map_app, Y. cbn. now rewrite app_nil_r.
  Qed.
  (** C459 (refuted): an empty sequence *)
  Theorem C459_refuted arg z : progressinfo true arg [] = ([], Some UUnbound) /\ ((0 <= z)%Z -> progressinfo false (Some z) [] = ([], Some UUnbound)).
  Proof. split; [reflexivity|]. intros Hz. unfold UtilsModel.progressinfo, get_length. destruct (Z.ltb_spec z 0); [lia|]. reflexivity. Qed.
End Progress.
Example C459_example : exists ev, progressinfo nat (fun _ => 0%Q) true None [7; 8; 9] = (ev ++ [EEnd], None) /\ yields ev = [7; 8; 9].
Proof. destruct (C459_sized nat (fun _ => 0%Q) [7; 8; 9] None) as (ev & E & Y & _); [discriminate|]. eauto. Qed.

(** ** C460: the bar has the same length for every fraction *)
Lemma pyround_range q z : (0 <= z)%Z -> (0 <= q)%Q -> (q <= inject_Z z)%Q -> (0 <= pyround q <= z)%Z.
Proof.
  intros Hz H0 H1. unfold pyround. set (f := Qfloor (q + (1 # 2))%Q). assert (F0 : (0 <= f)%Z) by (change 0%Z with (Qfloor 0); apply Qfloor_resp_le; lra).
  assert (F1 : (f <= z)%Z). { assert (L : (inject_Z f < inject_Z (z + 1))%Q) by (eapply Qle_lt_trans; [apply Qfloor_le|]; rewrite inject_Z_plus; change (inject_Z 1) with 1%Q; lra). rewrite <- Zlt_Qlt in L. lia. }
  destruct (Qeq_bool _ _ && Z.odd f) eqn:E; [|lia]. apply andb_prop in E. destruct E as (_ & O). destruct (Z.eq_dec f 0) as [->|]; [discriminate|lia].
Qed.
(** the nearest integer, and ties to even *)
Theorem pyround_nearest q : (Qabs (inject_Z (pyround q) - q) <= 1 # 2)%Q.
Proof.
  unfold pyround. set (f := Qfloor (q + (1 # 2))%Q). pose proof (Qfloor_le (q + (1 # 2))%Q) as A. pose proof (Qlt_floor (q + (1 # 2))%Q) as B. fold f in A, B. rewrite inject_Z_plus in B. change (inject_Z 1) with 1%Q in B. apply Qabs_Qle_condition. destruct (Qeq_bool _ _ && Z.odd f) eqn:E; [|lra]. apply andb_prop in E. destruct E as (E & _). apply Qeq_bool_eq in E. replace (f - 1)%Z with (f + -1)%Z by lia. rewrite inject_Z_plus. change (inject_Z (-1)) with (-(1))%Q. lra.
Qed.
Lemma percent_len n : n <= 100 -> length (percent_str n) = 4.
Proof. intros H. assert (K : forallb (fun n => length (percent_str n) =? 4) (seq 0 101) = true) by (vm_compute; reflexivity). rewrite forallb_forall in K. apply Nat.eqb_eq, K, in_seq. lia. Qed.
Lemma strip_len n : n <= 100 -> 2 <= length (lstrip (percent_str n)) <= 4.
Proof. intros H. assert (K : forallb (fun n => (2 <=? length (lstrip (percent_str n))) && (length (lstrip (percent_str n)) <=? 4)) (seq 0 101) = true) by (vm_compute; reflexivity). rewrite forallb_forall in K. specialize (K n ltac:(apply in_seq; lia)). apply andb_prop in K. destruct K as (K1 & K2). apply Nat.leb_le in K1, K2. lia. Qed.
Lemma rep_len s z : length (rep s z) = Z.to_nat z * length s.
Proof. unfold rep. induction (Z.to_nat z) as [|n IH]; [reflexivity|]. cbn [repeat concat]. rewrite app_length, IH. cbn. lia. Qed.
Theorem C460_length l percent : (0 <= percent <= 1)%Q -> (1 <= l_width l)%Z -> length (l_char1 l) = 1 -> length (l_char3 l) = 1 -> length (l_char2 l) = 1 -> length (l_open l) = 1 -> length (l_close l) = 1 ->
  length (bar l percent) = length (l_indent l) + Z.to_nat (l_width l) + 3 + match l_pos l with PMiddle => 0 | _ => 4 end.
Proof.
  intros (P0 & P1) Hw C1 C3 C2 O Cl. unfold bar. cbv zeta.
  assert (R1 : (0 <= pyround (percent * 100) <= 100)%Z) by (apply pyround_range; [lia|lra|change (inject_Z 100) with 100%Q; lra]).
  assert (W : (0 <= inject_Z (l_width l))%Q) by (change 0%Q with (inject_Z 0); rewrite <- Zle_Qle; lia).
  assert (R2 : (0 <= pyround (percent * inject_Z (l_width l)) <= l_width l)%Z) by (apply pyround_range; [lia|nra|nra]).
  set (n := Z.to_nat (pyround (percent * 100))). assert (Hn : n <= 100) by lia. set (s := pyround (percent * inject_Z (l_width l))) in *.
  set (box := l_open l ++ (rep (l_char1 l) s ++ l_char2 l) ++ rep (l_char3 l) (l_width l - s) ++ l_close l). assert (Lb : length box = Z.to_nat (l_width l) + 3) by (unfold box; rewrite !app_length, !rep_len, C1, C2, C3, O, Cl; lia).
  destruct (l_pos l).
  - rewrite !app_length, (percent_len n Hn), Lb. lia.
  - rewrite !app_length, (percent_len n Hn), Lb. lia.
  - pose proof (strip_len n Hn) as S1. set (ps := lstrip (percent_str n)) in *. set (i := (Z.of_nat (length box) / 2 - Z.of_nat (length ps) + 2)%Z). assert (L4 : (4 <= Z.of_nat (length box))%Z) by lia. pose proof (Z.div_mod (Z.of_nat (length box)) 2 ltac:(lia)) as DM. pose proof (Z.mod_pos_bound (Z.of_nat (length box)) 2 ltac:(lia)) as MB.
    assert (I0 : (0 <= i)%Z) by (unfold i; lia). assert (I1 : (i + Z.of_nat (length ps) <= Z.of_nat (length box))%Z) by (unfold i; lia).
    rewrite !app_length. unfold upto, from, index. destruct (Z.ltb_spec i 0); [lia|]. destruct (Z.ltb_spec (i + Z.of_nat (length ps)) 0); [lia|]. rewrite firstn_length, skipn_length. lia.
Qed.
(** a line one shorter than the terminal, for terminals which are wide enough *)
Theorem C460_fits l percent : let need := (Z.of_nat (length (l_indent l)) + 5 + match l_pos l with PMiddle => 0 | _ => 4 end)%Z in (0 <= percent <= 1)%Q -> (need <= l_width l)%Z ->
  length (l_char1 l) = 1 -> length (l_char3 l) = 1 -> length (l_char2 l) = 1 -> length (l_open l) = 1 -> length (l_close l) = 1 -> Z.of_nat (length (bar (fit l) percent)) = (l_width l - 1)%Z.
Proof. intros need P W C1 C3 C2 O Cl. subst need. rewrite (C460_length (fit l) percent P); try assumption; cbn [fit l_width l_indent l_pos]; destruct (l_pos l); cbn in *; lia. Qed.
(** C460 (refuted): a narrow terminal *)
Theorem C460_refuted : length (bar (fit (default_layout 4)) 0) <> length (bar (fit (default_layout 4)) 1).
Proof. vm_compute. discriminate. Qed.
Example C460_example : bar (fit (default_layout 30)) (1 # 2) = lit "[============50%............]" /\ bar (fit (default_layout 30)) 1 = lit "[===========100%===========>]" /\ bar (fit (default_layout 4)) 1 = lit "[>100%".
Proof. repeat split; vm_compute; reflexivity. Qed.

(** ** C461: a complete bar at the end *)
Lemma pyround_int z : pyround (inject_Z z) = z.
Proof.
  unfold pyround. assert (E : Qfloor (inject_Z z + (1 # 2)) = z). { apply Z.le_antisymm; [|rewrite <- (Qfloor_Z z) at 1; apply Qfloor_resp_le; lra]. assert (L : (inject_Z (Qfloor (inject_Z z + (1 # 2))) < inject_Z (z + 1))%Q) by (eapply Qle_lt_trans; [apply Qfloor_le|]; rewrite inject_Z_plus; change (inject_Z 1) with 1%Q; lra). rewrite <- Zlt_Qlt in L. lia. }
  rewrite E. destruct (Qeq_bool (inject_Z z) (inject_Z z + (1 # 2))) eqn:F; [apply Qeq_bool_eq in F; lra|reflexivity].
Qed.
Lemma pyround_comp a b : (a == b)%Q -> pyround a = pyround b.
Proof. intros E. unfold pyround. rewrite (Qfloor_comp _ (b + (1 # 2))%Q) by (rewrite E; reflexivity). destruct (Qeq_bool _ (a + _)) eqn:X, (Qeq_bool _ (b + _)) eqn:Y; try reflexivity; exfalso; [apply Qeq_bool_eq in X; apply Qeq_bool_neq in Y; apply Y; rewrite X, E; reflexivity|apply Qeq_bool_eq in Y; apply Qeq_bool_neq in X; apply X; rewrite Y, E; reflexivity]. Qed.
Theorem C461_complete l p : (p == 1)%Q -> (0 <= l_width l)%Z -> let box := l_open l ++ (rep (l_char1 l) (l_width l) ++ l_char2 l) ++ l_close l in
  match l_pos l with PLeft => bar l p = l_indent l ++ lit "100%" ++ box | PRight => bar l p = l_indent l ++ box ++ lit "100%" | PMiddle => exists a b, bar l p = l_indent l ++ a ++ lit "100%" ++ b end.
Proof.
  intros E Hw box. unfold bar. cbv zeta. rewrite (pyround_comp (p * 100) (inject_Z 100)) by (rewrite E; reflexivity). rewrite (pyround_comp (p * inject_Z (l_width l)) (inject_Z (l_width l))) by (rewrite E; ring). rewrite !pyround_int, Z.sub_diag. change (rep (l_char3 l) 0) with (@nil ascii). change (percent_str (Z.to_nat 100)) with (lit "100%"). cbn [app]. destruct (l_pos l); [reflexivity|reflexivity|]. eexists. eexists. reflexivity.
Qed.

(** ** C462: the timer *)
(** with speed 'mean' the estimate is that of a constant speed: elapsed / (elapsed + remaining) is the fraction done *)
Theorem C462_mean t0 now p c : (0 < p <= 1)%Q -> (t0 <= now)%Q -> exists e r c', timer Mean t0 now p c = inl (Some (e, r), c') /\ (0 <= r)%Q /\ (e == p * (e + r))%Q.
Proof.
  intros (P0 & P1) Ht. unfold timer. destruct (Qeq_bool p 0) eqn:E; [apply Qeq_bool_eq in E; lra|]. eexists. eexists. eexists. split; [reflexivity|]. assert (K : (p * ((now - t0) / p) == now - t0)%Q) by (field; lra). set (x := ((now - t0) / p)%Q) in *. split; [nra|lra].
Qed.
Theorem C462_last t0 now p c lp lt : (p <= 1)%Q -> (lp < p)%Q -> (0 <= lp)%Q -> (lt <= now)%Q -> c_last c = Some (lp, lt) -> exists e r, timer Last t0 now p c = inl (Some (e, r), mkC (Some (p, now))) /\ (r * (p - lp) == (1 - p) * (now - lt))%Q.
Proof.
  intros P1 PL L0 Ht Hc. unfold timer. destruct (Qeq_bool p 0) eqn:E; [apply Qeq_bool_eq in E; lra|]. rewrite Hc. destruct (Qeq_bool (p - lp) 0) eqn:F; [apply Qeq_bool_eq in F; lra|]. eexists. eexists. split; [reflexivity|]. field. lra.
Qed.
(** C462 (refuted): speed 'last' when nothing has been drawn yet, or when the fraction has not changed *)
Theorem C462_refuted t0 now p now' : (0 < p)%Q -> timer Last t0 now p (mkC None) = inr UAttr /\ timer Last t0 now' p (mkC (Some (p, now))) = inr UZeroDiv.
Proof.
  intros P0. unfold timer. destruct (Qeq_bool p 0) eqn:E; [apply Qeq_bool_eq in E; lra|]. split; [reflexivity|]. cbn [c_last]. destruct (Qeq_bool (p - p) 0) eqn:F; [reflexivity|]. apply Qeq_bool_neq in F. exfalso. apply F. ring.
Qed.

(** ** C463: labels of the support vector machines *)
Section Label.
  Variables (L : Type) (leb : L -> L -> bool).
  Hypothesis leb_ok : forall a b, leb a b = true <-> a = b.
  Lemma lookup_in {K V} (eqb : K -> K -> bool) (ok : forall a b, eqb a b = true <-> a = b) (t : list (K * V)) k v : NoDup (map fst t) -> In (k, v) t -> lookup eqb t k = Some v.
  Proof.
    induction t as [|(k', v') t IH]; intros N I; [destruct I|]. inversion_clear N as [|x y N1 N2]. cbn. destruct I as [[= -> ->]|I].
    - destruct (lookup eqb t k) as [w|] eqn:E; [|now rewrite (proj2 (ok k k) eq_refl)]. exfalso. apply N1. clear -E ok. induction t as [|(a, b) t IH]; [discriminate|]. cbn in *. destruct (lookup eqb t k); [right; now apply IH|]. destruct (eqb a k) eqn:F; [left; now apply ok|discriminate].
    - now rewrite (IH N2 I).
  Qed.
  Lemma lookup_none {K V} (eqb : K -> K -> bool) (ok : forall a b, eqb a b = true <-> a = b) (t : list (K * V)) k : ~ In k (map fst t) -> lookup eqb t k = None.
  Proof. induction t as [|(a, b) t IH]; intros N; [reflexivity|]. cbn in *. rewrite IH by tauto. destruct (eqb a k) eqn:F; [apply ok in F; tauto|reflexivity]. Qed.
  Lemma nkeys_nodup {K V} (eqb : K -> K -> bool) (ok : forall a b, eqb a b = true <-> a = b) (t : list (K * V)) : NoDup (map fst t) -> nkeys eqb t = length t.
  Proof.
    induction t as [|(a, b) t IH]; intros N; [reflexivity|]. cbn in *. inversion_clear N as [|x y N1 N2]. destruct (existsb _ t) eqn:E; [|now rewrite IH]. exfalso. apply existsb_exists in E. destruct E as ((k, v) & I & E). cbn in E. apply ok in E. subst. apply N1. apply in_map_iff. exists (a, v). auto.
  Qed.
  Lemma Zok : forall a b, Z.eqb a b = true <-> a = b. Proof. apply Z.eqb_eq. Qed.
  Lemma fst_combine {B} (l : list L) (r : list B) : length l <= length r -> map fst (combine l r) = l.
  Proof. revert r. induction l as [|a l IH]; intros [|b r] H; cbn in *; try reflexivity; [lia|]. f_equal. apply IH. lia. Qed.
  Lemma snd_combine {B} (l : list L) (r : list B) : map snd (combine l r) = firstn (length l) r.
  Proof. revert r. induction l as [|a l IH]; intros [|b r]; cbn; try reflexivity. f_equal. apply IH. Qed.
  Lemma snd_fst (t : list (L * Z)) : map fst (map (fun p => (snd p, fst p)) t) = map snd t. Proof. rewrite map_map. reflexivity. Qed.
  (** two modes which give numbers: [labels] are the elements of a set *)
  Definition good (m : mode) (labels : list L) : Prop := NoDup labels /\ ((m = MDual /\ length labels <= 2) \/ m = MMulti).
  Lemma make_ok m labels : good m labels -> make L leb m labels = inl (NMap L (zip_norm L m labels)) /\ map fst (zip_norm L m labels) = labels /\ NoDup (map snd (zip_norm L m labels)).
  Proof.
    intros (N & M). assert (F : map fst (zip_norm L m labels) = labels). { destruct M as [(-> & H)| ->]; unfold zip_norm; apply fst_combine; [exact H|]. rewrite map_length, seq_length. lia. }
    assert (S : NoDup (map snd (zip_norm L m labels))). { destruct M as [(-> & H)| ->]; unfold zip_norm; rewrite snd_combine.
      - destruct labels as [|a [|b [|c l]]]; cbn in *; [constructor|repeat constructor; cbn; tauto| |lia]. repeat constructor; cbn; intuition lia.
      - rewrite firstn_all2 by (rewrite map_length, seq_length; lia). apply Injective_map_NoDup; [intros x y; apply Nat2Z.inj|apply seq_NoDup]. }
    split; [|auto]. assert (K : (nkeys leb (zip_norm L m labels) =? length (zip_norm L m labels)) && (nkeys Z.eqb (map (fun p => (snd p, fst p)) (zip_norm L m labels)) =? length (zip_norm L m labels)) = true).
    { rewrite (nkeys_nodup leb leb_ok), (nkeys_nodup Z.eqb Zok), map_length, Nat.eqb_refl; [reflexivity|rewrite snd_fst; exact S|rewrite F; exact N]. }
    unfold make. cbv zeta. rewrite K. destruct M as [(-> & H)| ->]; [|reflexivity]. destruct (Nat.ltb_spec 2 (length labels)); [lia|reflexivity].
  Qed.
  (** revert undoes normalize on the labels given, and the numbers are 1, -1 or 0, ..., n-1 *)
  Theorem C463_revert m labels l : good m labels -> incl l labels -> let t := zip_norm L m labels in make L leb m labels = inl (NMap L t) /\
    exists zs, normalize L leb t l = map Some zs /\ revert L t zs = map Some l /\ forall z, In z zs -> In z (match m with MDual => [1; -1]%Z | _ => map Z.of_nat (seq 0 (length labels)) end).
  Proof.
    intros G I t. destruct (make_ok m labels G) as (E & F & S). split; [exact E|]. fold t in F, S. induction l as [|a l IH]; [exists []; cbn; repeat split; tauto|]. destruct IH as (zs & N & R & Z1); [intros x X; apply I; now right|].
    assert (Ia : In a (map fst t)) by (rewrite F; apply I; now left). apply in_map_iff in Ia. destruct Ia as ((a', z) & Ea & It). cbn in Ea. subst a'. exists (z :: zs). unfold normalize, revert in *. cbn [map]. rewrite (lookup_in leb leb_ok t a z); [|rewrite F; exact (proj1 G)|exact It]. rewrite N. split; [reflexivity|]. rewrite (lookup_in Z.eqb Zok _ z a); [|rewrite snd_fst; exact S|apply in_map_iff; exists (a, z); auto]. rewrite R. split; [reflexivity|].
    intros y [<-|Y]; [|now apply Z1]. apply (in_combine_r labels _ a z). unfold t, zip_norm in It. destruct m; exact It.
  Qed.
  (** the labels are those of a set: dual mode is refused exactly if there are more than two *)
  Theorem C463_two labels : NoDup labels -> (make L leb MDual labels = inr UNodeExc <-> 2 < length labels).
  Proof.
    intros N. split; intros X; [|unfold make; destruct (Nat.ltb_spec 2 (length labels)); [reflexivity|lia]]. destruct (le_lt_dec (length labels) 2) as [H|H]; [|exact H]. rewrite (proj1 (make_ok MDual labels (conj N (or_introl (conj eq_refl H))))) in X. discriminate.
  Qed.
  (** C463 (refuted): a label which was not given is not refused *)
  Theorem C463_refuted m labels a : good m labels -> ~ In a labels -> normalize L leb (zip_norm L m labels) [a] = [None].
  Proof. intros G N. destruct (make_ok m labels G) as (_ & F & _). unfold normalize. cbn. rewrite lookup_none; [reflexivity|exact leb_ok|rewrite F; exact N]. Qed.
End Label.
Example C463_example : make nat Nat.eqb MDual [5; 3] = inl (NMap nat [(5, 1%Z); (3, (-1)%Z)]) /\ normalize nat Nat.eqb [(5, 1%Z); (3, (-1)%Z)] [3; 5; 5] = [Some (-1)%Z; Some 1%Z; Some 1%Z].
Proof. split; reflexivity. Qed.

(** ** C464: sizes of nodes *)
Lemma scale_spec base : (2 <= base)%N -> forall fuel size scale, (size <= base ^ (scale + 1 + N.of_nat fuel))%N -> (scale = 0 \/ base ^ scale < size)%N ->
  let s := scale_of fuel base size scale in (size <= base ^ (s + 1))%N /\ (s = 0 \/ base ^ s < size)%N.
Proof.
  intros Hb. induction fuel as [|f IH]; intros size scale H1 H2; cbn [scale_of]; [rewrite N.add_0_r in H1; auto|]. destruct (N.ltb_spec (base ^ (scale + 1)) size) as [X|X]; [|auto]. apply IH; [|auto]. replace (scale + 1 + 1 + N.of_nat f)%N with (scale + 1 + N.of_nat (S f))%N by lia. exact H1.
Qed.
Lemma size_bound base size : (2 <= base)%N -> (size <= base ^ (0 + 1 + N.of_nat (N.to_nat (N.size size))))%N.
Proof.
  intros Hb. rewrite N2Nat.id. apply N.le_trans with (2 ^ (0 + 1 + N.size size))%N; [|apply N.pow_le_mono_l; exact Hb]. pose proof (N.size_gt size). rewrite N.add_0_l, N.pow_add_r. lia.
Qed.
(** the number printed is above 1 and at most the base *)
Theorem C464_number si size q s : memory_size si size = inl (q, s) -> let base := if si then 1000%N else 1024%N in (q == inject_Z (Z.of_N size) / inject_Z (Z.of_N (base ^ s)))%Q /\ (size <= base ^ (s + 1))%N /\ (s = 0 \/ base ^ s < size)%N /\ (s <= 6)%N.
Proof.
  unfold memory_size. cbv zeta. set (base := (if si then 1000 else 1024)%N). assert (Hb : (2 <= base)%N) by (unfold base; destruct si; lia). set (sc := scale_of _ _ _ _). destruct (N.ltb_spec 6 sc) as [|Ls]; [discriminate|]. intros E. injection E as <- <-. split; [reflexivity|]. destruct (scale_spec base Hb (N.to_nat (N.size size)) size 0 (size_bound base size Hb) (or_introl eq_refl)) as (A & B). fold sc in A, B. auto.
Qed.
Theorem C464_fails (si : bool) (size : N) : let base := if si then 1000%N else 1024%N in memory_size si size = inr UIndex <-> (base ^ 7 < size)%N.
Proof.
  intros base. unfold memory_size. cbv zeta. fold base. assert (Hb : (2 <= base)%N) by (unfold base; destruct si; lia). set (sc := scale_of _ _ _ _). destruct (scale_spec base Hb (N.to_nat (N.size size)) size 0 (size_bound base size Hb) (or_introl eq_refl)) as (A & B). fold sc in A, B. destruct (N.ltb_spec 6 sc) as [Ls|Ls]; split; intros X; try discriminate; try reflexivity.
  - destruct B as [B|B]; [lia|]. apply N.le_lt_trans with (base ^ sc)%N; [apply N.pow_le_mono_r; lia|exact B].
  - exfalso. apply N.lt_nge in X. apply X. apply N.le_trans with (base ^ (sc + 1))%N; [exact A|apply N.pow_le_mono_r; lia].
Qed.
(** C464 (refuted): "1024.0 KiB" instead of "1.0 MiB"; above 1024**7 bytes IndexError; without arrays dig_node raises ValueError *)
Theorem C464_refuted : (exists q, memory_size false (1024 * 1024) = inl (q, 1%N) /\ (q == 1024)%Q) /\ memory_size false (1024 ^ 7 + 1) = inr UIndex /\ format_dig [] = inr UValue.
Proof. split; [eexists; split; [vm_compute; reflexivity|vm_compute; reflexivity]|]. split; vm_compute; reflexivity. Qed.

(** ** C465: the generated BiNode classes *)
Lemma combine_app2 {A B} (a : list A) (b : list B) a' b' : length a = length b -> combine (a ++ a') (b ++ b') = combine a b ++ combine a' b'.
Proof. revert b. induction a as [|x a IH]; intros [|y b] H; try discriminate; [reflexivity|]. cbn. f_equal. apply IH. now injection H. Qed.
Section Autogen.
  Variables (D : Type) (none : D).
  (** the signature is preserved: the same parameters in the same order with the same defaults, and node_id and stop_result with default None; everything is passed on by name *)
  Theorem C465_signature a ds : a_defaults D a = Some ds -> length ds <= length (a_args D a) -> exists g, binode_code D none a = inl g /\
    i_required D g ++ map fst (i_default D g) = a_args D a ++ ["node_id"; "stop_result"]%string /\ i_default D g = combine (skipn (length (a_args D a) - length ds) (a_args D a)) ds ++ [("node_id"%string, none); ("stop_result"%string, none)] /\
    i_required D g = firstn (length (a_args D a) - length ds) (a_args D a) /\ c_kw D g = i_required D g ++ map fst (i_default D g) /\ c_kwargs D g = i_varkw D g.
  Proof.
    intros E H. unfold binode_code. cbv zeta. rewrite E. eexists. split; [reflexivity|]. cbn [i_required i_default c_kw c_kwargs i_varkw]. rewrite !app_length. cbn [length]. replace (length (a_args D a) + 2 - (length ds + 2)) with (length (a_args D a) - length ds) by lia. set (k := length (a_args D a) - length ds).
    assert (F : firstn k (a_args D a ++ ["node_id"; "stop_result"]%string) = firstn k (a_args D a)) by (rewrite firstn_app; replace (k - length (a_args D a)) with 0 by lia; cbn; apply app_nil_r).
    assert (S : skipn k (a_args D a ++ ["node_id"; "stop_result"]%string) = skipn k (a_args D a) ++ ["node_id"; "stop_result"]%string) by (rewrite skipn_app; replace (k - length (a_args D a)) with 0 by lia; reflexivity).
    assert (C : combine (skipn k (a_args D a) ++ ["node_id"; "stop_result"]%string) (ds ++ [none; none]) = combine (skipn k (a_args D a)) ds ++ [("node_id"%string, none); ("stop_result"%string, none)]).
    { rewrite combine_app2 by (rewrite skipn_length; lia). reflexivity. }
    rewrite F, S, C. assert (M : map fst (combine (skipn k (a_args D a)) ds) = skipn k (a_args D a)) by (apply (fst_combine string); rewrite skipn_length; lia). rewrite map_app, M. cbn [map fst]. rewrite app_assoc, firstn_skipn. auto.
  Qed.
  (** C465 (refuted): a class whose __init__ has no default value; a class with *args which gets extra positional arguments *)
  Theorem C465_refuted a : a_defaults D a = None -> binode_code D none a = inr UType.
  Proof. intros E. unfold binode_code. cbv zeta. now rewrite E. Qed.
  Theorem C465_varargs a g n : binode_code D none a = inl g -> bind (a_args D a ++ ["node_id"; "stop_result"]%string) (S n) (c_kw D g) = false.
  Proof.
    unfold binode_code. cbv zeta. destruct (a_defaults D a) as [ds|]; [|discriminate]. intros E. injection E as <-. unfold bind. cbn [c_kw]. assert (Hl : exists x r, a_args D a ++ ["node_id"; "stop_result"]%string = x :: r) by (destruct (a_args D a) as [|y r]; cbn; eauto). destruct Hl as (x & r & ->). cbn. rewrite String.eqb_refl. reflexivity.
  Qed.
End Autogen.
Example C465_example : exists g, binode_code nat 0 (mkA nat ["input_dim"; "output_dim"]%string (Some [3]) None None) = inl g /\ i_required nat g = ["input_dim"]%string /\ i_default nat g = [("output_dim", 3); ("node_id", 0); ("stop_result", 0)]%string.
Proof. eexists. split; [reflexivity|]. split; reflexivity. Qed.
