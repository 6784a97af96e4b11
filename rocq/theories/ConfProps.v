(** Properties of mdp/configuration.py *)
From Coq Require Import String List Arith ZArith Bool Lia Ascii Permutation Sorted.
From Verif Require Import ConfModel.
Import ListNotations.

(** ** C488: _version_too_old *)
Theorem C488_true : forall v k, too_old v k = Some true <-> exists l a b v' k', v = map Some l ++ Some a :: v' /\ k = l ++ b :: k' /\ (a < b)%Z.
Proof.
  induction v as [|p v IH]; intros [|e k]; cbn [too_old].
  - split; [discriminate|]. intros (l & a & b & v' & k' & E & _). destruct l; discriminate.
  - split; [discriminate|]. intros (l & a & b & v' & k' & E & _). destruct l; discriminate.
  - split; [discriminate|]. intros (l & a & b & v' & k' & _ & E & _). destruct l; discriminate.
  - destruct p as [p|].
    + destruct (Z.ltb_spec p e) as [H|H].
      * split; [|reflexivity]. intros _. exists [], p, e, v, k. auto.
      * destruct (Z.ltb_spec e p) as [H'|H'].
        -- split; [discriminate|]. intros (l & a & b & v' & k' & E & E' & L). destruct l as [|x l]; cbn in E, E'; [injection E as -> _; injection E' as -> _; lia|injection E as -> _; injection E' as -> _; lia].
        -- assert (p = e) by lia. subst e. rewrite IH. split; intros (l & a & b & v' & k' & E & E' & L).
           ++ exists (p :: l), a, b, v', k'. subst. auto.
           ++ destruct l as [|x l]; cbn in E, E'; [injection E as -> _; injection E' as -> _; lia|]. injection E as -> E. injection E' as E'. exists l, a, b, v', k'. auto.
    + split; [discriminate|]. intros (l & a & b & v' & k' & E & _). destruct l; discriminate.
Qed.
Theorem C488_none : forall v k, too_old v k = None <-> exists l b v' k', v = map Some l ++ None :: v' /\ k = l ++ b :: k'.
Proof.
  induction v as [|p v IH]; intros [|e k]; cbn [too_old].
  - split; [discriminate|]. intros (l & b & v' & k' & E & _). destruct l; discriminate.
  - split; [discriminate|]. intros (l & b & v' & k' & E & _). destruct l; discriminate.
  - split; [discriminate|]. intros (l & b & v' & k' & _ & E). destruct l; discriminate.
  - destruct p as [p|].
    + destruct (Z.ltb_spec p e) as [H|H].
      * split; [discriminate|]. intros (l & b & v' & k' & E & E'). destruct l as [|x l]; cbn in E, E'; [discriminate|]. injection E as -> _. injection E' as -> _. lia.
      * destruct (Z.ltb_spec e p) as [H'|H'].
        -- split; [discriminate|]. intros (l & b & v' & k' & E & E'). destruct l as [|x l]; cbn in E, E'; [discriminate|]. injection E as -> _. injection E' as -> _. lia.
        -- assert (p = e) by lia. subst e. rewrite IH. split; intros (l & b & v' & k' & E & E').
           ++ exists (p :: l), b, v', k'. subst. auto.
           ++ destruct l as [|x l]; cbn in E, E'; [discriminate|]. injection E as E. injection E' as E'. exists l, b, v', k'. auto.
    + split; [|reflexivity]. intros _. exists [], e, v, k. auto.
Qed.
(** the order of tuples of integers *)
Fixpoint lex_lt (p k : list Z) : bool := match p, k with [], _ :: _ => true | a :: p, b :: k => (a <? b)%Z || ((a =? b)%Z && lex_lt p k) | _, [] => false end.
Theorem C488_tuple : forall p k, length k <= length p -> too_old (map Some p) k = Some (lex_lt p k).
Proof.
  induction p as [|a p IH]; intros [|b k] L; cbn in *; try reflexivity; [lia|]. destruct (Z.ltb_spec a b); [reflexivity|]. destruct (Z.ltb_spec b a).
  - destruct (Z.eqb_spec a b); [lia|reflexivity].
  - destruct (Z.eqb_spec a b); [|lia]. cbn. apply IH. lia.
Qed.
(** never True of a version which is not smaller *)
Theorem C488_sound : forall p k, too_old (map Some p) k = Some true -> lex_lt p k = true.
Proof.
  induction p as [|a p IH]; intros [|b k]; cbn; try discriminate. destruct (Z.ltb_spec a b); [auto|]. destruct (Z.ltb_spec b a); [discriminate|]. destruct (Z.eqb_spec a b); [|lia]. cbn. apply IH.
Qed.
(** "True iff smaller": a shorter version is compared with a prefix *)
Theorem C488_refuted : exists p k, lex_lt p k = true /\ too_old (map Some p) k = Some false.
Proof. exists [0; 4]%Z, [0; 4; 3]%Z. auto. Qed.
Example ex_C488 : too_old [Some 0; Some 4; Some 3]%Z [0; 4; 3]%Z = Some false /\ too_old [Some 0; Some 4; Some 2]%Z [0; 4; 3]%Z = Some true /\ too_old [Some 0; Some 5; None]%Z [0; 4; 3]%Z = Some false /\ too_old [Some 0; Some 4; None]%Z [0; 4; 3]%Z = None.
Proof. vm_compute. auto. Qed.

(** ** C489: the registry *)
(** a call of ExternalDepFound or ExternalDepFailed *)
Record reg := mkReg { r_name : string; r_found : bool; r_text : string }.
Definition do_reg (c : conf) (r : reg) : conf := if r_found r then dep_found c (r_name r) (r_text r) else dep_failed c (r_name r) (r_text r).
(** the registrations in force: a later one of the same name replaces an earlier one, and is listed at the end *)
Definition latest (regs : list reg) : list reg := fold_left (fun l r => filter (fun q => negb (String.eqb (r_name q) (r_name r))) l ++ [r]) regs [].
Definition shown (r : reg) : string := if r_found r then r_text r else ("NOT AVAILABLE: " ++ r_text r)%string.

Definition strip (p : string * dep) : string * (bool * string) := (fst p, (dep_bool (snd p), dep_repr (snd p))).
Definition rstrip (r : reg) : string * (bool * string) := (r_name r, (r_found r, shown r)).
Definition before (p q : string * dep) := d_order (snd p) < d_order (snd q).
Lemma set_attr_perm l n d : NoDup (map fst l) -> Permutation (set_attr l n d) (filter (fun q => negb (String.eqb (fst q) n)) l ++ [(n, d)]).
Proof.
  induction l as [|[m e] l IH]; intros Nd; [reflexivity|]. cbn [map fst] in Nd. inversion Nd as [|? ? N1 N2]; subst. cbn [set_attr filter fst]. rewrite (String.eqb_sym m n). destruct (String.eqb_spec n m) as [->|N]; cbn [negb app].
  - assert (F : filter (fun q => negb (String.eqb (fst q) m)) l = l). { clear -N1. induction l as [|[q w] l IH]; [reflexivity|]. cbn [filter fst]. destruct (String.eqb_spec q m) as [->|]; [exfalso; apply N1; left; reflexivity|]. cbn [negb]. f_equal. apply IH. intros I. apply N1. right. exact I. }
    rewrite F. apply Permutation_cons_append.
  - apply perm_skip. now apply IH.
Qed.
Lemma set_attr_names l n d : NoDup (map fst l) -> NoDup (map fst (set_attr l n d)).
Proof.
  intros Nd. apply (Permutation_NoDup (l := map fst (filter (fun q => negb (String.eqb (fst q) n)) l ++ [(n, d)]))); [apply Permutation_map, Permutation_sym, set_attr_perm, Nd|].
  rewrite map_app. cbn [map fst]. apply (Permutation_NoDup (l := n :: map fst (filter (fun q => negb (String.eqb (fst q) n)) l))); [apply Permutation_cons_append|]. constructor.
  - intros I. apply in_map_iff in I. destruct I as ([m e] & E & I). cbn in E. subst. apply filter_In in I. cbn in I. rewrite String.eqb_refl in I. destruct I; discriminate.
  - clear -Nd. induction l as [|[m e] l IH]; [constructor|]. inversion Nd as [|? ? N1 N2]; subst. cbn [filter fst]. destruct (negb (String.eqb m n)); [|auto]. cbn [map fst]. constructor; [|auto]. intros I. apply N1. apply in_map_iff in I. destruct I as (q & E & I). apply filter_In in I. apply in_map_iff. exists q. tauto.
Qed.
Lemma get_set l n d m : get_attr (set_attr l n d) m = if String.eqb m n then Some d else get_attr l m.
Proof.
  induction l as [|[q e] l IH]; [reflexivity|]. cbn [set_attr]. destruct (String.eqb_spec n q) as [->|N]; cbn [get_attr]; [destruct (String.eqb m q); reflexivity|]. rewrite IH. destruct (String.eqb_spec m q) as [->|]; [|reflexivity]. destruct (String.eqb_spec q n); [congruence|reflexivity].
Qed.
Lemma sorted_app_end (l : list (string * dep)) x : StronglySorted before l -> Forall (fun p => before p x) l -> StronglySorted before (l ++ [x]).
Proof. induction l as [|y l IH]; intros S F; [repeat constructor|]. inversion S; subst. inversion F; subst. cbn. constructor; [auto|]. apply Forall_app. split; [assumption|repeat constructor; assumption]. Qed.
Lemma sorted_filter f (l : list (string * dep)) : StronglySorted before l -> StronglySorted before (filter f l).
Proof. induction l as [|y l IH]; intros S; [constructor|]. inversion S as [|? ? S1 F1]; subst. cbn. destruct (f y); [|auto]. constructor; [auto|]. apply Forall_forall. intros p I. apply filter_In in I. rewrite Forall_forall in F1. apply F1. tauto. Qed.
Lemma perm_filter {A} (f : A -> bool) l r : Permutation l r -> Permutation (filter f l) (filter f r).
Proof. induction 1 as [|x l r _ IH|x y l|l m r _ IH1 _ IH2]; cbn; [constructor| | |etransitivity; eassumption]. - destruct (f x); [now apply perm_skip|exact IH]. - destruct (f x), (f y); try reflexivity. apply perm_swap. Qed.
Lemma run_inv regs : let c := fold_left do_reg regs conf0 in exists L, Permutation (c_deps c) L /\ StronglySorted before L /\ Forall (fun p => d_order (snd p) < c_number c) L /\ NoDup (map fst (c_deps c)) /\ map strip L = map rstrip (latest regs).
Proof.
  induction regs as [|r regs IH] using rev_ind; [exists []; cbn; repeat split; constructor|]. cbn zeta in *. unfold latest. rewrite !fold_left_app. cbn [fold_left]. fold (latest regs). set (c := fold_left do_reg regs conf0) in *.
  destruct IH as (L & P & So & F & Nd & M). set (d := mkD (if r_found r then Some (r_text r) else None) (if r_found r then None else Some (r_text r)) (c_number c)).
  assert (E : do_reg c r = mkConf (set_attr (c_deps c) (r_name r) d) (S (c_number c))) by (unfold do_reg, d; destruct (r_found r); reflexivity). rewrite E. cbn [c_deps c_number].
  exists (filter (fun q => negb (String.eqb (fst q) (r_name r))) L ++ [(r_name r, d)]). split; [|split; [|split; [|split]]].
  - etransitivity; [apply set_attr_perm, Nd|]. apply Permutation_app_tail. now apply perm_filter.
  - apply sorted_app_end; [now apply sorted_filter|]. apply Forall_forall. intros p I. apply filter_In in I. rewrite Forall_forall in F. unfold before. cbn. apply F. tauto.
  - apply Forall_app. split; [|repeat constructor; cbn; lia]. apply Forall_forall. intros p I. apply filter_In in I. rewrite Forall_forall in F. specialize (F p (proj1 I)). lia.
  - now apply set_attr_names.
  - rewrite !map_app. cbn [map]. f_equal; [|unfold strip, rstrip, d, dep_bool, dep_repr, shown; cbn; destruct (r_found r); reflexivity].
    clear -M. revert M. generalize (latest regs) as R. induction L as [|p L IH]; intros [|q R] M; try discriminate; [reflexivity|]. cbn [map] in M. assert (Eh : strip p = rstrip q) by congruence. assert (Et : map strip L = map rstrip R) by congruence.
    cbn [filter]. assert (En : fst p = r_name q) by (unfold strip, rstrip in Eh; congruence). rewrite En. destruct (negb (String.eqb (r_name q) (r_name r))); cbn [map]; [rewrite Eh; f_equal|]; now apply IH.
Qed.
Lemma ins_perm x l : Permutation (ins x l) (x :: l).
Proof. induction l as [|y l IH]; [reflexivity|]. cbn [ins]. destruct (_ <=? _); [reflexivity|]. rewrite IH. apply perm_swap. Qed.
Lemma sort_perm l : Permutation (sort_deps l) l.
Proof. induction l as [|x l IH]; [reflexivity|]. cbn. rewrite ins_perm. now apply perm_skip. Qed.
Definition le_o (p q : string * dep) := d_order (snd p) <= d_order (snd q).
Lemma ins_sorted x l : StronglySorted le_o l -> StronglySorted le_o (ins x l).
Proof.
  induction l as [|y l IH]; intros S; [repeat constructor|]. cbn [ins]. inversion S as [|? ? S1 F1]; subst. destruct (Nat.leb_spec (d_order (snd x)) (d_order (snd y))) as [H|H].
  - constructor; [exact S|]. constructor; [exact H|]. eapply Forall_impl; [|exact F1]. intros p Hp. unfold le_o in *. lia.
  - constructor; [auto|]. apply (Permutation_Forall (Permutation_sym (ins_perm x l))). constructor; [unfold le_o; lia|exact F1].
Qed.
Lemma sort_sorted l : StronglySorted le_o (sort_deps l). Proof. induction l; [constructor|]. now apply ins_sorted. Qed.
Lemma sorted_unique L : forall l, StronglySorted before L -> StronglySorted le_o l -> Permutation l L -> l = L.
Proof.
  induction L as [|x L IH]; intros l S1 S2 P; [now apply Permutation_nil, Permutation_sym|]. destruct l as [|y l]; [apply Permutation_nil in P; discriminate|]. inversion S1 as [|? ? A1 A2]; subst. inversion S2 as [|? ? B1 B2]; subst.
  assert (E : y = x).
  { assert (I : In y (x :: L)) by (eapply Permutation_in; [exact P|left; reflexivity]). destruct I as [<-|I]; [reflexivity|]. assert (J : In x (y :: l)) by (eapply Permutation_in; [apply Permutation_sym, P|left; reflexivity]). destruct J as [->|J]; [reflexivity|].
    rewrite Forall_forall in A2, B2. specialize (A2 y I). specialize (B2 x J). unfold before, le_o in *. lia. }
  subst y. f_equal. apply IH; [assumption..|]. now apply Permutation_cons_inv in P.
Qed.
Lemma sort_latest regs dirl : Permutation dirl (c_deps (fold_left do_reg regs conf0)) -> map strip (sort_deps dirl) = map rstrip (latest regs).
Proof.
  intros P. destruct (run_inv regs) as (L & PL & S & _ & _ & M). rewrite <- M. f_equal. apply sorted_unique; [exact S|apply sort_sorted|]. rewrite sort_perm, P. exact PL.
Qed.
Lemma info_ne dirl : dirl <> [] -> info dirl = Some (map (fun p => (spaces (fold_right max 0 (map (fun p : string * dep => String.length (blanks (fst p))) dirl) + 1 - String.length (blanks (fst p))) ++ blanks (fst p) ++ ": " ++ dep_repr (snd p))%string) (sort_deps dirl)).
Proof. intros H. destruct dirl; [congruence|reflexivity]. Qed.
(** info() lists the registrations in force, in the order in which they were made, whatever the order of dir() is; the names are aligned to the right *)
Theorem C489_info : forall regs dirl, regs <> [] -> Permutation dirl (c_deps (fold_left do_reg regs conf0)) -> exists w,
  info dirl = Some (map (fun r => (spaces (S w - String.length (blanks (r_name r))) ++ blanks (r_name r) ++ ": " ++ shown r)%string) (latest regs)) /\
  (forall r, In r (latest regs) -> String.length (blanks (r_name r)) <= w) /\ exists r, In r (latest regs) /\ String.length (blanks (r_name r)) = w.
Proof.
  intros regs dirl Ne P. pose proof (sort_latest regs dirl P) as M.
  assert (Nl : latest regs <> []). { destruct (exists_last Ne) as (r & x & ->). unfold latest. rewrite fold_left_app. cbn. destruct (filter _ _); discriminate. }
  assert (Pn : Permutation (map fst dirl) (map r_name (latest regs))).
  { assert (E : map fst (sort_deps dirl) = map r_name (latest regs)). { transitivity (map fst (map strip (sort_deps dirl))); [rewrite map_map; reflexivity|]. rewrite M, map_map. reflexivity. } rewrite <- E. apply Permutation_map, Permutation_sym, sort_perm. }
  set (len := fun n => String.length (blanks n)). set (w := fold_right max 0 (map (fun p : string * dep => len (fst p)) dirl)). exists w.
  assert (W : w = fold_right max 0 (map len (map fst dirl))) by (unfold w; now rewrite map_map).
  assert (Wle : forall l x, In x l -> len x <= fold_right max 0 (map len l)). { induction l as [|y l IH]; intros x []; subst; cbn; [lia|]. specialize (IH x H). lia. }
  assert (Wex : forall l, l <> [] -> exists x, In x l /\ len x = fold_right max 0 (map len l)).
  { induction l as [|y l IH]; intros H; [congruence|]. destruct l as [|z l]; [exists y; cbn; split; [auto|lia]|]. destruct IH as (x & I & E); [discriminate|]. cbn [map fold_right] in *. destruct (Nat.max_spec (len y) (max (len z) (fold_right max 0 (map len l)))) as [[_ ->]|[_ ->]]; [exists x; split; [right; exact I|exact E]|exists y; split; [left; reflexivity|reflexivity]]. }
  split; [|split].
  - rewrite info_ne by (intros E; apply Nl; rewrite E in Pn; cbn in Pn; apply Permutation_nil in Pn; now destruct (latest regs)). f_equal. change (fold_right max 0 (map (fun p : string * dep => String.length (blanks (fst p))) dirl)) with w.
    clear -M. revert M. generalize (latest regs) as R. generalize (sort_deps dirl) as l. induction l as [|p l IH]; intros [|q R] M; try discriminate; [reflexivity|]. cbn [map] in M |- *. assert (Eh : strip p = rstrip q) by congruence. assert (Et : map strip l = map rstrip R) by congruence.
    rewrite (IH R Et). unfold strip, rstrip in Eh. assert (fst p = r_name q) by congruence. assert (dep_repr (snd p) = shown q) by congruence. rewrite H, H0. replace (w + 1) with (S w) by lia. reflexivity.
  - intros r I. rewrite W. apply Wle. apply (Permutation_in _ (Permutation_sym Pn)). now apply in_map.
  - destruct (Wex (map fst dirl)) as (x & I & E). { intros E. rewrite E in Pn. apply Permutation_nil in Pn. apply Nl. now destruct (latest regs). }
    apply (Permutation_in _ Pn) in I. apply in_map_iff in I. destruct I as (r & <- & I). exists r. split; [exact I|]. now rewrite W.
Qed.
(** what the list contains, and when: the truth of has_<name> is that of the last registration of the name *)
Theorem C489_has : forall regs r n, let c := fold_left do_reg (regs ++ [r]) conf0 in let c0 := fold_left do_reg regs conf0 in
  option_map (fun d => (dep_bool d, dep_repr d)) (get_attr (c_deps c) n) = if String.eqb n (r_name r) then Some (r_found r, shown r) else option_map (fun d => (dep_bool d, dep_repr d)) (get_attr (c_deps c0) n).
Proof.
  intros regs r n c c0. unfold c. rewrite fold_left_app. cbn [fold_left]. fold c0. unfold do_reg, dep_found, dep_failed, external_dep, shown. destruct (r_found r); cbn [c_deps]; rewrite get_set; destruct (String.eqb n (r_name r)); reflexivity.
Qed.
(** before the first registration info() raises; a dependency has either a version or a message *)
Theorem C489_empty : info (c_deps conf0) = None /\ forall c n v m, external_dep c n v m = None <-> (v = None <-> m = None).
Proof. split; [reflexivity|]. intros c n [v|] [m|]; cbn; split; try discriminate; try tauto; try (intros; split; congruence); intros [A B]; try (discriminate A; reflexivity); try (now specialize (A eq_refl)); try (now specialize (B eq_refl)). Qed.
Example ex_C489 : info (c_deps (fold_left do_reg [mkReg "a_b" true "1"; mkReg "c" true "2"; mkReg "a_b" false "gone"] conf0)) = Some ["   c: 2"; " a b: NOT AVAILABLE: gone"]%string.
Proof. reflexivity. Qed.

(** ** C490: the numerical backend *)
Local Open Scope string_scope.
Definition avail (b : backend) : bool := match b with BFail _ => false | _ => true end.
Theorem C490_default : forall sc np c, fst (get_numx None sc np c) = if avail sc then NScipy else if avail np then NNumpy else NError.
Proof. intros [m|v|v] [m'|v'|v'] c; reflexivity. Qed.
Theorem C490_label : forall l sc np c, l <> "" -> fst (get_numx (Some l) sc np c) = if String.eqb l "numpy" then (if avail np then NNumpy else NError) else if String.eqb l "scipy" then match sc with BOk _ => NScipy | _ => NError end else NError.
Proof.
  intros l sc np c Ne. unfold get_numx. destruct (String.eqb_spec l "") as [|_]; [contradiction|]. destruct (String.eqb_spec l "numpy") as [->|N]; [destruct sc, np; reflexivity|]. destruct (String.eqb_spec l "scipy") as [->|N']; [destruct sc; reflexivity|]. reflexivity.
Qed.
(** what is registered: the backend with its version if there is one; nothing for an unsupported label *)
Definition numx_attr (c : conf) := option_map (fun d => (dep_bool d, dep_repr d)) (get_attr (c_deps c) "numx").
Theorem C490_registered : forall label sc np c,
  (fst (get_numx label sc np c) = NScipy -> exists v, (sc = BOk v \/ sc = BLate v) /\ numx_attr (snd (get_numx label sc np c)) = Some (true, "scipy " ++ v)) /\
  (fst (get_numx label sc np c) = NNumpy -> exists v, (np = BOk v \/ np = BLate v) /\ numx_attr (snd (get_numx label sc np c)) = Some (true, "numpy " ++ v)) /\
  (forall n, n <> "numx" -> get_attr (c_deps (snd (get_numx label sc np c))) n = get_attr (c_deps c) n).
Proof.
  intros label sc np c. unfold get_numx, numx_attr.
  assert (G : forall a v n, n <> "numx" -> get_attr (c_deps (dep_found a "numx" v)) n = get_attr (c_deps a) n) by (intros a v n N; cbn; rewrite get_set; destruct (String.eqb_spec n "numx"); [contradiction|reflexivity]).
  assert (G' : forall a v n, n <> "numx" -> get_attr (c_deps (dep_failed a "numx" v)) n = get_attr (c_deps a) n) by (intros a v n N; cbn; rewrite get_set; destruct (String.eqb_spec n "numx"); [contradiction|reflexivity]).
  assert (H : forall a v, option_map (fun d => (dep_bool d, dep_repr d)) (get_attr (c_deps (dep_found a "numx" v)) "numx") = Some (true, v)) by (intros a v; cbn; rewrite get_set; reflexivity).
  destruct label as [l|].
  - destruct (negb (String.eqb l "") && negb (String.eqb l "numpy") && negb (String.eqb l "scipy")) eqn:E1; cbn [fst snd]; [repeat split; try discriminate|].
    destruct (String.eqb l "scipy"); destruct sc, np; destruct (negb (String.eqb l "")); cbn [fst snd]; (split; [|split]); try discriminate; try (intros _; eexists; split; [eauto|apply H]); auto.
  - cbn [andb]. destruct sc, np; cbn [fst snd]; (split; [|split]); try discriminate; try (intros _; eexists; split; [eauto|apply H]); auto.
Qed.
(** an empty MDPNUMX is not like an unset one: numpy is used although scipy is there *)
Theorem C490_refuted : exists sc np c, avail sc = true /\ fst (get_numx None sc np c) = NScipy /\ fst (get_numx (Some "") sc np c) = NNumpy.
Proof. exists (BOk "1"), (BOk "1"), conf0. auto. Qed.
Theorem C490_empty : forall sc np c, get_numx (Some "") sc np c = get_numx (Some "numpy") sc np c.
Proof. intros [m|v|v] [m'|v'|v'] c; reflexivity. Qed.
Example ex_C490 : numx_attr (snd (get_numx None (BFail "x") (BOk "1.2") conf0)) = Some (true, "numpy 1.2") /\ fst (get_numx (Some "scipy") (BFail "x") (BOk "1.2") conf0) = NError.
Proof. auto. Qed.

(** ** C491: set_configuration *)
Definition has (c : conf) (n : string) : option bool := option_map dep_bool (get_attr (c_deps c) n).
Definition names7 := ["python"; "mdp"; "parallel_python"; "shogun"; "libsvm"; "joblib"; "sklearn"].
Definition imported {A} (i : imp A) : option A := match i with IOk a => Some a | IFail _ => None end.
(** the conditions of the documentation *)
Definition pp_ok (e : env) (w : world) : bool :=
  match imported (w_pp w), imported (w_user w) with
  | Some pp, Some _ => negb (on (e_no_pp e)) && match pp_server pp with None => true | Some _ => false end && negb (pp_patch pp && on (e_no_patch e))
  | _, _ => false
  end.
Definition shogun_ok (e : env) (w : world) : bool := match imported (w_shogun w) with Some (Some v) => negb (on (e_no_shogun e)) && String.prefix "v1." v | _ => false end.
Definition libsvm_ok (e : env) (w : world) : bool := negb (on (e_no_libsvm e)) && (match imported (w_svmutil w) with Some _ => true | None => match imported (w_libsvm w) with Some _ => true | None => false end end).
Definition joblib_ok (e : env) (w : world) : bool := match imported (w_joblib w) with Some (Some v) => negb (on (e_no_joblib e)) && negb (truthy (too_old (v_parts v) [0; 4; 3]%Z)) | _ => false end.
Definition sklearn_ok (e : env) (w : world) : bool :=
  match (match imported (w_sklearn w) with Some v => Some v | None => imported (w_scikits w) end) with Some (Some v) => negb (on (e_no_sklearn e)) && negb (truthy (too_old (v_parts v) [0; 6]%Z)) | _ => false end.
(** an attribute which is read of a module is missing *)
Definition attr_missing (e : env) (w : world) : bool :=
  (negb (on (e_no_libsvm e)) && match imported (w_svmutil w) with Some (Some _) => false | Some None => true | None => match imported (w_libsvm w) with Some None => true | _ => false end end) ||
  match imported (w_joblib w) with Some None => true | _ => false end.

Ltac fin := cbn; try reflexivity; try discriminate; auto.
(** every part registers exactly its name, with the next number *)
Lemma found_has c n v m : has (dep_found c n v) m = if String.eqb m n then Some true else has c m.
Proof. unfold has. cbn. rewrite get_set. destruct (String.eqb m n); reflexivity. Qed.
Lemma failed_has c n v m : has (dep_failed c n v) m = if String.eqb m n then Some false else has c m.
Proof. unfold has. cbn. rewrite get_set. destruct (String.eqb m n); reflexivity. Qed.
Definition step (n : string) (b : bool) (s s' : cstate) : Prop := exists t, s_conf s' = if b then dep_found (s_conf s) n t else dep_failed (s_conf s) n t.
Lemma pp_step e w s : step "parallel_python" (pp_ok e w) s (conf_pp e w s).
Proof.
  unfold conf_pp, pp_ok, step. destruct (w_pp w) as [m|pp]; [eexists; reflexivity|]. destruct (w_user w) as [m|u]; [eexists; reflexivity|]. cbn [imported].
  destruct (on (e_no_pp e)); [eexists; reflexivity|]. destruct (pp_server pp); [eexists; reflexivity|]. destruct (pp_patch pp); [|eexists; reflexivity]. destruct (on (e_no_patch e)); eexists; reflexivity.
Qed.
Lemma shogun_step e w s : step "shogun" (shogun_ok e w) s (conf_shogun e w s).
Proof. unfold conf_shogun, shogun_ok, step. destruct (w_shogun w) as [m|v]; cbn [imported]; [eexists; reflexivity|]. destruct (on (e_no_shogun e)); destruct v as [v|]; cbn [negb andb]; try (eexists; reflexivity). destruct (String.prefix "v1." v); eexists; reflexivity. Qed.
Lemma libsvm_step e w s s' : conf_libsvm e w s = (s', None) -> step "libsvm" (libsvm_ok e w) s s'.
Proof. unfold conf_libsvm, libsvm_ok, step. destruct (on (e_no_libsvm e)); cbn [negb andb]; [intros [= <-]; eexists; reflexivity|]. destruct (w_svmutil w) as [m|[v|]]; cbn [imported]; [|intros [= <-]; eexists; reflexivity|discriminate]. destruct (w_libsvm w) as [m'|[v|]]; cbn [imported]; [intros [= <-]; eexists; reflexivity|intros [= <-]; eexists; reflexivity|discriminate]. Qed.
Lemma joblib_step e w s s' : conf_joblib e w s = (s', None) -> step "joblib" (joblib_ok e w) s s'.
Proof. unfold conf_joblib, joblib_ok, step. destruct (w_joblib w) as [m|[v|]]; cbn [imported]; [intros [= <-]; eexists; reflexivity| |discriminate]. destruct (on (e_no_joblib e)); cbn [negb andb]; [intros [= <-]; eexists; reflexivity|]. destruct (truthy _); intros [= <-]; eexists; reflexivity. Qed.
Lemma sklearn_step e w s : step "sklearn" (sklearn_ok e w) s (conf_sklearn e w s).
Proof.
  unfold conf_sklearn, sklearn_ok, step. destruct (w_sklearn w) as [m|[v|]]; cbn [imported]; [destruct (w_scikits w) as [m'|[v|]]; cbn [imported]; try (eexists; reflexivity)| |eexists; reflexivity];
    (destruct (on (e_no_sklearn e)); cbn [negb andb]; [eexists; reflexivity|]; destruct (truthy _); eexists; reflexivity).
Qed.
(** on a fresh registry: the seven names in this order, with the truth values of the conditions *)
Theorem C491_has : forall e w s, set_configuration e w conf0 = (s, None) ->
  map (fun p => (fst p, dep_bool (snd p))) (c_deps (s_conf s)) = combine names7 [true; true; pp_ok e w; shogun_ok e w; libsvm_ok e w; joblib_ok e w; sklearn_ok e w] /\ map (fun p => d_order (snd p)) (c_deps (s_conf s)) = [0; 1; 2; 3; 4; 5; 6].
Proof.
  intros e w s. unfold set_configuration. set (s0 := fnd (fnd _ _ _) _ _). pose proof (pp_step e w s0) as [t1 E1]. set (s1 := conf_pp e w s0) in *. pose proof (shogun_step e w s1) as [t2 E2]. set (s2 := conf_shogun e w s1) in *.
  destruct (conf_libsvm e w s2) as [s3 [x|]] eqn:L3; [discriminate|]. destruct (libsvm_step _ _ _ _ L3) as [t3 E3]. destruct (conf_joblib e w s3) as [s4 [x|]] eqn:L4; [discriminate|]. destruct (joblib_step _ _ _ _ L4) as [t4 E4].
  intros [= <-]. destruct (sklearn_step e w s4) as [t5 E5]. rewrite E5, E4, E3, E2, E1. unfold s0.
  destruct (pp_ok e w), (shogun_ok e w), (libsvm_ok e w), (joblib_ok e w), (sklearn_ok e w); split; reflexivity.
Qed.
(** it raises AttributeError exactly if a module is there without the attribute; then the registrations made before remain *)
Theorem C491_error : forall e w c, snd (set_configuration e w c) = Some CAttr <-> attr_missing e w = true.
Proof.
  intros e w c. unfold set_configuration, attr_missing. match goal with |- context [conf_libsvm e w ?x] => generalize x end. intros s2. unfold conf_libsvm, conf_joblib. destruct (on (e_no_libsvm e)); cbn [negb andb orb].
  - destruct (w_joblib w) as [m|[v|]]; cbn; split; congruence.
  - destruct (w_svmutil w) as [m|[v|]]; cbn [imported]; [destruct (w_libsvm w) as [m'|[v|]]; cbn [imported]| |]; destruct (w_joblib w) as [m2|[v2|]]; cbn; split; congruence.
Qed.
(** the secret of pp: an existing one is kept *)
Theorem C491_secret : forall e w s, set_configuration e w conf0 = (s, None) ->
  s_secret s = match imported (w_user w) with None => None | Some (Some x) => Some x | Some None => match imported (w_pp w) with None => None | Some _ => Some (match e_pp_secret e with Some x => if String.eqb x "" then "mdp-pp-support-password" else x | None => "mdp-pp-support-password" end) end end /\
  s_patched s = pp_ok e w && match imported (w_pp w) with Some pp => pp_patch pp | None => false end.
Proof.
  intros e w s. unfold set_configuration. set (s0 := fnd (fnd _ _ _) _ _). set (s1 := conf_pp e w s0).
  assert (A : forall s, s_secret (conf_shogun e w s) = s_secret s /\ s_patched (conf_shogun e w s) = s_patched s) by (intros t; unfold conf_shogun; destruct (w_shogun w) as [m|[v|]]; [|destruct (on _); [|destruct (String.prefix _ _)]|destruct (on _)]; split; reflexivity).
  assert (B : forall s s', conf_libsvm e w s = (s', None) -> s_secret s' = s_secret s /\ s_patched s' = s_patched s) by (intros t t'; unfold conf_libsvm; destruct (on _); [intros [= <-]; split; reflexivity|]; destruct (w_svmutil w) as [m|[v|]]; [destruct (w_libsvm w) as [m'|[v|]]| |]; intros [= <-]; split; reflexivity).
  assert (C : forall s s', conf_joblib e w s = (s', None) -> s_secret s' = s_secret s /\ s_patched s' = s_patched s) by (intros t t'; unfold conf_joblib; destruct (w_joblib w) as [m|[v|]]; [|destruct (on _); [|destruct (truthy _)]|]; intros [= <-]; split; reflexivity).
  assert (D : forall s, s_secret (conf_sklearn e w s) = s_secret s /\ s_patched (conf_sklearn e w s) = s_patched s) by (intros t; unfold conf_sklearn; destruct (match w_sklearn w with IOk v => IOk v | IFail _ => w_scikits w end) as [m|[v|]]; [|destruct (on _); [|destruct (truthy _)]|]; split; reflexivity).
  destruct (conf_libsvm e w (conf_shogun e w s1)) as [s3 [x|]] eqn:L3; [discriminate|]. destruct (conf_joblib e w s3) as [s4 [x|]] eqn:L4; [discriminate|]. intros [= <-]. destruct (D s4) as [-> ->]. destruct (C _ _ L4) as [-> ->]. destruct (B _ _ L3) as [-> ->]. destruct (A s1) as [-> ->].
  unfold s1, s0, conf_pp, pp_ok, on. destruct (w_pp w) as [m|pp]; destruct (w_user w) as [m'|u]; cbn [imported fld fnd s_secret s_patched s_conf].
  - auto.
  - destruct u; auto.
  - auto.
  - destruct (match e_no_pp e with Some s => negb (String.eqb s "") | None => false end); [|destruct (pp_server pp); [|destruct (pp_patch pp); [destruct (match e_no_patch e with Some s => negb (String.eqb s "") | None => false end)|]]];
      cbn [fld fnd s_secret s_patched negb andb]; (split; [|reflexivity]); destruct u; try reflexivity; destruct (e_pp_secret e) as [x|]; try reflexivity; destruct (String.eqb_spec x ""); reflexivity.
Qed.
(** a disabled dependency is never used; but reading the version of a disabled joblib can still break the import *)
Theorem C491_disabled : forall e w s, set_configuration e w conf0 = (s, None) ->
  (on (e_no_pp e) = true -> has (s_conf s) "parallel_python" = Some false) /\ (on (e_no_shogun e) = true -> has (s_conf s) "shogun" = Some false) /\ (on (e_no_libsvm e) = true -> has (s_conf s) "libsvm" = Some false) /\
  (on (e_no_joblib e) = true -> has (s_conf s) "joblib" = Some false) /\ (on (e_no_sklearn e) = true -> has (s_conf s) "sklearn" = Some false).
Proof.
  intros e w s H. destruct (C491_has e w s H) as [M _].
  assert (G : forall l n, option_map dep_bool (get_attr l n) = (fix g (l : list (string * bool)) := match l with [] => None | (m, b) :: l => if String.eqb n m then Some b else g l end) (map (fun p : string * dep => (fst p, dep_bool (snd p))) l)).
  { induction l as [|[m d] l IH]; intros n; [reflexivity|]. cbn [get_attr map fst snd]. destruct (String.eqb n m); [reflexivity|apply IH]. }
  unfold has. rewrite !G, M. cbn -[pp_ok shogun_ok libsvm_ok joblib_ok sklearn_ok]. unfold pp_ok, shogun_ok, libsvm_ok, joblib_ok, sklearn_ok.
  repeat split; intros ->; cbn [negb andb].
  - destruct (imported (w_pp w)); [|reflexivity]. destruct (imported (w_user w)); reflexivity.
  - destruct (imported (w_shogun w)) as [[v|]|]; reflexivity.
  - reflexivity.
  - destruct (imported (w_joblib w)) as [[v|]|]; reflexivity.
  - destruct (match imported (w_sklearn w) with Some v => Some v | None => imported (w_scikits w) end) as [[v|]|]; reflexivity.
Qed.
Theorem C491_refuted : exists e w, on (e_no_joblib e) = true /\ on (e_no_libsvm e) = true /\ snd (set_configuration e w conf0) = Some CAttr.
Proof.
  exists (mkE None None None None (Some "1") (Some "1") None), (mkW "3" "3.6" "" (IFail "m") (IFail "m") (IFail "m") (IFail "m") (IFail "m") (IOk None) (IFail "m") (IFail "m")). auto.
Qed.
Definition e0 := mkE None None None None None None None.
Definition w0 := mkW "3.8" "3.6" "abc" (IOk (mkPP "1.6" None true)) (IOk None) (IFail "no shogun") (IFail "a") (IOk (Some "3.2")) (IOk (Some (mkV "0.4.2" [Some 0; Some 4; Some 2]%Z))) (IFail "b") (IOk (Some (mkV "0.9" [Some 0; Some 9]%Z))).
Example ex_C491 : info (c_deps (s_conf (fst (set_configuration e0 w0 conf0)))) = Some ["          python: 3.8"; "             mdp: 3.6, abc"; " parallel python: 1.6-monkey-patched"; "          shogun: NOT AVAILABLE: no shogun"; "          libsvm: 3.2"; "          joblib: NOT AVAILABLE: version 0.4.2 is too old"; "         sklearn: 0.9"] /\
  s_secret (fst (set_configuration e0 w0 conf0)) = Some "mdp-pp-support-password".
Proof. split; reflexivity. Qed.
