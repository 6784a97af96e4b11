(** Properties of fork and join: C281-C296.

    [par train fork join t s] trains the node s in parallel along the tree t: first with its own data, then every subtree is given to a fork of the node (which may be forked
    again), and the forks are joined in this order.  [seqtrain train s xs] trains s with one chunk after another. *)
From Coq Require Import String List Arith ZArith QArith Qcanon Bool Lia Permutation FunctionalExtensionality Field.
From Verif Require Import MiscModel CovModel ClassModel GaussModel OField PCAModel SymeigModel SymeigProps SFAModel FDAModel SFAProps FDAProps VSFAModel VSFAProofs VSFAProps ParNodeModel ParNodeProofs.
Import ListNotations.
Open Scope nat_scope.

(** ** C281: the arguments of the fork *)
Section DefaultFork.
  Context {V : Type}.
  (** the attribute with the name of the argument, otherwise that with an underscore in front *)
  Definition pick (attr : string -> option V) (k : string) : option V := match attr k with Some v => Some v | None => attr (append "_" k) end.
  Definition getkw (kw : list (string * V)) (k : string) : option V := option_map snd (find (fun p : string * V => String.eqb (fst p) k) kw).
  Lemma find_app {A} (f : A -> bool) l m : find f (l ++ m) = match find f l with Some a => Some a | None => find f m end.
  Proof. induction l as [|a l IH]; [reflexivity|]. cbn. destruct (f a); [reflexivity|exact IH]. Qed.
  Lemma getkw_app kw kw' k : getkw (kw ++ kw') k = match getkw kw k with Some v => Some v | None => getkw kw' k end.
  Proof. unfold getkw. rewrite find_app. destruct (find _ kw); reflexivity. Qed.
  Definition looked (attr : string -> option V) (name : string -> string) (args : list string) : list (string * V) := flat_map (fun k => match attr (name k) with Some v => [(k, v)] | None => [] end) args.
  Lemma getkw_looked attr name args k : getkw (looked attr name args) k = if existsb (String.eqb k) args then attr (name k) else None.
  Proof.
    unfold looked. induction args as [|a args IH]; [reflexivity|]. cbn [flat_map existsb]. rewrite getkw_app, IH. destruct (String.eqb_spec k a) as [->|NE]; cbn [orb].
    - destruct (attr (name a)) as [v|] eqn:E; [unfold getkw; cbn; now rewrite String.eqb_refl|]. cbn. destruct (existsb (String.eqb a) args); reflexivity.
    - destruct (attr (name a)); [|reflexivity]. unfold getkw. cbn. destruct (String.eqb_spec a k); [congruence|reflexivity].
  Qed.
  Lemma has_getkw (kw : list (string * V)) k : has kw k = match getkw kw k with Some _ => true | None => false end.
  Proof. unfold has, getkw. induction kw as [|p kw IH]; [reflexivity|]. cbn. destruct (String.eqb (fst p) k); [reflexivity|exact IH]. Qed.
  Lemma existsb_filter (f : string -> bool) l k : existsb (String.eqb k) (filter f l) = existsb (String.eqb k) l && f k.
  Proof.
    induction l as [|a l IH]; [reflexivity|]. cbn [filter existsb]. destruct (String.eqb_spec k a) as [->|NE].
    - destruct (f a) eqn:E; cbn [existsb]; [now rewrite String.eqb_refl|]. rewrite IH. now rewrite !andb_false_r.
    - destruct (f a); cbn [existsb]; [destruct (String.eqb_spec k a); [easy|]|]; exact IH.
  Qed.
  Lemma in_existsb k (l : list string) : existsb (String.eqb k) l = true <-> In k l.
  Proof. rewrite existsb_exists. split; [intros (x & I & E); apply String.eqb_eq in E; now subst|intros I; exists k; split; [exact I|apply String.eqb_refl]]. Qed.
  Lemma required_args c k : In k (required c) -> In k (k_args c).
  Proof. unfold required. intros I. rewrite <- (firstn_skipn (length (k_args c) - k_defaults c) (k_args c)). apply in_or_app. now left. Qed.
  Theorem C281_default_fork : forall (c : klass) (attr : string -> option V), 0 < k_defaults c ->
    match default_fork c attr with
    | Forked kw => (forall k, getkw kw k = if existsb (String.eqb k) (k_args c) then pick attr k else None) /\ forall k, In k (required c) -> pick attr k <> None
    | Refused e => e = JNotForkable /\ exists k, In k (required c) /\ pick attr k = None
    end.
  Proof.
    intros c attr D. unfold default_fork. destruct (Nat.eqb_spec (k_defaults c) 0); [lia|]. fold (looked attr (fun k => k) (k_args c)). set (kw := looked attr (fun k => k) (k_args c)).
    set (args1 := filter (fun k => negb (has kw k)) (k_args c)). fold (looked attr (append "_") args1). set (un := looked attr (append "_") args1). set (args2 := filter (fun k => negb (has un k)) args1).
    assert (G : forall k, getkw (kw ++ un) k = if existsb (String.eqb k) (k_args c) then pick attr k else None).
    { intros k. rewrite getkw_app. unfold un. rewrite getkw_looked. unfold args1. rewrite existsb_filter, has_getkw. unfold kw. rewrite getkw_looked. unfold pick. destruct (existsb (String.eqb k) (k_args c)); [|reflexivity]. destruct (attr k); reflexivity. }
    assert (A2 : forall k, existsb (String.eqb k) args2 = existsb (String.eqb k) (k_args c) && match pick attr k with Some _ => false | None => true end).
    { intros k. unfold args2. rewrite existsb_filter. unfold args1 at 1. rewrite existsb_filter, !has_getkw. unfold un. rewrite getkw_looked. unfold args1. rewrite existsb_filter, has_getkw. unfold kw. rewrite getkw_looked. unfold pick.
      destruct (existsb (String.eqb k) (k_args c)); cbn [andb]; [|reflexivity]. destruct (attr k); cbn [negb andb]; [reflexivity|]. destruct (attr (append "_" k)); reflexivity. }
    destruct (existsb (fun k => existsb (String.eqb k) args2) (required c)) eqn:E.
    - split; [reflexivity|]. apply existsb_exists in E. destruct E as (k & I & E). exists k. split; [exact I|]. rewrite A2 in E. apply andb_true_iff in E. destruct E as (_ & E). destruct (pick attr k); [discriminate|reflexivity].
    - assert (RQ : forall k, In k (required c) -> pick attr k <> None).
      { intros k I. pose proof (proj2 (in_existsb k (k_args c)) (required_args c k I)) as IA. assert (N : existsb (String.eqb k) args2 = false) by (apply Bool.not_true_iff_false; intros H; apply Bool.not_true_iff_false in E; apply E, existsb_exists; now exists k).
        rewrite A2, IA in N. destruct (pick attr k); [discriminate|discriminate]. }
      unfold construct. assert (FB : forallb (has (kw ++ un)) (required c) = true).
      { apply forallb_forall. intros k I. rewrite has_getkw, G, (proj2 (in_existsb k (k_args c)) (required_args c k I)). specialize (RQ k I). destruct (pick attr k); [reflexivity|easy]. }
      rewrite FB. split; [exact G|exact RQ].
  Qed.
End DefaultFork.
(** a class none of whose arguments has a default value: a missing attribute is not reported as NotForkableParallelException *)
Theorem C281_refuted : exists (c : klass) (attr : string -> option nat), In "n"%string (required c) /\ pick attr "n" = None /\ default_fork c attr = Refused JType.
Proof. exists (mkKl ["n"%string] 0), (fun _ => None). repeat split. now left. Qed.
Definition attrs (k : string) : option nat := if String.eqb k "input_dim" then Some 3 else if String.eqb k "_hidden" then Some 7 else None.
Example ex_C281 : default_fork (mkKl ["hidden"; "input_dim"; "dtype"]%string 2) attrs = Forked [("input_dim"%string, 3); ("hidden"%string, 7)] /\
  default_fork (mkKl ["hidden"; "n"; "input_dim"; "dtype"]%string 2) attrs = Refused JNotForkable /\ required (mkKl ["hidden"; "n"; "input_dim"; "dtype"]%string 2) = ["hidden"; "n"]%string.
Proof. repeat split. Qed.

Section Nodes.
  Context {K : ofield}.
  Add Field Kpp : (fth K).
  Notation vec := (OField.vec (K := K)). Notation mtx := (mtx (K := K)). Notation pca := (pca (K := K)). Notation sfa := (sfa (K := K)). Notation fda := (fda (K := K)). Notation vsfa := (vsfa (K := K)).

  (** ** C282: the fork is a new node with the same arguments *)
  Lemma pca_seq_fields xs : forall (s s' : pca), seqtrain ptrain s xs = Some s' -> p_out s' = p_out s.
  Proof.
    induction xs as [|x xs IH]; intros s s' E; [injection E as <-; reflexivity|]. cbn [seqtrain] in E. destruct (ptrain s x) as [s1|] eqn:E1; [|discriminate]. rewrite (IH s1 s' E). unfold ptrain, pca_train in E1. destruct (negb (p_training s)); [discriminate|]. destruct (p_acc s); [injection E1 as <-; reflexivity|discriminate].
  Qed.
  Lemma sfa_seq_fields xs : forall (s s' : sfa), seqtrain strain s xs = Some s' -> s_out s' = s_out s /\ s_incl s' = s_incl s.
  Proof.
    induction xs as [|x xs IH]; intros s s' E; [injection E as <-; now split|]. cbn [seqtrain] in E. destruct (strain s x) as [s1|] eqn:E1; [|discriminate]. destruct (IH s1 s' E) as (A & B). rewrite A, B. clear -E1. unfold strain, sfa_train in E1.
    repeat match type of E1 with context [if ?b then _ else _] => destruct b | context [match ?o with _ => _ end] => destruct o end; try discriminate; injection E1 as <-; now split.
  Qed.
  Theorem C282_pca : forall (n : option nat) xs (s : pca), let o : @odim K := match n with Some n => OInt n | None => ONone end in
    seqtrain ptrain (pca_new o) xs = Some s -> pca_fork s = pca_new o.
  Proof. intros n xs s o E. unfold pca_fork. rewrite (pca_seq_fields xs _ s E). subst o. now destruct n. Qed.
  Theorem C282_sfa : forall out incl xs (s : sfa), seqtrain strain (sfa_new out incl MNone) xs = Some s -> sfa_fork s = sfa_new out incl MNone.
  Proof. intros out incl xs s E. unfold sfa_fork. destruct (sfa_seq_fields xs _ s E) as (-> & ->). reflexivity. Qed.
  Theorem C282_fda : forall labset out xs (s : fda), Forall (okfit) xs -> seqtrain (ftrain labset) (fda_new out) xs = Some s -> fda_fork s = fda_new out.
  Proof.
    intros labset out xs s F E. destruct xs as [|x xs]; [injection E as <-; reflexivity|]. rewrite (fda_seq0 labset _ (fda_new out) eq_refl) in E by (discriminate || exact F). injection E as <-. reflexivity.
  Qed.
  Theorem C282_refuted : (exists (o : @odim K), pca_fork (pca_new o) <> pca_new o) /\ exists out incl m, sfa_fork (sfa_new out incl m : sfa) <> sfa_new out incl m.
  Proof.
    split; [exists (@OFrac K (f1 / (f1 + f1))%of); intros E; now apply (f_equal (@p_desired K)) in E|]. exists None, true, MReg. intros E. now apply (f_equal (@s_meth K)) in E.
  Qed.

  (** ** C283: PCANode and WhiteningNode; C284: SFANode *)
  Theorem C283_pca : forall (o : @odim K) (t : ptree (list vec)) xs, fed t -> Forall (fun x => x <> []) (flatten t) -> Permutation xs (flatten t) ->
    exists s, par ptrain pfork pjoin t (pca_new o) = Some s /\ seqtrain ptrain (pca_new o) xs = Some s.
  Proof.
    intros o t xs FD F P. assert (G : pca_good (pca_new o)) by (split; [reflexivity|]; exists acc_new; now split).
    destruct (eq_tree (@ptrain K) (@pfork K) (@pjoin K) (@pca_good K) (fun x : list vec => x <> [])) with (t := t) (s := pca_new o) as (s & A & B); try assumption.
    - intros s x. apply pca_train_good.
    - intros s (T & a & E & Z). eexists. split; [reflexivity|]. split; [reflexivity|]. exists acc_new. now split.
    - intros s f f' ys. apply pca_join_seq.
    - exists s. split; [exact A|]. rewrite <- B. apply (seq_perm (@ptrain K) (@pca_good K) (fun x : list vec => x <> [])); try assumption.
      + intros s1 x G1 N1. destruct (pca_train_good s1 x G1 N1) as (s2 & E & G2 & _). now exists s2.
      + intros s1 x y G1 _ _. now apply pca_swap.
      + eapply Permutation_Forall; [apply Permutation_sym, P|exact F].
  Qed.
  Theorem C284_sfa : forall out incl m (t : ptree scall) xs, fed t -> Forall okcall (flatten t) -> Permutation xs (flatten t) ->
    exists s : sfa, par strain sfork sjoin t (sfa_new out incl m) = Some s /\ seqtrain strain (sfa_new out incl m) xs = Some s.
  Proof.
    intros out incl m t xs FD F P. assert (G : sfa_good (sfa_new out incl m : sfa)) by (split; [reflexivity|]; exists acc_new, acc_new; now split).
    destruct (eq_tree (@strain K) (@sfork K) (@sjoin K) (@sfa_good K) (@okcall K)) with (t := t) (s := sfa_new out incl m : sfa) as (s & A & B); try assumption.
    - intros s x. apply sfa_train_good.
    - intros s _. eexists. split; [reflexivity|]. split; [reflexivity|]. exists acc_new, acc_new. now split.
    - intros s f f' ys. apply sfa_join_seq.
    - exists s. split; [exact A|]. rewrite <- B. apply (seq_perm (@strain K) (@sfa_good K) (@okcall K)); try assumption.
      + intros s1 x G1 N1. destruct (sfa_train_good s1 x G1 N1) as (s2 & E & G2 & _). now exists s2.
      + intros s1 x y G1 O1 O2. now apply sfa_swap.
      + eapply Permutation_Forall; [apply Permutation_sym, P|exact F].
  Qed.

  (** ** C287: FDANode, both phases *)
  Definition flabel labset (l : nat) (x : fcall (K := K)) : Prop := In l (map fst (grp labset x)).
  Lemma means_dom gs : forall (d : nat -> option (vec * nat)) l, fold_left update_means gs d l <> None <-> d l <> None \/ In l (map fst gs).
  Proof.
    induction gs as [|g gs IH]; intros d l; cbn [fold_left map]; [cbn; tauto|]. rewrite IH. unfold update_means. destruct (Nat.eqb_spec l (fst g)) as [->|NE].
    - split; [intros _; right; now left|]. intros _. left. destruct (match d (fst g) with Some e => e | None => _ end). discriminate.
    - cbn [In]. split; [intros [H|H]; [now left|right; now right]|]. intros [H|[H|H]]; [now left|congruence|now right].
  Qed.
  Theorem C287_fda : forall dim solver labset out t1 t2 xs1 xs2, fed t1 -> fed t2 -> flatten t1 <> [] -> flatten t2 <> [] -> Forall okfit (flatten t1) -> Forall okfit (flatten t2) ->
    (forall x l, In x (flatten t2) -> flabel labset l x -> exists y, In y (flatten t1) /\ flabel labset l y) -> Permutation xs1 (flatten t1) -> Permutation xs2 (flatten t2) ->
    exists s0 s1 s2 : fda, par (ftrain labset) ffork fjoin t1 (fda_new out) = Some s0 /\ seqtrain (ftrain labset) (fda_new out) xs1 = Some s0 /\ fda_stop dim solver s0 = (s1, FOk tt) /\
      par (ftrain labset) ffork fjoin t2 s1 = Some s2 /\ seqtrain (ftrain labset) s1 xs2 = Some s2.
  Proof.
    intros dim solver labset out t1 t2 xs1 xs2 FD1 FD2 N1 N2 F1 F2 LB P1 P2.
    destruct (eq_tree (@ftrain K labset) (@ffork K) (@fjoin K) (@fda_good0 K) (@okfit K)) with (t := t1) (s := fda_new out : fda) as (s0 & A & B); try assumption.
    { intros s x. apply fda_train_good0. }
    { intros s G. unfold ffork, fda_fork. rewrite G. eexists. split; [reflexivity|]. reflexivity. }
    { intros s f f' ys. apply fda_join_seq0. }
    { reflexivity. }
    assert (B' : seqtrain (ftrain labset) (fda_new out) xs1 = Some s0).
    { rewrite <- B. apply (seq_perm (@ftrain K labset) (@fda_good0 K) (@okfit K)); try assumption; [| |reflexivity|].
      - intros s x G O. destruct (fda_train_good0 labset s x G O) as (s' & E & G' & _). now exists s'.
      - intros s x y. apply fda_swap0.
      - eapply Permutation_Forall; [apply Permutation_sym, P1|exact F1]. }
    pose proof B as B2. rewrite (fda_seq0 labset (flatten t1) (fda_new out) eq_refl N1 F1) in B2. injection B2 as B2.
    set (s1 := mkF out (fun l => option_map divide (f_means s0 l)) 1 false (Some acc_new) (Some None) [] (fun _ => f0) : fda).
    assert (ST : fda_stop dim solver s0 = (s1, FOk tt)) by (subst s0; reflexivity).
    assert (G1 : fda_good1 s1) by (split; [reflexivity|]; split; [|now exists None]; exists acc_new; repeat split; intros H; now destruct H).
    assert (KN : Forall (known labset (f_means s1)) (flatten t2)).
    { apply Forall_forall. intros x I. split; [now apply (proj1 (Forall_forall _ _) F2)|]. apply Forall_forall. intros g Ig. destruct (LB x (fst g) I (in_map fst _ g Ig)) as (y & Iy & Ly).
      unfold s1. cbn [f_means]. assert (D : f_means s0 (fst g) <> None) by (subst s0; cbn [f_means]; apply means_dom; right; rewrite flat_map_concat_map; unfold flabel in Ly; apply in_map_iff in Ly; destruct Ly as (h & Eh & Ih); apply in_map_iff; exists h; split; [exact Eh|]; apply in_concat; exists (grp labset y); split; [now apply in_map|exact Ih]).
      destruct (f_means s0 (fst g)); [discriminate|easy]. }
    set (okx := known labset (f_means s1)) in *.
    destruct (rel_tree (@ftrain K labset) (@ffork K) (@fjoin K) okx (@fda_fork K) (fun b s xs => rep1 labset b s xs /\ f_means b = f_means s1) (fun b s xs => rep1 labset b s xs /\ f_means b = f_means s1)) with (t := t2) (c := s1) (s := s1) (xs := @nil (@fcall K)) as (s2 & C & R & _); try assumption.
    { intros b s ys x (R & M) O. destruct (rep1_train labset b s ys x R) as (s' & E & R'); [rewrite M; exact O|]. exists s'. split; [exact E|]. split; [exact R'|exact M]. }
    { intros b s ys (R & M). destruct (rep1_fork labset b s ys R) as (f & E & R'). exists f. split; [exact E|]. split; [exact R'|]. unfold fda_fork. destruct R as ((Pb & _) & _). rewrite Pb. exact M. }
    { intros b s ys f zs (R & M) (R' & _) NE. destruct (rep1_join labset b s ys f zs R R' NE) as (s' & E & R2). exists s'. split; [exact E|]. split; [exact R2|exact M]. }
    { intros b s ys H. exact H. }
    { split; [now apply rep1_refl|reflexivity]. }
    destruct (rel_seq (@ftrain K labset) okx (fun b s xs => rep1 labset b s xs /\ f_means b = f_means s1)) with (ys := xs2) (c := s1) (s := s1) (xs := @nil (@fcall K)) as (s3 & D & R3 & _).
    { intros b s ys x (R4 & M) O. destruct (rep1_train labset b s ys x R4) as (s' & E & R'); [rewrite M; exact O|]. exists s'. split; [exact E|]. split; [exact R'|exact M]. }
    { split; [now apply rep1_refl|reflexivity]. }
    { eapply Permutation_Forall; [apply Permutation_sym, P2|exact KN]. }
    exists s0, s1, s2. repeat (split; [assumption|]). rewrite D. f_equal. cbn [app] in *. apply (rep1_det labset s1 s3 s2 xs2 (flatten t2)); try assumption. intros ->. apply Permutation_nil in P2. congruence.
  Qed.

  (** ** C286: VartimeSFANode: every fork starts a new, unconnected sequence *)
  Lemma wstop_char dim solver out m bs (s0 : vsfa) debug : wrepr out m s0 bs -> bs <> [] ->
    v_stop dim solver s0 debug = (mkVS (fst (sfa_stop dim solver (fixed out m bs) debug)) None (wlen (VSFAProofs.pts bs)) (wlen (dpts bs)) (v_tchunk s0) (v_xlast s0), snd (sfa_stop dim solver (fixed out m bs) debug)).
  Proof.
    intros (OB & E & c & dc & EA & (C1 & C2 & C3) & (D1 & D2 & D3) & _) NB. destruct bs as [|b0 bs0]; [easy|]. set (bs := b0 :: bs0) in *. unfold v_stop. rewrite E, EA. cbn [set_started vsfa_new v_sfa s_started s_training negb andb s_out s_incl s_tlen s_dtlen s_meth s_dfc s_d s_sf s_bias].
    unfold vacc_fix. cbv beta iota zeta. cbn [v_sfa v_accs v_tlen v_dtlen v_tchunk v_xlast].
    assert (W : forall f, wsum (vpts bs) f = wsum (dpts bs) (fun s => f (der s))) by (intros f; now rewrite vpts_dpts, wsum_map).
    assert (D3' : w_t dc = wlen (dpts bs)) by (rewrite D3; unfold wlen; apply W).
    assert (E1 : (fun i j => w_m c i j / w_t c - w_s c i * w_s c j / (w_t c * w_t c))%of = vcm bs) by (extensionality i; extensionality j; unfold vcm, tmean; now rewrite C1, !C2, C3).
    assert (E2 : (fun i j => w_m dc i j / w_t dc)%of = vdm bs) by (extensionality i; extensionality j; unfold vdm, tmean; now rewrite D1, D3', W).
    assert (E3 : (fun i => w_s c i / w_t c)%of = vavg bs) by (extensionality i; unfold vavg, tmean; now rewrite C2, C3).
    rewrite E1, E2, E3, C3, D3'. fold (fixed out m bs). destruct (sfa_stop dim solver (fixed out m bs) debug) as [b r]. reflexivity.
  Qed.
  Lemma cut_okcalls (t : ptree (@vcall K)) : fed t -> Forall okvc (flatten t) -> flatten t <> [] -> ok_calls (cut t) /\ cut t <> [].
  Proof.
    intros FD F N. destruct (cut_ok t F FD) as (_ & EQ & _ & FC). split; [|intros H; apply N; now apply EQ]. destruct (cut t) as [|c r]; [exact I|]. split; [apply (Forall_inv FC)|]. apply Forall_inv_tail in FC. eapply Forall_impl; [|exact FC]. intros a Ha. apply Ha.
  Qed.
  Theorem C286_vartime : forall dim solver (junk : vec) out m t, fed t -> Forall okvc (flatten t) -> flatten t <> [] ->
    exists s0, par (vtrain junk) vfork vjoin t (vsfa_new out m) = Some s0 /\
      forall s, v_stop dim solver s0 false = (s, SOk tt) -> exists s', vtrained dim solver junk out m (cut t) s' /\ same_node s s'.
  Proof.
    intros dim solver junk out m t FD F N. destruct (vpar junk t out m FD F) as (s0 & E & W). exists s0. split; [exact E|]. intros s ST. destruct (cut_okcalls t FD F N) as (OK & NC).
    destruct (trains_ok junk out m (cut t) OK NC) as (s1 & E1 & R1 & V1 & NB). rewrite (wstop_char dim solver out m _ s0 false W NB) in ST. injection ST as ST1 ST2. subst s. pose proof (stop_char dim solver out m _ s1 false R1 V1) as ST. rewrite ST2 in ST. 
    eexists. split; [exists s1; split; [exact E1|exact ST]|]. repeat split.
  Qed.
  (** all chunks with time_dep=False *)
  Lemma cut_flatten (t : ptree (vcall (K := K))) : Forall (fun c => dep c = false) (flatten t) -> cut t = flatten t.
  Proof.
    induction t as [own subs IH] using ptree_ind'. cbn [flatten cut]. intros F. apply Forall_app in F. destruct F as (_ & F). f_equal. induction subs as [|t l IHl]; [reflexivity|]. cbn [flat_map] in *. apply Forall_app in F. destruct F as (G1 & G2).
    rewrite (IHl (Forall_inv_tail IH) G2), (Forall_inv IH G1). f_equal. destruct (flatten t) as [|c r]; [reflexivity|]. cbn [cuth]. f_equal. pose proof (Forall_inv G1) as D. destruct c as [c b]. unfold dep in D. cbn in D. subst b. reflexivity.
  Qed.
  Theorem C286_separate : forall dim solver (junk : vec) out m t, fed t -> Forall okvc (flatten t) -> flatten t <> [] -> Forall (fun c => dep c = false) (flatten t) ->
    exists s0, par (vtrain junk) vfork vjoin t (vsfa_new out m) = Some s0 /\
      forall s, v_stop dim solver s0 false = (s, SOk tt) -> exists s', vtrained dim solver junk out m (flatten t) s' /\ same_node s s'.
  Proof. intros dim solver junk out m t FD F N D. destruct (C286_vartime dim solver junk out m t FD F N) as (s0 & A & B). rewrite (cut_flatten t D) in B. now exists s0. Qed.

  (** ** C292: a fork without data *)
  Theorem C292_pca : forall (s f : pca) a, p_acc s = Some a -> p_acc f = Some acc_new ->
    (a_n a = 0 -> snd (pca_join s f) = JOk) /\ (a_n a <> 0 -> snd (pca_join s f) = JErr JType /\ p_acc (fst (pca_join s f)) = Some a).
  Proof.
    intros s f a Es Ef. unfold pca_join. rewrite Es, Ef. split; intros H; destruct (Nat.eqb_spec (a_n a) 0); try easy.
  Qed.
  Theorem C292_sfa : forall (s f : sfa) c dc, s_accs s = Some (c, dc) -> s_accs f = Some (acc_new, acc_new) -> a_n c <> 0 -> snd (sfa_join s f) = JErr JType /\ s_accs (fst (sfa_join s f)) = Some (c, dc).
  Proof. intros s f c dc Es Ef H. unfold sfa_join. rewrite Es, Ef. destruct (Nat.eqb_spec (a_n c) 0); [easy|]. now split. Qed.
  Theorem C292_fda0 : forall s f : fda, f_phase s = 0 -> f_means f = (fun _ => None) -> snd (fda_join s f) = JOk /\ f_means (fst (fda_join s f)) = f_means s.
  Proof. intros s f P E. unfold fda_join. rewrite P, E. split; reflexivity. Qed.
  Theorem C292_refuted : forall (o : @odim K) (x : list vec), x <> [] -> exists s f s', ptrain (pca_new o) x = Some s /\ pfork s = Some f /\ pca_join s f = (s', JErr JType).
  Proof.
    intros o x N. eexists _, _, _. split; [reflexivity|]. split; [reflexivity|]. unfold pca_join, pca_fork. cbn [p_acc pca_new acc_update acc_new a_n]. destruct x; [easy|]. reflexivity.
  Qed.
End Nodes.

(** ** C285: NIPALSNode *)
Section Nipals.
  Context {A : Type}.
  Definition okn {N} (r : N * nres unit) : option N := match r with (s, NOk _) => Some s | _ => None end.
  Definition ntrain (s : @nip A) (x : list A) : option nip := okn (nip_train s x).
  Definition nfork (s : @nip A) : option nip := Some (nip_fork s).
  Definition njoin (s f : @nip A) : option nip := okj (nip_join s f).
  (** sequential training works on all the rows *)
  Lemma nip_seq xs : forall s : nip, ni_training s = true -> exists s', seqtrain ntrain s xs = Some s' /\ ni_training s' = true /\ ni_data s' = ni_data s ++ xs /\ (xs <> [] -> ni_started s' = true) /\ (xs = [] -> s' = s).
  Proof.
    induction xs as [|x xs IH]; intros s T; [exists s; rewrite app_nil_r; now repeat split|]. cbn [seqtrain]. unfold ntrain at 1, nip_train. rewrite T. cbn [negb okn].
    destruct (IH (mkNip (ni_out s) (ni_data s ++ [x]) (ni_tlen s + length x) true true) eq_refl) as (s' & E & T' & D & ST & Z). exists s'. split; [exact E|]. split; [exact T'|]. cbn [ni_data] in D. rewrite <- app_assoc in D. split; [exact D|]. split; [|easy].
    intros _. destruct xs as [|y ys]; [now rewrite (Z eq_refl)|]. now apply ST.
  Qed.
  Theorem C285_sequential : forall out (xs : list (list A)), xs <> [] -> exists s, seqtrain ntrain (nip_new out) xs = Some s /\ nip_stop_data s = NOk (concat xs).
  Proof.
    intros out xs N. destruct (nip_seq xs (nip_new out) eq_refl) as (s & E & T & D & ST & _). exists s. split; [exact E|]. unfold nip_stop_data. rewrite T, (ST N), D. cbn. destruct xs; [easy|reflexivity].
  Qed.
  (** only the data of the node itself are used *)
  Lemma nip_subs l : forall s0 (s : @nip A), Forall (fun t => forall out, exists s', par ntrain nfork njoin t (nip_new out) = Some s' /\ (ni_started s' = true \/ flatten t = [])) l ->
    exists s', par_subs ntrain nfork njoin s0 l s = Some s' /\ ni_data s' = ni_data s /\ ni_training s' = ni_training s /\ (ni_started s' = true \/ (ni_started s = ni_started s' /\ flat_map flatten l = [])).
  Proof.
    induction l as [|t l IH]; intros s0 s F; [exists s; repeat split; right; now split|]. cbn [par_subs nfork]. unfold nip_fork. destruct (Forall_inv F (ni_out s0)) as (f & Ef & Sf). rewrite Ef. unfold njoin, nip_join. cbn [okj].
    set (s1 := mkNip (first_of (ni_out s) (ni_out f)) (ni_data s) (ni_tlen s) (ni_started s || ni_started f) (ni_training s)).
    destruct (IH s0 s1 (Forall_inv_tail F)) as (s' & E & D & T & ST). exists s'. split; [exact E|]. split; [exact D|]. split; [exact T|]. destruct ST as [ST|(ST & EM)]; [now left|].
    cbn [flat_map]. rewrite EM, app_nil_r. subst s1. cbn [ni_started] in ST. destruct Sf as [Sf|Sf]; [left; rewrite <- ST, Sf; apply orb_true_r|]. destruct (ni_started s') eqn:Q; [now left|right]. split; [|exact Sf]. destruct (ni_started s); [discriminate|reflexivity].
  Qed.
  Lemma nip_par t : forall out, exists s', par ntrain nfork njoin t (nip_new out) = Some s' /\ ni_training s' = true /\ ni_data s' = (match t with PT own _ => own end) /\ (ni_started s' = true \/ flatten t = []).
  Proof.
    induction t as [own subs IH] using ptree_ind'. intros out. rewrite par_eq. destruct (nip_seq own (nip_new out) eq_refl) as (s0 & E & T & D & ST & Z). rewrite E.
    destruct (nip_subs subs s0 s0) as (s' & E' & D' & T' & ST'); [eapply Forall_impl; [|exact IH]; intros t H o; destruct (H o) as (q & Q1 & _ & _ & Q2); now exists q|].
    exists s'. split; [exact E'|]. split; [congruence|]. split; [now rewrite D', D|]. destruct ST' as [ST'|(ST' & EM)]; [now left|]. cbn [flatten]. rewrite EM, app_nil_r. destruct own as [|x own]; [now right|left; rewrite <- ST'; now apply ST].
  Qed.
  Theorem C285_own_data_only : forall out own (subs : list (ptree (list A))), flatten (PT own subs) <> [] ->
    exists s, par ntrain nfork njoin (PT own subs) (nip_new out) = Some s /\ nip_stop_data s = match own with [] => NValue | _ => NOk (concat own) end.
  Proof.
    intros out own subs N. destruct (nip_par (PT own subs) out) as (s & E & T & D & ST). exists s. split; [exact E|]. unfold nip_stop_data. destruct ST as [ST|ST]; [|easy]. rewrite T, ST, D. cbn. destruct own; reflexivity.
  Qed.
  Theorem C285_refuted : forall out (x : list A), exists s s', par ntrain nfork njoin (PT [] [PT [x] []]) (nip_new out) = Some s /\ nip_stop_data s = NValue /\ seqtrain ntrain (nip_new out) [x] = Some s' /\ nip_stop_data s' = NOk (x ++ []).
  Proof. intros out x. eexists _, _. repeat split. Qed.

  (** ** C288: HistogramNode and the bounds of AdaptiveCutoffNode *)
  Definition htrain (s : option (list A)) (x : list A) : option (option (list A)) := Some (hist_train s x).
  Definition hfork (s : option (list A)) : option (option (list A)) := Some (hist_fork s).
  Definition hjoin (s f : option (list A)) : option (option (list A)) := Some (hist_join s f).
  Lemma hist_seq xs : forall s, seqtrain htrain s xs = Some (match s, xs with None, [] => None | None, _ => Some (concat xs) | Some h, _ => Some (h ++ concat xs) end).
  Proof.
    induction xs as [|x xs IH]; intros s; [destruct s as [h|]; cbn; [now rewrite app_nil_r|reflexivity]|]. cbn [seqtrain htrain]. rewrite IH. destruct s as [h|]; cbn [hist_train concat]; [now rewrite app_assoc|reflexivity].
  Qed.
  (** all the data, in the order of the chunks *)
  Definition hof (xs : list (list A)) : option (list A) := match xs with [] => None | _ => Some (concat xs) end.
  Theorem C288_histogram : forall t : ptree (list A), par htrain hfork hjoin t None = Some (hof (flatten t)).
  Proof.
    induction t as [own subs IH] using ptree_ind'. rewrite par_eq, hist_seq. cbn [flatten]. fold (hof own). generalize (hof own) at 1 as s0. intros s0.
    enough (G : forall ys, par_subs htrain hfork hjoin s0 subs (hof ys) = Some (hof (ys ++ flat_map flatten subs))) by apply G.
    induction subs as [|t l IHl]; intros ys; [cbn [par_subs flat_map]; now rewrite app_nil_r|]. cbn [par_subs flat_map]. change (hfork s0) with (Some (@None (list A))). cbv iota. rewrite (Forall_inv IH). unfold hjoin at 1.
    replace (hist_join (hof ys) (hof (flatten t))) with (hof (ys ++ flatten t)); [rewrite app_assoc; apply IHl; exact (Forall_inv_tail IH)|].
    destruct ys as [|y ys], (flatten t) as [|z zs]; try reflexivity; [now rewrite app_nil_r|]. unfold hof. cbn [app hist_join]. change (y :: ys ++ z :: zs) with ((y :: ys) ++ z :: zs). now rewrite concat_app.
  Qed.
End Nipals.
Lemma insert_comm a b l : insert a (insert b l) = insert b (insert a l).
Proof.
  induction l as [|c l IH]; cbn [insert].
  - destruct (Z.leb_spec a b), (Z.leb_spec b a); try reflexivity; try lia. assert (a = b) by lia. now subst.
  - destruct (Z.leb_spec b c) as [H1|H1], (Z.leb_spec a c) as [H2|H2]; cbn [insert]; repeat match goal with |- context [Z.leb ?u ?v] => destruct (Z.leb_spec u v) end; try lia; try reflexivity; [|now rewrite IH]. assert (a = b) by lia. now subst.
Qed.
Lemma sort_permutation l m : Permutation l m -> sort l = sort m.
Proof. induction 1 as [|a l m P IH|a b l|l m n P1 IH1 P2 IH2]; [reflexivity|change (insert a (sort l) = insert a (sort m)); now rewrite IH|apply insert_comm|congruence]. Qed.
Theorem C288_cutoff : forall f (t : ptree (list Z)) xs h h', Permutation xs (flatten t) -> par htrain hfork hjoin t None = Some (Some h) -> seqtrain htrain None xs = Some (Some h') ->
  lower_bound f h = lower_bound f h' /\ upper_bound f h = upper_bound f h'.
Proof.
  intros f t xs h h' P E1 E2. rewrite C288_histogram in E1. rewrite hist_seq in E2. assert (Q : Permutation h h').
  { assert (EH : h = concat (flatten t)) by (unfold hof in E1; destruct (flatten t); [discriminate|now injection E1 as <-]). subst h. destruct xs as [|l0 xs]; [discriminate|]. injection E2 as <-. clear -P. apply Permutation_sym. change (Permutation (concat (l0 :: xs)) (concat (flatten t))). revert P. generalize (l0 :: xs) (flatten t). clear.
    intros a b P. induction P as [|x a b P IH|x y a|a b c P1 IH1 P2 IH2]; cbn [concat]; [constructor|now apply Permutation_app_head|rewrite !app_assoc; apply Permutation_app_tail, Permutation_app_comm|now transitivity (concat b)]. }
  unfold lower_bound, upper_bound. now rewrite (sort_permutation h h' Q), (Permutation_length Q).
Qed.

(** ** C289-C291: the classifiers *)
Section Classifiers.
  Context {L : Type} (eqL : forall a b : L, {a = b} + {a <> b}) (enum : list L -> list L).
  Theorem C289_gaussian : forall t, fed t -> Forall (okl eqL enum) (flatten t) ->
    exists s, par (gtrain eqL enum) (fun _ => Some gauss_init) (gjoin eqL) t gauss_init = Some s /\ seqtrain (gtrain eqL enum) gauss_init (flatten t) = Some s.
  Proof.
    intros t FD F. apply (eq_tree (gtrain eqL enum) (fun _ => Some gauss_init) (gjoin eqL) gauss_good (okl eqL enum)); try assumption; [| | |split; constructor].
    - intros s x G O. pose proof (g_seq eqL enum [x] s) as E. cbn [seqtrain] in E. specialize (E (Forall_cons x O (Forall_nil _))). destruct (gtrain eqL enum s x) as [s'|] eqn:ES; [|discriminate]. exists s'. split; [reflexivity|]. split; [|reflexivity].
      apply (g_good eqL enum [x] s s' G); [now constructor|]. cbn [seqtrain]. now rewrite ES.
    - intros s _. eexists. split; [reflexivity|]. split; constructor.
    - intros s f f' ys G E _ FO ES. injection E as <-. now apply g_join_seq.
  Qed.
  Theorem C290_nearest_mean : forall d t, fed t -> Forall (okl eqL enum) (flatten t) ->
    exists s, par (nmtrain eqL enum d) (fun _ => Some []) (fun s f => Some (nm_join eqL s f)) t [] = Some s /\ seqtrain (nmtrain eqL enum d) [] (flatten t) = Some s.
  Proof.
    intros d t FD F. apply (eq_tree (nmtrain eqL enum d) (fun _ => Some []) (fun s f => Some (nm_join eqL s f)) (fun _ => True) (okl eqL enum)); try assumption; try exact I.
    - intros s x _ O. pose proof (nm_seq eqL enum d [x] s) as E. cbn [seqtrain] in E. specialize (E (Forall_cons x O (Forall_nil _))). destruct (nmtrain eqL enum d s x) as [s'|]; [|discriminate]. now exists s'.
    - intros s _. now eexists.
    - intros s f f' ys _ E _ FO ES. injection E as <-. rewrite (nm_seq eqL enum d ys s FO). rewrite (nm_seq eqL enum d ys [] FO) in ES. injection ES as <-. rewrite nm_join_dsum. f_equal. apply dsum_dsum, nadd_assoc.
  Qed.
  Theorem C291_knn : forall t, fed t -> Forall (okl eqL enum) (flatten t) ->
    exists s, par (knntrain eqL enum) (fun _ => Some []) (fun s f => Some (knn_join eqL s f)) t [] = Some s /\ seqtrain (knntrain eqL enum) [] (flatten t) = Some s.
  Proof.
    intros t FD F. apply (eq_tree (knntrain eqL enum) (fun _ => Some []) (fun s f => Some (knn_join eqL s f)) (fun _ => True) (okl eqL enum)); try assumption; try exact I.
    - intros s x _ O. pose proof (knn_seq eqL enum [x] s) as E. cbn [seqtrain] in E. specialize (E (Forall_cons x O (Forall_nil _))). destruct (knntrain eqL enum s x) as [s'|]; [|discriminate]. now exists s'.
    - intros s _. now eexists.
    - intros s f f' ys _ E _ FO ES. injection E as <-. rewrite (knn_seq eqL enum ys s FO). rewrite (knn_seq eqL enum ys [] FO) in ES. injection ES as <-. rewrite knn_join_dsum. f_equal. apply dsum_dsum, app_assoc.
  Qed.
End Classifiers.

(** ** C293: references *)
Section Heap.
  Context {M : Type} (add : M -> M -> M).
  Definition total (a : M) (l : list M) : M := fold_left add l a.
  Lemma ref_joins_some fs : forall (h : heap M) s a vs, h s = Some a -> ~ In s fs -> map h fs = map Some vs ->
    exists h', ref_joins M add h s fs = Some (h', s) /\ h' s = Some (total a vs) /\ forall q, q <> s -> h' q = h q.
  Proof.
    induction fs as [|f fs IH]; intros h s a [|v vs] E N V; try discriminate; [exists h; now repeat split|]. cbn [map] in V. injection V as V1 V2. cbn [ref_joins]. unfold ref_join. rewrite E, V1.
    destruct (IH (put M h s (Some (add a v))) s (add a v) vs) as (h' & E' & S' & Q).
    - unfold put. now rewrite Nat.eqb_refl.
    - intros H. apply N. now right.
    - rewrite <- V2. apply map_ext_in. intros q I. unfold put. destruct (Nat.eqb_spec q s) as [->|]; [|reflexivity]. destruct N. now right.
    - exists h'. split; [exact E'|]. split; [exact S'|]. intros q NE. rewrite (Q q NE). unfold put. destruct (Nat.eqb_spec q s); [easy|reflexivity].
  Qed.
  (** forks with different objects: the node ends with the sum *)
  Theorem C293_distinct : forall (h : heap M) s a f fs v vs, NoDup (s :: f :: fs) -> map h (f :: fs) = map Some (v :: vs) -> h s = Some a \/ h s = None ->
    exists h' r, ref_joins M add h s (f :: fs) = Some (h', r) /\ h' r = Some (match h s with Some a => total a (v :: vs) | None => total v vs end) /\ (h s <> None -> forall q, q <> s -> h' q = h q).
  Proof.
    intros h s a f fs v vs N V [E|E]; rewrite E.
    - destruct (ref_joins_some (f :: fs) h s a (v :: vs) E) as (h' & E' & S' & Q); [now apply NoDup_cons_iff in N|exact V|]. exists h', s. now repeat split.
    - cbn [map] in V. injection V as V1 V2. apply NoDup_cons_iff in N. destruct N as (N1 & N). apply NoDup_cons_iff in N. destruct N as (N2 & N). destruct (ref_joins_some fs h f v vs V1 N2 V2) as (h' & E' & S' & Q).
      exists h', f. cbn [ref_joins]. unfold ref_join at 1. rewrite E. split; [exact E'|]. split; [exact S'|easy].
  Qed.
End Heap.
(** the first fork is changed by the second join; joining one fork three times gives four times its data *)
Definition h2 : heap Z := fun r => match r with 1 => Some 10%Z | 2 => Some 5%Z | _ => None end.
Theorem C293_refuted : exists h', ref_joins Z Z.add h2 0 [1; 2] = Some (h', 1) /\ h' 1 = Some 15%Z /\ h2 1 = Some 10%Z /\ exists h'', ref_joins Z Z.add h2 0 [1; 1; 1] = Some (h'', 1) /\ h'' 1 = Some 40%Z.
Proof. eexists. split; [reflexivity|]. split; [reflexivity|]. split; [reflexivity|]. eexists. split; reflexivity. Qed.
Example ex_C293 : NoDup [0; 1; 2] /\ map h2 [1; 2] = map Some [10; 5]%Z /\ total Z.add 10%Z [5]%Z = 15%Z.
Proof. split; [repeat constructor; cbn; lia|]. split; reflexivity. Qed.

(** ** C294: containers; [train] trains a node, [exec] executes it *)
Section Containers.
  Context {N X : Type} (training exec_fork : N -> bool) (train : N -> X -> option N) (exec : N -> X -> X) (forkN : N -> option N) (joinN : N -> N -> option N).
  (** the contract of the nodes *)
  Context (good : N -> Prop) (okx : X -> Prop).
  Definition contract : Prop :=
    (forall s, good s -> training s = true) /\
    (forall s x, good s -> okx x -> exists s', train s x = Some s' /\ good s' /\ forkN s' = forkN s) /\
    (forall s, good s -> exists f, forkN s = Some f /\ good f) /\
    (forall s f f' ys, good s -> forkN s = Some f -> ys <> [] -> Forall okx ys -> seqtrain train f ys = Some f' -> joinN s f' = seqtrain train s ys).
  Definition usable (a : N) : Prop := good a \/ training a = false.
  (** Layer.train: every node which is training gets its part of the data *)
  Fixpoint ltrain (l : list N) (x : list X) : option (list N) :=
    match l, x with
    | [], [] => Some []
    | a :: r, y :: ys => match (if training a then train a y else Some a), ltrain r ys with Some b, Some r => Some (b :: r) | _, _ => None end
    | _, _ => None
    end.
  Definition fits (n : nat) (x : list X) : Prop := length x = n /\ Forall okx x.
  Lemma fits_heads n ys : Forall (fits (S n)) ys -> exists hs ts, ys = map (fun p : X * list X => fst p :: snd p) (combine hs ts) /\ length hs = length ts /\ Forall okx hs /\ Forall (fits n) ts.
  Proof.
    induction ys as [|y ys IH]; intros F; [exists [], []; repeat split; constructor|]. destruct (IH (Forall_inv_tail F)) as (hs & ts & E & LE & A & B). destruct (Forall_inv F) as (LN & O). destruct y as [|h t]; [discriminate|].
    exists (h :: hs), (t :: ts). cbn [combine map fst snd length]. rewrite E. split; [reflexivity|]. split; [now rewrite LE|]. split; [constructor; [exact (Forall_inv O)|exact A]|]. constructor; [|exact B]. split; [now injection LN|exact (Forall_inv_tail O)].
  Qed.
  Section Layer.
    Hypothesis CT : contract.
    Lemma seq_good a hs : good a -> Forall okx hs -> exists a', seqtrain train a hs = Some a' /\ good a' /\ forkN a' = forkN a.
    Proof.
      destruct CT as (_ & HT & _). revert a. induction hs as [|h hs IH]; intros a G F; [exists a; now repeat split|]. destruct (HT a h G (Forall_inv F)) as (a1 & E1 & G1 & K1). cbn [seqtrain]. rewrite E1.
      destruct (IH a1 G1 (Forall_inv_tail F)) as (a2 & E2 & G2 & K2). exists a2. split; [exact E2|]. split; [exact G2|congruence].
    Qed.
    (** sequential training of a layer is sequential training of its nodes *)
    Lemma lseq_cons hs : forall ts a r, length hs = length ts -> usable a -> Forall okx hs ->
      seqtrain ltrain (a :: r) (map (fun p : X * list X => fst p :: snd p) (combine hs ts)) = match (if training a then seqtrain train a hs else Some a), seqtrain ltrain r ts with Some b, Some r => Some (b :: r) | _, _ => None end.
    Proof.
      induction hs as [|h hs IH]; intros [|t ts] a r LE U F; try discriminate; [cbn; now destruct (training a)|]. cbn [combine map seqtrain fst snd ltrain]. destruct U as [G|NT].
      - destruct CT as (TT & HT & _). rewrite (TT a G). destruct (HT a h G (Forall_inv F)) as (a1 & E1 & G1 & _). rewrite E1. destruct (ltrain r t) as [r1|].
        + rewrite IH; [|now injection LE|now left|exact (Forall_inv_tail F)]. now rewrite (TT a1 G1).
        + now destruct (seqtrain train a1 hs).
      - rewrite NT. destruct (ltrain r t) as [r1|]; [|reflexivity]. rewrite IH; [|now injection LE|now right|exact (Forall_inv_tail F)]. now rewrite NT.
    Qed.
    Lemma lseq_nil ys : Forall (fits 0) ys -> seqtrain ltrain [] ys = Some [].
    Proof. intros H. induction ys as [|y ys IH]; [reflexivity|]. destruct (Forall_inv H) as (LN & _). destruct y; [|discriminate]. cbn. apply IH. exact (Forall_inv_tail H). Qed.
    Lemma layer_join_seq s : forall f f' ys, Forall usable s -> layer_fork N training forkN s = Some f -> ys <> [] -> Forall (fits (length s)) ys -> seqtrain ltrain f ys = Some f' ->
      layer_join N training joinN s f' = seqtrain ltrain s ys.
    Proof.
      induction s as [|a s IH]; intros f f' ys U EF NE FO ES.
      - injection EF as <-. cbn [length] in FO. rewrite (lseq_nil ys FO) in *. injection ES as <-. reflexivity.
      - cbn [layer_fork] in EF. destruct (if training a then forkN a else Some a) as [fa|] eqn:EA; [|discriminate]. destruct (layer_fork N training forkN s) as [fs|] eqn:ESF; [|discriminate]. injection EF as <-.
        cbn [length] in FO. destruct (fits_heads (length s) ys FO) as (hs & ts & -> & LE & FH & FT). pose proof (Forall_inv U) as Ua. rewrite (lseq_cons hs ts a s LE Ua FH).
        assert (NH : hs <> []) by (intros ->; apply NE; reflexivity). assert (NT : ts <> []) by (intros ->; destruct hs; [easy|discriminate]).
        destruct CT as (TT & HT & HF & HJ). destruct Ua as [G|NTa].
        + pose proof (TT a G) as Ta. rewrite Ta in EA. destruct (HF a G) as (fa' & EA' & Gf). assert (fa' = fa) by congruence. subst fa'. rewrite (lseq_cons hs ts fa fs LE (or_introl Gf) FH) in ES. rewrite (TT fa Gf) in ES.
          destruct (seqtrain train fa hs) as [ga|] eqn:EG; [|discriminate]. destruct (seqtrain ltrain fs ts) as [gs|] eqn:EGS; [|discriminate]. injection ES as <-. cbn [layer_join]. rewrite Ta.
          rewrite (HJ a fa ga hs G EA NH FH EG), (IH fs gs ts (Forall_inv_tail U) eq_refl NT FT EGS). reflexivity.
        + rewrite NTa in EA. injection EA as <-. rewrite (lseq_cons hs ts a fs LE (or_intror NTa) FH), NTa in ES. destruct (seqtrain ltrain fs ts) as [gs|] eqn:EGS; [|discriminate]. injection ES as <-. cbn [layer_join]. rewrite NTa.
          rewrite (IH fs gs ts (Forall_inv_tail U) eq_refl NT FT EGS). reflexivity.
    Qed.
    Lemma layer_fork_ok s : Forall usable s -> exists f, layer_fork N training forkN s = Some f /\ Forall usable f /\ length f = length s.
    Proof.
      destruct CT as (TT & HT & HF & HJ). induction s as [|a s IH]; intros U; [exists []; repeat split; constructor|]. destruct (IH (Forall_inv_tail U)) as (f & E & UF & LE). cbn [layer_fork]. rewrite E. destruct (Forall_inv U) as [G|NT].
      - rewrite (TT a G). destruct (HF a G) as (fa & EA & GF). rewrite EA. exists (fa :: f). split; [reflexivity|]. split; [constructor; [now left|exact UF]|cbn; now rewrite LE].
      - rewrite NT. exists (a :: f). split; [reflexivity|]. split; [constructor; [now right|exact UF]|cbn; now rewrite LE].
    Qed.
    Lemma ltrain_ok s : forall x, Forall usable s -> fits (length s) x -> exists s', ltrain s x = Some s' /\ Forall usable s' /\ length s' = length s /\ layer_fork N training forkN s' = layer_fork N training forkN s.
    Proof.
      destruct CT as (TT & HT & HF & HJ). induction s as [|a s IH]; intros [|y x] U (LE & O); try discriminate; [exists []; repeat split; constructor|]. destruct (IH x (Forall_inv_tail U)) as (s' & E & U' & L' & K'); [split; [now injection LE|exact (Forall_inv_tail O)]|].
      cbn [ltrain layer_fork]. rewrite E. destruct (Forall_inv U) as [G|NT].
      - rewrite (TT a G). destruct (HT a y G (Forall_inv O)) as (a' & EA & GA & KA). rewrite EA. exists (a' :: s'). split; [reflexivity|]. split; [constructor; [now left|exact U']|]. split; [cbn; now rewrite L'|]. cbn [layer_fork]. now rewrite (TT a' GA), KA, K'.
      - rewrite NT. exists (a :: s'). split; [reflexivity|]. split; [constructor; [now right|exact U']|]. split; [cbn; now rewrite L'|]. cbn [layer_fork]. now rewrite NT, K'.
    Qed.
  End Layer.
  Theorem C294_layer : contract -> forall s t, Forall usable s -> fed t -> Forall (fits (length s)) (flatten t) ->
    exists s', par ltrain (layer_fork N training forkN) (layer_join N training joinN) t s = Some s' /\ seqtrain ltrain s (flatten t) = Some s'.
  Proof.
    intros CT s t U FD F. apply (eq_tree ltrain _ _ (fun l => Forall usable l /\ length l = length s) (fits (length s))); try assumption; [| | |now split].
    - intros l x (U1 & L1) O. rewrite <- L1 in O. destruct (ltrain_ok CT l x U1 O) as (l' & A & B & C & D). exists l'. split; [exact A|]. split; [split; [exact B|congruence]|exact D].
    - intros l (U1 & L1). destruct (layer_fork_ok CT l U1) as (f & A & B & C). exists f. split; [exact A|]. split; [exact B|congruence].
    - intros l f f' ys (U1 & L1) EF NE FO ES. rewrite <- L1 in FO. now apply (layer_join_seq CT l f f' ys).
  Qed.

  (** CloneLayer: one node gets all the parts, one after another *)
  Definition ctrain (s : N * nat) (x : list X) : option (N * nat) := if length x =? snd s then option_map (fun a => (a, snd s)) (seqtrain train (fst s) x) else None.
  Lemma ctrain_seq ys : forall a n, Forall (fits n) ys -> seqtrain ctrain (a, n) ys = option_map (fun a => (a, n)) (seqtrain train a (concat ys)).
  Proof.
    induction ys as [|y ys IH]; intros a n F; [reflexivity|]. cbn [seqtrain concat]. rewrite seqtrain_app. unfold ctrain at 1. cbn [fst snd]. destruct (Forall_inv F) as (LE & _). rewrite LE, Nat.eqb_refl. destruct (seqtrain train a y) as [b|]; [|reflexivity]. cbn [option_map]. apply IH. exact (Forall_inv_tail F).
  Qed.
  Lemma concat_fits n ys : Forall (fits n) ys -> Forall okx (concat ys).
  Proof. induction ys as [|y ys IH]; intros F; [constructor|]. cbn [concat]. apply Forall_app. split; [apply (Forall_inv F)|apply IH; exact (Forall_inv_tail F)]. Qed.
  Theorem C294_clone_layer : contract -> forall a n t, good a -> 0 < n -> fed t -> Forall (fits n) (flatten t) ->
    exists b, par ctrain (clone_fork N forkN) (clone_join N joinN) t (a, n) = Some (b, n) /\ seqtrain train a (concat (flatten t)) = Some b.
  Proof.
    intros CT a n t G NZ FD F. destruct (eq_tree ctrain (clone_fork N forkN) (clone_join N joinN) (fun c => good (fst c) /\ snd c = n) (fits n)) with (t := t) (s := (a, n)) as ((b & k) & A & B); try assumption.
    - intros (b & k) x (Gb & Ek) O. cbn [fst snd] in Gb, Ek. subst k. unfold ctrain. cbn [fst snd]. destruct O as (LE & O). rewrite LE, Nat.eqb_refl. destruct (seq_good CT b x Gb O) as (b' & E & Gb' & KB). rewrite E. exists (b', n). split; [reflexivity|]. split; [now split|]. unfold clone_fork. cbn [fst snd]. now rewrite KB.
    - intros (b & k) (Gb & Ek). cbn [fst snd] in Gb, Ek. destruct CT as (_ & _ & HF & _). destruct (HF b Gb) as (f & E & Gf). exists (f, k). unfold clone_fork. cbn [fst snd]. rewrite E. split; [reflexivity|]. now split.
    - intros (b & k) f f' ys (Gb & Ek) EF NE FO ES. cbn [fst snd] in Gb, Ek. subst k. unfold clone_fork in EF. cbn [fst snd] in EF. destruct (forkN b) as [fb|] eqn:EB; [|discriminate]. injection EF as <-. rewrite ctrain_seq in * by exact FO.
      destruct (seqtrain train fb (concat ys)) as [gb|] eqn:EG; [|discriminate]. injection ES as <-. unfold clone_join. cbn [fst snd]. destruct CT as (_ & _ & _ & HJ). rewrite (HJ b fb gb (concat ys) Gb EB); [reflexivity| |now apply (concat_fits n)|exact EG].
      destruct ys as [|y ys]; [easy|]. destruct (Forall_inv FO) as (LE & _). destruct y; [cbn in LE; lia|discriminate].
    - now split.
    - rewrite ctrain_seq in B by exact F. destruct (seqtrain train a (concat (flatten t))) as [c|]; [|discriminate]. injection B as <- <-. now exists c.
  Qed.

  (** FlowNode: the nodes before the first training node are executed *)
  Fixpoint wtrain (l : list N) (x : X) : option (list N) :=
    match l with
    | [] => None
    | a :: r => if training a then option_map (fun b => b :: r) (train a x) else option_map (cons a) (wtrain r (exec a x))
    end.
  (** nodes not in training, then a good node; what comes after is not touched *)
  Definition flowgood (pre : list N) (post : list N) (l : list N) : Prop := exists a, l = pre ++ a :: post /\ good a /\ Forall (fun a => training a = false) pre.
  Definition through (pre : list N) (x : X) : X := fold_left (fun x a => exec a x) pre x.
  Lemma wtrain_pre pre : forall a post x, Forall (fun a => training a = false) pre -> training a = true -> wtrain (pre ++ a :: post) x = option_map (fun b => pre ++ b :: post) (train a (through pre x)).
  Proof.
    induction pre as [|p pre IH]; intros a post x F T; cbn [app wtrain]; [now rewrite T|]. rewrite (Forall_inv F), IH by (exact (Forall_inv_tail F) || exact T). cbn [through fold_left]. fold (through pre (exec p x)). now destruct (train a (through pre (exec p x))).
  Qed.
  Section Flow.
    Hypothesis CT : contract.
    Hypothesis NE : forall a, exec_fork a = false.
    Lemma flow_fork_found l : flow_fork N training exec_fork forkN true l = Some l.
    Proof. induction l as [|a l IH]; [reflexivity|]. cbn [flow_fork negb andb orb]. now rewrite NE, IH. Qed.
    Lemma flow_join_found l : forall f, flow_join N training exec_fork joinN true l f = Some l.
    Proof. induction l as [|a l IH]; intros [|b f]; try reflexivity. cbn [flow_join negb andb orb]. now rewrite NE, IH. Qed.
    Lemma flow_fork_pre pre : forall a post, Forall (fun a => training a = false) pre -> training a = true -> flow_fork N training exec_fork forkN false (pre ++ a :: post) = option_map (fun b => pre ++ b :: post) (forkN a).
    Proof.
      induction pre as [|p pre IH]; intros a post F T; cbn [app flow_fork negb andb orb].
      - rewrite T. cbn [orb]. rewrite flow_fork_found. reflexivity.
      - rewrite (Forall_inv F), NE. cbn [orb]. rewrite IH by (exact (Forall_inv_tail F) || exact T). now destruct (forkN a).
    Qed.
    Lemma flow_join_pre pre : forall a b post, Forall (fun a => training a = false) pre -> training b = true ->
      flow_join N training exec_fork joinN false (pre ++ a :: post) (pre ++ b :: post) = option_map (fun c => pre ++ c :: post) (joinN a b).
    Proof.
      induction pre as [|p pre IH]; intros a b post F T; cbn [app flow_join negb andb orb].
      - rewrite T. cbn [orb]. rewrite flow_join_found. reflexivity.
      - rewrite (Forall_inv F), NE. cbn [orb]. rewrite IH by (exact (Forall_inv_tail F) || exact T). now destruct (joinN a b).
    Qed.
    Lemma wseq pre post ys : forall a, Forall (fun a => training a = false) pre -> good a -> Forall (fun x => okx (through pre x)) ys ->
      seqtrain wtrain (pre ++ a :: post) ys = option_map (fun b => pre ++ b :: post) (seqtrain train a (map (through pre) ys)).
    Proof.
      destruct CT as (TT & HT & _). induction ys as [|y ys IH]; intros a F G O; [reflexivity|]. cbn [seqtrain map]. rewrite wtrain_pre by (exact F || now apply TT). destruct (HT a (through pre y) G (Forall_inv O)) as (b & E & Gb & _). rewrite E. cbn [option_map]. apply IH; [exact F|exact Gb|exact (Forall_inv_tail O)].
    Qed.
  End Flow.
  Theorem C294_flow_node : contract -> (forall a, exec_fork a = false) -> forall pre a post t, Forall (fun a => training a = false) pre -> good a -> fed t -> Forall (fun x => okx (through pre x)) (flatten t) ->
    exists b, par wtrain (flow_fork N training exec_fork forkN false) (flow_join N training exec_fork joinN false) t (pre ++ a :: post) = Some (pre ++ b :: post) /\
      seqtrain train a (map (through pre) (flatten t)) = Some b.
  Proof.
    intros CT NE pre a post t FP G FD F. pose proof CT as (TT & HT & HF & HJ).
    destruct (eq_tree wtrain (flow_fork N training exec_fork forkN false) (flow_join N training exec_fork joinN false) (flowgood pre post) (fun x => okx (through pre x))) with (t := t) (s := pre ++ a :: post) as (s & A & B); try assumption.
    - intros l x (b & -> & Gb & _) O. rewrite wtrain_pre by (exact FP || now apply TT). destruct (HT b (through pre x) Gb O) as (b' & E & Gb' & KB). rewrite E. eexists. split; [reflexivity|]. split; [now exists b'|].
      rewrite !(flow_fork_pre NE) by (exact FP || now apply TT). now rewrite KB.
    - intros l (b & -> & Gb & _). rewrite (flow_fork_pre NE) by (exact FP || now apply TT). destruct (HF b Gb) as (f & E & Gf). rewrite E. eexists. split; [reflexivity|]. now exists f.
    - intros l f f' ys (b & -> & Gb & _) EF N0 FO ES. rewrite (flow_fork_pre NE) in EF by (exact FP || now apply TT). destruct (forkN b) as [fb|] eqn:EB; [|discriminate]. injection EF as <-. destruct (HF b Gb) as (fb' & EB' & Gf). assert (fb' = fb) by congruence. subst fb'.
      rewrite (wseq CT) in ES by assumption. rewrite (wseq CT) by assumption. assert (FO' : Forall okx (map (through pre) ys)) by (now apply Forall_map). destruct (seq_good CT fb (map (through pre) ys) Gf FO') as (gb & EG & Gg & _). rewrite EG in ES. injection ES as <-.
      rewrite (flow_join_pre NE) by (exact FP || now apply TT). rewrite (HJ b fb gb (map (through pre) ys) Gb EB); [reflexivity| |exact FO'|exact EG]. destruct ys; [easy|discriminate].
    - now exists a.
    - rewrite (wseq CT) in B by assumption. destruct (seqtrain train a (map (through pre) (flatten t))) as [b|]; [|discriminate]. injection B as <-. now exists b.
  Qed.

  (** ** C295: nodes which need a fork for the execution *)
  Theorem C295_flow_node : forall l f, flow_fork N training exec_fork forkN false l = Some f ->
    Forall2 (fun a b => if exec_fork a then forkN a = Some b else b = a \/ forkN a = Some b) l f /\ (any_exec_fork N exec_fork l = true <-> exists a, In a l /\ exec_fork a = true).
  Proof.
    intros l f E. split; [|unfold any_exec_fork; apply existsb_exists]. revert f E. generalize false as fd. induction l as [|a l IH]; intros fd f E; [injection E as <-; constructor|]. cbn [flow_fork] in E.
    destruct (if negb fd && training a || exec_fork a then forkN a else Some a) as [b|] eqn:EB; [|discriminate]. destruct (flow_fork N training exec_fork forkN (fd || negb fd && training a) l) as [r|] eqn:ER; [|discriminate]. injection E as <-. constructor; [|now apply (IH _ r ER)].
    destruct (exec_fork a); [now rewrite orb_true_r in EB|]. destruct (negb fd && training a); cbn [orb] in EB; [now right|injection EB as <-; now left].
  Qed.
End Containers.
(** the layer says that it needs a fork, but forks none of its nodes *)
Theorem C295_refuted : exists (l f : list nat) (exec_fork : nat -> bool), any_exec_fork nat exec_fork l = true /\ layer_fork nat (fun _ => false) (fun a => Some (a + 10)) l = Some f /\ f = l /\
  layer_join nat (fun _ => false) (fun a b => Some (a + b)) l f = Some l /\ flow_fork nat (fun _ => false) exec_fork (fun a => Some (a + 10)) false l = Some [1; 12; 3].
Proof. exists [1; 2; 3], [1; 2; 3], (Nat.eqb 2). repeat split. Qed.

(** ** C296: the attributes joined for every node *)
Theorem C296_generic : forall s f, let r := generic_join s f in
  (forall d, ge_dtype s = Some d -> ge_dtype r = Some d) /\ (ge_dtype s = None -> ge_dtype r = ge_dtype f) /\ (forall d, ge_in s = Some d -> ge_in r = Some d) /\ (ge_in s = None -> ge_in r = ge_in f) /\
  (forall d, ge_out s = Some d -> ge_out r = Some d) /\ (ge_out s = None -> ge_out r = ge_out f) /\ (ge_started r = true <-> ge_started s = true \/ ge_started f = true).
Proof.
  intros s f r. subst r. unfold generic_join. cbn [ge_dtype ge_in ge_out ge_started]. repeat split; try (intros d E; rewrite E; reflexivity); try (intros E; rewrite E; reflexivity); apply orb_true_iff.
Qed.
Example ex_C296 : generic_join (mkGen None (Some 3) None false) (mkGen (Some 8) (Some 4) (Some 2) true) = mkGen (Some 8) (Some 3) (Some 2) true.
Proof. reflexivity. Qed.

(** PCANode and SFANode satisfy the contract of C294 *)
Lemma pca_contract {K : ofield} : contract (@p_training K) (@ptrain K) (@pfork K) (@pjoin K) (@pca_good K) (fun x => x <> []).
Proof.
  split; [intros s (T & _); exact T|]. split; [intros s x; apply pca_train_good|]. split; [|intros s f f' ys; apply pca_join_seq]. intros s _. eexists. split; [reflexivity|]. split; [reflexivity|]. exists acc_new. now split.
Qed.
Lemma sfa_contract {K : ofield} : contract (@s_training K) (@strain K) (@sfork K) (@sjoin K) (@sfa_good K) (@okcall K).
Proof.
  split; [intros s (T & _); exact T|]. split; [intros s x; apply sfa_train_good|]. split; [|intros s f f' ys; apply sfa_join_seq]. intros s _. eexists. split; [reflexivity|]. split; [reflexivity|]. exists acc_new, acc_new. now split.
Qed.

Section Examples.
  Notation vecQ := (@OField.vec Qc_of).
  (** a tree: the node gets one chunk; the first fork one and its fork one, the second fork two *)
  Definition tr {X} (a b c d e : X) : ptree X := PT [a] [PT [b] [PT [c] []]; PT [d; e] []].
  Lemma tr_fed {X} (a b c d e : X) : fed (tr a b c d e) /\ flatten (tr a b c d e) = [a; b; c; d; e].
  Proof. split; [|reflexivity]. cbn. repeat split; discriminate. Qed.
  Definition ch (l : list (Q * Q)) : list vecQ := map (fun p => p2 (fst p) (snd p)) l.
  Definition macc (a : @acc Qc_of) : list Q * list Q * nat := ([this (a_m a 0%nat 0%nat); this (a_m a 0%nat 1%nat); this (a_m a 1%nat 1%nat)], [this (a_s a 0%nat); this (a_s a 1%nat)], a_n a).
  Definition t5 : ptree (list vecQ) := tr (ch [(1, 2)]%Q) (ch [(2, 0); (1, 1)]%Q) (ch [(3, 1)]%Q) (ch [(0, 1)]%Q) (ch [(1 # 2, 4)]%Q).
  Example ex_C283 : option_map (fun s => option_map macc (p_acc s)) (par (@ptrain Qc_of) (@pfork Qc_of) (@pjoin Qc_of) t5 (pca_new ONone)) = Some (Some ([61 # 4; 8; 23]%Q, [15 # 2; 9]%Q, 6%nat)) /\
    option_map (fun s => option_map macc (p_acc s)) (seqtrain (@ptrain Qc_of) (pca_new ONone) (rev (flatten t5))) = Some (Some ([61 # 4; 8; 23]%Q, [15 # 2; 9]%Q, 6%nat)).
  Proof. split; vm_compute; reflexivity. Qed.
  Definition ts5 : ptree (@scall Qc_of) := tr (ch [(1, 2); (2, 2)]%Q, None) (ch [(2, 0); (1, 1)]%Q, Some false) (ch [(3, 1); (3, 3); (1, 0)]%Q, None) (ch [(0, 1); (5, 1)]%Q, Some true) (ch [(1 # 2, 4); (0, 0)]%Q, None).
  Definition saccs (s : @sfa Qc_of) := option_map (fun p => (macc (fst p), macc (snd p))) (s_accs s).
  Example ex_C284 : option_map saccs (par (@strain Qc_of) (@sfork Qc_of) (@sjoin Qc_of) ts5 (sfa_new None true MReg)) = option_map saccs (seqtrain (@strain Qc_of) (sfa_new None true MReg) (rev (flatten ts5))) /\
    option_map saccs (par (@strain Qc_of) (@sfork Qc_of) (@sjoin Qc_of) ts5 (sfa_new None true MReg)) = Some (Some (([213 # 4; 25; 36]%Q, [35 # 2; 14]%Q, 10%nat), ([125 # 4; 7; 30]%Q, [5 # 2; -4]%Q, 6%nat))).
  Proof. split; vm_compute; reflexivity. Qed.
  Definition va : @vcall Qc_of := ([p1 1; p1 (-1); p1 1], INone, true).
  Definition vb : @vcall Qc_of := ([p1 (-1); p1 1; p1 (-1)], con 2, true).
  Definition tv : ptree (@vcall Qc_of) := PT [] [PT [va] []; PT [vb] []].
  Definition vstop (s : option (@vsfa Qc_of)) : option (Q * Q * list Q * sres unit) := option_map (fun s => let r := v_stop 1 (@solvers Qc_of eQ sQ rQ tQ 1) s false in (lens (fst r), ds (fst r), snd r)) s.
  Theorem C286_refuted : fed tv /\ Forall okvc (flatten tv) /\ vstop (par (vtrain zj) (@vfork Qc_of) (@vjoin Qc_of) tv (vsfa_new None MNone)) = Some (6, 3, [2], SOk tt)%Q /\
    vstop (seqtrain (vtrain zj) (vsfa_new None MNone) (flatten tv)) = Some (8, 7, [13 # 7], SOk tt)%Q.
  Proof. split; [cbn; repeat split; discriminate|]. split; [repeat (constructor || (cbn; lia) || reflexivity)|]. split; vm_compute; reflexivity. Qed.
  Example ex_C286 : cut tv = [(fst va, false); (fst vb, false)] /\ vstop (seqtrain (vtrain zj) (vsfa_new None MNone) (cut tv)) = Some (6, 3, [2], SOk tt)%Q.
  Proof. split; [reflexivity|vm_compute; reflexivity]. Qed.
  Definition f5 : ptree (@fcall Qc_of) := tr (ch [(2, 1)]%Q, One 0%nat) (ch [(2, -1)]%Q, One 0%nat) (ch [(0, 0)]%Q, One 0%nat) (ch [(-2, -1)]%Q, One 1%nat) (ch [(-2, 1)]%Q, Each [1]%nat).
  Definition frunp : option (list (option (list Q * nat)) * fres unit * (list (list Q) * list Q * option nat)) :=
    match par (ftrain lset) (@ffork Qc_of) (@fjoin Qc_of) f5 (fda_new None) with
    | Some s0 => let s1 := fst (fda_stop 2 F2 s0) in match par (ftrain lset) (@ffork Qc_of) (@fjoin Qc_of) f5 s1 with Some s2 => let r := fda_stop 2 F2 s2 in Some (map (mshow s1) [0; 1; 2]%nat, snd r, fshow (fst r)) | None => None end
    | None => None
    end.
  Example ex_C287 : frunp = Some ([Some ([4 # 3; 0]%Q, 3%nat); Some ([-2; 0]%Q, 2%nat); None], FOk tt, ([[1 # 2; 0]; [0; 1]]%Q, [0; 0]%Q, Some 2%nat)) /\ Forall okfit (flatten f5).
  Proof. split; [vm_compute; reflexivity|]. repeat constructor; discriminate. Qed.
  Example ex_C285 : option_map (fun s => (ni_data s, nip_stop_data s)) (par ntrain nfork njoin (tr [1] [2; 3] [4] [5] [6]) (nip_new None)) = Some ([[1]], NOk [1])%nat.
  Proof. reflexivity. Qed.
  Example ex_C288 : par htrain hfork hjoin (tr [1] [2; 3] [4] [5] [6]) None = Some (Some [1; 2; 3; 4; 5; 6])%nat.
  Proof. reflexivity. Qed.
  Definition q_ (z : Z) : Qc := Q2Qc (inject_Z z).
  Definition lt5 : ptree (@lcall nat) := tr ([[q_ 0]; [q_ 5]], Listed [7; 8]) ([[q_ 1]], Single 7) ([[q_ 4]; [q_ 2]; [q_ 6]], Arrayed [8; 7; 9]) ([[q_ 3]], Single 9) ([[q_ 6]], Single 8).
  Definition ec : list nat -> list nat := nodup Nat.eq_dec.
  Definition nshow (s : list (nat * (ClassModel.vec * nat))) : list (nat * list Q * nat) := map (fun e => (fst e, map this (fst (snd e)), snd (snd e))) s.
  Example ex_C290 : Forall (okl Nat.eq_dec ec) (flatten lt5) /\
    option_map nshow (par (nmtrain Nat.eq_dec ec 1) (fun _ => Some []) (fun s f => Some (nm_join Nat.eq_dec s f)) lt5 []) = Some [(7, [3]%Q, 3); (8, [15]%Q, 3); (9, [9]%Q, 2)]%nat /\
    option_map nshow (seqtrain (nmtrain Nat.eq_dec ec 1) [] (flatten lt5)) = Some [(7, [3]%Q, 3); (8, [15]%Q, 3); (9, [9]%Q, 2)]%nat.
  Proof. split; [repeat constructor; discriminate|]. split; vm_compute; reflexivity. Qed.
  Example ex_C291 : option_map (map (fun e : nat * list (list ClassModel.vec) => (fst e, map (fun v => map this v) (concat (snd e))))) (par (knntrain Nat.eq_dec ec) (fun _ => Some []) (fun s f => Some (knn_join Nat.eq_dec s f)) lt5 []) =
    Some [(7%nat, [[0]; [1]; [2]]); (8%nat, [[5]; [4]; [6]]); (9%nat, [[6]; [3]])]%Q.
  Proof. vm_compute. reflexivity. Qed.
  Example ex_C289 : option_map (fun s => map (fun e : nat * cov => (fst e, c_tlen (snd e), match c_acc (snd e) with Some (m, u) => (this (m 0%nat 0%nat), this (u 0%nat)) | None => (0, 0)%Q end)) (g_objs s))
      (par (gtrain Nat.eq_dec ec) (fun _ => Some gauss_init) (gjoin Nat.eq_dec) lt5 gauss_init) = Some [(7%nat, 3%nat, (5, 3)%Q); (8%nat, 3%nat, (77, 15)%Q); (9%nat, 2%nat, (45, 9)%Q)].
  Proof. vm_compute. reflexivity. Qed.
  (** a layer of two nodes, the second one already trained; a CloneLayer of two nodes *)
  Definition idle : @pca Qc_of := @mkP Qc_of None None None 0 (fun _ => Q2Qc 0) [] [] (Q2Qc 0) None true false.
  Definition lay : ptree (list (list vecQ)) := tr [ch [(1, 2)]%Q; ch [(7, 7)]%Q] [ch [(2, 0); (1, 1)]%Q; ch [(7, 7)]%Q] [ch [(3, 1)]%Q; ch [(7, 7)]%Q] [ch [(0, 1)]%Q; ch [(7, 7)]%Q] [ch [(1 # 2, 4)]%Q; ch [(7, 7)]%Q].
  Example ex_C294 : option_map (map (fun s => (p_training s, option_map macc (p_acc s)))) (par (ltrain (@p_training Qc_of) (@ptrain Qc_of)) (layer_fork _ (@p_training Qc_of) (@pfork Qc_of)) (layer_join _ (@p_training Qc_of) (@pjoin Qc_of)) lay [pca_new ONone; idle]) =
      Some [(true, Some ([61 # 4; 8; 23]%Q, [15 # 2; 9]%Q, 6%nat)); (false, None)] /\
    option_map (fun c => (option_map macc (p_acc (fst c)), snd c)) (par (ctrain (@ptrain Qc_of)) (clone_fork _ (@pfork Qc_of)) (clone_join _ (@pjoin Qc_of)) lay (pca_new ONone, 2%nat)) =
      Some (Some ([1041 # 4; 253; 268]%Q, [85 # 2; 44]%Q, 11%nat), 2%nat).
  Proof. split; vm_compute; reflexivity. Qed.
  (** a flow of a node not in training and a PCANode: here executing doubles the chunk *)
  Example ex_C294_flow : option_map (map (fun s => option_map macc (p_acc s))) (par (wtrain (@p_training Qc_of) (@ptrain Qc_of) (fun _ x => x ++ x)) (flow_fork _ (@p_training Qc_of) (fun _ => false) (@pfork Qc_of) false)
      (flow_join _ (@p_training Qc_of) (fun _ => false) (@pjoin Qc_of) false) t5 [idle; pca_new (OInt 1); pca_new ONone]) = Some [None; Some ([61 # 2; 16; 46]%Q, [15; 18]%Q, 12%nat); Some ([0; 0; 0]%Q, [0; 0]%Q, 0%nat)].
  Proof. vm_compute. reflexivity. Qed.
  Example ex_C282 : option_map (fun s => p_out (pca_fork s)) (seqtrain (@ptrain Qc_of) (pca_new (OInt 1)) (flatten t5)) = Some (Some 1%nat) /\ s_incl (sfa_fork (@sfa_new Qc_of (Some 2%nat) false MReg)) = false /\
    s_meth (sfa_fork (@sfa_new Qc_of (Some 2%nat) false MReg)) = MNone.
  Proof. repeat split. Qed.
  (** the first join of a fork without data is harmless, after data it fails *)
  Example ex_C292 : snd (pca_join (@pca_new Qc_of ONone) (pca_new ONone)) = JOk /\ option_map (fun s => snd (pca_join s (pca_fork s))) (ptrain (@pca_new Qc_of ONone) (ch [(1, 2)]%Q)) = Some (JErr JType).
  Proof. split; reflexivity. Qed.
End Examples.
