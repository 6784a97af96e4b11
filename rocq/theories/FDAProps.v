(** Properties of FDANode: C229-C236. *)
From Coq Require Import List Arith ZArith QArith Qcanon Bool Lia Sorting.Sorted Field Permutation FunctionalExtensionality.
From Verif Require Import OField LinAlg PCAModel PCAProofs GenEig SymeigModel SymeigProofs SymeigProps SFAModel SFAProps FDAModel.
Import ListNotations.
Open Scope nat_scope.

Section Props.
  Context {K : ofield}.
  Add Field Kw : (fth K).
  Notation vec := (vec (K := K)). Notation mtx := (mtx (K := K)). Notation acc := (acc (K := K)). Notation fda := (fda (K := K)).
  Context (dim : nat) (labset : list nat -> list nat) (solver : option (Z * Z) -> mtx -> mtx -> solres K vec) (pinv : list vec -> list vec).
  Hypothesis labset_ok : forall ls, NoDup (labset ls) /\ forall l, In l (labset ls) <-> In l ls.
  Notation train := (fda_train labset). Notation trains := (fda_trains labset). Notation stop := (fda_stop dim solver).
  Definition fcall := (list vec * labels)%type.
  (** the labelled observations *)
  Definition pairs (c : fcall) : list (vec * nat) := combine (fst c) (match snd c with One l => repeat l (length (fst c)) | Each ls => ls end).
  Definition data (calls : list fcall) : list (vec * nat) := concat (map pairs calls).
  Definition class (l : nat) (ps : list (vec * nat)) : list vec := map fst (filter (fun p => snd p =? l) ps).
  Definition good (c : fcall) : Prop := fst c <> [] /\ labels_fit (snd c) (fst c) = true.

  Lemma class_app l ps qs : class l (ps ++ qs) = class l ps ++ class l qs. Proof. unfold class. now rewrite filter_app, map_app. Qed.
  Lemma class_perm l ps qs : Permutation ps qs -> Permutation (class l ps) (class l qs).
  Proof.
    intros P. apply Permutation_map. induction P as [|a p q P IH|a b p|p q r P1 IH1 P2 IH2]; cbn; [constructor| | |now transitivity (filter (fun p => snd p =? l) q)].
    - destruct (snd a =? l); [now constructor|exact IH].
    - destruct (snd a =? l), (snd b =? l); try apply Permutation_refl. apply perm_swap.
  Qed.
  Lemma class_nil l ps : class l ps = [] <-> ~ In l (map snd ps).
  Proof.
    unfold class. split.
    - intros H I. apply in_map_iff in I. destruct I as (p & <- & I). assert (X : In p (filter (fun q => snd q =? snd p) ps)) by (apply filter_In; split; [exact I|apply Nat.eqb_refl]).
      apply (in_map fst) in X. rewrite H in X. destruct X.
    - intros H. destruct (filter (fun p => snd p =? l) ps) as [|p r] eqn:E; [reflexivity|]. exfalso. apply H. assert (X : In p (filter (fun p => snd p =? l) ps)) by (rewrite E; now left).
      apply filter_In in X. destruct X as [I L]. apply Nat.eqb_eq in L. subst. now apply in_map.
  Qed.
  Lemma group_perm (ps : list (vec * nat)) : forall L, NoDup L -> (forall p, In p ps -> In (snd p) L) -> Permutation ps (concat (map (fun l => filter (fun p => snd p =? l) ps) L)).
  Proof.
    intros L. revert ps. induction L as [|a L IH]; intros ps ND H.
    - destruct ps as [|p ps]; [constructor|]. destruct (H p (or_introl eq_refl)).
    - inversion ND as [|? ? NI ND']; subst. cbn [map concat]. set (q := filter (fun p : vec * nat => negb (snd p =? a)) ps).
      assert (P : Permutation ps (filter (fun p => snd p =? a) ps ++ q)).
      { unfold q. clear. induction ps as [|p ps IH]; cbn; [constructor|]. destruct (snd p =? a); cbn [negb]; [now constructor|]. now apply Permutation_cons_app. }
      transitivity (filter (fun p => snd p =? a) ps ++ q); [exact P|]. apply Permutation_app_head.
      rewrite (IH q ND'). 2:{ intros p I. unfold q in I. apply filter_In in I. destruct I as [I N]. destruct (H p I) as [E|I']; [|exact I']. rewrite <- E, Nat.eqb_refl in N. discriminate. }
      assert (E : forall M, (forall l, In l M -> l <> a) -> map (fun l => filter (fun p => snd p =? l) q) M = map (fun l => filter (fun p => snd p =? l) ps) M).
      { intros M HM. apply map_ext_in. intros l Il. unfold q. clear - HM Il. specialize (HM l Il). induction ps as [|p ps IH]; cbn; [reflexivity|]. destruct (Nat.eqb_spec (snd p) a) as [E|E]; cbn [negb].
        - destruct (Nat.eqb_spec (snd p) l); [congruence|exact IH].
        - cbn. destruct (snd p =? l); [now rewrite IH|exact IH]. }
      rewrite E; [apply Permutation_refl|]. intros l Il ->. contradiction.
  Qed.
  (** ** the first phase *)
  Definition sums (ps : list (vec * nat)) : nat -> option (vec * nat) := fun l => match class l ps with [] => None | c => Some (colsum c, length c) end.
  Lemma groups_nodup lb (x : list vec) : NoDup (map fst (groups labset lb x)).
  Proof. destruct lb as [l|ls]; cbn [groups map]; [repeat constructor; intros []|]. rewrite map_map. cbn [fst]. rewrite map_id. apply labset_ok. Qed.
  Lemma groups_class c l y : good c -> In (l, y) (groups labset (snd c) (fst c)) -> y = class l (pairs c) /\ y <> [].
  Proof.
    destruct c as [x [l'|ls]]; intros [NE F] I; cbn [fst snd groups labels_fit] in *.
    - destruct I as [I|[]]. injection I as <- <-. split; [|exact NE]. unfold class, pairs. cbn [fst snd]. clear. induction x as [|a x IH]; [reflexivity|]. cbn. rewrite Nat.eqb_refl. cbn. now rewrite <- IH.
    - apply in_map_iff in I. destruct I as (l0 & E & I). injection E as <- <-. split; [reflexivity|]. apply (labset_ok ls) in I. apply Nat.eqb_eq in F. intros N.
      apply class_nil in N. apply N. clear - I F. revert ls F I. induction x as [|a x IH]; intros [|b ls] F I; cbn in *; try lia; try contradiction. destruct I as [<-|I]; [now left|right]. apply IH; [lia|exact I].
  Qed.
  Lemma pairs_snd c l : good c -> In l (map snd (pairs c)) -> exists y, In (l, y) (groups labset (snd c) (fst c)).
  Proof.
    destruct c as [x [l'|ls]]; intros [NE F] I; cbn [fst snd groups pairs] in *.
    - exists x. left. f_equal. unfold pairs in I. cbn [fst snd] in I. apply in_map_iff in I. destruct I as ([a b] & <- & I). cbn. apply in_combine_r in I. apply repeat_spec in I. now symmetry.
    - eexists. apply in_map_iff. exists l. split; [reflexivity|]. apply labset_ok. unfold pairs in I. cbn [fst snd] in I. apply in_map_iff in I. destruct I as ([a b] & <- & I). cbn. now apply in_combine_r in I.
  Qed.
  Lemma fold_means (gs : list (nat * list vec)) : forall d l, NoDup (map fst gs) ->
    fold_left update_means gs d l = match find (fun g => fst g =? l) gs with
      | None => d l
      | Some g => let (m, n) := match d l with Some e => e | None => ((fun _ => f0) : vec, 0) end in Some ((fun i => m i + colsum (snd g) i)%of : vec, n + length (snd g)) end.
  Proof.
    induction gs as [|g gs IH]; intros d l ND; [reflexivity|]. cbn [map] in ND. inversion ND as [|? ? NI ND']; subst. cbn [fold_left find]. rewrite IH by exact ND'.
    destruct (Nat.eqb_spec (fst g) l) as [E|E].
    - replace (find (fun g => fst g =? l) gs) with (@None (nat * list vec)); [unfold update_means; subst l; now rewrite Nat.eqb_refl|].
      symmetry. destruct (find _ gs) as [h|] eqn:F; [|reflexivity]. exfalso. apply find_some in F. destruct F as [I L]. apply Nat.eqb_eq in L. apply NI. rewrite E, <- L. now apply in_map.
    - assert (U : update_means d g l = d l) by (unfold update_means; destruct (Nat.eqb_spec l (fst g)); congruence). now rewrite U.
  Qed.
  Lemma means_step c ps : good c -> fold_left update_means (groups labset (snd c) (fst c)) (sums ps) = sums (ps ++ pairs c).
  Proof.
    intros G. extensionality l. rewrite fold_means by apply groups_nodup. unfold sums. rewrite class_app. destruct (find (fun g => fst g =? l) (groups labset (snd c) (fst c))) as [[l' y]|] eqn:F.
    - apply find_some in F. destruct F as [I L]. cbn [fst] in L. apply Nat.eqb_eq in L. subst l'. destruct (groups_class c l y G I) as [-> NE]. cbn [snd]. set (cc := class l (pairs c)) in *. clearbody cc.
      destruct (class l ps) as [|a r]; cbn [app].
      + destruct cc as [|b q]; [now destruct NE|]. cbn [plus]. do 2 f_equal. extensionality i. unfold colsum. cbn [map fsum]. ring.
      + do 2 f_equal; [|cbn [length]; now rewrite app_length]. extensionality i. unfold colsum. change (a :: r ++ cc) with ((a :: r) ++ cc). now rewrite map_app, fsum_app.
    - assert (N : class l (pairs c) = []). { apply class_nil. intros I. destruct (pairs_snd c l G I) as [y Iy]. apply (find_none _ _ F) in Iy. cbn [fst] in Iy. now rewrite Nat.eqb_refl in Iy. }
      now rewrite N, app_nil_r.
  Qed.
  Lemma fits c s s' : train s (fst c) (snd c) = (s', FOk tt) -> good c.
  Proof.
    unfold fda_train. destruct (2 <=? f_phase s); [discriminate|]. destruct (Nat.eqb_spec (length (fst c)) 0) as [|L]; [discriminate|]. destruct (labels_fit (snd c) (fst c)) eqn:F; cbn [negb]; [|discriminate].
    intros _. split; [intros E; rewrite E in L; now apply L|exact F].
  Qed.
  Lemma trains1 calls : forall s ps s', f_phase s = 0 -> f_means s = sums ps -> trains s calls = (s', FOk tt) ->
    s' = mkF (f_out s) (sums (ps ++ data calls)) 0 (match calls with [] => f_started s | _ => true end) (f_all s) (f_sw s) (f_v s) (f_avg s) /\ Forall good calls.
  Proof.
    induction calls as [|c r IH]; intros s ps s' PH HM H; cbn [fda_trains] in H.
    - injection H as <-. split; [|constructor]. unfold data. cbn [map concat]. rewrite app_nil_r, <- HM, <- PH. now destruct s.
    - destruct c as [x lb]. destruct (train s x lb) as [s1 [[]|e]] eqn:E; [|discriminate]. pose proof (fits (x, lb) s s1 E) as G.
      assert (E1 : s1 = mkF (f_out s) (sums (ps ++ pairs (x, lb))) 0 true (f_all s) (f_sw s) (f_v s) (f_avg s)).
      { unfold fda_train in E. rewrite PH in E. cbn [Nat.leb Nat.eqb] in E. destruct (length x =? 0); [discriminate|]. destruct (labels_fit lb x); cbn [negb] in E; [|discriminate]. injection E as <-. f_equal. rewrite HM. exact (means_step (x, lb) ps G). }
      subst s1. apply (IH _ (ps ++ pairs (x, lb))) in H; [|reflexivity|reflexivity]. cbn [f_out f_started f_all f_sw f_v f_avg] in H. destruct H as [-> F]. split; [|now constructor].
      unfold data. cbn [map concat]. rewrite app_assoc. f_equal. now destruct r.
  Qed.
  (** ** C229: the class means *)
  Theorem C229_means : forall out calls s1 s2 l, trains (fda_new out) calls = (s1, FOk tt) -> stop s1 = (s2, FOk tt) ->
    match f_means s2 l with None => class l (data calls) = [] | Some (m, n) => n = length (class l (data calls)) /\ 0 < n /\ forall i, m i = dmean (class l (data calls)) i end.
  Proof.
    intros out calls s1 s2 l H1 H2. destruct (trains1 calls (fda_new out) [] s1 eq_refl eq_refl H1) as [-> G]. cbn [fda_new f_out f_started f_all f_sw f_v f_avg app] in H2. unfold fda_stop in H2. cbn [f_phase f_started] in H2.
    destruct calls as [|c r]; [discriminate|]. cbn [Nat.ltb Nat.leb negb andb Nat.eqb] in H2. injection H2 as <-. cbn [f_means]. unfold sums. destruct (class l (data (c :: r))) as [|a q]; [reflexivity|]. cbn [option_map divide fst snd].
    split; [reflexivity|]. split; [cbn; lia|]. intros i. reflexivity.
  Qed.
  Theorem C229_total : forall out calls, calls <> [] -> Forall good calls -> exists s1 s2, trains (fda_new out) calls = (s1, FOk tt) /\ stop s1 = (s2, FOk tt).
  Proof.
    intros out calls NE F. assert (G : forall calls s, f_phase s = 0 -> Forall good calls -> exists s1, trains s calls = (s1, FOk tt) /\ f_phase s1 = 0 /\ (calls <> [] -> f_started s1 = true)).
    { clear. induction calls as [|[x lb] r IH]; intros s PH F; [exists s; repeat split; [exact PH|congruence]|]. inversion F as [|? ? [N L] F']; subst. cbn [fst snd] in *. cbn [fda_trains]. unfold fda_train. rewrite PH, L. cbn [Nat.leb Nat.eqb negb].
      destruct (Nat.eqb_spec (length x) 0) as [Z|Z]; [destruct x; [now destruct N|discriminate]|]. destruct (IH (mkF (f_out s) (fold_left update_means (groups labset lb x) (f_means s)) 0 true (f_all s) (f_sw s) (f_v s) (f_avg s)) eq_refl F') as (s1 & H1 & H2 & H3).
      exists s1. split; [exact H1|]. split; [exact H2|]. intros _. destruct r as [|c r]; [injection H1 as <-; reflexivity|apply H3; discriminate]. }
    destruct (G calls (fda_new out) eq_refl F) as (s1 & H1 & H2 & H3). specialize (H3 NE). exists s1. eexists. split; [exact H1|]. unfold fda_stop. rewrite H2, H3. cbn [Nat.ltb Nat.leb negb andb Nat.eqb]. reflexivity.
  Qed.

  (** ** the second phase *)
  Definition trained (out : option nat) (calls1 calls2 : list fcall) (s : fda) : Prop :=
    exists s1 s2 s3, trains (fda_new out) calls1 = (s1, FOk tt) /\ stop s1 = (s2, FOk tt) /\ trains s2 calls2 = (s3, FOk tt) /\ stop s3 = (s, FOk tt).
  Definition mu (ps : list (vec * nat)) (l : nat) : vec := dmean (class l ps).
  (** scatter of the points of ps around the class means of qs *)
  Definition scatter (qs ps : list (vec * nat)) : mtx := fun i j => fsum (map (fun p : vec * nat => (fst p i - mu qs (snd p) i) * (fst p j - mu qs (snd p) j))%of ps).
  Definition smeans (qs : list (vec * nat)) : nat -> option (vec * nat) := fun l => option_map divide (sums qs l).
  Lemma smeans_some qs l m n : smeans qs l = Some (m, n) -> m = mu qs l.
  Proof. unfold smeans, sums, mu. destruct (class l qs) as [|a r]; [discriminate|]. cbn [option_map divide fst snd]. intros H. injection H as <- _. reflexivity. Qed.
  Lemma sw_groups qs gs : forall w w', update_sw (smeans qs) w gs = (w', FOk tt) ->
    (forall i j, w' i j = w i j + fsum (map (fun g => fsum (map (fun v : vec => (v i - mu qs (fst g) i) * (v j - mu qs (fst g) j)) (snd g))) gs))%of /\ Forall (fun g => class (fst g) qs <> []) gs.
  Proof.
    induction gs as [|[l y] gs IH]; intros w w' H; cbn [update_sw] in H.
    - injection H as <-. split; [intros; cbn; ring|constructor].
    - destruct (smeans qs l) as [[m n]|] eqn:E; [|discriminate]. pose proof (smeans_some _ _ _ _ E) as ->. apply IH in H. destruct H as [H F]. split; [|constructor; [|exact F]].
      + intros i j. rewrite H. cbn [map fsum fst snd]. ring.
      + cbn [fst]. unfold smeans, sums in E. destruct (class l qs); [discriminate|discriminate].
  Qed.
  Lemma groups_sum c (f : nat -> vec -> K) : good c -> fsum (map (fun g => fsum (map (f (fst g)) (snd g))) (groups labset (snd c) (fst c))) = fsum (map (fun p => f (snd p) (fst p)) (pairs c)).
  Proof.
    destruct c as [x [l|ls]]; intros [NE F]; cbn [fst snd groups] in *.
    - cbn [map fsum fst snd]. unfold pairs. cbn [fst snd]. transitivity (fsum (map (f l) x)); [ring|]. clear. induction x as [|a x IH]; [reflexivity|]. cbn. now rewrite <- IH.
    - rewrite map_map. cbn [fst snd]. unfold pairs. cbn [fst snd]. set (ps := combine x ls).
      destruct (labset_ok ls) as [ND HI]. assert (P : Permutation ps (concat (map (fun l => filter (fun p => snd p =? l) ps) (labset ls)))).
      { apply group_perm; [exact ND|]. intros [a b] I. apply HI. now apply in_combine_r in I. }
      rewrite (fsum_perm _ _ (Permutation_map (fun p => f (snd p) (fst p)) P)). clear. induction (labset ls) as [|l L IH]; [reflexivity|]. cbn [map concat fsum]. rewrite map_app, fsum_app, <- IH. f_equal.
      rewrite map_map. apply fsum_map_ext. intros p I. apply filter_In in I. destruct I as [_ I]. apply Nat.eqb_eq in I. now rewrite I.
  Qed.
  Lemma groups_known c qs : good c -> Forall (fun g => class (fst g) qs <> []) (groups labset (snd c) (fst c)) -> forall l, In l (map snd (pairs c)) -> class l qs <> [].
  Proof. intros G F l I. destruct (pairs_snd c l G I) as [y Iy]. rewrite Forall_forall in F. exact (F _ Iy). Qed.
  Lemma pairs_fst c : good c -> map fst (pairs c) = fst c.
  Proof.
    destruct c as [x [l|ls]]; intros [NE F]; unfold pairs; cbn [fst snd].
    - clear. induction x as [|a x IH]; [reflexivity|]. cbn. now rewrite IH.
    - cbn [labels_fit snd fst] in F. apply Nat.eqb_eq in F. clear NE. revert ls F. clear. induction x as [|a x IH]; intros [|b ls] F; cbn in *; try lia; [reflexivity|]. now rewrite IH by lia.
  Qed.
  Lemma data_fst calls : Forall good calls -> map fst (data calls) = concat (map fst calls).
  Proof. induction 1 as [|c r G F IH]; [reflexivity|]. unfold data in *. cbn [map concat]. now rewrite map_app, IH, pairs_fst. Qed.
  Lemma trains2 qs calls : forall s a w s', f_phase s = 1 -> f_means s = smeans qs -> f_all s = Some a -> f_sw s = Some w -> trains s calls = (s', FOk tt) -> calls <> [] ->
    s' = mkF (f_out s) (smeans qs) 1 true (Some (fold_left acc_update (map fst calls) a)) (Some (Some (fun i j => match w with Some w => w i j | None => f0 end + scatter qs (data calls) i j)%of)) (f_v s) (f_avg s) /\
    Forall good calls /\ forall l, In l (map snd (data calls)) -> class l qs <> [].
  Proof.
    induction calls as [|c r IH]; intros s a w s' PH HM HA HW H NE; [now destruct NE|]. destruct c as [x lb]. cbn [fda_trains] in H. destruct (train s x lb) as [s1 [[]|e]] eqn:E; [|discriminate]. pose proof (fits (x, lb) s s1 E) as G.
    unfold fda_train in E. rewrite PH, HA, HW, HM in E. cbn [Nat.leb Nat.eqb] in E. destruct (length x =? 0); [discriminate|]. destruct (labels_fit lb x); cbn [negb] in E; [|discriminate].
    set (w0 := match w with Some w => w | None => fun _ _ => f0 end) in *. destruct (update_sw (smeans qs) w0 (groups labset lb x)) as [w1 rr] eqn:EU. injection E as <- ->.
    apply sw_groups in EU. destruct EU as [EU EF]. pose proof (groups_known (x, lb) qs G EF) as KN.
    assert (E1 : w1 = (fun i j => w0 i j + scatter qs (pairs (x, lb)) i j)%of).
    { extensionality i. extensionality j. rewrite EU. f_equal. exact (groups_sum (x, lb) (fun l v => ((v i - mu qs l i) * (v j - mu qs l j))%of) G). }
    assert (SC : forall i j, scatter qs (data ((x, lb) :: r)) i j = (scatter qs (pairs (x, lb)) i j + scatter qs (data r) i j)%of) by (intros; unfold scatter, data; cbn [map concat]; now rewrite map_app, fsum_app).
    destruct r as [|c r].
    - injection H as <-. split; [|split; [constructor; [exact G|constructor]|]].
      + assert (E2 : w1 = (fun i j => match w with Some w => w i j | None => f0 end + scatter qs (data [(x, lb)]) i j)%of).
        { rewrite E1. extensionality i. extensionality j. rewrite SC. unfold scatter at 3. cbn [data map concat fsum]. unfold w0. destruct w; ring. }
        rewrite E2. reflexivity.
      + unfold data. cbn [map concat]. rewrite app_nil_r. exact KN.
    - apply (IH _ (acc_update a x) (Some w1)) in H; try reflexivity; [|discriminate]. cbn [f_out f_v f_avg] in H. destruct H as (-> & F & KN'). split; [|split; [constructor; assumption|]].
      + assert (E2 : (fun i j => (w1 i j + scatter qs (data (c :: r)) i j)%of) = (fun i j => match w with Some w => w i j | None => f0 end + scatter qs (data ((x, lb) :: c :: r)) i j)%of).
        { rewrite E1. extensionality i. extensionality j. rewrite SC. unfold w0. destruct w; ring. }
        rewrite E2. reflexivity.
      + intros l. unfold data. cbn [map concat]. rewrite map_app. intros I. apply in_app_or in I. destruct I as [I|I]; [now apply KN|now apply KN'].
  Qed.
  Lemma trained_ok out calls1 calls2 s : trained out calls1 calls2 s ->
    Forall good calls1 /\ Forall good calls2 /\ (forall l, In l (map snd (data calls2)) -> class l (data calls1) <> []) /\
    (exists dfc d, solver (range_of out) (scatter (data calls1) (data calls2)) (fst (acc_fix true (accs (map fst calls2)))) = SolOk dfc d (f_v s)) /\
    f_avg s = snd (acc_fix true (accs (map fst calls2))) /\ f_out s = Some (match out with Some k => k | None => dim end) /\ f_means s = smeans (data calls1) /\ f_phase s = 2 /\
    s = mkF (f_out s) (f_means s) 2 false None None (f_v s) (f_avg s).
  Proof.
    intros (s1 & s2 & s3 & H1 & H2 & H3 & H4). destruct (trains1 calls1 (fda_new out) [] s1 eq_refl eq_refl H1) as [-> G1]. cbn [fda_new f_out f_started f_all f_sw f_v f_avg app] in H2. unfold fda_stop in H2. cbn [f_phase f_started] in H2.
    destruct calls1 as [|c1 r1]; [discriminate|]. cbn [Nat.ltb Nat.leb negb andb Nat.eqb f_out f_means f_all f_sw f_v f_avg] in H2. injection H2 as <-. set (qs := data (c1 :: r1)) in *. fold (smeans qs) in H3.
    destruct calls2 as [|c2 r2]; [injection H3 as <-; discriminate|]. destruct (trains2 qs (c2 :: r2) (mkF out (smeans qs) 1 false (Some acc_new) (Some None) [] (fun _ => f0)) acc_new None s3 eq_refl eq_refl eq_refl eq_refl H3 ltac:(discriminate)) as (-> & G2 & KN).
    unfold fda_stop in H4. cbn [f_phase f_started f_all f_sw f_out f_means f_v f_avg Nat.ltb Nat.leb negb andb Nat.eqb] in H4. fold (accs (map fst (c2 :: r2))) in H4.
    destruct (acc_fix true (accs (map fst (c2 :: r2)))) as [st avg] eqn:EF.
    assert (EW : (fun i j => (f0 + scatter qs (data (c2 :: r2)) i j)%of) = scatter qs (data (c2 :: r2))) by (extensionality i; extensionality j; ring). rewrite EW in H4.
    fold (range_of out) in H4. destruct (solver (range_of out) (scatter qs (data (c2 :: r2))) st) as [dfc d v| |] eqn:ES; try discriminate. injection H4 as <-. cbn [f_v f_avg f_out f_means f_phase].
    split; [exact G1|]. split; [exact G2|]. split; [exact KN|]. split; [exists dfc, d; exact ES|]. repeat split.
  Qed.

  (** ** C230: the outputs *)
  (** contract of the solver, as for SFANode *)
  Definition fsolver : method -> option (Z * Z) -> nat -> mtx -> mtx -> solres K vec := fun _ rng _ A B => solver rng A B.
  Notation fsolver_ok A B := (solver_ok dim fsolver MNone A B).
  Notation fsolver_complete A B := (solver_complete dim fsolver MNone A B).
  Definition fout (s : fda) (k : nat) (x : vec) : K := nth k (fda_execute dim s None x) f0.
  Definition points (ps : list (vec * nat)) : list vec := map fst ps.
  Definition tcov (calls : list fcall) : mtx := fst (acc_fix true (accs (map fst calls))).
  Lemma tcov_eq calls i j : Forall good calls -> 2 <= length (data calls) -> tcov calls i j = dcov (points (data calls)) i j.
  Proof. intros G L. unfold tcov, points. rewrite fix_cov; rewrite <- data_fst by exact G; [reflexivity|now rewrite map_length]. Qed.
  Lemma fout_dot out calls1 calls2 s k x : trained out calls1 calls2 s -> fout s k x = dot dim (sub x (dmean (points (data calls2)))) (nth k (f_v s) vzero).
  Proof.
    intros T. apply trained_ok in T. destruct T as (G1 & G2 & _ & _ & EA & _). unfold fout, fda_execute, upto.
    destruct (Nat.lt_ge_cases k (length (f_v s))) as [L|L].
    - rewrite (nth_indep _ f0 (dot dim (sub x (f_avg s)) vzero)) by (now rewrite map_length). rewrite (map_nth (fun v => dot dim (sub x (f_avg s)) v)). apply dot_ext; [|reflexivity]. intros i _. unfold sub. f_equal.
      rewrite EA, fix_mean, <- data_fst by exact G2. reflexivity.
    - rewrite !nth_overflow by (rewrite ?map_length; exact L). symmetry. unfold dot, vzero. apply fsumn_zero. intros. ring.
  Qed.
  Lemma quad_scatter n qs ps a b : quad n (scatter qs ps) a b = fsum (map (fun p : vec * nat => (dot n (sub (fst p) (mu qs (snd p))) a * dot n (sub (fst p) (mu qs (snd p))) b)%of) ps).
  Proof.
    unfold quad, dot at 1, mulv, scatter.
    rewrite (fsumn_ext n _ (fun i => fsum (map (fun p : vec * nat => ((sub (fst p) (mu qs (snd p)) i * a i) * dot n (sub (fst p) (mu qs (snd p))) b)%of) ps))).
    - rewrite fsumn_fsum. apply fsum_map_ext. intros p _. rewrite fsumn_mulr. reflexivity.
    - intros i _. rewrite (fsumn_ext n _ (fun j => fsum (map (fun p : vec * nat => ((sub (fst p) (mu qs (snd p)) i) * (sub (fst p) (mu qs (snd p)) j * b j))%of) ps))).
      + rewrite fsumn_fsum, <- fsum_map_mul. apply fsum_map_ext. intros p _. rewrite fsumn_mul. unfold dot. ring.
      + intros j _. rewrite <- fsum_map_mulr. apply fsum_map_ext. intros p _. unfold sub. ring.
  Qed.
  Lemma scatter_sym n qs ps : symmetric n (scatter qs ps).
  Proof. intros i j _ _. apply fsum_map_ext. intros. ring. Qed.
  Lemma scatter_psd n qs ps : psd n (scatter qs ps).
  Proof. intros w. rewrite quad_scatter. apply fsum_map_nonneg. intros. apply fsq. Qed.
  Lemma trained_solves out calls1 calls2 s : trained out calls1 calls2 s -> fsolver_ok (scatter (data calls1) (data calls2)) (tcov calls2) -> match out with Some k => 1 <= k <= dim | None => True end -> 2 <= length (data calls2) ->
    exists d, gsolves dim (scatter (data calls1) (data calls2)) (tcov calls2) d (f_v s).
  Proof.
    intros T OK HO L. pose proof (trained_ok out calls1 calls2 s T) as (_ & G2 & _ & (dfc & d & ES) & _). fold (tcov calls2) in ES.
    destruct (OK out 0 dfc d (f_v s)) as (D0 & U0 & G & -> & EV); [apply scatter_sym|apply (cov_symmetric dim _ (points (data calls2))); intros; now apply tcov_eq|apply scatter_psd| |intros n ->; exact HO|exact ES|].
    - apply (cov_psd dim _ (points (data calls2))); [intros; now apply tcov_eq|unfold points; now rewrite map_length].
    - exists (prefix (range_of out) D0). rewrite EV. now apply prefix_solves.
  Qed.
  Theorem C230_white : forall out calls1 calls2 s k l, trained out calls1 calls2 s -> fsolver_ok (scatter (data calls1) (data calls2)) (tcov calls2) -> match out with Some k => 1 <= k <= dim | None => True end ->
    2 <= length (data calls2) -> k < length (f_v s) -> l < length (f_v s) -> let xs := points (data calls2) in
    fsum (map (fout s k) xs) = f0 /\ (fsum (map (fun x => fout s k x * fout s l x) xs) / (fn (length xs) - 1))%of = (if k =? l then f1 else f0).
  Proof.
    intros out calls1 calls2 s k l T OK HO L2 Hk Hl xs. destruct (trained_solves out calls1 calls2 s T OK HO L2) as (d & _ & HB & _). pose proof (trained_ok out calls1 calls2 s T) as (_ & G2 & _).
    assert (E : forall k x, fout s k x = dot dim (sub x (dmean xs)) (nth k (f_v s) vzero)) by (intros; now apply (fout_dot out calls1 calls2)). split.
    - rewrite (fsum_map_ext _ (fout s k) (fun x => dot dim (sub x (dmean xs)) (nth k (f_v s) vzero))) by (intros; apply E). apply proj_mean. unfold xs, points. destruct (data calls2); [cbn in L2; lia|discriminate].
    - rewrite (fsum_map_ext _ _ (fun x => dot dim (sub x (dmean xs)) (nth k (f_v s) vzero) * dot dim (sub x (dmean xs)) (nth l (f_v s) vzero))%of) by (intros; now rewrite !E).
      rewrite <- (quad_cov dim (tcov calls2) xs) by (intros; now apply tcov_eq). now apply HB.
  Qed.
  (** ** C231: the scatter within the classes *)
  Definition cmean (ps : list (vec * nat)) (g : vec -> K) (l : nat) : K := (fsum (map g (class l ps)) / fn (length (class l ps)))%of.
  Definition wscatter (ps : list (vec * nat)) (g h : vec -> K) : K := fsum (map (fun p : vec * nat => ((g (fst p) - cmean ps g (snd p)) * (h (fst p) - cmean ps h (snd p)))%of) ps).
  Lemma mu_perm ps qs l : Permutation ps qs -> mu ps l = mu qs l.
  Proof. intros P. extensionality i. unfold mu, dmean. pose proof (class_perm l ps qs P) as C. rewrite (fsum_perm _ _ (Permutation_map (fun x : vec => x i) C)). now rewrite (Permutation_length C). Qed.
  Lemma scatter_perm ps qs rs i j : Permutation ps qs -> scatter ps rs i j = scatter qs rs i j.
  Proof. intros P. apply fsum_map_ext. intros p _. now rewrite (mu_perm ps qs). Qed.
  Lemma class_in p ps : In p ps -> fn (length (class (snd p) ps)) <> (f0 : K).
  Proof. intros I. apply fn_ne. assert (N : class (snd p) ps <> []) by (intros N; apply class_nil in N; apply N; now apply in_map). destruct (class (snd p) ps); [now destruct N|cbn; lia]. Qed.
  Lemma dot_dmean n (xs : list vec) v : dot n (dmean xs) v = (fsum (map (fun x : vec => dot n x v) xs) / fn (length xs))%of.
  Proof.
    unfold dot at 1, dmean. rewrite (fsumn_ext n _ (fun i => fsum (map (fun x : vec => x i * v i) xs) * finv (fn (length xs)))%of) by (intros; rewrite fsum_map_mulr, (Fdiv_def (fth K)); ring).
    rewrite fsumn_mulr, fsumn_fsum, (Fdiv_def (fth K)). reflexivity.
  Qed.
  (** an affine function of the inputs minus its class mean *)
  Lemma affine_dev ps (v : vec) (c : K) p : In p ps -> ((dot dim (fst p) v - c) - cmean ps (fun x => dot dim x v - c)%of (snd p))%of = dot dim (sub (fst p) (mu ps (snd p))) v.
  Proof.
    intros I. unfold sub. rewrite dot_sub_l. unfold mu. rewrite dot_dmean. unfold cmean. set (xs := class (snd p) ps) in *. pose proof (class_in p ps I) as N. fold xs in N.
    rewrite (fsum_map_sub xs (fun x => dot dim x v) (fun _ => c)). rewrite fsum_map_const. field. exact N.
  Qed.
  Lemma wscatter_quad ps v w c c' : wscatter ps (fun x => dot dim x v - c)%of (fun x => dot dim x w - c')%of = quad dim (scatter ps ps) v w.
  Proof. unfold wscatter. rewrite quad_scatter. apply fsum_map_ext. intros p I. now rewrite !affine_dev. Qed.
  Lemma fout_affine out calls1 calls2 s k : trained out calls1 calls2 s -> fout s k = (fun x => dot dim x (nth k (f_v s) vzero) - dot dim (dmean (points (data calls2))) (nth k (f_v s) vzero))%of.
  Proof. intros T. extensionality x. rewrite (fout_dot out calls1 calls2 s k x T). unfold sub. now rewrite dot_sub_l. Qed.
  (** the outputs are uncorrelated within the classes, and their scatter is ascending *)
  Theorem C231_within : forall out calls1 calls2 s, trained out calls1 calls2 s -> Permutation (data calls1) (data calls2) -> fsolver_ok (scatter (data calls1) (data calls2)) (tcov calls2) ->
    match out with Some k => 1 <= k <= dim | None => True end -> 2 <= length (data calls2) -> forall k l, k < length (f_v s) -> l < length (f_v s) -> let ps := data calls2 in
    (k <> l -> wscatter ps (fout s k) (fout s l) = f0) /\ (k <= l -> (wscatter ps (fout s k) (fout s k) <= wscatter ps (fout s l) (fout s l))%of).
  Proof.
    intros out calls1 calls2 s T P OK HO L2 k l Hk Hl ps. destruct (trained_solves out calls1 calls2 s T OK HO L2) as (d & LD & HB & HA & SO).
    assert (E : forall k l, k < length (f_v s) -> l < length (f_v s) -> wscatter ps (fout s k) (fout s l) = (nth k d f0 * delta k l)%of).
    { intros k' l' Hk' Hl'. rewrite !(fout_affine out calls1 calls2) by exact T. rewrite wscatter_quad. rewrite <- (HA k' l' Hk' Hl'). apply quad_mtx. intros. symmetry. now apply scatter_perm. }
    split.
    - intros N. rewrite E by assumption. unfold delta. destruct (Nat.eqb_spec k l); [contradiction|ring].
    - intros N. rewrite !E by assumption. unfold delta. rewrite !Nat.eqb_refl. replace (nth k d f0 * f1)%of with (nth k d f0) by ring. replace (nth l d f0 * f1)%of with (nth l d f0) by ring. apply sorted_nth; [exact SO|exact N|lia].
  Qed.
  (** the scatter within the classes of any function is not above its total scatter *)
  Theorem C231_bound : forall (ps : list (vec * nat)) (g : vec -> K) (m : K), (0 <= wscatter ps g g)%of /\ (wscatter ps g g <= fsum (map (fun p => (g (fst p) - m) * (g (fst p) - m)) ps))%of.
  Proof.
    intros ps g m. split; [apply fsum_map_nonneg; intros; apply fsq|]. apply fle_sub. unfold wscatter. rewrite <- fsum_map_sub.
    rewrite (fsum_map_ext _ _ (fun p => (cmean ps g (snd p) - m) * (cmean ps g (snd p) - m) + (f1 + f1) * ((cmean ps g (snd p) - m) * (g (fst p) - cmean ps g (snd p))))%of) by (intros; ring).
    rewrite fsum_map_add, fsum_map_mul.
    assert (Z : fsum (map (fun p : vec * nat => ((cmean ps g (snd p) - m) * (g (fst p) - cmean ps g (snd p)))%of) ps) = f0).
    { set (L := nodup Nat.eq_dec (map snd ps)). assert (P : Permutation ps (concat (map (fun l => filter (fun p => snd p =? l) ps) L))).
      { apply group_perm; [apply NoDup_nodup|]. intros p I. apply nodup_In. now apply in_map. }
      rewrite (fsum_perm _ _ (Permutation_map _ P)). assert (IN : forall l, In l L -> class l ps <> []) by (intros l I N; apply class_nil in N; apply N; now apply nodup_In in I).
      clear P. induction L as [|l L IH]; [reflexivity|]. cbn [map concat]. rewrite map_app, fsum_app, IH by (intros; apply IN; now right).
      rewrite (fsum_map_ext _ _ (fun p => (cmean ps g l - m) * (g (fst p) - cmean ps g l))%of) by (intros p I; apply filter_In in I; destruct I as [_ I]; apply Nat.eqb_eq in I; now rewrite I).
      rewrite fsum_map_mul. rewrite (fsum_map_sub _ (fun p => g (fst p)) (fun _ => cmean ps g l)). rewrite <- (map_map fst g). fold (class l ps).
      rewrite fsum_map_const. replace (length (filter (fun p : vec * nat => snd p =? l) ps)) with (length (class l ps)) by (unfold class; now rewrite map_length).
      assert (N : fn (length (class l ps)) <> (f0 : K)) by (apply fn_ne; specialize (IN l (or_introl eq_refl)); destruct (class l ps); [now destruct IN|cbn; lia]).
      unfold cmean. field. exact N. }
    rewrite Z. replace ((f1 + f1) * f0)%of with (f0 : K) by ring. assert (Q : (0 <= fsum (map (fun p : vec * nat => ((cmean ps g (snd p) - m) * (cmean ps g (snd p) - m))%of) ps))%of) by (apply fsum_map_nonneg; intros; apply fsq).
    replace (fsum (map (fun p : vec * nat => ((cmean ps g (snd p) - m) * (cmean ps g (snd p) - m))%of) ps) + f0)%of with (fsum (map (fun p : vec * nat => ((cmean ps g (snd p) - m) * (cmean ps g (snd p) - m))%of) ps)) by ring. exact Q.
  Qed.
  (** ** C232: no other functions with variance one and without correlation have a smaller scatter within the classes *)
  Theorem C232_optimal : forall out calls1 calls2 s W, trained out calls1 calls2 s -> Permutation (data calls1) (data calls2) -> fsolver_complete (scatter (data calls1) (data calls2)) (tcov calls2) ->
    match out with Some k => 1 <= k <= dim | None => True end -> 2 <= length (data calls2) -> length W <= length (f_v s) ->
    let ps := data calls2 in let xs := points ps in let f := fun k (x : vec) => dot dim x (nth k W vzero) in
    let mean := fun g : vec -> K => (fsum (map g xs) / fn (length xs))%of in
    (forall i j, i < length W -> j < length W -> (fsum (map (fun x => (f i x - mean (f i)) * (f j x - mean (f j))) xs) / (fn (length xs) - 1))%of = if i =? j then f1 else f0) ->
    (fsumn (length W) (fun k => wscatter ps (fout s k) (fout s k)) <= fsumn (length W) (fun k => wscatter ps (f k) (f k)))%of.
  Proof.
    intros out calls1 calls2 s W T P OK HO L2 LW ps xs f mean HW. pose proof (trained_ok out calls1 calls2 s T) as (_ & G2 & _ & (dfc & d & ES) & _). fold (tcov calls2) in ES.
    assert (LX : length xs = length (data calls2)) by (unfold xs, points; now rewrite map_length).
    set (A := scatter (data calls1) (data calls2)) in *. assert (SA : symmetric dim A) by apply scatter_sym. assert (SB : symmetric dim (tcov calls2)) by (apply (cov_symmetric dim _ xs); intros; now apply tcov_eq).
    assert (PA : psd dim A) by apply scatter_psd. assert (PB : psd dim (tcov calls2)) by (apply (cov_psd dim _ xs); [intros; now apply tcov_eq|lia]).
    destruct (OK out 0 dfc d (f_v s) SA SB PA PB ltac:(intros n ->; exact HO) ES) as (D0 & U0 & G & GC & ED & EU).
    assert (BW : borth dim (tcov calls2) W).
    { intros i j Hi Hj. rewrite (quad_cov dim (tcov calls2) xs) by (intros; now apply tcov_eq). rewrite <- (HW i j Hi Hj : _ = delta i j). f_equal. apply fsum_map_ext. intros x _.
      assert (EM : forall k, dot dim (sub x (dmean xs)) (nth k W vzero) = (f k x - mean (f k))%of) by (intros k; unfold sub; rewrite dot_sub_l, dot_dmean; reflexivity). now rewrite !EM. }
    pose proof (gen_ky_fan dim A (tcov calls2) D0 U0 SA SB G GC W BW) as KF.
    assert (EA : forall v w c c', wscatter ps (fun x => dot dim x v - c)%of (fun x => dot dim x w - c')%of = quad dim A v w).
    { intros v w c c'. rewrite wscatter_quad. apply quad_mtx. intros. symmetry. now apply scatter_perm. }
    rewrite (fsumn_ext (length W) (fun k => wscatter ps (f k) (f k)) (fun k => quad dim A (nth k W vzero) (nth k W vzero))).
    2:{ intros k _. rewrite <- (EA _ _ f0 f0). assert (X : f k = (fun x => dot dim x (nth k W vzero) - f0)%of) by (extensionality x; unfold f; ring). now rewrite <- X. }
    rewrite (fsumn_ext (length W) _ (fun k => nth k D0 f0)); [exact KF|]. intros k Hk. rewrite (fout_affine out calls1 calls2) by exact T. rewrite EA.
    assert (Hk' : k < length (f_v s)) by lia. destruct (prefix_solves dim A (tcov calls2) D0 U0 (range_of out) G) as (LD & _ & HA & _). rewrite <- EU in HA, LD. rewrite (HA k k Hk' Hk'). unfold delta. rewrite Nat.eqb_refl.
    transitivity (nth k (prefix (range_of out) D0) f0); [ring|]. destruct (range_of out) as [[lo hi]|]; [|reflexivity]. cbn [prefix] in *. apply nth_firstn_. rewrite firstn_length in LD. lia.
  Qed.
  (** ** C233: the result depends only on the multisets of labelled observations *)
  Lemma smeans_perm ps qs : Permutation ps qs -> smeans ps = smeans qs.
  Proof.
    intros P. extensionality l. unfold smeans, sums. pose proof (class_perm l ps qs P) as C. destruct (class l ps) as [|a r] eqn:E1.
    - apply Permutation_nil in C. now rewrite C.
    - destruct (class l qs) as [|b q] eqn:E2; [apply Permutation_sym, Permutation_nil in C; discriminate|]. cbn [option_map]. f_equal. unfold divide. cbn [fst snd]. f_equal; [|exact (Permutation_length C)].
      extensionality i. unfold colsum. rewrite (fsum_perm _ _ (Permutation_map (fun v : vec => v i) C)). now rewrite (Permutation_length C).
  Qed.
  Lemma sw_total qs gs : forall w, Forall (fun g => class (fst g) qs <> []) gs -> exists w', update_sw (smeans qs) w gs = (w', FOk tt).
  Proof.
    induction gs as [|[l y] gs IH]; intros w F; [now exists w|]. inversion F as [|? ? N F']; subst. cbn [update_sw fst] in *. unfold smeans, sums. destruct (class l qs) as [|a r] eqn:E; [now destruct N|].
    cbn [option_map divide]. apply (IH _ F').
  Qed.
  Lemma trains2_total qs calls : forall s a w, f_phase s = 1 -> f_means s = smeans qs -> f_all s = Some a -> f_sw s = Some w -> Forall good calls -> (forall l, In l (map snd (data calls)) -> class l qs <> []) -> exists s', trains s calls = (s', FOk tt).
  Proof.
    induction calls as [|c r IH]; intros s a w PH HM HA HW F KN; [now exists s|]. inversion F as [|? ? G F']; subst. destruct c as [x lb]. cbn [fda_trains]. pose proof G as [NE FT]. cbn [fst snd] in NE, FT. unfold fda_train. rewrite PH, HA, HW, HM, FT. cbn [Nat.leb Nat.eqb negb].
    destruct (Nat.eqb_spec (length x) 0) as [L|L]; [destruct x; [now destruct NE|discriminate]|].
    destruct (sw_total qs (groups labset lb x) (match w with Some w => w | None => fun _ _ => f0 end)) as [w' ->].
    { apply Forall_forall. intros [l y] I. cbn [fst]. apply KN. unfold data. cbn [map concat]. rewrite map_app. apply in_or_app. left. destruct (groups_class (x, lb) l y G I) as [EY NY]. destruct (in_dec Nat.eq_dec l (map snd (pairs (x, lb)))) as [Y|N]; [exact Y|].
      apply class_nil in N. congruence. }
    eapply IH; [reflexivity|reflexivity|reflexivity|reflexivity|exact F'|]. intros l I. apply KN. unfold data. cbn [map concat]. rewrite map_app. apply in_or_app. now right.
  Qed.
  Lemma trained_intro out calls1 calls2 dfc d v : calls1 <> [] -> calls2 <> [] -> Forall good calls1 -> Forall good calls2 -> (forall l, In l (map snd (data calls2)) -> class l (data calls1) <> []) ->
    solver (range_of out) (scatter (data calls1) (data calls2)) (fst (acc_fix true (accs (map fst calls2)))) = SolOk dfc d v ->
    trained out calls1 calls2 (mkF (Some (match out with Some k => k | None => dim end)) (smeans (data calls1)) 2 false None None v (snd (acc_fix true (accs (map fst calls2))))).
  Proof.
    intros N1 N2 G1 G2 KN ES. destruct (C229_total out calls1 N1 G1) as (s1 & s2 & H1 & H2). pose proof H2 as H2'. destruct (trains1 calls1 (fda_new out) [] s1 eq_refl eq_refl H1) as [-> _].
    cbn [fda_new f_out f_started f_all f_sw f_v f_avg app] in H2'. unfold fda_stop in H2'. cbn [f_phase f_started] in H2'. destruct calls1 as [|c1 r1]; [now destruct N1|].
    cbn [Nat.ltb Nat.leb negb andb Nat.eqb f_out f_means f_all f_sw f_v f_avg] in H2'. injection H2' as E2. set (qs := data (c1 :: r1)) in *. fold (smeans qs) in E2.
    destruct (trains2_total qs calls2 s2 acc_new None) as [s3 H3]; try (rewrite <- E2; reflexivity); try assumption.
    destruct (trains2 qs calls2 s2 acc_new None s3) as (E3 & _ & _); try (rewrite <- E2; reflexivity); try assumption. rewrite <- E2 in E3. cbn [f_out f_v f_avg] in E3. fold (accs (map fst calls2)) in E3.
    eexists _, s2, s3. split; [exact H1|]. split; [exact H2|]. split; [exact H3|]. rewrite E3. unfold fda_stop. cbn [f_phase f_started f_all f_sw f_out f_means f_v f_avg Nat.ltb Nat.leb negb andb Nat.eqb].
    destruct (acc_fix true (accs (map fst calls2))) as [st avg]. cbn [fst snd] in *. fold (range_of out).
    assert (EW : (fun i j => (f0 + scatter qs (data calls2) i j)%of) = scatter qs (data calls2)) by (extensionality i; extensionality j; ring). rewrite EW, ES. reflexivity.
  Qed.
  (** ** C234: labels which did not occur in the first phase *)
  Definition phase2 (qs : list (vec * nat)) (a : acc) (s : fda) : Prop := f_phase s = 1 /\ f_means s = smeans qs /\ f_all s = Some a /\ exists w, f_sw s = Some w.
  Lemma sw_unknown qs gs : forall w, ~ Forall (fun g => class (fst g) qs <> []) gs -> exists w', update_sw (smeans qs) w gs = (w', FErr FKey).
  Proof.
    induction gs as [|[l y] gs IH]; intros w F; [destruct F; constructor|]. cbn [update_sw]. unfold smeans at 1. unfold sums at 1. destruct (class l qs) as [|b r] eqn:E; [eexists; reflexivity|]. cbn [option_map divide]. apply IH.
    intros X. apply F. constructor; [cbn; congruence|exact X].
  Qed.
  (** KeyError, but the observations are already counted in the covariance matrix of all data *)
  Theorem C234_unknown : forall qs a s x lb, phase2 qs a s -> good (x, lb) -> (exists l, In l (map snd (pairs (x, lb))) /\ class l qs = []) ->
    exists s', train s x lb = (s', FErr FKey) /\ f_all s' = Some (acc_update a x).
  Proof.
    intros qs a s x lb (PH & HM & HA & w & HW) G (l & I & N). unfold fda_train. rewrite PH, HM, HA, HW. pose proof G as [NE FT]. cbn [fst snd] in NE, FT. rewrite FT. cbn [Nat.leb Nat.eqb negb].
    destruct (Nat.eqb_spec (length x) 0) as [L|L]; [destruct x; [now destruct NE|discriminate]|].
    destruct (sw_unknown qs (groups labset lb x) (match w with Some w => w | None => fun _ _ => f0 end)) as [w' ->]; [|eexists; split; reflexivity].
    intros F. destruct (pairs_snd (x, lb) l G I) as [y Iy]. rewrite Forall_forall in F. now apply (F _ Iy).
  Qed.
  Theorem C234_known : forall qs a s x lb, phase2 qs a s -> good (x, lb) -> (forall l, In l (map snd (pairs (x, lb))) -> class l qs <> []) -> exists s', train s x lb = (s', FOk tt) /\ phase2 qs (acc_update a x) s'.
  Proof.
    intros qs a s x lb (PH & HM & HA & w & HW) G KN. destruct (trains2_total qs [(x, lb)] s a w PH HM HA HW) as [s' H]; [constructor; [exact G|constructor]|unfold data; cbn [map concat]; now rewrite app_nil_r|].
    destruct (trains2 qs [(x, lb)] s a w s' PH HM HA HW H ltac:(discriminate)) as (-> & _ & _). cbn [fda_trains] in H. destruct (train s x lb) as [s1 [[]|e]] eqn:E; [|discriminate]. injection H as ->.
    eexists. split; [reflexivity|]. repeat split. eexists. reflexivity.
  Qed.
  (** ** C235: after a failure of the solver *)
  Theorem C235_retry_refuted : forall qs a s s1, phase2 qs a s -> f_started s = true -> stop s = (s1, FErr FSymeig) ->
    stop s1 = (s1, FErr FAttribute) /\ forall x lb, good (x, lb) -> snd (train s1 x lb) = FErr FAttribute.
  Proof.
    intros qs a s s1 (PH & HM & HA & w & HW) ST E. unfold fda_stop in E. rewrite PH, HA, HW, ST in E. cbn [Nat.ltb Nat.leb Nat.eqb negb andb] in E. destruct (acc_fix true a) as [st avg].
    destruct (solver _ _ _) as [dfc d v| |]; try discriminate. injection E as <-. split; [reflexivity|]. intros x lb [NE FT]. cbn [fst snd] in *. unfold fda_train. cbn [f_phase f_sw]. rewrite FT. cbn [Nat.leb Nat.eqb negb].
    destruct (Nat.eqb_spec (length x) 0) as [L|L]; [destruct x; [now destruct NE|discriminate]|]. reflexivity.
  Qed.
  (** ** C236: execute and inverse *)
  Theorem C236_first : forall (s : fda) n x, (0 < n)%Z -> fda_execute dim s (Some n) x = firstn (Z.to_nat n) (fda_execute dim s None x).
  Proof.
    intros s n x Hn. unfold fda_execute. assert (G : forall A (l : list A), upto (Some n) l = firstn (Z.to_nat n) l).
    { intros A l. unfold upto. destruct n as [|p|p]; [lia| |lia]. unfold pyslice. cbn [Z.ltb Z.compare]. replace (Z.min 0 (Z.of_nat (length l))) with 0%Z by lia.
      cbn [Z.to_nat skipn]. rewrite Nat.sub_0_r. destruct (Z.min_spec (Zpos p) (Z.of_nat (length l))) as [[_ ->]|[H ->]]; [reflexivity|]. rewrite Nat2Z.id, firstn_all, firstn_all2; [reflexivity|lia]. }
    rewrite G. cbn [upto]. now rewrite firstn_map.
  Qed.
  (** a negative n does not give all components, but drops the last ones *)
  Theorem C236_negative_refuted : forall (s : fda) n x, (n < 0)%Z -> fda_execute dim s (Some n) x = firstn (length (f_v s) - Z.to_nat (- n)) (fda_execute dim s None x).
  Proof.
    intros s n x Hn. unfold fda_execute. assert (G : forall A (l : list A), upto (Some n) l = firstn (length l - Z.to_nat (- n)) l).
    { intros A l. unfold upto. destruct n as [|p|p]; [lia|lia|]. unfold pyslice. change (0 <? 0)%Z with false. cbv iota. destruct (Z.ltb_spec (Z.neg p) 0); [|lia]. replace (Z.min 0 (Z.of_nat (length l))) with 0%Z by lia.
      cbn [Z.to_nat skipn]. rewrite Nat.sub_0_r. f_equal. lia. }
    rewrite G. cbn [upto]. now rewrite firstn_map.
  Qed.
  Theorem C236_execute_inverse : forall out calls1 calls2 s y, trained out calls1 calls2 s -> fsolver_ok (scatter (data calls1) (data calls2)) (tcov calls2) -> match out with Some k => 1 <= k <= dim | None => True end ->
    2 <= length (data calls2) -> pinv_ok dim pinv (f_v s) -> f_out s = Some (length (f_v s)) -> length y = length (f_v s) -> exists x, fda_inverse pinv s y = FOk x /\ fda_execute dim s None x = y.
  Proof.
    intros out calls1 calls2 s y T OK HO L2 PI HF LY. destruct (trained_solves out calls1 calls2 s T OK HO L2) as (d & GS). pose proof PI as [LP _].
    unfold fda_inverse. rewrite HF, LY, Nat.eqb_refl. cbn [negb]. rewrite LP, Nat.eqb_refl. eexists. split; [reflexivity|]. pose proof (trained_ok _ _ _ _ T) as (_ & G2 & _ & _ & EA & _).
    assert (LX : forall x, length (fda_execute dim s None x) = length (f_v s)) by (intros; unfold fda_execute, upto; now rewrite map_length).
    apply (nth_ext _ _ f0 f0); [rewrite LX; now symmetry|]. rewrite LX. intros k Hk. set (x := fun i => _). change (nth k (fda_execute dim s None x) f0) with (fout s k x). rewrite (fout_dot out calls1 calls2) by exact T.
    rewrite (dot_ext dim _ (comb (pinv (f_v s)) (fun k => nth k y f0)) _ (nth k (f_v s) vzero)); [| |reflexivity].
    - rewrite (dot_sym dim (comb _ _)), dot_comb, LP. rewrite (fsumn_ext _ _ (fun j => nth j y f0 * delta k j)%of); [apply (fsumn_delta (length (f_v s)) (fun j => nth j y f0) k Hk)|].
      intros j Hj. rewrite dot_sym, (pinv_dual _ _ _ _ _ _ GS PI) by assumption. f_equal. unfold delta. now rewrite Nat.eqb_sym.
    - intros i _. unfold sub, x. replace (f_avg s i) with (dmean (points (data calls2)) i) by (rewrite EA, fix_mean, <- data_fst by exact G2; reflexivity).
      unfold comb. rewrite LP, <- LY. assert (LL : length (pinv (f_v s)) = length y) by congruence. clear - LL. set (w := pinv (f_v s)) in *. clearbody w.
      rewrite (fsum_nth _ f0), map_length, combine_length, LL, Nat.min_id. transitivity (fsumn (length y) (fun k => nth k (map (fun p : K * vec => (fst p * snd p i)%of) (combine y w)) f0)); [ring|].
      apply fsumn_ext. intros k Hk. rewrite (nth_indep _ f0 ((fun p : K * vec => (fst p * snd p i)%of) (f0, vzero))) by (rewrite map_length, combine_length; lia).
      rewrite (map_nth (fun p : K * vec => (fst p * snd p i)%of)), combine_nth by congruence. reflexivity.
  Qed.
  (** a node whose output_dim is not the number of columns does not invert its own output *)
  Theorem C236_dim_refuted : forall (s : fda) x k, f_out s = Some k -> k <> length (f_v s) -> fda_inverse pinv s (fda_execute dim s None x) = FErr FNode.
  Proof. intros s x k HF N. unfold fda_inverse, fda_execute, upto. rewrite HF, map_length. destruct (Nat.eqb_spec (length (f_v s)) k); [congruence|reflexivity]. Qed.
End Props.

(** the order of iteration through the sets of labels does not matter either *)
Theorem C233_order : forall (K : ofield) dim labset labset' solver out (calls1 calls1' calls2 calls2' : list (@fcall K)) s,
  (forall ls, NoDup (labset ls) /\ forall l, In l (labset ls) <-> In l ls) -> (forall ls, NoDup (labset' ls) /\ forall l, In l (labset' ls) <-> In l ls) ->
  trained dim labset solver out calls1 calls2 s -> Forall good calls1' -> Forall good calls2' -> Permutation (data calls1) (data calls1') -> Permutation (data calls2) (data calls2') -> trained dim labset' solver out calls1' calls2' s.
Proof.
  intros K dim labset labset' solver out calls1 calls1' calls2 calls2' s LS LS' T G1 G2 P1 P2.
  assert (NE : forall calls : list (@fcall K), Forall good calls -> calls <> [] -> data calls <> []).
  { intros [|[x lb] r] F N; [now destruct N|]. inversion F as [|? ? G F']; subst. unfold data. cbn [map concat]. intros E. apply app_eq_nil in E. destruct E as [E _]. apply (f_equal (map fst)) in E. rewrite pairs_fst in E by exact G. destruct G as [G _]. now apply G. }
  pose proof (trained_ok dim labset solver LS out calls1 calls2 s T) as (F1 & F2 & KN & (dfc & d & ES) & EA & EO & EM & _ & E).
  assert (N1 : calls1 <> []) by (intros ->; destruct T as (s1 & s2 & s3 & H1 & H2 & _); injection H1 as <-; discriminate).
  assert (N2 : calls2 <> []). { intros ->. destruct T as (s1 & s2 & s3 & H1 & H2 & H3 & H4). injection H3 as <-. unfold fda_stop in H2. destruct (trains1 labset LS calls1 (fda_new out) [] s1 eq_refl eq_refl H1) as [-> _]. cbn in H2. destruct calls1; [discriminate|]. injection H2 as <-. discriminate. }
  assert (Q : accs (map fst calls2) = accs (map fst calls2')) by (apply accs_perm; rewrite <- !data_fst by assumption; now apply Permutation_map).
  rewrite E, EO, EM, EA, Q. rewrite (smeans_perm _ _ P1). apply (trained_intro dim labset' solver LS' out calls1' calls2' dfc d (f_v s)); try assumption.
  - intros ->. apply (NE _ F1 N1). apply Permutation_sym, Permutation_nil in P1. exact P1.
  - intros ->. apply (NE _ F2 N2). apply Permutation_sym, Permutation_nil in P2. exact P2.
  - intros l I N. apply (Permutation_in (l := map snd (data calls2'))  (l' := map snd (data calls2))) in I; [|apply Permutation_map; now apply Permutation_sym]. apply (KN l I). pose proof (class_perm l _ _ P1) as C. rewrite N in C. now apply Permutation_sym, Permutation_nil in C.
  - rewrite <- Q, <- ES. f_equal. extensionality i. extensionality j. rewrite (scatter_perm (data calls1') (data calls1)) by now apply Permutation_sym. unfold scatter. apply fsum_perm. apply Permutation_map. now apply Permutation_sym.
Qed.

(** the contract holds for symeig_fake if the covariance matrix is positive definite *)
Theorem C232_contract : forall (K : ofield) (eigh : option (Z * Z) -> nat -> @mtx K -> option (list K * list (@vec K))) (sqrt_ : K -> K) (n : nat) (A B : @mtx K),
  (forall rng n C D V, symmetric n C -> psd n C -> eigh rng n C = Some (D, V) -> eigensystem n C D V) -> (forall a : K, flt f0 a -> (sqrt_ a * sqrt_ a)%of = a) ->
  1 <= n -> (forall w : @vec K, quad n B w w = f0 -> forall i, i < n -> w i = f0) -> solver_complete n (fsolver (fun rng A B => symeig_fake eigh sqrt_ rng n A B)) MNone A B.
Proof. intros K eigh sqrt_ n A B EO SO Hn PD. apply (C222_contract_none eigh (fun _ _ => ([], [])) sqrt_ f1 EO SO n A B Hn PD). Qed.

Section Examples.
  Definition lset : list nat -> list nat := nodup Nat.eq_dec.
  Lemma lset_ok : forall ls, NoDup (lset ls) /\ forall l, In l (lset ls) <-> In l ls.
  Proof. intros ls. split; [apply NoDup_nodup|intros l; apply nodup_In]. Qed.
  Definition F2 (rng : option (Z * Z)) (A B : @mtx Qc_of) := @symeig_fake Qc_of eQ rQ rng 2 A B.
  Definition pts : list (@vec Qc_of) := [p2 2 1; p2 2 (-1); p2 0 0; p2 (-2) (-1); p2 (-2) 1].
  Definition whole : list (@fcall Qc_of) := [(pts, Each [0; 0; 0; 1; 1])].
  (** the same observations by class, and in another order *)
  Definition byclass : list (@fcall Qc_of) := [([p2 (-2) 1; p2 (-2) (-1)], One 1); ([p2 0 0], One 0); ([p2 2 (-1); p2 2 1], Each [0; 0])].
  Definition frun1 (out : option nat) (c : list (@fcall Qc_of)) := fda_stop 2 F2 (fst (fda_trains lset (fda_new out) c)).
  Definition frun (out : option nat) (c1 c2 : list (@fcall Qc_of)) := fda_stop 2 F2 (fst (fda_trains lset (fst (frun1 out c1)) c2)).
  Lemma frun_trained out c1 c2 : snd (fda_trains lset (@fda_new Qc_of out) c1) = FOk tt -> snd (frun1 out c1) = FOk tt -> snd (fda_trains lset (fst (frun1 out c1)) c2) = FOk tt -> snd (frun out c1 c2) = FOk tt ->
    trained 2 lset F2 out c1 c2 (fst (frun out c1 c2)).
  Proof.
    intros H1 H2 H3 H4. exists (fst (fda_trains lset (fda_new out) c1)), (fst (frun1 out c1)), (fst (fda_trains lset (fst (frun1 out c1)) c2)). repeat split.
    - rewrite <- H1. apply surjective_pairing.
    - rewrite <- H2. apply surjective_pairing.
    - rewrite <- H3. apply surjective_pairing.
    - rewrite <- H4. apply surjective_pairing.
  Qed.
  Definition fshow (s : @fda Qc_of) : list (list Q) * list Q * option nat := (map (fun v : @vec Qc_of => [this (v 0%nat); this (v 1%nat)]) (f_v s), [this (f_avg s 0%nat); this (f_avg s 1%nat)], f_out s).
  Definition mshow (s : @fda Qc_of) (l : nat) : option (list Q * nat) := option_map (fun e : @vec Qc_of * nat => ([this (fst e 0%nat); this (fst e 1%nat)], snd e)) (f_means s l).
  Example ex_C229 : let s := fst (frun1 None whole) in mshow s 0 = Some ([4 # 3; 0]%Q, 3%nat) /\ mshow s 1 = Some ([-2; 0]%Q, 2%nat) /\ mshow s 2 = None.
  Proof. repeat split; vm_compute; reflexivity. Qed.
  (** the first output has the variance one and the scatter 2/3 within the classes, the second one the variance one and the scatter 4 *)
  Example ex_C230 : exists s, trained 2 lset F2 None whole whole s /\ fshow s = ([[1 # 2; 0]; [0; 1]]%Q, [0; 0]%Q, Some 2%nat) /\
    map (fun x => map this (fda_execute 2 s None x)) pts = [[1; 1]; [1; -1]; [0; 0]; [-1; -1]; [-1; 1]]%Q /\
    map this [wscatter (data whole) (fout 2 s 0) (fout 2 s 0); wscatter (data whole) (fout 2 s 0) (fout 2 s 1); wscatter (data whole) (fout 2 s 1) (fout 2 s 1)] = [2 # 3; 0; 4]%Q.
  Proof. exists (fst (frun None whole whole)). split; [apply frun_trained; vm_compute; reflexivity|]. repeat split; vm_compute; reflexivity. Qed.
  (** another function with variance one has a larger scatter than the first output *)
  Example ex_C232 : let g := fun x : @vec Qc_of => dot 2 x (p2 (3 # 10) (4 # 5)) in this (fsum (map (fun x => (g x * g x)%of) pts) / (fn 5 - f1))%of = 1%Q /\ this (wscatter (data whole) g g) = (14 # 5)%Q.
  Proof. split; vm_compute; reflexivity. Qed.
  Lemma by_perm : Permutation (data whole) (data byclass).
  Proof.
    unfold data, pairs. cbn. apply Permutation_sym. apply (Permutation_cons_app [(p2 2 1, 0%nat); (p2 2 (-1), 0%nat); (p2 0 0, 0%nat); (p2 (-2) (-1), 1%nat)] []). cbn. apply (Permutation_cons_app [(p2 2 1, 0%nat); (p2 2 (-1), 0%nat); (p2 0 0, 0%nat)] []). cbn.
    apply (Permutation_cons_app [(p2 2 1, 0%nat); (p2 2 (-1), 0%nat)] []). apply perm_swap.
  Qed.
  Example ex_C233 : exists s, trained 2 lset F2 (Some 1%nat) whole byclass s /\ trained 2 (fun ls => rev (lset ls)) F2 (Some 1%nat) byclass whole s /\ fshow s = ([[1 # 2; 0]]%Q, [0; 0]%Q, Some 1%nat).
  Proof.
    exists (fst (frun (Some 1%nat) whole byclass)). assert (T : trained 2 lset F2 (Some 1%nat) whole byclass (fst (frun (Some 1%nat) whole byclass))) by (apply frun_trained; vm_compute; reflexivity).
    split; [exact T|]. split; [|vm_compute; reflexivity]. apply (C233_order Qc_of 2 lset (fun ls => rev (lset ls)) F2 (Some 1%nat) whole byclass byclass whole); [apply lset_ok| |exact T| | |apply by_perm|apply Permutation_sym, by_perm].
    - intros ls. destruct (lset_ok ls) as [N I]. split; [now apply NoDup_rev|]. intros l. rewrite <- in_rev. apply I.
    - repeat (constructor; [split; [discriminate|reflexivity]|]). constructor.
    - repeat (constructor; [split; [discriminate|reflexivity]|]). constructor.
  Qed.
  (** C234: the call with the unknown label 7 raises KeyError; training goes on and ends, but the mean (and the covariance) contain the rejected observation *)
  Definition rejected := fst (fda_train lset (fst (fda_trains lset (fst (frun1 None whole)) whole)) [p2 60 0] (One 7)).
  Theorem C234_refuted : exists s : @fda Qc_of, snd (fda_train lset s [p2 60 0] (One 7)) = FErr FKey /\ let s' := fst (fda_train lset s [p2 60 0] (One 7)) in
    snd (fda_stop 2 F2 s) = FOk tt /\ snd (fda_stop 2 F2 s') = FOk tt /\ this (f_avg (fst (fda_stop 2 F2 s)) 0%nat) = 0%Q /\ this (f_avg (fst (fda_stop 2 F2 s')) 0%nat) = 10%Q.
  Proof. exists (fst (fda_trains lset (fst (frun1 None whole)) whole)). repeat split; vm_compute; reflexivity. Qed.
  (** C235: a solver that fails unless it is asked for one component only *)
  Definition fragile (rng : option (Z * Z)) (A B : @mtx Qc_of) := match rng with None => SolSymeig | _ => F2 rng A B end.
  Theorem C235_refuted : exists (s : @fda Qc_of), snd (fda_stop 2 fragile s) = FErr FSymeig /\ let s' := fst (fda_stop 2 fragile s) in
    snd (fda_stop 2 F2 s') = FErr FAttribute /\ snd (fda_train lset s' pts (One 0)) = FErr FAttribute /\ f_phase s' = 1%nat /\ snd (fda_stop 2 F2 s) = FOk tt.
  Proof. exists (fst (fda_trains lset (fst (frun1 None whole)) whole)). repeat split; vm_compute; reflexivity. Qed.
  (** C236 *)
  Theorem C236_refuted : exists s, trained 2 lset F2 (Some 3%nat) whole whole s /\ f_out s = Some 3%nat /\ length (fda_execute 2 s None (p2 1 1)) = 2%nat /\ fda_inverse (fun U => U) s (fda_execute 2 s None (p2 1 1)) = FErr FNode /\
    map this (fda_execute 2 s None (p2 2 1)) = [1; 1]%Q /\ map this (fda_execute 2 s (Some (-1)%Z) (p2 2 1)) = [1]%Q /\ fda_execute 2 s (Some (-2)%Z) (p2 2 1) = [].
  Proof. exists (fst (frun (Some 3%nat) whole whole)). split; [apply frun_trained; vm_compute; reflexivity|]. repeat split; vm_compute; reflexivity. Qed.
  (** the pseudoinverse of diag(1/2, 1) is diag(2, 1) *)
  Definition pv (U : list (@vec Qc_of)) : list (@vec Qc_of) := match U with [_; b] => [p2 2 0; b] | _ => U end.
  Example ex_C236 : let s := fst (frun None whole whole) in
    pinv_ok 2 pv (f_v s) /\ match fda_inverse pv s [Q2Qc 3; Q2Qc 4] with FOk x => map this (fda_execute 2 s None x) = [3; 4]%Q /\ this (x 0%nat) = 6%Q | _ => False end.
  Proof.
    split; [|vm_compute; split; reflexivity]. split; [vm_compute; reflexivity|]. intros l i Hl Hi. assert (L : l = 0%nat \/ l = 1%nat) by (assert (X : length (f_v (fst (frun None whole whole))) = 2%nat) by (vm_compute; reflexivity); lia).
    assert (I : i = 0%nat \/ i = 1%nat) by lia. apply Qc_is_canon. destruct L as [-> | ->]; destruct I as [-> | ->]; vm_compute; reflexivity.
  Qed.
End Examples.
