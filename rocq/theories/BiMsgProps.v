(** MessageResultContainer: the results of the chunks are combined key by key (C64); what happens when a node returns the same list again,
    and when get_message is called twice (C171). *)
From Coq Require Import List Arith ZArith Bool String Ascii Lia.
From Verif Require Import BiModel BiProps BiMsgModel.
Import ListNotations.
Open Scope nat_scope.

Section Spec.
  Variable X : Type.
  Notation mval := (mval X).
  Notation container := (container X).
  (** what a value is, whatever object holds it *)
  Inductive aval := AArr (a : list X) | AInt (z : Z) | AStr (s : string) | AList (l : list elem) | AOther.
  Definition den (h : lheap) (v : mval) : aval :=
    match v with MArr _ a => AArr a | MInt _ z => AInt z | MStr _ s => AStr s | MList _ r => AList (lget h r) | MOther _ => AOther end.
  (** the sum of two results, if they can be combined *)
  Definition plus (a b : aval) : option aval :=
    match a, b with
    | AArr a, AArr b => Some (AArr (a ++ b))
    | AInt a, AInt b => Some (AInt (a + b))
    | AStr a, AStr b => Some (AStr (a ++ b))
    | AList a, AList b => Some (AList (a ++ b))
    | AList a, AStr s => Some (AList (a ++ chars s))
    | _, _ => None
    end.
  (** the combination of the results of all chunks, in order *)
  Fixpoint total (a : aval) (l : list aval) : option aval :=
    match l with [] => Some a | b :: l => match plus a b with Some c => total c l | None => None end end.
  (** the values of a key in all messages, in order *)
  Definition vals (k : string) (ms : list (dict mval)) : list mval := map snd (filter (fun p => String.eqb k (fst p)) (List.concat ms)).
  (** the list objects in the messages *)
  Definition refs (es : list (string * mval)) : list nat := flat_map (fun p => match snd p with MList _ r => [r] | _ => [] end) es.

  Lemma lget_set h r l q : r < List.length h -> lget (lset h r l) q = if q =? r then l else lget h q.
  Proof. revert r q. induction h as [|a h IH]; intros [|r] [|q] H; cbn in *; try lia; try reflexivity. apply IH. lia. Qed.
  Lemma lset_length h r l : List.length (lset h r l) = List.length h.
  Proof. revert r. induction h as [|a h IH]; intros [|r]; cbn; auto. Qed.
  Lemma total_app a l m : total a (l ++ m) = match total a l with Some b => total b m | None => None end.
  Proof. revert a. induction l as [|b l IH]; intros a; cbn; [reflexivity|]. destruct (plus a b); [apply IH|reflexivity]. Qed.

  Definition ev (k : string) (es : list (string * mval)) : list mval := map snd (filter (fun p => String.eqb k (fst p)) es).
  Definition isarr (v : mval) : bool := match v with MArr _ _ => true | _ => false end.
  Definition arrs (l : list mval) : list (list X) := flat_map (fun v => match v with MArr _ a => [a] | _ => [] end) l.
  Definition others (l : list mval) : list mval := filter (fun v => negb (isarr v)) l.
  Definition tot (l : list aval) : option (option aval) := match l with [] => Some None | a :: l => match total a l with Some b => Some (Some b) | None => None end end.
  (** arrays and other values of one key do not go together *)
  Definition aarr (a : aval) : bool := match a with AArr _ => true | _ => false end.
  Lemma plus_arr a b c : plus a b = Some c -> aarr a = aarr c /\ aarr b = aarr c.
  Proof. destruct a, b; cbn; intros [= <-]; auto. Qed.
  Lemma total_arr a l c : total a l = Some c -> forall b, In b (a :: l) -> aarr b = aarr c.
  Proof.
    revert a. induction l as [|b l IH]; intros a; cbn [total]; [intros [= <-] d [<-|[]]; reflexivity|]. destruct (plus a b) as [d|] eqn:P; [|discriminate]. intros T e H.
    destruct (plus_arr _ _ _ P) as [A B]. pose proof (IH _ T d (or_introl eq_refl)) as D. destruct H as [<-|[<-|H]]; [congruence|congruence|]. apply (IH _ T e). right. exact H.
  Qed.
  Lemma total_arrays h (l : list (list X)) a : total (AArr a) (map (den h) (map (MArr X) l)) = Some (AArr (a ++ List.concat l)).
  Proof. revert a. induction l as [|b l IH]; intros a; cbn; [rewrite app_nil_r; reflexivity|]. rewrite IH, app_assoc. reflexivity. Qed.
  Lemma arrs_all (l : list mval) : (forall v, In v l -> isarr v = true) -> l = map (MArr X) (arrs l).
  Proof. induction l as [|v l IH]; intros H; [reflexivity|]. pose proof (H v (or_introl eq_refl)) as Hv. destruct v; try discriminate. cbn. f_equal. apply IH. intros w Hw. apply H. right. exact Hw. Qed.
  Lemma arrs_none (l : list mval) : arrs l = [] -> others l = l.
  Proof. induction l as [|v l IH]; intros H; [reflexivity|]. destruct v; cbn in *; try discriminate; f_equal; apply IH; exact H. Qed.
  Lemma arrs_in (l : list mval) : arrs l <> [] -> exists v, In v l /\ isarr v = true.
  Proof. induction l as [|v l IH]; [cbn; congruence|]. intros H. destruct v; [eexists; split; [left; reflexivity|reflexivity]|..]; destruct (IH H) as (w & A & B); exists w; split; auto; right; exact A. Qed.
  Lemma others_in (l : list mval) : others l <> [] -> exists v, In v l /\ isarr v = false.
  Proof. induction l as [|v l IH]; [cbn; congruence|]. intros H. destruct v; [destruct (IH H) as (w & A & B); exists w; split; auto; right; exact A|..]; eexists; (split; [left; reflexivity|reflexivity]). Qed.
  Lemma others_nil (l : list mval) : others l = [] -> forall v, In v l -> isarr v = true.
  Proof. intros H v Hv. destruct (isarr v) eqn:E; [reflexivity|]. assert (In v (others l)) as A by (apply filter_In; split; [exact Hv|rewrite E; reflexivity]). rewrite H in A. destruct A. Qed.
  Lemma aarr_den h v : aarr (den h v) = isarr v.
  Proof. destruct v; reflexivity. Qed.
  Lemma mixed h (l : list mval) : arrs l <> [] -> others l <> [] -> tot (map (den h) l) = None.
  Proof.
    intros A B. destruct (arrs_in _ A) as (v & Hv & Ev). destruct (others_in _ B) as (w & Hw & Ew). destruct l as [|a l]; [destruct Hv|]. cbn [map tot].
    destruct (total (den h a) (map (den h) l)) as [c|] eqn:T; [|reflexivity]. exfalso.
    pose proof (total_arr _ _ _ T (den h v) (in_map (den h) (a :: l) v Hv)) as P. pose proof (total_arr _ _ _ T (den h w) (in_map (den h) (a :: l) w Hw)) as Q.
    rewrite aarr_den in P, Q. congruence.
  Qed.
  Lemma tot_arrays h (l : list mval) : arrs l <> [] -> others l = [] -> tot (map (den h) l) = Some (Some (AArr (List.concat (arrs l)))).
  Proof. intros A B. rewrite (arrs_all l (others_nil _ B)) at 1. destruct (arrs l) as [|a r]; [congruence|]. cbn [map tot den]. rewrite total_arrays. reflexivity. Qed.

  (** ** The state after some entries *)
  Variable h0 : lheap.
  Definition inv (es rest : list (string * mval)) (w : container * lheap) : Prop :=
    let (c, h) := w in
    List.length h = List.length h0 /\
    (forall k, tot (map (den h0) (others (ev k es))) = Some (option_map (den h) (dget k (k_res _ c)))) /\
    (forall k, dget k (k_arr _ c) = match arrs (ev k es) with [] => None | l => Some l end) /\
    (forall r, In r (refs rest) -> lget h r = lget h0 r) /\
    (forall k r, dget k (k_res _ c) = Some (MList _ r) -> In r (refs es)) /\
    (forall k k' r, dget k (k_res _ c) = Some (MList _ r) -> dget k' (k_res _ c) = Some (MList _ r) -> k = k') /\
    (forall k v, dget k (k_res _ c) = Some v -> isarr v = false) /\
    NoDup (map fst (k_arr _ c)).
  Lemma NoDup_app_disj (r : nat) a b : NoDup (a ++ b) -> In r a -> In r b -> False.
  Proof. induction a as [|x a IH]; cbn; [intros _ []|]. intros H. inversion H as [|? ? H1 H2]; subst. intros [->|A] B; [apply H1; apply in_or_app; auto|apply (IH H2 A B)]. Qed.
  Lemma ev_app k es p : ev k (es ++ [p]) = if String.eqb k (fst p) then ev k es ++ [snd p] else ev k es.
  Proof. unfold ev. rewrite filter_app, map_app. cbn. destruct (String.eqb k (fst p)); cbn; [reflexivity|apply app_nil_r]. Qed.
  Lemma others_app l v : others (l ++ [v]) = if isarr v then others l else others l ++ [v].
  Proof. unfold others. rewrite filter_app. cbn. destruct (isarr v); cbn; [apply app_nil_r|reflexivity]. Qed.
  Lemma arrs_app l v : arrs (l ++ [v]) = match v with MArr _ a => arrs l ++ [a] | _ => arrs l end.
  Proof. unfold arrs. rewrite flat_map_app. cbn. destruct v; cbn; try reflexivity; apply app_nil_r. Qed.
  Lemma tot_snoc l b : tot (l ++ [b]) = match tot l with Some (Some a) => match plus a b with Some c => Some (Some c) | None => None end | Some None => Some (Some b) | None => None end.
  Proof. destruct l as [|a l]; cbn; [reflexivity|]. rewrite total_app. destruct (total a l) as [c|]; [|reflexivity]. cbn. destruct (plus c b); reflexivity. Qed.
  Lemma keys_set {V} k (v : V) d : NoDup (map fst d) -> NoDup (map fst (dset k v d)).
  Proof.
    induction d as [|[a b] d IH]; cbn; intros H; [constructor; [intros []|constructor]|]. inversion H as [|? ? H1 H2]; subst.
    destruct (String.eqb_spec k a) as [->|N]; cbn; [exact H|]. constructor; [|apply IH; exact H2]. intros C. apply H1. clear - C N. induction d as [|[a' b'] d IH]; cbn in *; [destruct C as [C|[]]; congruence|].
    destruct (String.eqb_spec k a') as [->|M]; cbn in C; [exact C|]. destruct C as [C|C]; auto.
  Qed.
  Lemma refs_app a b : refs (a ++ b) = refs a ++ refs b.
  Proof. apply flat_map_app. Qed.
  Lemma plus_iadd u v h h' q : iadd X u v h = (h', q) -> isarr u = false -> isarr v = false ->
    (forall r, u = MList _ r -> r < List.length h) ->
    match q with BOk u' => plus (den h u) (den h v) = Some (den h' u') | BErr _ => plus (den h u) (den h v) = None end /\
    List.length h' = List.length h /\ (forall r, u <> MList _ r -> lget h' r = lget h r) /\
    (forall u', q = BOk u' -> isarr u' = false /\ forall r, u' = MList _ r <-> u = MList _ r).
  Proof.
    intros E Hu Hv Hr. destruct u; try discriminate; destruct v; try discriminate; cbn in E; injection E as <- <-; cbn; rewrite ?lset_length; repeat (split; try reflexivity); try discriminate;
      try (intros; congruence); try (rewrite lget_set by (apply Hr; reflexivity); rewrite Nat.eqb_refl; reflexivity);
      try (intros q Q; rewrite lget_set by (apply Hr; reflexivity); destruct (Nat.eqb_spec q r); [congruence|reflexivity]); try (injection H as <-; try reflexivity; try discriminate; try (intros; congruence)).
  Qed.
  Lemma step es p rest w : inv es (p :: rest) w -> NoDup (refs (es ++ p :: rest)) -> (forall r, In r (refs (es ++ p :: rest)) -> r < List.length h0) ->
    match add_key X p w with
    | (w', BOk _) => inv (es ++ [p]) rest w'
    | (_, BErr e) => e = EBiFlow /\ tot (map (den h0) (others (ev (fst p) (es ++ [p])))) = None
    end.
  Proof.
    destruct w as [c h], p as [k v]. intros (L & R & A & U & I1 & I2 & I3 & ND) DR HR.
    assert (US : forall r, In r (refs rest) -> lget h r = lget h0 r).
    { intros r Q. apply U. change ((k, v) :: rest) with ([(k, v)] ++ rest). rewrite refs_app. apply in_or_app. right. exact Q. }
    assert (Dv : den h v = den h0 v).
    { destruct v; try reflexivity. cbn. f_equal. apply U. cbn. left. reflexivity. }
    destruct (isarr v) eqn:Ea.
    - destruct v as [a| | | |]; try discriminate. cbn [add_key]. cbn [inv k_res k_arr]. split; [exact L|]. split; [|split; [|split; [exact US|split; [|split; [exact I2|split; [exact I3|apply keys_set; exact ND]]]]]].
      + intros k'. rewrite ev_app. cbn [fst snd]. destruct (String.eqb k' k); [rewrite others_app; cbn [isarr]|]; apply R.
      + intros k'. rewrite dget_set, ev_app. cbn [fst snd]. destruct (String.eqb_spec k' k) as [->|N]; [|apply A]. rewrite arrs_app, A. destruct (arrs (ev k es)); reflexivity.
      + intros k' r Q. rewrite refs_app. apply in_or_app. left. eapply I1. exact Q.
    - assert (ST : add_key X (k, v) (c, h) = match dget k (k_res _ c) with
                    | None => ((mkC X (dset k v (k_res _ c)) (k_arr _ c), h), BOk tt)
                    | Some u => match iadd X u v h with (h', BOk u') => ((mkC X (dset k u' (k_res _ c)) (k_arr _ c), h'), BOk tt) | (h', BErr _) => ((c, h'), BErr EBiFlow) end
                    end) by (destruct v; try discriminate; reflexivity).
      rewrite ST. clear ST.
      assert (AR : forall k', arrs (ev k' (es ++ [(k, v)])) = arrs (ev k' es)).
      { intros k'. rewrite ev_app. cbn [fst snd]. destruct (String.eqb k' k); [|reflexivity]. rewrite arrs_app. destruct v; try discriminate; reflexivity. }
      assert (OT : forall k', others (ev k' (es ++ [(k, v)])) = if String.eqb k' k then others (ev k es) ++ [v] else others (ev k' es)).
      { intros k'. rewrite ev_app. cbn [fst snd]. destruct (String.eqb_spec k' k) as [->|N]; [|reflexivity]. rewrite others_app, Ea. reflexivity. }
      assert (NV : forall r, v = MList _ r -> ~ In r (refs es) /\ ~ In r (refs rest)).
      { intros r ->. rewrite refs_app in DR. cbn [refs flat_map snd app] in DR. fold (refs rest) in DR. pose proof (NoDup_remove_2 _ _ _ DR) as Q. split; intros C; apply Q; apply in_or_app; auto. }
      destruct (dget k (k_res _ c)) as [u|] eqn:Gu.
      + pose proof (I3 _ _ Gu) as Eu.
        assert (Hu : forall r, u = MList _ r -> In r (refs es)) by (intros r ->; eapply I1; exact Gu).
        assert (Lu : forall r, u = MList _ r -> r < List.length h) by (intros r E; rewrite L; apply HR; rewrite refs_app; apply in_or_app; left; apply Hu; exact E).
        destruct (iadd X u v h) as [h' q] eqn:IA. destruct (plus_iadd _ _ _ _ _ IA Eu Ea Lu) as (P & L' & K & Q).
        pose proof (R k) as Rk. rewrite Gu in Rk. cbn [option_map] in Rk.
        destruct q as [u'|e].
        * destruct (Q _ eq_refl) as [Eu' Ru]. cbn [inv k_res k_arr]. split; [congruence|]. split; [|split; [|split; [|split; [|split; [|split; [|exact ND]]]]]].
          -- intros k'. rewrite OT, dget_set. destruct (String.eqb_spec k' k) as [->|N].
             ++ rewrite map_app. cbn [map]. rewrite tot_snoc, Rk. cbn [map option_map]. rewrite <- Dv, P. reflexivity.
             ++ rewrite R. destruct (dget k' (k_res _ c)) as [b|] eqn:Gb; [|reflexivity]. cbn [option_map]. do 2 f_equal. destruct b; try reflexivity. cbn. f_equal. symmetry. apply K. intros ->. apply N. eapply I2; eassumption.
          -- intros k'. rewrite AR. apply A.
          -- intros r Hr. rewrite K; [apply US; exact Hr|]. intros ->. rewrite refs_app in DR. refine (NoDup_app_disj r _ _ DR _ _); [apply Hu; reflexivity|]. change ((k, v) :: rest) with ([(k, v)] ++ rest). rewrite refs_app. apply in_or_app. right. exact Hr.
          -- intros k' r. rewrite dget_set, refs_app. intros G. apply in_or_app. left. destruct (String.eqb k' k); [|eapply I1; exact G]. injection G as ->. apply Hu. apply Ru. reflexivity.
          -- intros k1 k2 r. rewrite !dget_set. destruct (String.eqb_spec k1 k) as [->|N1], (String.eqb_spec k2 k) as [->|N2]; intros G1 G2; [reflexivity| | |eapply I2; eassumption].
             ++ injection G1 as ->. pose proof (proj1 (Ru r) eq_refl) as ->. eapply I2; eassumption.
             ++ injection G2 as ->. pose proof (proj1 (Ru r) eq_refl) as ->. eapply I2; eassumption.
          -- intros k' b. rewrite dget_set. destruct (String.eqb k' k); [intros [= <-]; exact Eu'|apply I3].
        * split; [reflexivity|]. cbn [fst]. rewrite OT, String.eqb_refl, map_app. cbn [map]. rewrite tot_snoc, Rk. cbn [map]. rewrite <- Dv, P. reflexivity.
      + cbn [inv k_res k_arr]. pose proof (R k) as Rk. rewrite Gu in Rk. cbn [option_map] in Rk. split; [exact L|]. split; [|split; [|split; [exact US|split; [|split; [|split; [|exact ND]]]]]].
        -- intros k'. rewrite OT, dget_set. destruct (String.eqb_spec k' k) as [->|N]; [|apply R]. rewrite map_app. cbn [map]. rewrite tot_snoc, Rk. cbn [map option_map]. rewrite Dv. reflexivity.
        -- intros k'. rewrite AR. apply A.
        -- intros k' r. rewrite dget_set, refs_app. intros G. apply in_or_app. destruct (String.eqb k' k); [|left; eapply I1; exact G]. injection G as ->. right. left. reflexivity.
        -- intros k1 k2 r. rewrite !dget_set. destruct (String.eqb_spec k1 k) as [->|N1], (String.eqb_spec k2 k) as [->|N2]; intros G1 G2; [reflexivity| | |eapply I2; eassumption].
           ++ injection G1 as ->. exfalso. apply (proj1 (NV r eq_refl)). eapply I1. exact G2.
           ++ injection G2 as ->. exfalso. apply (proj1 (NV r eq_refl)). eapply I1. exact G1.
        -- intros k' b. rewrite dget_set. destruct (String.eqb k' k); [intros [= <-]; exact Ea|apply I3].
  Qed.
  Lemma all es2 : forall es w, inv es es2 w -> NoDup (refs (es ++ es2)) -> (forall r, In r (refs (es ++ es2)) -> r < List.length h0) ->
    match add_message X es2 w with
    | (w', BOk _) => inv (es ++ es2) [] w'
    | (_, BErr e) => e = EBiFlow /\ exists k, tot (map (den h0) (others (ev k (es ++ es2)))) = None
    end.
  Proof.
    induction es2 as [|p es2 IH]; intros es w I DR HR; cbn [add_message]; [rewrite app_nil_r; exact I|].
    pose proof (step _ _ _ _ I DR HR) as ST. destruct (add_key X p w) as [w' [u|e]].
    - specialize (IH (es ++ [p]) w' ST). rewrite <- app_assoc in IH. apply IH; assumption.
    - destruct ST as [-> T]. split; [reflexivity|]. exists (fst p). change (p :: es2) with ([p] ++ es2). rewrite app_assoc.
      unfold ev in *. rewrite (filter_app _ (es ++ [p])), map_app. unfold others in *. rewrite filter_app, map_app.
      revert T. generalize (map (den h0) (filter (fun v => negb (isarr v)) (map snd (filter (fun p0 => String.eqb (fst p) (fst p0)) (es ++ [p]))))). intros l T.
      destruct l as [|a l]; [discriminate|]. cbn [app tot] in *. rewrite total_app. destruct (total a l); [discriminate|reflexivity].
  Qed.
  Lemma add_all_flat ms : forall w, add_all X ms w = add_message X (List.concat ms) w.
  Proof.
    assert (AM : forall a b w, add_message X (a ++ b) w = match add_message X a w with (w', BOk _) => add_message X b w' | (w', BErr e) => (w', BErr e) end).
    { induction a as [|p a IH]; intros b w; cbn [app add_message]; [reflexivity|]. destruct (add_key X p w) as [w' [u|e]]; [apply IH|reflexivity]. }
    induction ms as [|m ms IH]; intros w; cbn [add_all List.concat]; [reflexivity|]. rewrite AM. destruct (add_message X m w) as [w' [u|e]]; [apply IH|reflexivity].
  Qed.
  Lemma get_arrays_spec l : forall c, NoDup (map fst l) ->
    match get_arrays X l c with
    | (c', BOk _) => k_arr _ c' = k_arr _ c /\ (forall k a, dget k l = Some a -> dget k (k_res _ c) = None) /\
                     forall k, dget k (k_res _ c') = match dget k l with Some a => Some (MArr _ (List.concat a)) | None => dget k (k_res _ c) end
    | (_, BErr e) => e = EBiFlow /\ exists k a v, dget k l = Some a /\ dget k (k_res _ c) = Some v
    end.
  Proof.
    induction l as [|[k a] l IH]; intros c ND; cbn [get_arrays]; [split; [reflexivity|]; split; [discriminate|reflexivity]|]. inversion ND as [|? ? N1 N2]; subst. apply dget_none in N1.
    destruct (dget k (k_res _ c)) as [v|] eqn:G.
    - split; [reflexivity|]. exists k, a, v. cbn [dget]. rewrite String.eqb_refl. auto.
    - specialize (IH (mkC X (dset k (MArr _ (List.concat a)) (k_res _ c)) (k_arr _ c)) N2). destruct (get_arrays X l _) as [c' [u|e]].
      + destruct IH as (A & B & C). split; [exact A|]. cbn [k_res] in B, C. split.
        * intros k' b. cbn [dget]. destruct (String.eqb_spec k' k) as [->|N]; [intros _; exact G|]. intros Q. pose proof (B _ _ Q) as R. rewrite dget_set in R. apply String.eqb_neq in N. rewrite N in R. exact R.
        * intros k'. rewrite C, dget_set. cbn [dget]. destruct (String.eqb_spec k' k) as [->|N]; [rewrite N1; reflexivity|reflexivity].
      + destruct IH as (-> & k' & b & v & A & B). split; [reflexivity|]. exists k', b, v. cbn [k_res] in B. rewrite dget_set in B. cbn [dget]. destruct (String.eqb_spec k' k) as [->|N]; [congruence|]. auto.
  Qed.
  (** The results are combined key by key, in the order of the chunks; an exception is raised exactly if the values of some key cannot be
      combined.  The list objects in the messages are distinct. *)
  Theorem C64_combine ms : NoDup (refs (List.concat ms)) -> (forall r, In r (refs (List.concat ms)) -> r < List.length h0) ->
    match combine_all X ms h0 with
    | ((_, h), BOk d) => forall k, match map (den h0) (vals k ms) with
                                   | [] => dget k d = None
                                   | a :: l => exists v, dget k d = Some v /\ total a l = Some (den h v)
                                   end
    | (_, BErr e) => e = EBiFlow /\ exists k a l, map (den h0) (vals k ms) = a :: l /\ total a l = None
    end.
  Proof.
    intros DR HR. unfold combine_all. rewrite add_all_flat.
    assert (I : inv [] (List.concat ms) (new_container X, h0)) by (cbn; repeat split; try discriminate; constructor).
    pose proof (all (List.concat ms) [] _ I DR HR) as H. cbn [app] in H.
    assert (BAD : forall k, tot (map (den h0) (vals k ms)) = None -> exists k a l, map (den h0) (vals k ms) = a :: l /\ total a l = None).
    { intros k T. exists k. destruct (map (den h0) (vals k ms)) as [|a l]; [discriminate|]. exists a, l. split; [reflexivity|]. cbn in T. destruct (total a l); [discriminate|reflexivity]. }
    destruct (add_message X (List.concat ms) (new_container X, h0)) as [[c h] [u|e]].
    - destruct H as (L & R & A & _ & _ & _ & _ & ND). unfold get_message. pose proof (get_arrays_spec (k_arr _ c) c ND) as G. destruct (get_arrays X (k_arr _ c) c) as [c' [u'|e]].
      + destruct G as (_ & B & C). intros k.
        assert (T : tot (map (den h0) (vals k ms)) = Some (option_map (den h) (dget k (k_res _ c')))).
        { rewrite C, A. change (vals k ms) with (ev k (List.concat ms)). destruct (arrs (ev k (List.concat ms))) as [|a l] eqn:EA.
          - rewrite <- R, (arrs_none _ EA). reflexivity.
          - assert (Q : dget k (k_arr _ c) = Some (a :: l)) by (rewrite A, EA; reflexivity). apply B in Q. pose proof (R k) as Rk. rewrite Q in Rk. cbn [option_map] in Rk.
            assert (O : others (ev k (List.concat ms)) = []). { destruct (others (ev k (List.concat ms))) as [|v r]; [reflexivity|]. cbn in Rk. destruct (total _ _); discriminate. }
            rewrite tot_arrays; [|rewrite EA; discriminate|exact O]. rewrite EA. reflexivity. }
        destruct (map (den h0) (vals k ms)) as [|a l]; cbn [tot] in T; [destruct (dget k (k_res _ c')); [discriminate|reflexivity]|].
        destruct (total a l) as [b|]; [|discriminate]. destruct (dget k (k_res _ c')) as [v|]; [|discriminate]. exists v. cbn in T. split; [reflexivity|congruence].
      + destruct G as (-> & k & a & v & GA & GR). split; [reflexivity|]. apply (BAD k). change (vals k ms) with (ev k (List.concat ms)). apply mixed.
        * rewrite A in GA. destruct (arrs (ev k (List.concat ms))); discriminate.
        * intros O. pose proof (R k) as Rk. rewrite O, GR in Rk. discriminate.
    - destruct H as [-> [k T]]. split; [reflexivity|]. apply (BAD k). change (vals k ms) with (ev k (List.concat ms)).
      destruct (arrs (ev k (List.concat ms))) as [|a l] eqn:EA; [rewrite (arrs_none _ EA) in T; exact T|]. apply mixed; [rewrite EA; discriminate|]. intros O. rewrite O in T. discriminate.
  Qed.
End Spec.

(** ** The same list object in several messages *)
Section Witness.
  Local Open Scope string_scope.
  Example C64_example :
    let ms := [[("a", MArr nat [1; 2]); ("n", MInt nat 3); ("l", MList nat 0)]; [("l", MList nat 1); ("a", MArr nat [5]); ("s", MStr nat "x")]; [("n", MInt nat 4); ("l", MStr nat "ab")]] in
    combine_all nat ms [[EInt 1]; [EInt 2]] =
    ((mkC nat [("n", MInt nat 7); ("l", MList nat 0); ("s", MStr nat "x"); ("a", MArr nat [1; 2; 5])] [("a", [[1; 2]; [5]])],
      [[EInt 1; EInt 2; EStr "a"; EStr "b"]; [EInt 2]]),
     BOk [("n", MInt nat 7); ("l", MList nat 0); ("s", MStr nat "x"); ("a", MArr nat [1; 2; 5])]).
  Proof. vm_compute. reflexivity. Qed.
  (** C64: a node that returns the same list in three messages; the sum of [1], [1] and [1] would be [1, 1, 1] *)
  Theorem C64_alias_refuted : exists ms h c h' d,
    combine_all nat ms h = ((c, h'), BOk d) /\ map (den nat h) (vals nat "l" ms) = [AList nat [EInt 1]; AList nat [EInt 1]; AList nat [EInt 1]] /\
    option_map (den nat h') (dget "l" d) = Some (AList nat [EInt 1; EInt 1; EInt 1; EInt 1]).
  Proof. exists [[("l", MList nat 0)]; [("l", MList nat 0)]; [("l", MList nat 0)]], [[EInt 1]]. do 3 eexists. split; [vm_compute; reflexivity|]. split; vm_compute; reflexivity. Qed.
  (** C171: the list in the message of the first chunk is changed by adding the second *)
  Theorem C171_changed_refuted : exists ms h w d r, combine_all nat ms h = (w, BOk d) /\ In r (refs nat (List.concat ms)) /\ NoDup (refs nat (List.concat ms)) /\ lget (snd w) r <> lget h r.
  Proof.
    exists [[("l", MList nat 0)]; [("l", MList nat 1)]], [[EInt 1]; [EInt 2]]. do 2 eexists. exists 0. split; [vm_compute; reflexivity|]. split; [left; reflexivity|]. split; [repeat constructor; cbn; intuition lia|]. vm_compute. discriminate.
  Qed.
  (** C172: asking for the message again raises an exception *)
  Theorem C172_twice_refuted : exists m c h c' d, add_message nat m (new_container nat, []) = ((c, h), BOk tt) /\ get_message nat c = (c', BOk d) /\ snd (get_message nat c') = BErr EBiFlow.
  Proof. exists [("a", MArr nat [1])]. do 4 eexists. split; [vm_compute; reflexivity|]. split; vm_compute; reflexivity. Qed.
End Witness.
(** C171 positive: without a key occurring twice no list is changed *)
Section Once.
  Variable X : Type.
  Lemma add_key_heap p w w' r : add_key X p w = (w', r) -> dget (fst p) (k_res _ (fst w)) = None -> snd w' = snd w.
  Proof. destruct p as [k v], w as [c h]. cbn [fst]. unfold add_key. intros E G. destruct v; try rewrite G in E; injection E as <- _; reflexivity. Qed.
  Lemma add_key_keys k p w w' r : add_key X p w = (w', r) -> k <> fst p -> dget k (k_res _ (fst w')) = dget k (k_res _ (fst w)).
  Proof.
    destruct p as [a v], w as [c h]. cbn [fst]. unfold add_key. intros E N. apply String.eqb_neq in N. destruct v; [injection E as <- _; reflexivity|..];
      (destruct (dget a (k_res _ c)) as [u|]; [|injection E as <- _; cbn [fst k_res]; rewrite dget_set, N; reflexivity]);
      destruct (iadd X u _ h) as [h2 [u'|]]; injection E as <- _; cbn [fst k_res]; try rewrite dget_set, N; reflexivity.
  Qed.
  Lemma once_heap es : forall w w' r, add_message X es w = (w', r) -> NoDup (map fst es) -> (forall k, In k (map fst es) -> dget k (k_res _ (fst w)) = None) -> snd w' = snd w.
  Proof.
    induction es as [|p es IH]; intros w w' r E ND H; cbn in E; [injection E as <- _; reflexivity|]. inversion ND as [|? ? N1 N2]; subst. destruct (add_key X p w) as [w1 [u|e]] eqn:A.
    - rewrite <- (add_key_heap _ _ _ _ A (H _ (or_introl eq_refl))). apply (IH _ _ _ E N2). intros k Hk. rewrite (add_key_keys _ _ _ _ _ A); [apply H; right; exact Hk|]. intros ->. contradiction.
    - injection E as <- _. apply (add_key_heap _ _ _ _ A). apply H. left. reflexivity.
  Qed.
  Theorem C171_once ms h w r : NoDup (map fst (List.concat ms)) -> combine_all X ms h = (w, r) -> snd w = h.
  Proof.
    intros ND E. unfold combine_all in E. rewrite add_all_flat in E. destruct (add_message X (List.concat ms) (new_container X, h)) as [[c h'] q] eqn:A.
    assert (H : h' = h) by (apply (once_heap _ _ _ _ A ND); reflexivity). subst h'. destruct q as [u|e]; [|injection E as <- _; reflexivity]. destruct (get_message X c) as [c' q]. injection E as <- _. reflexivity.
  Qed.
  (** C172 positive: without arrays asking again gives the same *)
  Theorem C172_again c c' d : k_arr X c = [] -> get_message X c = (c', BOk d) -> get_message X c' = (c', BOk d).
  Proof. intros A. unfold get_message. rewrite A. cbn. intros [= <- <-]. rewrite A. reflexivity. Qed.
End Once.
