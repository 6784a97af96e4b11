(** BiNode: messages (C62) and training phases (C167, C168). *)
From Coq Require Import List Arith ZArith Bool String Ascii Lia.
From Verif Require Import BiModel.
Import ListNotations.
Open Scope nat_scope.

(** ** Dicts *)
Section DictFacts.
  Context {V : Type}.
  Implicit Types d e : dict V.
  Lemma eqb_comm (a b : string) : String.eqb a b = String.eqb b a.
  Proof. destruct (String.eqb_spec a b), (String.eqb_spec b a); congruence. Qed.
  Lemma dget_set k v d k' : dget k' (dset k v d) = if String.eqb k' k then Some v else dget k' d.
  Proof.
    induction d as [|[a w] d IH]; cbn; [destruct (String.eqb_spec k' k); reflexivity|].
    destruct (String.eqb_spec k a) as [<-|N]; cbn; [destruct (String.eqb_spec k' k); reflexivity|].
    rewrite IH. destruct (String.eqb_spec k' a) as [->|]; [|reflexivity]. destruct (String.eqb_spec a k); congruence.
  Qed.
  Lemma dget_filter (f : string -> bool) d k : dget k (filter (fun p => f (fst p)) d) = if f k then dget k d else None.
  Proof.
    induction d as [|[a w] d IH]; cbn; [destruct (f k); reflexivity|]. destruct (f a) eqn:Fa; cbn; rewrite IH; destruct (String.eqb_spec k a) as [->|]; try reflexivity; rewrite Fa; reflexivity.
  Qed.
  Lemma dget_del k d k' : dget k' (ddel k d) = if String.eqb k' k then None else dget k' d.
  Proof. unfold ddel. rewrite (dget_filter (fun a => negb (String.eqb k a))). rewrite (eqb_comm k k'). destruct (String.eqb k' k); reflexivity. Qed.
  Lemma dget_none k d : dget k d = None <-> ~ In k (map fst d).
  Proof.
    induction d as [|[a w] d IH]; cbn; [tauto|]. destruct (String.eqb_spec k a) as [->|N]; [split; [discriminate|intuition congruence]|]. rewrite IH. intuition congruence.
  Qed.
  Lemma dget_update d e k : NoDup (map fst e) -> dget k (dupdate d e) = match dget k e with Some v => Some v | None => dget k d end.
  Proof.
    unfold dupdate. revert d. induction e as [|[a w] e IH]; intros d ND; cbn; [reflexivity|]. inversion ND; subst. rewrite IH by assumption. rewrite dget_set.
    destruct (String.eqb_spec k a) as [->|]; [|reflexivity]. apply dget_none in H1. rewrite H1. reflexivity.
  Qed.
  Lemma dget_in k v d : NoDup (map fst d) -> In (k, v) d -> dget k d = Some v.
  Proof.
    induction d as [|[a w] d IH]; cbn; intros ND; [intros []|]. intros [E|E]; [injection E as -> ->; rewrite String.eqb_refl; reflexivity|]. inversion ND; subst.
    destruct (String.eqb_spec k a) as [->|]; [|auto]. exfalso. apply H1. change a with (fst (a, v)). apply in_map. exact E.
  Qed.
  Lemma in_dget k v d : dget k d = Some v -> In (k, v) d.
  Proof. induction d as [|[a w] d IH]; cbn; [discriminate|]. destruct (String.eqb_spec k a) as [->|]; [intros [= ->]; auto|auto]. Qed.
End DictFacts.
Lemma dget_map {V W} (f : V -> W) (d : dict V) k : dget k (map (fun p => (fst p, f (snd p))) d) = option_map f (dget k d).
Proof. induction d as [|[a w] d IH]; cbn; [reflexivity|]. destruct (String.eqb k a); [reflexivity|exact IH]. Qed.
Lemma existsb_In k l : existsb (String.eqb k) l = true <-> In k l.
Proof. rewrite existsb_exists. split; [intros (a & H & E); apply String.eqb_eq in E; subst; exact H|intros H; exists k; split; [exact H|apply String.eqb_refl]]. Qed.

(** ** Keys *)
Definition spec_key (i a : string) : string := (i ++ "->" ++ a)%string.
Definition good_id (i : string) : Prop := i <> ""%string /\ cut i = None.
Lemma cut_some s : forall a b, cut s = Some (a, b) -> s = spec_key a b /\ cut a = None.
Proof.
  induction s as [|c s IH]; intros a b; [discriminate|]. cbn [cut]. destruct (is_sep (String c s)) eqn:E.
  - intros [= <- <-]. split; [|reflexivity]. unfold is_sep in E. destruct c as [[] [] [] [] [] [] [] []]; try discriminate E. destruct s as [|c s]; [discriminate E|]. destruct c as [[] [] [] [] [] [] [] []]; try discriminate E. reflexivity.
  - destruct (cut s) as [[a' b']|] eqn:C; [|discriminate]. intros [= <- <-]. destruct (IH _ _ eq_refl) as [-> H]. split; [reflexivity|].
    cbn [cut]. assert (is_sep (String c a') = false) as ->; [|rewrite H; reflexivity]. destruct a' as [|c' a']; [destruct c as [[] [] [] [] [] [] [] []]; reflexivity|]. unfold is_sep in *. cbn [spec_key String.append] in E. destruct c as [[] [] [] [] [] [] [] []]; try reflexivity; exact E.
Qed.
Lemma cut_spec i b : cut i = None -> cut (spec_key i b) = Some (i, b).
Proof.
  induction i as [|c i IH]; intros H; [reflexivity|]. cbn [cut] in H. destruct (is_sep (String c i)) eqn:E; [discriminate|]. destruct (cut i) as [[]|] eqn:C; [discriminate|].
  change (spec_key (String c i) b) with (String c (spec_key i b)). cbn [cut]. rewrite (IH eq_refl).
  assert (is_sep (String c (spec_key i b)) = false) as ->; [|reflexivity]. destruct i as [|c' i]; [destruct c as [[] [] [] [] [] [] [] []]; reflexivity|]. unfold is_sep in *. cbn [spec_key String.append]. destruct c as [[] [] [] [] [] [] [] []]; try reflexivity; exact E.
Qed.
Lemma parse_key_spec i b : good_id i -> cut b = None -> parse_key (spec_key i b) = BOk (Some (i, b)).
Proof. intros [N H] Hb. unfold parse_key. rewrite cut_spec by exact H. destruct i; [congruence|]. rewrite Hb. reflexivity. Qed.
Lemma parse_key_some k a b : parse_key k = BOk (Some (a, b)) -> k = spec_key a b /\ good_id a /\ cut b = None.
Proof.
  unfold parse_key. destruct (cut k) as [[a' b']|] eqn:C; [|discriminate]. destruct (cut_some _ _ _ C) as [E H]. destruct a' as [|c a']; [discriminate|].
  destruct (cut b') eqn:Cb; [discriminate|]. intros [= <- <-]. split; [exact E|]. split; [split; [discriminate|exact H]|exact Cb].
Qed.
Lemma spec_key_inj i a b : spec_key i a = spec_key i b -> a = b.
Proof. unfold spec_key. induction i as [|c i IH]; cbn; [intros [= H]; exact H|intros [= H]; auto]. Qed.

Section Messages.
  Variables X O S : Type.
  Variable truthy : O -> bool.
  Variable c : bclass X O S.
  Variable i : string.
  Hypothesis Hi : c_id _ _ _ c = Some i.
  Hypothesis Gi : good_id i.
  Notation value := (value O).
  Notation msg := (msg O).

  Lemma get_ids_in ks l : get_ids _ _ _ c ks = BOk l -> forall b k, In (b, k) l <-> In k ks /\ k = spec_key i b.
  Proof.
    revert l. induction ks as [|a ks IH]; intros l E b k; cbn in E; [injection E as <-; cbn; tauto|].
    destruct (parse_key a) as [p|] eqn:P; [|discriminate]. destruct (get_ids _ _ _ c ks) as [l'|]; [|discriminate]. specialize (IH _ eq_refl b k). rewrite Hi in E.
    destruct p as [[x y]|].
    - destruct (parse_key_some _ _ _ P) as (Ea & Gx & Cy). destruct (String.eqb_spec x i) as [->|N]; injection E as <-; cbn [In].
      + split; [intros [[= <- <-]|H]; [auto|tauto]|]. intros [[<-|H] K]; [left|right; tauto]. f_equal. rewrite K in Ea. apply spec_key_inj in Ea. congruence.
      + rewrite IH. split; [tauto|]. intros [[<-|H] K]; [|tauto]. exfalso. apply N. rewrite K in Ea. assert (Some (i, b) = Some (x, y)) as Q; [|congruence]. rewrite <- (cut_spec i b) by apply Gi. rewrite <- (cut_spec x y) by apply Gx. rewrite Ea. reflexivity.
    - injection E as <-. rewrite IH. cbn [In]. split; [tauto|]. intros [[<-|H] K]; [|tauto]. exfalso. unfold parse_key in P. rewrite K, cut_spec in P by apply Gi. destruct Gi as [Ni _]. destruct i; [congruence|]. destruct (cut b); discriminate.
  Qed.
  Lemma get_ids_nodup ks l : get_ids _ _ _ c ks = BOk l -> NoDup ks -> NoDup (map fst l).
  Proof.
    intros E ND. pose proof (get_ids_in _ _ E) as H. revert l E H. induction ks as [|a ks IH]; intros l E H; cbn in E; [injection E as <-; constructor|].
    inversion ND; subst. destruct (parse_key a) as [p|] eqn:P; [|discriminate]. destruct (get_ids _ _ _ c ks) as [l'|] eqn:G; [|discriminate]. pose proof (get_ids_in _ _ G) as H'. specialize (IH H3 _ eq_refl H'). rewrite Hi in E.
    destruct p as [[x y]|]; [|injection E as <-; exact IH]. destruct (String.eqb_spec x i) as [->|N]; injection E as <-; [|exact IH]. cbn. constructor; [|exact IH].
    intros K. apply in_map_iff in K as ([b k] & Eb & K). cbn in Eb. subst b. apply H' in K as [K Ek]. destruct (parse_key_some _ _ _ P) as (Ea & _ & _). congruence.
  Qed.
  (** msg_id_keys with respect to a message: exactly the keys of the message addressed to this node, up to those taken out *)
  Definition idsok (ids : list (string * string)) : Prop := NoDup (map fst ids) /\ forall b k, In (b, k) ids -> k = spec_key i b.
  Lemma idsok_tail p ids : idsok (p :: ids) -> idsok ids.
  Proof. intros [ND H]. inversion ND; subst. split; [assumption|]. intros b k K. apply H. right. exact K. Qed.
  Lemma drop_id_dget k ids a : NoDup (map fst ids) -> dget a (drop_id k ids) = if String.eqb a k then None else dget a ids.
  Proof.
    induction ids as [|[x y] ids IH]; cbn; intros ND; [destruct (String.eqb a k); reflexivity|]. inversion ND; subst. destruct (String.eqb_spec k x) as [<-|N].
    - destruct (String.eqb_spec a k) as [Ea|]; [|reflexivity]. rewrite Ea. apply dget_none. exact H1.
    - cbn. rewrite IH by assumption. destruct (String.eqb_spec a x) as [Ea|]; [|reflexivity]. rewrite Ea. destruct (String.eqb_spec x k); congruence.
  Qed.
  Lemma drop_id_in k ids p : In p (drop_id k ids) -> In p ids.
  Proof. induction ids as [|[x y] ids IH]; cbn; [tauto|]. destruct (String.eqb k x); cbn; tauto. Qed.
  Lemma drop_id_ok k ids : idsok ids -> idsok (drop_id k ids).
  Proof.
    intros [ND H]. split; [|intros b f K; apply H; eapply drop_id_in; exact K]. clear H. induction ids as [|[x y] ids IH]; cbn; [constructor|]. inversion ND; subst. destruct (String.eqb k x); [assumption|]. cbn. constructor; [|auto].
    intros K. apply H1. apply in_map_iff in K as (p & E & K). rewrite <- E. apply in_map. eapply drop_id_in. exact K.
  Qed.
  Lemma idsok_dget ids a : idsok ids -> forall full, dget a ids = Some full -> full = spec_key i a.
  Proof. intros [_ H] full E. apply in_dget in E. apply H in E. exact E. Qed.

  Definition is_some {A} (o : option A) : bool := match o with Some _ => true | None => false end.
  Lemma take_ids_spec names ids : idsok ids -> forall (m : msg) args m' args', take_ids _ names ids m args = (m', args') ->
    (forall k, dget k m' = if existsb (String.eqb k) (map snd ids) then None else dget k m) /\
    (forall a, dget a args' = if existsb (String.eqb a) names && is_some (dget a ids) then Some (AVal _ (oval _ (dget (spec_key i a) m))) else dget a args).
  Proof.
    induction ids as [|[b full] ids IH]; intros OK m args m' args' E.
    - cbn in E. injection E as <- <-. split; [reflexivity|]. intros a. cbn. rewrite andb_false_r. reflexivity.
    - assert (Hf : full = spec_key i b) by (apply OK; left; reflexivity). pose proof (idsok_tail _ _ OK) as OK'. destruct OK as [ND _]. cbn in ND. inversion ND as [|? ? NI _]; subst.
      assert (Nb : dget b ids = None) by (apply dget_none; exact NI).
      cbn [take_ids] in E. destruct (existsb (String.eqb b) names) eqn:B.
      + destruct (IH OK' _ _ _ _ E) as [H1 H2]. split.
        * intros k. rewrite H1, dget_del. cbn [map snd existsb]. destruct (String.eqb k (spec_key i b)); [cbn; destruct (existsb (String.eqb k) (map snd ids)); reflexivity|reflexivity].
        * intros a. rewrite H2, dget_set, !dget_del. cbn [dget]. destruct (String.eqb_spec a b) as [->|N].
          -- rewrite B, Nb. cbn. reflexivity.
          -- destruct (existsb (String.eqb a) names && is_some (dget a ids)); [|reflexivity]. destruct (String.eqb_spec (spec_key i a) (spec_key i b)) as [Q|_]; [apply spec_key_inj in Q; congruence|reflexivity].
      + destruct (IH OK' _ _ _ _ E) as [H1 H2]. split.
        * intros k. rewrite H1, dget_del. cbn [map snd existsb]. destruct (String.eqb k (spec_key i b)); [cbn; destruct (existsb (String.eqb k) (map snd ids)); reflexivity|reflexivity].
        * intros a. rewrite H2, !dget_del. cbn [dget]. destruct (String.eqb_spec a b) as [->|N].
          -- rewrite B. reflexivity.
          -- destruct (existsb (String.eqb a) names && is_some (dget a ids)); [|reflexivity]. destruct (String.eqb_spec (spec_key i a) (spec_key i b)) as [Q|_]; [apply spec_key_inj in Q; congruence|reflexivity].
  Qed.
  (** ** Parsing *)
  Definition addressed (k : string) : bool := match cut k with Some (a, _) => String.eqb a i | None => false end.
  Definition pick (m : msg) (a : string) : value := match dget (spec_key i a) m with Some v => v | None => oval _ (dget a m) end.
  Lemma addressed_spec b : addressed (spec_key i b) = true.
  Proof. unfold addressed. rewrite cut_spec by apply Gi. apply String.eqb_refl. Qed.
  Lemma not_spec k b : cut k = None -> k <> spec_key i b.
  Proof. intros C ->. rewrite cut_spec in C by apply Gi. discriminate. Qed.
  Definition cover (R : list string) (m0 m : msg) (ids : list (string * string)) : Prop :=
    idsok ids /\ (forall b, is_some (dget b ids) = is_some (dget (spec_key i b) m0) && negb (existsb (String.eqb b) R)) /\
    (forall k, dget k m = if existsb (String.eqb k) (map (spec_key i) R) then None else dget k m0).
  Lemma cover_start m ids : NoDup (map fst m) -> get_ids _ _ _ c (map fst m) = BOk ids -> cover [] m m ids.
  Proof.
    intros ND E. pose proof (get_ids_in _ _ E) as H. split; [split; [eapply get_ids_nodup; eauto|intros b k K; apply H in K; tauto]|]. split; [|reflexivity].
    intros b. cbn. rewrite andb_true_r. destruct (dget b ids) as [full|] eqn:D.
    - apply in_dget in D. apply H in D as [D ->]. destruct (dget (spec_key i b) m) eqn:Q; [reflexivity|]. apply dget_none in Q. contradiction.
    - destruct (dget (spec_key i b) m) eqn:Q; [|reflexivity]. apply dget_none in D. exfalso. apply D. apply in_dget in Q. change b with (fst (b, spec_key i b)). apply in_map. apply H. split; [|reflexivity]. change (spec_key i b) with (fst (spec_key i b, v)). apply in_map. exact Q.
  Qed.
  Lemma cover_extract k R m0 m ids v m' ids' : cut k = None -> existsb (String.eqb k) R = false -> cover R m0 m ids -> extract_key _ k m ids = (v, m', ids') -> v = pick m0 k /\ cover (k :: R) m0 m' ids'.
  Proof.
    intros Ck KR (OK & H1 & H2) E. unfold extract_key in E.
    assert (NS : forall R, existsb (String.eqb (spec_key i k)) (map (spec_key i) R) = existsb (String.eqb k) R).
    { clear. induction R as [|a R IH]; [reflexivity|]. cbn. rewrite IH. f_equal. destruct (String.eqb_spec k a) as [->|N]; [apply String.eqb_refl|]. destruct (String.eqb_spec (spec_key i k) (spec_key i a)) as [Q|]; [apply spec_key_inj in Q; congruence|reflexivity]. }
    assert (PL : forall R, existsb (String.eqb k) (map (spec_key i) R) = false).
    { clear - Ck Gi. induction R as [|a R IH]; [reflexivity|]. cbn. rewrite IH, orb_false_r. apply String.eqb_neq. apply not_spec; assumption. }
    pose proof (H1 k) as Hk. rewrite KR, andb_true_r in Hk. unfold pick. destruct (dget k ids) as [full|] eqn:D.
    - injection E as <- <- <-. assert (full = spec_key i k) by (eapply idsok_dget; eauto). subst full. rewrite H2, NS, KR. destruct (dget (spec_key i k) m0) as [w|] eqn:W; [|discriminate]. split; [reflexivity|].
      split; [apply drop_id_ok; exact OK|]. split.
      + intros b. rewrite drop_id_dget by apply OK. cbn. destruct (String.eqb_spec b k) as [->|N]; [rewrite andb_false_r; reflexivity|]. rewrite H1. reflexivity.
      + intros a. rewrite dget_del, H2. cbn. destruct (String.eqb a (spec_key i k)); [reflexivity|]. reflexivity.
    - injection E as <- <- <-. rewrite H2, PL. destruct (dget (spec_key i k) m0) as [w|] eqn:W; [discriminate|]. split; [reflexivity|]. split; [exact OK|]. split.
      + intros b. rewrite H1. cbn. destruct (String.eqb_spec b k) as [->|N]; [|reflexivity]. rewrite W. reflexivity.
      + intros a. rewrite H2. cbn. destruct (String.eqb_spec a (spec_key i k)) as [->|]; [|reflexivity]. rewrite W. cbn. destruct (existsb (String.eqb (spec_key i k)) (map (spec_key i) R)); reflexivity.
  Qed.
  Definition takes_msg (f : meth X O S) : bool := existsb (fun p => String.eqb "msg" (fst p)) (m_params _ _ _ f).
  Definition takes (f : meth X O S) (a : string) : bool := String.eqb a "self" || existsb (fun p => String.eqb a (fst p)) (m_params _ _ _ f).
  Lemma takes_names f a : existsb (String.eqb a) (arg_names _ _ _ f) = takes f a.
  Proof. unfold arg_names, takes. cbn [existsb]. f_equal. induction (m_params _ _ _ f) as [|p l IH]; [reflexivity|]. cbn. rewrite IH. reflexivity. Qed.
  Lemma hget_hset (h : heap O) r m : r < List.length h -> hget _ (hset _ h r m) r = m.
  Proof. revert r. induction h as [|a h IH]; intros [|r]; cbn; try lia; [reflexivity|]. intros H. apply IH. lia. Qed.
  Lemma hset_hset (h : heap O) r m m' : hset _ (hset _ h r m) r m' = hset _ h r m'.
  Proof. revert r. induction h as [|a h IH]; intros [|r]; cbn; try reflexivity. f_equal. apply IH. Qed.
  Lemma hset_length (h : heap O) r m : List.length (hset _ h r m) = List.length h.
  Proof. revert r. induction h as [|a h IH]; intros [|r]; cbn; try reflexivity. f_equal. apply IH. Qed.

  (** what a method sees of the message, and what is handed on *)
  Definition seen_args (m : msg) (r : nat) (f : meth X O S) (args : dict (arg O)) : Prop :=
    (takes_msg f = true -> dget "msg" args = Some (ARef _ r)) /\
    forall a, a <> "msg"%string -> cut a = None ->
      dget a args =
      if takes f a then
        match (if String.eqb a "target" || String.eqb a "method" then None else dget (spec_key i a) m) with
        | Some v => Some (AVal _ v)
        | None => option_map (AVal _) (dget a m)
        end
      else None.
  Definition handed_on (m m' : msg) : Prop := forall k, dget k m' = if addressed k then None else dget k m.
  Lemma parse_spec default s h r w' p : r < List.length h -> NoDup (map fst (hget _ h r)) -> parse _ _ _ truthy c default r (s, h) = (w', BOk p) ->
    let m := hget _ h r in
    get_method _ _ _ truthy c (pick m "method") default (pick m "target") = BOk (p_meth _ _ _ p, p_target _ _ _ p) /\
    p_name _ _ _ p = pick m "method" /\ p_msg _ _ _ p = (if takes_msg (p_meth _ _ _ p) then None else Some r) /\
    seen_args m r (p_meth _ _ _ p) (p_args _ _ _ p) /\
    exists m', w' = (s, hset _ h r m') /\ handed_on m m'.
  Proof.
    intros Hr ND E m. unfold parse, bind, mget, mset, lift in E. cbn [fst snd] in E. fold m in E, ND.
    destruct (get_ids _ _ _ c (map fst m)) as [ids|] eqn:G; [|discriminate]. pose proof (cover_start _ _ ND G) as C0.
    destruct (extract_key _ "target" m ids) as [[tg m1] ids1] eqn:X1. destruct (cover_extract "target" [] m m ids _ _ _ eq_refl eq_refl C0 X1) as [-> C1].
    cbn [fst snd] in E. destruct (extract_key _ "method" m1 ids1) as [[nm m2] ids2] eqn:X2. destruct (cover_extract "method" ["target"%string] m _ _ _ _ _ eq_refl eq_refl C1 X2) as [-> C2].
    cbn [fst snd] in E. destruct (get_method _ _ _ truthy c (pick m "method") default (pick m "target")) as [[f t]|] eqn:GM; [|discriminate].
    unfold extract_args, bind, mget, mset, ret in E. cbn [fst snd] in E. rewrite !hset_hset, hget_hset in E by exact Hr.
    set (plain := map (fun q => (fst q, AVal O (snd q))) (filter (fun q => existsb (String.eqb (fst q)) (arg_names _ _ _ f)) m2)) in E.
    destruct (take_ids _ (arg_names _ _ _ f) ids2 m2 plain) as [m3 args3] eqn:T. cbn [fst snd] in E. rewrite !hset_hset in E.
    destruct C2 as (OK & H1 & H2). destruct (take_ids_spec _ _ OK _ _ _ _ T) as [T1 T2].
    assert (Hm3 : handed_on m m3).
    { intros k. rewrite T1, H2. destruct (addressed k) eqn:A.
      - unfold addressed in A. destruct (cut k) as [[a b]|] eqn:Ck; [|discriminate]. apply String.eqb_eq in A. subst a. destruct (cut_some _ _ _ Ck) as [-> _]. destruct (existsb (String.eqb (spec_key i b)) (map snd ids2)) eqn:Q1; [reflexivity|]. destruct (existsb (String.eqb (spec_key i b)) (map (spec_key i) ["method"%string; "target"%string])) eqn:Q2; [reflexivity|].
        specialize (H1 b). destruct (dget (spec_key i b) m) eqn:D; [|reflexivity]. exfalso. cbn [is_some andb] in H1.
        assert (existsb (String.eqb b) ["method"%string; "target"%string] = false) as Q3.
        { apply not_true_iff_false. intros Q. apply existsb_In in Q. apply not_true_iff_false in Q2. apply Q2. apply existsb_In. apply in_map. exact Q. }
        rewrite Q3 in H1. cbn in H1. destruct (dget b ids2) as [full|] eqn:D2; [|discriminate]. pose proof (idsok_dget _ _ OK _ D2). subst full. apply in_dget in D2. apply not_true_iff_false in Q1. apply Q1. apply existsb_In. change (spec_key i b) with (snd (b, spec_key i b)). apply in_map. exact D2.
      - destruct (existsb (String.eqb k) (map snd ids2)) eqn:Q1.
        { exfalso. apply existsb_In in Q1. apply in_map_iff in Q1 as ([b full] & Eb & K). cbn in Eb. subst full. destruct OK as [_ OK]. apply OK in K. subst k. rewrite addressed_spec in A. discriminate. }
        destruct (existsb (String.eqb k) (map (spec_key i) ["method"%string; "target"%string])) eqn:Q2; [|reflexivity].
        exfalso. apply existsb_In in Q2. apply in_map_iff in Q2 as (b & <- & _). rewrite addressed_spec in A. discriminate. }
    assert (Hargs : forall a, cut a = None -> dget a args3 = if takes f a then match (if String.eqb a "target" || String.eqb a "method" then None else dget (spec_key i a) m) with Some v => Some (AVal _ v) | None => option_map (AVal _) (dget a m) end else None).
    { intros a Ca. rewrite T2. subst plain. rewrite dget_map, (dget_filter (fun k => existsb (String.eqb k) (arg_names _ _ _ f))), takes_names.
      destruct (takes f a); cbn [andb]; [|reflexivity]. rewrite !H2.
      assert (Pa : existsb (String.eqb a) (map (spec_key i) ["method"%string; "target"%string]) = false).
      { apply not_true_iff_false. intros Q. apply existsb_In in Q. apply in_map_iff in Q as (b & Eb & _). symmetry in Eb. revert Eb. apply not_spec. exact Ca. }
      rewrite Pa, H1. cbn [existsb]. rewrite orb_false_r, (orb_comm (String.eqb a "method")). destruct (String.eqb a "target" || String.eqb a "method") eqn:Q; [rewrite andb_false_r; reflexivity|].
      cbn [negb]. rewrite andb_true_r. destruct (dget (spec_key i a) m) as [v|] eqn:D; [|reflexivity]. cbn [is_some].
      assert (existsb (String.eqb (spec_key i a)) (map (spec_key i) ["method"%string; "target"%string]) = false) as ->; [|reflexivity].
      apply not_true_iff_false. intros Q'. apply existsb_In in Q'. apply in_map_iff in Q' as (b & Eb & K). apply spec_key_inj in Eb. subst b. destruct K as [<-|[<-|[]]]; discriminate. }
    assert (TM : existsb (String.eqb "msg") (arg_names _ _ _ f) = takes_msg f) by (rewrite takes_names; reflexivity). rewrite TM in E.
    destruct (takes_msg f) eqn:TF; injection E as <- <-; cbn.
    - split; [reflexivity|]. split; [reflexivity|]. rewrite TF. split; [reflexivity|]. split; [|exists m3; split; [reflexivity|exact Hm3]]. split; [intros _; rewrite dget_set, String.eqb_refl; reflexivity|].
      intros a Na Ca. rewrite dget_set. destruct (String.eqb_spec a "msg"); [congruence|]. apply Hargs. exact Ca.
    - split; [reflexivity|]. split; [reflexivity|]. rewrite TF. split; [reflexivity|]. split; [|exists m3; split; [reflexivity|exact Hm3]]. split; [congruence|]. intros a _ Ca. apply Hargs. exact Ca.
  Qed.
  (** ** Results *)
  Definition content (h : heap O) (o : option nat) : msg := match o with None => [] | Some r => hget _ h r end.
  Definition res_y (x : result X O) : option X := match x with RPlain _ _ y => y | RPair _ _ y _ => y | RTriple _ _ y _ _ => y | ROther _ _ => None end.
  Definition res_msg (x : result X O) : option nat := match x with RPlain _ _ _ => None | RPair _ _ _ m => m | RTriple _ _ _ m _ => m | ROther _ _ => None end.
  Definition res_target (x : result X O) : option value := match x with RTriple _ _ _ _ t => Some t | _ => None end.
  Lemma merge_spec y m mr s h w' om : (forall r, m = Some r -> r < List.length h) -> NoDup (map fst (content h mr)) -> merge X O S y m mr (s, h) = (w', BOk om) ->
    fst w' = s /\ forall k, dget k (content (snd w') om) = match dget k (content h mr) with Some v => Some v | None => dget k (content h m) end.
  Proof.
    intros Hm ND E. unfold merge, bind, nonempty, mget, mset, ret in E. destruct m as [r|]; cbn -[hget hset dupdate] in E.
    - destruct (hget _ h r) as [|p l] eqn:D; cbn -[hget hset dupdate] in E.
      + injection E as <- <-. split; [reflexivity|]. intros k. cbn [snd content]. rewrite D. cbn. destruct (dget k (content h mr)); reflexivity.
      + destruct mr as [r'|]; cbn -[hget hset dupdate] in E.
        * destruct (hget _ h r') as [|p' l'] eqn:D'; cbn -[hget hset dupdate] in E.
          -- injection E as <- <-. split; [reflexivity|]. intros k. cbn [snd content]. rewrite D'. reflexivity.
          -- rewrite D, ?D' in E. injection E as <- <-. split; [reflexivity|]. intros k. cbn [snd content]. rewrite hget_hset by (apply Hm; reflexivity). cbn [content] in ND. rewrite D' in ND. rewrite D, D'. exact (dget_update (p :: l) (p' :: l') k ND).
        * injection E as <- <-. split; [reflexivity|]. intros k. reflexivity.
    - injection E as <- <-. split; [reflexivity|]. intros k. cbn [snd content dget]. destruct (dget k (content h mr)); reflexivity.
  Qed.
  Lemma combine_spec res m target s h w' res' : (forall r, m = Some r -> r < List.length h) -> NoDup (map fst (content h (res_msg res))) -> res <> ROther _ _ ->
    combine X O S res m target (s, h) = (w', BOk res') ->
    fst w' = s /\ res_y res' = res_y res /\
    (forall k, dget k (content (snd w') (res_msg res')) = match dget k (content h (res_msg res)) with Some v => Some v | None => dget k (content h m) end) /\
    res_target res' = match res_target res with Some t => Some t | None => match target with VNone _ => None | t => Some t end end.
  Proof.
    intros Hm ND NO E. destruct res as [y|y mr|y mr t|]; [| | |congruence].
    - unfold combine, bind, ret in E. assert (nonempty O S m (s, h) = ((s, h), BOk (match content h m with [] => false | _ => true end))) as NE by (destruct m; reflexivity). rewrite NE in E.
      destruct target, (content h m) eqn:D; injection E as <- <-; cbn; rewrite ?D; auto.
    - unfold combine, bind, ret in E. destruct (merge X O S y m mr (s, h)) as [w1 [om|]] eqn:Mg; [|discriminate]. destruct (merge_spec _ _ _ _ _ _ _ Hm ND Mg) as [A B]. injection E as <- <-. destruct target; cbn; auto.
    - unfold combine, bind, ret in E. destruct (merge X O S y m mr (s, h)) as [w1 [om|]] eqn:Mg; [|discriminate]. destruct (merge_spec _ _ _ _ _ _ _ Hm ND Mg) as [A B]. injection E as <- <-. cbn; auto.
  Qed.

  (** ** C62 *)
  (** the node is not being trained *)
  Definition settled (s : bnode S) : Prop := n_training _ s = false /\ (c_trainable _ _ _ c = true -> n_phase _ s <> 0).
  Lemma own_spec g s h w' r : own O S g (s, h) = (w', BOk r) -> exists o, w' = (mkNode _ o (n_training _ s) (n_phase _ s) (n_started _ s), h).
  Proof. unfold own. cbn [fst snd]. destruct (g (n_own _ s)) as [o q]. intros [= <- _]. exists o. reflexivity. Qed.
  Lemma pre_execute_settled x s h w' r : settled s -> pre_execute _ _ _ truthy c x (s, h) = (w', BOk r) -> exists o, w' = (mkNode _ o (n_training _ s) (n_phase _ s) (n_started _ s), h).
  Proof.
    intros [T P] E. unfold pre_execute, bind, look in E. cbn [fst] in E.
    assert (c_trainable _ _ _ c && (n_phase _ s =? 0) && negb (n_started _ s) = false) as Q.
    { destruct (c_trainable _ _ _ c); [|reflexivity]. specialize (P eq_refl). apply Nat.eqb_neq in P. rewrite P. reflexivity. }
    rewrite Q in E. unfold ret, stop_if_training, bind, look in E. cbn [fst] in E. rewrite T in E. unfold ret in E. eapply own_spec. exact E.
  Qed.
  Lemma pre_inverse_settled x s h w' r : settled s -> pre_inverse _ _ _ truthy c x (s, h) = (w', BOk r) -> exists o, w' = (mkNode _ o (n_training _ s) (n_phase _ s) (n_started _ s), h).
  Proof.
    intros [T P] E. unfold pre_inverse in E. destruct (negb (c_invertible _ _ _ c)); [discriminate|]. unfold bind, stop_if_training, bind, look in E. cbn [fst] in E. rewrite T in E. unfold ret in E. eapply own_spec. exact E.
  Qed.
  (** the method requested under a name, and the target handed on *)
  Definition requested (name target0 : value) (default f : meth X O S) (target : value) : Prop :=
    (truth _ truthy name = false -> f = default /\ target = target0) /\
    (name = VStr _ "inverse" -> f = c_inverse _ _ _ c /\ target = match target0 with VNone _ => VInt _ (-1) | t => t end) /\
    (forall n, name = VStr _ n -> n <> ""%string -> n <> "inverse"%string -> c_methods _ _ _ c n = Some f /\ target = target0).
  Lemma get_method_requested name target0 default f target : get_method _ _ _ truthy c name default target0 = BOk (f, target) -> requested name target0 default f target.
  Proof.
    unfold get_method. intros E. split; [|split].
    - intros T. rewrite T in E. cbn in E. injection E as <- <-. auto.
    - intros ->. cbn in E. injection E as <- <-. auto.
    - intros n -> N1 N2. cbn in E. apply String.eqb_neq in N1, N2. rewrite N1, N2 in E. cbn in E. destruct (c_methods _ _ _ c n); [|discriminate]. injection E as <- <-. auto.
  Qed.
  Lemma execute_core s h h1 r x w' res p : settled s -> parse _ _ _ truthy c (c_execute _ _ _ c) r (s, h) = ((s, h1), BOk p) -> p_msg _ _ _ p = (if takes_msg (p_meth _ _ _ p) then None else Some r) -> r < List.length h1 ->
    execute _ _ _ truthy c x (Some r) (s, h) = (w', BOk res) ->
    exists x' s1 s2 h2 res0,
      m_run _ _ _ (p_meth _ _ _ p) x' (p_args _ _ _ p) (s1, h1) = ((s2, h2), BOk res0) /\
      (List.length h1 <= List.length h2 -> NoDup (map fst (content h2 (res_msg res0))) -> res0 <> ROther _ _ ->
       res_y res = res_y res0 /\
       (forall k, dget k (content (snd w') (res_msg res)) =
          match dget k (content h2 (res_msg res0)) with Some v => Some v | None => if takes_msg (p_meth _ _ _ p) then None else dget k (hget _ h2 r) end) /\
       res_target res = match res_target res0 with Some t => Some t | None => match p_target _ _ _ p with VNone _ => None | t => Some t end end).
  Proof.
    intros St P Mm Hr E. unfold execute, bind in E. rewrite P in E.
    set (pre := match x with None => _ | Some _ => _ end) in E.
    assert (Hpre : forall w1 x', pre (s, h1) = (w1, BOk x') -> exists o, w1 = (mkNode _ o (n_training _ s) (n_phase _ s) (n_started _ s), h1)).
    { intros w1 x' Q. unfold pre in Q. destruct x as [x|]; [|injection Q as <- _; exists (n_own _ s); destruct s; reflexivity].
      assert (A : forall q, bind O S (pre_execute _ _ _ truthy c x) q (s, h1) = (w1, BOk x') -> (forall u w, fst (q u w) = w) -> exists o, w1 = (mkNode _ o (n_training _ s) (n_phase _ s) (n_started _ s), h1)).
      { intros q B Hq. unfold bind in B. destruct (pre_execute _ _ _ truthy c x (s, h1)) as [w2 [u|]] eqn:PE; [|discriminate]. destruct (pre_execute_settled _ _ _ _ _ St PE) as [o ->]. exists o. rewrite <- (Hq u). rewrite B. reflexivity. }
      assert (B : forall q, bind O S (pre_inverse _ _ _ truthy c x) q (s, h1) = (w1, BOk x') -> (forall u w, fst (q u w) = w) -> exists o, w1 = (mkNode _ o (n_training _ s) (n_phase _ s) (n_started _ s), h1)).
      { intros q B Hq. unfold bind in B. destruct (pre_inverse _ _ _ truthy c x (s, h1)) as [w2 [u|]] eqn:PE; [|discriminate]. destruct (pre_inverse_settled _ _ _ _ _ St PE) as [o ->]. exists o. rewrite <- (Hq u). rewrite B. reflexivity. }
      destruct (negb (truth O truthy (p_name _ _ _ p)) || is_str O "execute" (p_name _ _ _ p)); [eapply A; [exact Q|reflexivity]|].
      destruct (is_str O "inverse" (p_name _ _ _ p)); [eapply B; [exact Q|reflexivity]|]. injection Q as <- _. exists (n_own _ s). destruct s; reflexivity. }
    destruct (pre (s, h1)) as [w1 [x'|]] eqn:Q; [|discriminate E]. destruct (Hpre _ _ eq_refl) as [o ->]. clear Hpre.
    unfold call in E. destruct (bind_args _ _ _ (p_meth _ _ _ p) 1 (p_args _ _ _ p)) eqn:BA; [|cbn in E; discriminate]. cbn [fst snd n_own] in E.
    destruct (m_run _ _ _ (p_meth _ _ _ p) x' (p_args _ _ _ p) (o, h1)) as [[s2 h2] [res0|]] eqn:RN; [|discriminate].
    exists x', o, s2, h2, res0. split; [exact RN|].
    intros HL HN NO. rewrite Mm in E. cbn [n_training n_phase n_started] in E.
    assert (HM : forall r0, (if takes_msg (p_meth _ _ _ p) then None else Some r) = Some r0 -> r0 < List.length h2) by (intros r0 H0; destruct (takes_msg (p_meth _ _ _ p)); [discriminate|]; injection H0 as <-; lia).
    destruct (combine_spec _ _ _ _ _ _ _ HM HN NO E) as (_ & A & B & C).
    split; [exact A|]. split; [|rewrite C; destruct (res_target res0), (p_target _ _ _ p); reflexivity]. intros k. rewrite B. destruct (dget k (content h2 (res_msg res0))); [reflexivity|]. destruct (takes_msg (p_meth _ _ _ p)); reflexivity.
  Qed.
  (** The method is the one requested (a key addressed to this node wins over a plain one), its arguments come from the message, the keys
      addressed to this node are taken out, and the result is laid over what remains. *)
  Theorem C62_execute s h r x w' res : settled s -> r < List.length h -> NoDup (map fst (hget _ h r)) ->
    execute _ _ _ truthy c x (Some r) (s, h) = (w', BOk res) ->
    let m := hget _ h r in
    exists f target args m' x' s1 s2 h2 res0,
      requested (pick m "method") (pick m "target") (c_execute _ _ _ c) f target /\
      seen_args m r f args /\ handed_on m m' /\
      m_run _ _ _ f x' args (s1, hset _ h r m') = ((s2, h2), BOk res0) /\
      (List.length h <= List.length h2 -> NoDup (map fst (content h2 (res_msg res0))) -> res0 <> ROther _ _ ->
       res_y res = res_y res0 /\
       (forall k, dget k (content (snd w') (res_msg res)) =
          match dget k (content h2 (res_msg res0)) with Some v => Some v | None => if takes_msg f then None else dget k (hget _ h2 r) end) /\
       res_target res = match res_target res0 with Some t => Some t | None => match target with VNone _ => None | t => Some t end end).
  Proof.
    intros St Hr ND E m. pose proof E as E0. unfold execute, bind in E0. destruct (parse _ _ _ truthy c (c_execute _ _ _ c) r (s, h)) as [w1 [p|]] eqn:P; [|discriminate]. clear E0.
    destruct (parse_spec _ _ _ _ _ _ Hr ND P) as (GM & Nm & Mm & SA & m' & -> & HO). fold m in GM, Nm, SA, HO.
    destruct (execute_core _ _ _ _ _ _ _ _ St P Mm ltac:(rewrite hset_length; exact Hr) E) as (x' & s1 & s2 & h2 & res0 & RN & H). rewrite hset_length in H.
    exists (p_meth _ _ _ p), (p_target _ _ _ p), (p_args _ _ _ p), m', x', s1, s2, h2, res0. split; [apply get_method_requested; exact GM|]. split; [exact SA|]. split; [exact HO|]. split; [exact RN|]. intros H1 H2 H3. destruct (H H1 H2 H3) as (A & B & C). split; [exact A|]. split; [exact B|]. rewrite C. destruct (res_target res0), (p_target _ _ _ p); reflexivity.
  Qed.
  (** ** C167: stop_training *)
  Lemma call_spec g n x args s h w' res : call X O S g n x args (s, h) = (w', BOk res) ->
    exists o h2, w' = (mkNode _ o (n_training _ s) (n_phase _ s) (n_started _ s), h2) /\ m_run _ _ _ g x args (n_own _ s, h) = ((o, h2), BOk res).
  Proof.
    unfold call. destruct (bind_args _ _ _ g n args); [|discriminate]. cbn [fst snd]. destruct (m_run _ _ _ g x args (n_own _ s, h)) as [[o h2] q] eqn:E. intros [= <- ->]. exists o, h2. auto.
  Qed.
  Definition lay (a b : option value) : option value := match a with Some v => Some v | None => b end.
  Definition tlay (a : option value) (t : value) : option value := match a with Some t => Some t | None => match t with VNone _ => None | t => Some t end end.
  (** the end of stop_training, after the hook *)
  Lemma stop_tail res0 mm target s h2 w' res (m0 : option (msg * value)) :
    (match c_stop_result _ _ _ c with [] => m0 = None | st => m0 = nth_error st (n_phase _ s) /\ m0 <> None end) -> (forall r, mm = Some r -> r < List.length h2) ->
    NoDup (map fst (content h2 (res_msg res0))) -> NoDup (map fst (content h2 mm)) -> (forall r, res_msg res0 = Some r -> r < List.length h2) -> res0 <> ROther _ _ ->
    (let s' := mkNode _ (n_own _ s) (if List.length (c_phases _ _ _ c) - (n_phase _ s + 1) =? 0 then false else n_training _ s) (n_phase _ s + 1) false in
     match c_stop_result _ _ _ c with
     | [] => combine X O S res0 mm target
     | st => bind O S (look O S) (fun s =>
        match nth_error st (n_phase _ s - 1) with
        | None => raise O S (EIndex)
        | Some (m0, t0) =>
            bind O S (nonempty O S mm) (fun b =>
            bind O S (match mm, b with Some r, true => bind O S (mget O S r) (fun m => mnew O S (dupdate m0 m)) | _, _ => mnew O S m0 end) (fun r =>
            combine X O S res0 (Some r) (match target with VNone _ => t0 | t => t end)))
        end)
     end (s', h2)) = (w', BOk res) ->
    res_y res = res_y res0 /\
    (forall k, dget k (content (snd w') (res_msg res)) = lay (dget k (content h2 (res_msg res0))) (lay (dget k (content h2 mm)) (match m0 with Some (m, _) => dget k m | None => None end))) /\
    res_target res = tlay (tlay (res_target res0) target) (match m0 with Some (_, t) => t | None => VNone _ end) /\
    fst w' = mkNode _ (n_own _ s) (if List.length (c_phases _ _ _ c) - (n_phase _ s + 1) =? 0 then false else n_training _ s) (n_phase _ s + 1) false.
  Proof.
    intros Hst Hm ND0 ND1 Hr NO E. cbv zeta in E. destruct (c_stop_result _ _ _ c) as [|st0 st] eqn:ST.
    - subst m0. destruct (combine_spec _ _ _ _ _ _ _ Hm ND0 NO E) as (A & B & C & D). split; [exact B|]. split; [|split; [|exact A]].
      + intros k. rewrite C. unfold lay. destruct (dget k (content h2 (res_msg res0))); [reflexivity|]. destruct (dget k (content h2 mm)); reflexivity.
      + rewrite D. unfold tlay. destruct (res_target res0); [reflexivity|]. destruct target; reflexivity.
    - destruct Hst as [Em Nm]. unfold bind, look in E. cbn [fst n_phase] in E. replace (n_phase _ s + 1 - 1) with (n_phase _ s) in E by lia. rewrite <- Em in E. destruct m0 as [[m0 t0]|]; [|congruence].
      assert (NE : forall s h, nonempty O S mm (s, h) = ((s, h), BOk (match content h mm with [] => false | _ => true end))) by (intros; destruct mm; reflexivity). rewrite NE in E.
      assert (G : forall q, combine X O S res0 (Some (List.length h2)) (match target with VNone _ => t0 | t => t end) (mkNode _ (n_own _ s) (if List.length (c_phases _ _ _ c) - (n_phase _ s + 1) =? 0 then false else n_training _ s) (n_phase _ s + 1) false, h2 ++ [q]) = (w', BOk res) ->
                (forall k, dget k q = lay (dget k (content h2 mm)) (dget k m0)) ->
                res_y res = res_y res0 /\
                (forall k, dget k (content (snd w') (res_msg res)) = lay (dget k (content h2 (res_msg res0))) (lay (dget k (content h2 mm)) (dget k m0))) /\
                res_target res = tlay (tlay (res_target res0) target) t0 /\
                fst w' = mkNode _ (n_own _ s) (if List.length (c_phases _ _ _ c) - (n_phase _ s + 1) =? 0 then false else n_training _ s) (n_phase _ s + 1) false).
      { intros q Eq Hq. assert (K : content (h2 ++ [q]) (res_msg res0) = content h2 (res_msg res0)) by (destruct (res_msg res0) as [r|]; [|reflexivity]; cbn; unfold hget; apply app_nth1; apply Hr; reflexivity).
        assert (HM : forall r, Some (List.length h2) = Some r -> r < List.length (h2 ++ [q])) by (intros r [= <-]; rewrite app_length; cbn; lia).
        destruct (combine_spec _ _ _ _ _ _ _ HM ltac:(rewrite K; exact ND0) NO Eq) as (A & B & C & D). split; [exact B|]. split; [|split; [|exact A]].
        - intros k. rewrite C, K. unfold lay. destruct (dget k (content h2 (res_msg res0))); [reflexivity|]. cbn [content]. unfold hget. rewrite app_nth2 by lia. rewrite Nat.sub_diag. cbn [nth]. rewrite Hq. reflexivity.
        - rewrite D. unfold tlay. destruct (res_target res0); [reflexivity|]. destruct target; reflexivity. }
      destruct mm as [r|].
      + cbn [content] in E, ND1. destruct (hget _ h2 r) as [|p l] eqn:Dm.
        * unfold mnew in E. cbn [fst snd] in E. apply (G _ E). intros k. cbn [content]. rewrite Dm. reflexivity.
        * unfold bind, mget, mnew in E. cbn [fst snd] in E. rewrite Dm in E. apply (G _ E). intros k. rewrite dget_update by exact ND1. cbn [content]. rewrite Dm. reflexivity.
      + unfold mnew in E. cbn [fst snd] in E. apply (G _ E). intros k. reflexivity.
  Qed.
  Lemma stop_guard om s h w' res : stop_training _ _ _ truthy c om (s, h) = (w', BOk res) -> n_training _ s = true /\ n_started _ s = true.
  Proof. unfold stop_training, bind, look. cbn [fst]. destruct (n_training _ s), (n_started _ s); cbn; auto; discriminate. Qed.
  (** without a message *)
  Theorem C167_stop s h w' res : stop_training _ _ _ truthy c None (s, h) = (w', BOk res) ->
    n_training _ s = true /\ n_started _ s = true /\ exists fs o h2 res0,
      nth_error (c_phases _ _ _ c) (n_phase _ s) = Some fs /\ m_run _ _ _ (snd fs) None [] (n_own _ s, h) = ((o, h2), BOk res0) /\
      (NoDup (map fst (content h2 (res_msg res0))) -> (forall r, res_msg res0 = Some r -> r < List.length h2) -> res0 <> ROther _ _ ->
       fst w' = mkNode _ o (n_phase _ s + 1 <? List.length (c_phases _ _ _ c)) (n_phase _ s + 1) false /\
       res_y res = res_y res0 /\
       match nth_error (c_stop_result _ _ _ c) (n_phase _ s) with
       | Some (m0, t0) => (forall k, dget k (content (snd w') (res_msg res)) = lay (dget k (content h2 (res_msg res0))) (dget k m0)) /\ res_target res = tlay (res_target res0) t0
       | None => c_stop_result _ _ _ c = [] /\ (forall k, dget k (content (snd w') (res_msg res)) = dget k (content h2 (res_msg res0))) /\ res_target res = res_target res0
       end).
  Proof.
    intros E. destruct (stop_guard _ _ _ _ _ E) as [T St]. split; [exact T|]. split; [exact St|].
    unfold stop_training, bind, look, lift, phase_meths, nonempty, ret in E. cbn [fst] in E. rewrite T, St in E. cbn [andb negb] in E.
    destruct (nth_error (c_phases _ _ _ c) (n_phase _ s)) as [fs|] eqn:NP; [|discriminate]. destruct (call X O S (snd fs) 0 None [] (s, h)) as [w1 [res0|]] eqn:CL; [|discriminate].
    destruct (call_spec _ _ _ _ _ _ _ _ CL) as (o & h2 & -> & RN). exists fs, o, h2, res0. split; [reflexivity|]. split; [exact RN|]. intros ND Hr NO. cbn [fst snd n_own n_phase n_training n_started] in E.
    assert (L : n_phase _ s < List.length (c_phases _ _ _ c)) by (apply nth_error_Some; congruence).
    assert (TR : (if List.length (c_phases _ _ _ c) - (n_phase _ s + 1) =? 0 then false else n_training _ s) = (n_phase _ s + 1 <? List.length (c_phases _ _ _ c))).
    { rewrite T. destruct (Nat.eqb_spec (List.length (c_phases _ _ _ c) - (n_phase _ s + 1)) 0), (Nat.ltb_spec (n_phase _ s + 1) (List.length (c_phases _ _ _ c))); try reflexivity; lia. }
    set (m0 := match c_stop_result _ _ _ c with [] => None | st => nth_error st (n_phase _ s) end).
    assert (H0 : match c_stop_result _ _ _ c with [] => m0 = None | st => m0 = nth_error st (n_phase _ s) /\ m0 <> None end).
    { subst m0. destruct (c_stop_result _ _ _ c) eqn:ST; [reflexivity|]. split; [reflexivity|]. rewrite <- ST. intros Z. unfold bind, look in E. cbn [fst n_phase] in E. rewrite ST in Z. replace (n_phase _ s + 1 - 1) with (n_phase _ s) in E by lia. rewrite Z in E. discriminate E. }
    pose proof (stop_tail res0 None (VNone _) (mkNode _ o (n_training _ s) (n_phase _ s) (n_started _ s)) h2 w' res m0 H0 ltac:(discriminate) ND ltac:(constructor) Hr NO E) as (A & B & C & D).
    cbn [n_own n_training n_phase] in D. rewrite TR in D. split; [exact D|]. split; [exact A|]. subst m0. cbn [content dget lay] in B.
    destruct (c_stop_result _ _ _ c) as [|st0 st] eqn:ST.
    - replace (nth_error (@nil (msg * value)) (n_phase _ s)) with (@None (msg * value)) by (destruct (n_phase _ s); reflexivity). split; [reflexivity|]. split.
      + intros k. rewrite B. unfold lay. destruct (dget k (content h2 (res_msg res0))); reflexivity.
      + rewrite C. unfold tlay. destruct (res_target res0); reflexivity.
    - destruct H0 as [_ N]. destruct (nth_error (st0 :: st) (n_phase _ s)) as [[m1 t1]|]; [|congruence]. split; [exact B|]. rewrite C. unfold tlay. destruct (res_target res0); reflexivity.
  Qed.
  (** with a message: the method requested, then result over remaining message over stored message; target of the result, then of the
      message, then the stored one *)
  Theorem C167_message s h r w' res : r < List.length h -> NoDup (map fst (hget _ h r)) -> hget _ h r <> [] ->
    stop_training _ _ _ truthy c (Some r) (s, h) = (w', BOk res) ->
    let m := hget _ h r in
    n_training _ s = true /\ n_started _ s = true /\ exists fs f target args m' o h2 res0,
      nth_error (c_phases _ _ _ c) (n_phase _ s) = Some fs /\
      requested (pick m "method") (pick m "target") (snd fs) f target /\ seen_args m r f args /\ handed_on m m' /\
      m_run _ _ _ f None args (n_own _ s, hset _ h r m') = ((o, h2), BOk res0) /\
      (List.length h <= List.length h2 -> NoDup (map fst (hget _ h2 r)) -> NoDup (map fst (content h2 (res_msg res0))) ->
       (forall r, res_msg res0 = Some r -> r < List.length h2) -> res0 <> ROther _ _ ->
       let rest k := if takes_msg f then None else dget k (hget _ h2 r) in
       fst w' = mkNode _ o (n_phase _ s + 1 <? List.length (c_phases _ _ _ c)) (n_phase _ s + 1) false /\
       res_y res = res_y res0 /\
       match nth_error (c_stop_result _ _ _ c) (n_phase _ s) with
       | Some (m0, t0) => (forall k, dget k (content (snd w') (res_msg res)) = lay (dget k (content h2 (res_msg res0))) (lay (rest k) (dget k m0))) /\
                          res_target res = tlay (tlay (res_target res0) target) t0
       | None => c_stop_result _ _ _ c = [] /\ (forall k, dget k (content (snd w') (res_msg res)) = lay (dget k (content h2 (res_msg res0))) (rest k)) /\
                 res_target res = tlay (res_target res0) target
       end).
  Proof.
    intros Hr NDm NEm E m. destruct (stop_guard _ _ _ _ _ E) as [T St]. split; [exact T|]. split; [exact St|].
    unfold stop_training, bind at 1, look in E. cbn [fst] in E. rewrite T, St in E. cbn [andb negb] in E.
    unfold bind at 1, lift, phase_meths in E.
    destruct (nth_error (c_phases _ _ _ c) (n_phase _ s)) as [fs|] eqn:NP; [|discriminate].
    unfold bind at 1 in E. replace (nonempty O S (Some r) (s, h)) with ((s, h), BOk true) in E by (unfold nonempty, bind, mget, ret; cbn [fst snd]; destruct (hget _ h r); [exfalso; apply NEm; reflexivity|reflexivity]).
    unfold bind at 1 2 3, ret in E. destruct (parse _ _ _ truthy c (snd fs) r (s, h)) as [w1 [p|]] eqn:P; [|discriminate].
    destruct (parse_spec _ _ _ _ _ _ Hr NDm P) as (GM & Nm & Mm & SA & m' & -> & HO). fold m in GM, Nm, SA, HO.
    destruct (call X O S (p_meth _ _ _ p) 0 None (p_args _ _ _ p) (s, hset _ h r m')) as [w2 [res0|]] eqn:CL; [|discriminate].
    destruct (call_spec _ _ _ _ _ _ _ _ CL) as (o & h2 & -> & RN).
    exists fs, (p_meth _ _ _ p), (p_target _ _ _ p), (p_args _ _ _ p), m', o, h2, res0.
    split; [reflexivity|]. split; [apply get_method_requested; exact GM|]. split; [exact SA|]. split; [exact HO|]. split; [exact RN|].
    intros HL ND1 ND Hr0 NO rest. unfold bind at 1 in E. cbn [fst snd n_own n_phase n_training n_started] in E.
    assert (L : n_phase _ s < List.length (c_phases _ _ _ c)) by (apply nth_error_Some; congruence).
    assert (TR : (if List.length (c_phases _ _ _ c) - (n_phase _ s + 1) =? 0 then false else n_training _ s) = (n_phase _ s + 1 <? List.length (c_phases _ _ _ c))).
    { rewrite T. destruct (Nat.eqb_spec (List.length (c_phases _ _ _ c) - (n_phase _ s + 1)) 0), (Nat.ltb_spec (n_phase _ s + 1) (List.length (c_phases _ _ _ c))); try reflexivity; lia. }
    set (m0 := match c_stop_result _ _ _ c with [] => None | st => nth_error st (n_phase _ s) end).
    assert (H0 : match c_stop_result _ _ _ c with [] => m0 = None | st => m0 = nth_error st (n_phase _ s) /\ m0 <> None end).
    { subst m0. destruct (c_stop_result _ _ _ c) eqn:ST; [reflexivity|]. split; [reflexivity|]. rewrite <- ST. intros Z. unfold bind, look in E. cbn [fst n_phase] in E. rewrite ST in Z. replace (n_phase _ s + 1 - 1) with (n_phase _ s) in E by lia. rewrite Z in E. discriminate E. }
    assert (K : content h2 (p_msg _ _ _ p) = if takes_msg (p_meth _ _ _ p) then [] else hget _ h2 r) by (rewrite Mm; destruct (takes_msg (p_meth _ _ _ p)); reflexivity).
    assert (HM : forall r0, p_msg _ _ _ p = Some r0 -> r0 < List.length h2) by (intros r0 Q; rewrite Mm in Q; destruct (takes_msg (p_meth _ _ _ p)); [discriminate|]; injection Q as <-; lia).
    assert (NDp : NoDup (map fst (content h2 (p_msg _ _ _ p)))) by (rewrite K; destruct (takes_msg (p_meth _ _ _ p)); [constructor|exact ND1]).
    pose proof (stop_tail res0 (p_msg _ _ _ p) (p_target _ _ _ p) (mkNode _ o (n_training _ s) (n_phase _ s) (n_started _ s)) h2 w' res m0 H0 HM ND NDp Hr0 NO E) as (A & B & C & D).
    cbn [n_own n_training n_phase] in D. rewrite TR in D. split; [exact D|]. split; [exact A|].
    assert (B' : forall k, dget k (content (snd w') (res_msg res)) = lay (dget k (content h2 (res_msg res0))) (lay (rest k) (match m0 with Some (m, _) => dget k m | None => None end))).
    { intros k. rewrite B, K. subst rest. cbv beta. destruct (takes_msg (p_meth _ _ _ p)); reflexivity. }
    clear B. subst m0. destruct (c_stop_result _ _ _ c) as [|st0 st] eqn:ST.
    - replace (nth_error (@nil (msg * value)) (n_phase _ s)) with (@None (msg * value)) by (destruct (n_phase _ s); reflexivity). split; [reflexivity|]. split.
      + intros k. rewrite B'. unfold lay. destruct (dget k (content h2 (res_msg res0))), (rest k); reflexivity.
      + rewrite C. unfold tlay. destruct (res_target res0); [reflexivity|]. destruct (p_target _ _ _ p); reflexivity.
    - destruct H0 as [_ N]. destruct (nth_error (st0 :: st) (n_phase _ s)) as [[m1 t1]|]; [|congruence]. split; [exact B'|exact C].
  Qed.
End Messages.

(** ** A node without id: it never touches an addressed key *)
Section NoId.
  Variables X O S : Type.
  Variable truthy : O -> bool.
  Variable c : bclass X O S.
  Hypothesis Hn : c_id _ _ _ c = None.
  Lemma get_ids_none ks l : get_ids _ _ _ c ks = BOk l -> l = [].
  Proof.
    revert l. induction ks as [|a ks IH]; intros l E; cbn in E; [injection E as <-; reflexivity|]. destruct (parse_key a) as [p|]; [|discriminate]. destruct (get_ids _ _ _ c ks) as [l'|]; [|discriminate]. rewrite (IH _ eq_refl), Hn in E. destruct p as [[]|]; congruence.
  Qed.
  Lemma hset_same (h : heap O) r : hset _ h r (hget _ h r) = h.
  Proof. revert r. induction h as [|a h IH]; intros [|r]; cbn; try reflexivity. f_equal. apply IH. Qed.
  Theorem C62_no_id s h r x w' res : settled _ _ _ c s -> r < List.length h -> execute _ _ _ truthy c x (Some r) (s, h) = (w', BOk res) ->
    let m := hget _ h r in
    exists f target args x' s1 s2 h2 res0,
      requested _ _ _ truthy c (oval _ (dget "method" m)) (oval _ (dget "target" m)) (c_execute _ _ _ c) f target /\
      (takes_msg _ _ _ f = true -> dget "msg" args = Some (ARef _ r)) /\
      (forall a, a <> "msg"%string -> dget a args = if takes _ _ _ f a then option_map (AVal _) (dget a m) else None) /\
      m_run _ _ _ f x' args (s1, h) = ((s2, h2), BOk res0) /\
      (List.length h <= List.length h2 -> NoDup (map fst (content _ h2 (res_msg _ _ res0))) -> res0 <> ROther _ _ ->
       res_y _ _ res = res_y _ _ res0 /\
       (forall k, dget k (content _ (snd w') (res_msg _ _ res)) =
          match dget k (content _ h2 (res_msg _ _ res0)) with Some v => Some v | None => if takes_msg _ _ _ f then None else dget k (hget _ h2 r) end) /\
       res_target _ _ res = match res_target _ _ res0 with Some t => Some t | None => match target with VNone _ => None | t => Some t end end).
  Proof.
    intros St Hr E m. pose proof E as E0. unfold execute, bind in E0. destruct (parse _ _ _ truthy c (c_execute _ _ _ c) r (s, h)) as [w1 [p|]] eqn:P; [|discriminate]. clear E0.
    assert (H : w1 = (s, h) /\ get_method _ _ _ truthy c (oval _ (dget "method" m)) (c_execute _ _ _ c) (oval _ (dget "target" m)) = BOk (p_meth _ _ _ p, p_target _ _ _ p) /\
      p_msg _ _ _ p = (if takes_msg _ _ _ (p_meth _ _ _ p) then None else Some r) /\ (takes_msg _ _ _ (p_meth _ _ _ p) = true -> dget "msg" (p_args _ _ _ p) = Some (ARef _ r)) /\
      (forall a, a <> "msg"%string -> dget a (p_args _ _ _ p) = if takes _ _ _ (p_meth _ _ _ p) a then option_map (AVal _) (dget a m) else None)).
    { pose proof P as P0. unfold parse, bind, mget, mset, lift in P0. cbn [fst snd] in P0. fold m in P0. destruct (get_ids _ _ _ c (map fst m)) as [ids|] eqn:G; [|discriminate]. apply get_ids_none in G. subst ids. unfold extract_key in P0. cbn [dget fst snd] in P0.
      destruct (get_method _ _ _ truthy c (oval _ (dget "method" m)) (c_execute _ _ _ c) (oval _ (dget "target" m))) as [[f t]|] eqn:GM; [|discriminate]. unfold extract_args, bind, mget, mset, ret in P0. cbn [fst snd take_ids] in P0. subst m. rewrite !hset_same in P0.
      assert (TM : existsb (String.eqb "msg") (arg_names _ _ _ f) = takes_msg _ _ _ f) by (rewrite takes_names; reflexivity). rewrite TM in P0.
      assert (PA : forall a, dget a (map (fun q => (fst q, AVal O (snd q))) (filter (fun q => existsb (String.eqb (fst q)) (arg_names _ _ _ f)) (hget _ h r))) = if takes _ _ _ f a then option_map (AVal _) (dget a (hget _ h r)) else None).
      { intros a. rewrite dget_map, (dget_filter (fun k => existsb (String.eqb k) (arg_names _ _ _ f))), takes_names. destruct (takes _ _ _ f a); reflexivity. }
      destruct (takes_msg _ _ _ f) eqn:TF; injection P0 as <- <-; cbn [p_meth p_target p_msg p_args]; rewrite TF, ?hset_same; split; try reflexivity; split; try reflexivity; split; try reflexivity.
      - split; [intros _; rewrite dget_set, String.eqb_refl; reflexivity|]. intros a Na. rewrite dget_set. destruct (String.eqb_spec a "msg"); [congruence|]. apply PA.
      - split; [congruence|]. intros a _. apply PA. }
    destruct H as (-> & GM & Mm & A1 & A2).
    destruct (execute_core _ _ _ truthy c _ _ _ _ _ _ _ _ St P Mm Hr E) as (x' & s1 & s2 & h2 & res0 & RN & H).
    exists (p_meth _ _ _ p), (p_target _ _ _ p), (p_args _ _ _ p), x', s1, s2, h2, res0. split; [apply get_method_requested; exact GM|]. split; [exact A1|]. split; [exact A2|]. split; [exact RN|]. intros H1 H2 H3. destruct (H H1 H2 H3) as (A & B & C). split; [exact A|]. split; [exact B|]. rewrite C. destruct (res_target _ _ res0), (p_target _ _ _ p); reflexivity.
  Qed.
End NoId.

(** ** Training *)
Section Training.
  Variables X O S : Type.
  Variable truthy : O -> bool.
  Variable c : bclass X O S.
  Notation M := (M O S).
  (** the node keeps its place in the training sequence *)
  Definition same_phase (s s' : bnode S) : Prop := n_training _ s' = n_training _ s /\ n_phase _ s' = n_phase _ s.
  (** a computation with a relation between the states before and after, when it succeeds *)
  Definition rel {R} (Q : bnode S -> bnode S -> Prop) (p : M R) : Prop := forall w w' r, p w = (w', BOk r) -> Q (fst w) (fst w').
  Lemma rel_bind {R T} Q1 Q2 (p : M R) (f : R -> M T) : rel Q1 p -> (forall r, rel Q2 (f r)) -> rel (fun s s' => exists s1, Q1 s s1 /\ Q2 s1 s') (bind O S p f).
  Proof. intros H1 H2 w w' t E. unfold bind in E. destruct (p w) as [w1 [r|]] eqn:P; [|discriminate]. exists (fst w1). split; [eapply H1; exact P|eapply H2; exact E]. Qed.
  Definition keep (s s' : bnode S) : Prop := n_training _ s' = n_training _ s /\ n_phase _ s' = n_phase _ s /\ n_started _ s' = n_started _ s.
  Lemma keep_bind {R T} (p : M R) (f : R -> M T) : rel keep p -> (forall r, rel keep (f r)) -> rel keep (bind O S p f).
  Proof. intros H1 H2 w w' t E. destruct (rel_bind _ _ _ _ H1 H2 _ _ _ E) as (s1 & (A & B & C) & (D & F & G)). repeat split; congruence. Qed.
  Lemma keep_ret {R} (r : R) : rel keep (ret O S r).
  Proof. intros w w' q [= <- _]. repeat split. Qed.
  Lemma keep_raise {R} e : rel keep (@raise O S R e).
  Proof. intros w w' q E. discriminate. Qed.
  Lemma keep_mget r : rel keep (mget O S r).
  Proof. intros w w' q [= <- _]. repeat split. Qed.
  Lemma keep_mset r m : rel keep (mset O S r m).
  Proof. intros w w' q [= <- _]. repeat split. Qed.
  Lemma keep_look : rel keep (look O S).
  Proof. intros w w' q [= <- _]. repeat split. Qed.
  Lemma keep_lift {R} (r : bres R) : rel keep (lift O S r).
  Proof. intros w w' q [= <- _]. repeat split. Qed.
  Lemma keep_own g : rel keep (own O S g).
  Proof. intros [s h] w' q. unfold own. cbn. destruct (g (n_own _ s)). intros [= <- _]. repeat split. Qed.
  Lemma keep_call g n x args : rel keep (call X O S g n x args).
  Proof. intros [s h] w' q E. destruct (call_spec _ _ _ _ _ _ _ _ _ _ _ E) as (o & h2 & -> & _). repeat split. Qed.
  Lemma keep_nonempty m : rel keep (nonempty O S m).
  Proof. destruct m; [apply keep_bind; [apply keep_mget|intros; apply keep_ret]|apply keep_ret]. Qed.
  Lemma keep_merge y m mr : rel keep (merge X O S y m mr).
  Proof.
    apply keep_bind; [apply keep_nonempty|]. intros b. destruct m as [r|]; [|apply keep_ret]. destruct b; [|apply keep_ret]. apply keep_bind; [apply keep_nonempty|]. intros b'. apply keep_bind; [|intros; apply keep_ret].
    destruct mr as [r'|]; [|apply keep_ret]. destruct b'; [|apply keep_ret]. apply keep_bind; [apply keep_mget|]. intros d. apply keep_bind; [apply keep_mget|]. intros e. apply keep_mset.
  Qed.
  Lemma keep_combine res m t : rel keep (combine X O S res m t).
  Proof. destruct res as [y|y mr|y mr t'|]; cbn [combine]; [apply keep_bind; [apply keep_nonempty|intros; apply keep_ret]|apply keep_bind; [apply keep_merge|intros; apply keep_ret]|apply keep_bind; [apply keep_merge|intros; apply keep_ret]|apply keep_ret]. Qed.
  Lemma keep_parse d r : rel keep (parse X O S truthy c d r).
  Proof.
    unfold parse. apply keep_bind; [apply keep_mget|]. intros m. apply keep_bind; [apply keep_lift|]. intros ids. destruct (extract_key O "target" m ids) as [[t m1] ids1]. apply keep_bind; [apply keep_mset|]. intros _.
    destruct (extract_key O "method" m1 ids1) as [[nm m2] ids2]. apply keep_bind; [apply keep_mset|]. intros _. apply keep_bind; [apply keep_lift|]. intros [f t']. apply keep_bind; [|intros [mm args]; apply keep_ret].
    unfold extract_args. apply keep_bind; [apply keep_mget|]. intros m3. destruct (take_ids O _ ids2 m3 _) as [m4 args]. apply keep_bind; [apply keep_mset|]. intros _. destruct (existsb _ _); apply keep_ret.
  Qed.
  (** started afterwards *)
  Definition starts (s s' : bnode S) : Prop := n_training _ s' = n_training _ s /\ n_phase _ s' = n_phase _ s /\ n_started _ s' = true.
  Lemma starts_pre {R T} (p : M R) (f : R -> M T) : rel keep p -> (forall r, rel starts (f r)) -> rel starts (bind O S p f).
  Proof. intros H1 H2 w w' t E. destruct (rel_bind _ _ _ _ H1 H2 _ _ _ E) as (s1 & (A & B & C) & (D & F & G)). repeat split; congruence. Qed.
  Lemma starts_post {R T} (p : M R) (f : R -> M T) : rel starts p -> (forall r, rel keep (f r)) -> rel starts (bind O S p f).
  Proof. intros H1 H2 w w' t E. destruct (rel_bind _ _ _ _ H1 H2 _ _ _ E) as (s1 & (A & B & C) & (D & F & G)). repeat split; congruence. Qed.
  Lemma starts_set : rel starts (set_started O S true).
  Proof. intros w w' q [= <- _]. repeat split. Qed.
  (** Training with an array and the normal training method: the phase has started and goes on *)
  Theorem C168_started x om s h w' res : train _ _ _ truthy c (Some x) om (s, h) = (w', BOk res) ->
    (forall r k, om = Some r -> In k ["method"%string; match c_id _ _ _ c with Some i => spec_key i "method" | None => "method"%string end] -> dget k (hget _ h r) = None) ->
    n_training _ (fst w') = n_training _ s /\ n_phase _ (fst w') = n_phase _ s /\ n_started _ (fst w') = true.
  Proof.
    intros E Hk. revert E. unfold train. assert (KG : rel keep (guard_train _ _ _ c)).
    { unfold guard_train. destruct (negb (c_trainable _ _ _ c)); [apply keep_raise|]. apply keep_bind; [apply keep_look|]. intros s0. destruct (negb (n_training _ s0)); [apply keep_raise|apply keep_ret]. }
    destruct om as [r|].
    - intros E. unfold bind at 1 in E. destruct (guard_train _ _ _ c (s, h)) as [w1 [u|]] eqn:G; [|discriminate].
      assert (w1 = (s, h)) as ->. { unfold guard_train, raise, bind, look, ret in G. destruct (negb (c_trainable _ _ _ c)); [discriminate|]. cbn [fst] in G. destruct (negb (n_training _ s)); [discriminate|]. congruence. }
      unfold bind at 1, look at 1 in E. cbn [fst] in E. unfold bind at 1, lift at 1 in E. destruct (phase_meths _ _ _ c s) as [fs|]; [|discriminate].
      unfold bind at 1 in E. destruct (parse _ _ _ truthy c (fst fs) r (s, h)) as [w1 [p|]] eqn:P; [|discriminate].
      assert (PN : truth _ truthy (p_name _ _ _ p) = false).
      { unfold parse, bind, mget, mset, lift in P. cbn [fst snd] in P. destruct (get_ids _ _ _ c (map fst (hget _ h r))) as [ids|] eqn:GI; [|discriminate].
        assert (Nk : forall k full, In (k, full) ids -> dget k ids = Some full -> k <> "method"%string).
        { intros k full K _ ->. assert (Q : forall ks l, get_ids _ _ _ c ks = BOk l -> forall b f, In (b, f) l -> In f ks /\ match c_id _ _ _ c with Some i => f = spec_key i b | None => False end).
          { clear. induction ks as [|a ks IH]; intros l E b f K; cbn in E; [injection E as <-; destruct K|]. destruct (parse_key a) as [q|] eqn:P; [|discriminate]. destruct (get_ids _ _ _ c ks) as [l'|] eqn:G; [|discriminate]. specialize (IH _ eq_refl b f).
            destruct q as [[x y]|]; [|injection E as <-; destruct (IH K); split; [right|]; assumption]. destruct (c_id _ _ _ c) as [i|] eqn:I; [|injection E as <-; destruct (IH K) as [_ []]]. destruct (String.eqb_spec x i) as [->|]; injection E as <-; [|destruct (IH K); split; [right|]; assumption].
            destruct K as [[= <- <-]|K]; [|destruct (IH K); split; [right|]; assumption]. destruct (parse_key_some _ _ _ P) as (-> & _). split; [left|]; reflexivity. }
          destruct (Q _ _ GI _ _ K) as [K1 K2]. destruct (c_id _ _ _ c) as [i|]; [|exact K2]. subst full. specialize (Hk r (spec_key i "method") eq_refl ltac:(cbn; tauto)). apply dget_none in Hk. contradiction. }
        destruct (extract_key O "target" (hget _ h r) ids) as [[t m1] ids1] eqn:X1.
        assert (M1 : dget "method" m1 = None /\ dget "method" ids1 = None).
        { pose proof (Hk r "method"%string eq_refl ltac:(cbn; tauto)) as N0. assert (N1 : dget "method" ids = None). { destruct (dget "method" ids) eqn:Q; [|reflexivity]. exfalso. eapply Nk; [apply in_dget; exact Q|exact Q|reflexivity]. }
          unfold extract_key in X1. destruct (dget "target" ids) eqn:Q; injection X1 as <- <- <-; [|auto]. split; [rewrite dget_del, N0; destruct (String.eqb _ _); reflexivity|]. apply dget_none. intros K. apply dget_none in N1. apply N1. apply in_map_iff in K as (q & E1 & K). rewrite <- E1. apply in_map. eapply drop_id_in. exact K. }
        destruct M1 as [M1 M2]. cbn [fst snd] in P. unfold extract_key in P. rewrite M1, M2 in P. destruct (get_method _ _ _ truthy c (oval O None) (fst fs) t) as [[f t']|]; [|discriminate]. cbn [fst snd] in P.
        destruct (extract_args X O S f r ids1 _) as [w2 [[mm args]|]]; [|discriminate]. injection P as _ <-. reflexivity. }
      rewrite PN in E. cbn [negb orb] in E. pose proof (keep_parse (fst fs) r _ _ _ P) as (A & B & C). cbn [fst] in A, B, C. rewrite <- A, <- B. change (starts (fst w1) (fst w')). eapply starts_post; [| |exact E].
      + apply starts_pre; [apply keep_own|]. intros _. apply starts_pre; [apply keep_own|]. intros _. apply starts_post; [apply starts_set|]. intros _. apply keep_bind; [|intros; apply keep_ret]. apply keep_bind; [apply keep_look|intros; apply keep_ret].
      + intros x'. apply keep_bind; [apply keep_call|]. intros res0. assert (KC : rel keep (bind O S (combine X O S res0 (p_msg _ _ _ p) (p_target _ _ _ p)) (fun res' => ret O S (match res' with RPair _ _ None _ => RPlain _ _ None | r => r end)))) by (apply keep_bind; [apply keep_combine|intros; apply keep_ret]). destruct res0 as [[y|]| | |]; try exact KC. apply keep_ret.
    - intros E. change (starts (fst (s, h)) (fst w')). eapply starts_pre; [exact KG| |exact E]. intros ?. unfold train_plain. apply starts_pre; [apply keep_own|]. intros _. apply starts_pre; [apply keep_own|]. intros _. apply starts_post; [apply starts_set|]. intros _. apply keep_bind; [apply keep_bind; [apply keep_look|intros; apply keep_ret]|]. intros x'. apply keep_bind; [apply keep_look|]. intros s0. apply keep_bind; [apply keep_lift|]. intros fs. apply keep_call.
  Qed.
End Training.

(** ** Examples and refutations *)
Section Ex.
  Notation vmsg := (msg unit).
  Definition no (_ : unit) : bool := true.
  (** arrays are numbers; the node's attribute is the list of the arguments it received *)
  Definition St := list (option nat * dict (arg unit)).
  Definition logm (ps : list (string * bool)) (res : option nat -> heap unit -> heap unit * result nat unit) : meth nat unit St :=
    mkMeth nat unit St ps (fun x a w => let (h, r) := res x (snd w) in ((fst w ++ [(x, a)], h), BOk r)).
  Definition ok {T} (_ : T) (s : St) : St * bres unit := (s, BOk tt).
  Definition xp (l : list (string * bool)) := ("x"%string, true) :: l.
  (** _execute(self, x, a, b=None) returns (x, {"b": 9}) *)
  Definition ex_exec := logm (xp [("a", true); ("b", false)]%string) (fun x h => (h ++ [[("b"%string, VInt unit 9)]], RPair _ _ x (Some (List.length h)))).
  Definition ex_train := logm (xp [("a", false)]%string) (fun _ h => (h, RPlain _ _ None)).
  Definition ex_stop := logm [] (fun _ h => (h, RPlain _ _ None)).
  Definition ex_class (trainable : bool) : bclass nat unit St :=
    mkClass _ _ _ (Some "n"%string) trainable true (fun _ => None) ex_exec (logm (xp []) (fun x h => (h, RPlain _ _ x)))
      (if trainable then [(ex_train, ex_stop); (ex_train, ex_stop)] else []) [([("s"%string, VInt unit 1)], VStr unit "u"); ([("s"%string, VInt unit 2)], VNone unit)] ok ok (fun _ => ok) (fun _ x => x) (fun s => s).
  Definition one_class : bclass nat unit St :=
    mkClass _ _ _ (Some "n"%string) true true (fun _ => None) ex_exec (logm (xp []) (fun x h => (h, RPlain _ _ x))) [(ex_train, ex_stop)] [] ok ok (fun _ => ok) (fun _ x => x) (fun s => s).
  Definition ex_msg : vmsg := [("a", VInt unit 1); ("n->a", VInt unit 2); ("m->a", VInt unit 3); ("b", VInt unit 4); ("n->z", VInt unit 5)]%string.
  Example C62_example :
    execute _ _ _ no (ex_class false) (Some 7) (Some 0) (new_node _ _ _ (ex_class false) [], [ex_msg]) =
    ((mkNode _ [(Some 7, [("a"%string, AVal _ (VInt _ 2)); ("b"%string, AVal _ (VInt _ 4))])] false 0 false,
      [[("a", VInt unit 1); ("m->a", VInt unit 3); ("b", VInt unit 9)]; [("b", VInt unit 9)]]%string), BOk (RPair _ _ (Some 7) (Some 0))).
  Proof. vm_compute. reflexivity. Qed.
  Definition andthen {R T} (p : M unit St R) (q : M unit St T) : M unit St T := bind unit St p (fun _ => q).
  (** two training phases, each with its stop_result *)
  Example C167_example :
    let c := ex_class true in
    let run := andthen (train _ _ _ no c (Some 7) None) (stop_training _ _ _ no c None) (new_node _ _ _ c [], []) in
    snd run = BOk (RTriple _ _ None (Some 0) (VStr _ "u")) /\ hget _ (snd (fst run)) 0 = [("s"%string, VInt unit 1)] /\ n_training _ (fst (fst run)) = true /\
    let run2 := andthen (train _ _ _ no c (Some 7) None) (stop_training _ _ _ no c None) (fst run) in
    snd run2 = BOk (RPair _ _ None (Some 1)) /\ hget _ (snd (fst run2)) 1 = [("s"%string, VInt unit 2)] /\ n_training _ (fst (fst run2)) = false.
  Proof. vm_compute. repeat split. Qed.
  Example C168_example : n_started _ (fst (fst (train _ _ _ no one_class (Some 7) None (new_node _ _ _ one_class [], [])))) = true.
  Proof. vm_compute. reflexivity. Qed.
  (** C168: trained with a message only, the node cannot stop training *)
  Theorem C168_message_refuted : exists c : bclass nat unit St, exists m : vmsg, exists w' res,
    train _ _ _ no c None (Some 0) (new_node _ _ _ c [], [m]) = (w', BOk res) /\
    n_own _ (fst w') = [(None, [("a"%string, AVal _ (VInt _ 1))])] /\
    snd (stop_training _ _ _ no c None w') = BErr ETraining.
  Proof. exists one_class, [("a"%string, VInt unit 1)]. eexists. eexists. split; [vm_compute; reflexivity|]. split; vm_compute; reflexivity. Qed.
  (** C169: a message asking for the inverse ends the training phase *)
  Theorem C169_inverse_refuted : exists c : bclass nat unit St, exists m : vmsg, exists w1 w2 r1 r2,
    train _ _ _ no c (Some 7) None (new_node _ _ _ c [], [m]) = (w1, BOk r1) /\ n_training _ (fst w1) = true /\
    train _ _ _ no c (Some 8) (Some 0) w1 = (w2, BOk r2) /\ n_training _ (fst w2) = false.
  Proof. exists one_class, [("method"%string, VStr unit "inverse")]. do 4 eexists. split; [vm_compute; reflexivity|]. split; [vm_compute; reflexivity|]. split; [vm_compute; reflexivity|]. vm_compute; reflexivity. Qed.
  (** C170: a key "x" in the message makes every call fail *)
  Theorem C170_x_refuted : exists c : bclass nat unit St, exists m : vmsg,
    snd (execute _ _ _ no c (Some 7) (Some 0) (new_node _ _ _ c [], [m])) = BErr EType /\
    (exists y, snd (execute _ _ _ no c (Some 7) (Some 0) (new_node _ _ _ c [], [ddel "x" m])) = BOk y).
  Proof. exists (ex_class false), [("a"%string, VInt unit 1); ("x"%string, VInt unit 3)]. split; [vm_compute; reflexivity|]. eexists. vm_compute. reflexivity. Qed.
End Ex.

(** C170: with no key "self" and no key named like the positional argument, an accepted call binds *)
Section Binding.
  Variables X O S : Type.
  Theorem C170_bind (f : meth X O S) (args : dict (arg O)) : m_params _ _ _ f <> [] ->
    bind_args X O S f 1 args = true <->
    (~ In "self"%string (map fst args) /\ (forall p, hd_error (m_params _ _ _ f) = Some p -> ~ In (fst p) (map fst args)) /\
     forall p, In p (tl (m_params _ _ _ f)) -> snd p = true -> In (fst p) (map fst args)).
  Proof.
    destruct (m_params _ _ _ f) as [|[q b] ps] eqn:E; [congruence|]. intros _. unfold bind_args. rewrite E. cbn [List.length firstn skipn map fst hd_error tl Nat.leb]. rewrite !andb_true_iff, !forallb_forall. split.
    - intros [[_ H1] H2]. split; [|split].
      + intros K. apply in_map_iff in K as (p & Ep & K). specialize (H1 _ K). rewrite Ep in H1. discriminate.
      + intros p [= <-] K. apply in_map_iff in K as (p & Ep & K). specialize (H1 _ K). cbn in Ep. rewrite Ep in H1. cbn [existsb] in H1. rewrite String.eqb_refl, orb_true_r in H1. discriminate.
      + intros p K Hp. specialize (H2 _ K). rewrite Hp in H2. cbn in H2. apply existsb_exists in H2 as (a & Ka & Ea). apply String.eqb_eq in Ea. rewrite Ea. apply in_map. exact Ka.
    - intros (H1 & H2 & H3). split; [split; [reflexivity|]|].
      + intros p K. apply negb_true_iff. apply not_true_iff_false. intros Q. apply existsb_In in Q. destruct Q as [Q|[Q|[]]]; [apply H1; rewrite Q; apply in_map; exact K|]. apply (H2 _ eq_refl). cbn. rewrite Q. apply in_map. exact K.
      + intros p K. destruct (snd p) eqn:Hp; [|reflexivity]. cbn. specialize (H3 _ K Hp). apply in_map_iff in H3 as (a & Ea & Ka). apply existsb_exists. exists a. split; [exact Ka|]. rewrite Ea. apply String.eqb_refl.
  Qed.
End Binding.
