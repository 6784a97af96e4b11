(** Properties of OrderedDict *)
From Coq Require Import List Arith Bool Lia.
From Verif Require Import OdModel.
Import ListNotations.

Section Od.
  Variables (K V : Type) (keqb : K -> K -> bool).
  Hypothesis keqb_ok : forall a b, keqb a b = true <-> a = b.
  Notation od := (od K V). Notation cell := (cell K).
  Notation lookup := (lookup K keqb). Notation drop := (drop K keqb).
  Notation o_set := (o_set K V keqb). Notation o_del := (o_del K V keqb). Notation o_new := (o_new K V). Notation o_iter := (o_iter K V). Notation o_reversed := (o_reversed K V).
  Notation o_items := (o_items K V keqb). Notation o_popitem := (o_popitem K V keqb). Notation o_of := (o_of K V keqb). Notation o_copy := (o_copy K V keqb).
  Notation nxt h a := (c_next K (h a)). Notation prv h a := (c_prev K (h a)).

  Lemma keqb_refl k : keqb k k = true. Proof. now apply keqb_ok. Qed.
  Lemma keqb_ne a b : a <> b -> keqb a b = false. Proof. intros H. destruct (keqb a b) eqn:E; [apply keqb_ok in E; contradiction|reflexivity]. Qed.
  Lemma kdec (a b : K) : {a = b} + {a <> b}. Proof. destruct (keqb a b) eqn:E; [left; now apply keqb_ok|right; intros ->; rewrite keqb_refl in E; discriminate]. Qed.

  Lemma NoDup_snoc {A} (l : list A) a : NoDup l -> ~ In a l -> NoDup (l ++ [a]).
  Proof. intros H N. apply NoDup_Add with (a := a) (l := l); [|auto]. rewrite <- (app_nil_r l) at 1. apply Add_app. Qed.
  (** the specification: a list of items with different keys *)
  Fixpoint aset (l : list (K * V)) (k : K) (v : V) : list (K * V) := match l with [] => [(k, v)] | (q, w) :: l => if keqb k q then (q, v) :: l else (q, w) :: aset l k v end.

  (** the doubly linked list *)
  Fixpoint chain (h : nat -> cell) (l : list nat) : Prop := match l with a :: ((b :: _) as r) => nxt h a = b /\ prv h b = a /\ chain h r | _ => True end.
  Lemma chain_app h l1 a l2 : chain h (l1 ++ a :: l2) <-> chain h (l1 ++ [a]) /\ chain h (a :: l2).
  Proof.
    induction l1 as [|b l1 IH]; [cbn; tauto|]. destruct l1 as [|c l1]; [cbn [app chain]; destruct l2; cbn; tauto|]. cbn [app chain] in *. rewrite IH. tauto.
  Qed.
  Lemma chain_ext h h' l : (forall a, In a (removelast l) -> nxt h' a = nxt h a) -> (forall a, In a (tl l) -> prv h' a = prv h a) -> chain h l -> chain h' l.
  Proof.
    induction l as [|a l IH]; [auto|]. destruct l as [|b l]; [auto|]. intros N P [E1 [E2 C]]. cbn [removelast tl] in N, P. split; [rewrite N by (left; auto); exact E1|]. split; [rewrite P by (left; auto); exact E2|].
    apply IH; [|intros c Hc; apply P; right; exact Hc|exact C]. intros c Hc. apply N. right. exact Hc.
  Qed.

  Definition keyof (s : od) (a : nat) : option K := c_key K (o_heap K V s a).
  Record repr (s : od) (l : list nat) (al : list (K * V)) : Prop := mkR {
    r_chain : chain (o_heap K V s) (o_end K V s :: l ++ [o_end K V s]);
    r_nodup : NoDup (o_end K V s :: l);
    r_free : forall a, In a (o_end K V s :: l) -> a < o_free K V s;
    r_len : length l <= o_free K V s;
    r_keys : map (keyof s) l = map (fun p => Some (fst p)) al;
    r_unique : NoDup (map fst al);
    r_map : forall k, lookup (o_map K V s) k = (fix f l (al : list (K * V)) := match l, al with a :: l, (q, _) :: al => if keqb k q then Some a else f l al | _, _ => None end) l al;
    r_dict : forall k, lookup (o_dict K V s) k = lookup al k;
    r_size : length (o_dict K V s) = length al;
    r_dunique : NoDup (map fst (o_dict K V s)) }.
  Definition addr (k : K) := fix f (l : list nat) (al : list (K * V)) : option nat := match l, al with a :: l, (q, _) :: al => if keqb k q then Some a else f l al | _, _ => None end.

  Lemma lookup_drop {A} (l : list (K * A)) k q : lookup (drop l k) q = if keqb q k then None else lookup l q.
  Proof.
    induction l as [|[p v] l IH]; cbn [OdModel.lookup OdModel.drop]; [now destruct (keqb q k)|]. destruct (kdec k p) as [->|N].
    - rewrite keqb_refl, IH. destruct (keqb q p); reflexivity.
    - rewrite (keqb_ne k p N). cbn [OdModel.lookup]. destruct (kdec q p) as [->|M]; [rewrite keqb_refl, (keqb_ne p k) by congruence; reflexivity|]. rewrite (keqb_ne q p M). exact IH.
  Qed.
  Lemma lookup_none {A} (l : list (K * A)) k : lookup l k = None <-> ~ In k (map fst l).
  Proof.
    induction l as [|[p v] l IH]; cbn [OdModel.lookup map fst In]; [tauto|]. destruct (kdec k p) as [->|N]; [rewrite keqb_refl; split; [discriminate|intros H; exfalso; apply H; auto]|].
    rewrite (keqb_ne k p N), IH. intuition congruence.
  Qed.
  Lemma drop_absent {A} (l : list (K * A)) k : ~ In k (map fst l) -> drop l k = l.
  Proof. induction l as [|[p v] l IH]; [reflexivity|]. cbn [map fst In OdModel.drop]. intros H. rewrite keqb_ne by (intros ->; tauto). now rewrite IH by tauto. Qed.
  Lemma drop_in {A} (l : list (K * A)) k q : In q (map fst (drop l k)) <-> In q (map fst l) /\ q <> k.
  Proof.
    induction l as [|[p v] l IH]; cbn [OdModel.drop map fst In]; [tauto|]. destruct (kdec k p) as [->|N]; [rewrite keqb_refl, IH; intuition congruence|]. rewrite (keqb_ne k p N). cbn [map fst In]. rewrite IH. intuition congruence.
  Qed.
  Lemma drop_nodup {A} (l : list (K * A)) k : NoDup (map fst l) -> NoDup (map fst (drop l k)).
  Proof.
    induction l as [|[p v] l IH]; cbn [OdModel.drop map fst]; [auto|]. intros H. inversion H as [|? ? H1 H2]; subst. destruct (keqb k p); [auto|]. cbn [map fst]. constructor; [|auto]. rewrite drop_in. tauto.
  Qed.
  Lemma drop_len {A} (l : list (K * A)) k : NoDup (map fst l) -> In k (map fst l) -> S (length (drop l k)) = length l.
  Proof.
    induction l as [|[p v] l IH]; cbn [OdModel.drop map fst In]; [tauto|]. intros H I. inversion H as [|? ? H1 H2]; subst. destruct (kdec k p) as [->|N].
    - rewrite keqb_refl, drop_absent by exact H1. reflexivity.
    - rewrite (keqb_ne k p N). cbn [length]. rewrite IH; [reflexivity|exact H2|]. destruct I as [I|I]; [congruence|exact I].
  Qed.
  Lemma aset_keys al k v : map fst (aset al k v) = if match lookup al k with Some _ => true | None => false end then map fst al else map fst al ++ [k].
  Proof.
    induction al as [|[q w] al IH]; [reflexivity|]. cbn [aset OdModel.lookup map fst]. destruct (kdec k q) as [->|N]; [now rewrite keqb_refl|]. rewrite (keqb_ne k q N). cbn [map fst]. rewrite IH. destruct (lookup al k); reflexivity.
  Qed.
  Lemma aset_absent al k v : lookup al k = None -> aset al k v = al ++ [(k, v)].
  Proof. induction al as [|[q w] al IH]; [reflexivity|]. cbn [aset OdModel.lookup app]. destruct (keqb k q); [discriminate|]. intros H. now rewrite IH. Qed.
  Lemma lookup_aset al k v q : lookup (aset al k v) q = if keqb q k then Some v else lookup al q.
  Proof.
    induction al as [|[p w] al IH]; cbn [aset OdModel.lookup]; [destruct (keqb q k); reflexivity|]. destruct (kdec k p) as [->|N].
    - rewrite keqb_refl. cbn [OdModel.lookup]. destruct (keqb q p); reflexivity.
    - rewrite (keqb_ne k p N). cbn [OdModel.lookup]. rewrite IH. destruct (kdec q p) as [->|M]; [rewrite keqb_refl, (keqb_ne p k) by congruence; reflexivity|]. rewrite (keqb_ne q p M). reflexivity.
  Qed.
  Lemma addr_in k l al a : length l = length al -> addr k l al = Some a -> exists l1 l2 a1 a2 v, l = l1 ++ a :: l2 /\ al = a1 ++ (k, v) :: a2 /\ length l1 = length a1 /\ ~ In k (map fst a1).
  Proof.
    revert al. induction l as [|b l IH]; intros [|[q w] al] L; cbn [addr]; try discriminate. destruct (kdec k q) as [->|N].
    - rewrite keqb_refl. intros [= <-]. exists [], l, [], al, w. cbn. tauto.
    - rewrite (keqb_ne k q N). intros H. destruct (IH al ltac:(cbn in L; lia) H) as (l1 & l2 & a1 & a2 & v & -> & -> & L1 & H1). exists (b :: l1), l2, ((q, w) :: a1), a2, v. cbn. intuition congruence.
  Qed.
  Lemma addr_app k l1 a1 l2 a2 : length l1 = length a1 -> addr k (l1 ++ l2) (a1 ++ a2) = match addr k l1 a1 with Some a => Some a | None => addr k l2 a2 end.
  Proof. revert a1. induction l1 as [|b l1 IH]; intros [|[q w] a1]; cbn; try discriminate; [reflexivity|]. intros L. destruct (keqb k q); [reflexivity|]. apply IH. lia. Qed.
  Lemma addr_none k l al : ~ In k (map fst al) -> addr k l al = None.
  Proof. revert al. induction l as [|b l IH]; intros [|[q w] al]; cbn; auto. intros H. rewrite keqb_ne by (intros ->; tauto). apply IH. tauto. Qed.
  Lemma addr_some k l al : length l = length al -> In k (map fst al) -> exists a, addr k l al = Some a.
  Proof. revert al. induction l as [|b l IH]; intros [|[q w] al]; cbn; try discriminate; [tauto|]. intros L [->|H]; [rewrite keqb_refl; eauto|]. destruct (keqb k q); [eauto|]. apply IH; [lia|exact H]. Qed.
  Lemma addr_aset k l al q w : addr k l (aset al q w) = addr k l al \/ lookup al q = None.
  Proof.
    revert al. induction l as [|b l IH]; intros [|[p v] al]; cbn [addr aset OdModel.lookup]; auto. destruct (kdec q p) as [->|N]; [rewrite keqb_refl; auto|]. rewrite (keqb_ne q p N). cbn [addr].
    destruct (keqb k p); [auto|]. apply IH.
  Qed.
  Lemma repr_len s l al : repr s l al -> length l = length al.
  Proof. intros R. rewrite <- (map_length (keyof s) l), (r_keys _ _ _ R), map_length. reflexivity. Qed.

  (** a new dictionary is empty *)
  Lemma clear_repr s : repr (o_clear K V s) [] [].
  Proof. constructor; cbn [OdModel.o_clear o_end o_map o_dict o_heap o_free app chain In map length]; auto; try lia; try (intros x [<-|[]]; lia); [unfold upd; rewrite Nat.eqb_refl; auto|repeat constructor; auto|repeat constructor|repeat constructor]. Qed.
  Lemma new_repr : repr o_new [] [].
  Proof. constructor; cbn; auto; try lia; try (intros x [<-|[]]; lia); repeat constructor; auto. Qed.

  Lemma last_app_ {A} (e : A) (l : list A) : exists X a, e :: l = X ++ [a] /\ a = last l e.
  Proof. destruct (exists_last (l := e :: l)) as (X & a & E); [discriminate|]. exists X, a. split; [exact E|]. destruct l as [|b l]; [destruct X as [|? X]; cbn in E; [now injection E|destruct X; discriminate]|]. change (last (b :: l) e) with (last (e :: b :: l) e). rewrite E. now rewrite last_last. Qed.

  Lemma set_repr s l al k v : repr s l al -> exists l', repr (o_set s k v) l' (aset al k v).
  Proof.
    intros R. pose proof (repr_len s l al R) as Ln. destruct R as [Ch Nd Fr Le Ks Un Mp Di Sz Du]. unfold OdModel.o_set. rewrite Di. destruct (lookup al k) as [w|] eqn:E.
    - exists l. assert (I : In k (map fst (o_dict K V s))). { destruct (in_dec kdec k (map fst (o_dict K V s))) as [I|I]; [exact I|]. apply lookup_none in I. rewrite Di, E in I. discriminate. }
      constructor; cbn [o_end o_map o_dict o_heap o_free]; auto.
      + change (map (keyof s) l = map (fun p => Some (fst p)) (aset al k v)). rewrite Ks. rewrite <- (map_map fst Some), <- (map_map fst Some (aset al k v)), aset_keys, E. reflexivity.
      + rewrite aset_keys, E. exact Un.
      + intros q. rewrite Mp. change (addr q l al = addr q l (aset al k v)). destruct (addr_aset q l al k v) as [H|H]; [now rewrite H|congruence].
      + intros q. cbn [OdModel.lookup]. rewrite lookup_drop, lookup_aset, Di. destruct (keqb q k); reflexivity.
      + cbn [length]. rewrite drop_len by assumption. rewrite Sz, <- (map_length fst al), <- (map_length fst (aset al k v)), aset_keys, E. reflexivity.
      + cbn [map fst]. constructor; [rewrite drop_in; tauto|]. now apply drop_nodup.
    - exists (l ++ [o_free K V s]). set (e := o_end K V s) in *. set (c := o_free K V s) in *. set (h := o_heap K V s) in *.
      destruct (last_app_ e l) as (X & a & EX & La). assert (Ha : c_prev K (h e) = a).
      { rewrite app_comm_cons, EX, <- app_assoc in Ch. apply chain_app in Ch. destruct Ch as [_ Ch]. cbn in Ch. tauto. }
      rewrite Ha. set (h1 := upd K h c (mkC K (Some k) a e)). set (h2 := set_next K h1 a c). set (h3 := set_prev K h2 e c).
      assert (Ca : c <> a) by (intros E1; assert (a < c) by (apply Fr; rewrite EX; apply in_or_app; right; left; reflexivity); lia).
      assert (Ce : c <> e) by (intros E1; assert (e < c) by (apply Fr; left; reflexivity); lia).
      assert (Lc : forall b, In b l -> b <> c) by (intros b Hb ->; assert (c < c) by (apply Fr; right; exact Hb); lia).
      assert (Nx : forall b, nxt h3 b = if b =? c then e else if b =? a then c else nxt h b).
      { intros b. unfold h3, h2, h1, set_prev, set_next, upd. destruct (Nat.eqb_spec b e), (Nat.eqb_spec b c), (Nat.eqb_spec b a), (Nat.eqb_spec e a), (Nat.eqb_spec e c), (Nat.eqb_spec a c); subst; cbn; try reflexivity; congruence. }
      assert (Pv : forall b, prv h3 b = if b =? e then c else if b =? c then a else prv h b).
      { intros b. unfold h3, h2, h1, set_prev, set_next, upd. destruct (Nat.eqb_spec b e), (Nat.eqb_spec b c), (Nat.eqb_spec b a), (Nat.eqb_spec e a), (Nat.eqb_spec e c), (Nat.eqb_spec a c); subst; cbn; try reflexivity; congruence. }
      assert (Ky : forall b, c_key K (h3 b) = if b =? c then Some k else c_key K (h b)).
      { intros b. unfold h3, h2, h1, set_prev, set_next, upd. destruct (Nat.eqb_spec b e), (Nat.eqb_spec b c), (Nat.eqb_spec b a), (Nat.eqb_spec e a), (Nat.eqb_spec e c), (Nat.eqb_spec a c); subst; cbn; try reflexivity; congruence. }
      assert (Nk : ~ In k (map fst al)) by (now apply lookup_none).
      assert (NdX : NoDup (X ++ [a])) by (rewrite <- EX; exact Nd).
      rewrite (aset_absent al k v E).
      constructor; cbn [o_end o_map o_dict o_heap o_free].
      + fold e. rewrite <- app_assoc. cbn [app]. rewrite app_comm_cons, EX, <- app_assoc. cbn [app]. apply chain_app. split.
        * rewrite <- app_assoc in Ch || idtac. assert (Ch' : chain h (X ++ [a])). { rewrite app_comm_cons, EX, <- app_assoc in Ch. apply chain_app in Ch. tauto. }
          revert Ch'. apply chain_ext.
          -- intros b Hb. rewrite removelast_last in Hb. rewrite Nx. assert (Hbl : In b (e :: l)) by (rewrite EX; apply in_or_app; auto). destruct (Nat.eqb_spec b c) as [->|]; [pose proof (Fr c Hbl); lia|].
             destruct (Nat.eqb_spec b a) as [->|]; [|reflexivity]. apply NoDup_remove_2 in NdX. rewrite app_nil_r in NdX. contradiction.
          -- intros b Hb. rewrite <- EX in Hb. cbn [tl] in Hb. rewrite Pv. destruct (Nat.eqb_spec b e) as [->|]; [inversion Nd; contradiction|]. destruct (Nat.eqb_spec b c) as [->|]; [destruct (Lc c Hb eq_refl)|reflexivity].
        * cbn [chain]. rewrite !Nx, !Pv, !Nat.eqb_refl. destruct (Nat.eqb_spec a c); [congruence|]. destruct (Nat.eqb_spec c e); [congruence|]. auto.
      + change (NoDup ((e :: l) ++ [c])). apply NoDup_snoc; [exact Nd|]. intros Hc. pose proof (Fr c Hc). lia.
      + intros b [<-|Hb]; [pose proof (Fr e (or_introl eq_refl)); lia|]. apply in_app_or in Hb. destruct Hb as [Hb|[<-|[]]]; [pose proof (Fr b (or_intror Hb)); lia|lia].
      + rewrite app_length. cbn. fold c in Le. lia.
      + rewrite !map_app. cbn [map fst]. f_equal; [|unfold keyof; cbn [o_heap]; now rewrite Ky, Nat.eqb_refl]. rewrite <- Ks. apply map_ext_in. intros b Hb. unfold keyof. cbn [o_heap]. rewrite Ky. destruct (Nat.eqb_spec b c) as [->|]; [destruct (Lc c Hb eq_refl)|reflexivity].
      + rewrite map_app. cbn [map fst]. apply NoDup_snoc; assumption.
      + intros q. cbn [OdModel.lookup]. rewrite lookup_drop, Mp. change (addr q l al) with (addr q l al). fold (addr q). rewrite addr_app by exact Ln. cbn [addr].
        destruct (kdec q k) as [->|N]; [rewrite keqb_refl, (addr_none k l al Nk); reflexivity|]. rewrite (keqb_ne q k N). destruct (addr q l al); reflexivity.
      + intros q. rewrite <- (aset_absent al k v E). cbn [OdModel.lookup]. rewrite lookup_drop, lookup_aset, Di. destruct (keqb q k); reflexivity.
      + rewrite drop_absent by (apply lookup_none; now rewrite Di). rewrite app_length. cbn. lia.
      + rewrite drop_absent by (apply lookup_none; now rewrite Di). cbn [map fst]. constructor; [apply lookup_none; now rewrite Di|exact Du].
  Qed.

  Lemma drop_app {A} (l r : list (K * A)) k : drop (l ++ r) k = drop l k ++ drop r k.
  Proof. induction l as [|[q w] l IH]; [reflexivity|]. cbn [app OdModel.drop]. rewrite IH. destruct (keqb k q); reflexivity. Qed.
  Lemma nodup_mid {A} (l1 l2 : list A) b c : NoDup (l1 ++ b :: l2) -> In c l1 -> In c (b :: l2) -> False.
  Proof.
    induction l1 as [|x l1 IH]; [intros _ []|]. cbn [app]. intros H [->|I] J; inversion H as [|? ? H1 H2]; subst; [apply H1; apply in_or_app; right; exact J|exact (IH H2 I J)].
  Qed.
  Lemma app_inv_ {A} (l1 l2 r1 r2 : list A) : l1 ++ l2 = r1 ++ r2 -> length l1 = length r1 -> l1 = r1 /\ l2 = r2.
  Proof. revert r1. induction l1 as [|x l1 IH]; intros [|y r1]; cbn; try discriminate; [auto|]. intros [= -> E] [= L]. destruct (IH r1 E L) as [-> ->]. auto. Qed.
  Lemma del_repr s l al k : repr s l al -> In k (map fst al) -> exists s' l', o_del s k = inl s' /\ repr s' l' (drop al k).
  Proof.
    intros R Hk. pose proof (repr_len s l al R) as Ln. destruct R as [Ch Nd Fr Le Ks Un Mp Di Sz Du].
    destruct (addr_some k l al Ln Hk) as [c Ac]. destruct (addr_in k l al c Ln Ac) as (l1 & l2 & a1 & a2 & v & -> & -> & L1 & Nk1).
    assert (Nk2 : ~ In k (map fst a2)). { rewrite map_app in Un. cbn [map fst] in Un. apply NoDup_remove_2 in Un. intros I. apply Un. apply in_or_app. auto. }
    assert (Dk : lookup (o_dict K V s) k <> None). { rewrite Di. intros E. apply lookup_none in E. contradiction. }
    unfold OdModel.o_del. destruct (lookup (o_dict K V s) k) as [w|] eqn:Ed; [|congruence]. rewrite Mp. fold (addr k). rewrite Ac.
    set (e := o_end K V s) in *. set (h := o_heap K V s) in *.
    destruct (last_app_ e l1) as (X & a & EX & _). destruct (l2 ++ [e]) as [|b Y] eqn:EY; [destruct l2; discriminate|].
    assert (Ch1 : chain h (X ++ [a]) /\ nxt h a = c /\ prv h c = a /\ nxt h c = b /\ prv h b = c /\ chain h (b :: Y)).
    { rewrite <- app_assoc in Ch. cbn [app] in Ch. rewrite EY, app_comm_cons, EX, <- app_assoc in Ch. cbn [app] in Ch. apply chain_app in Ch. destruct Ch as [C1 C2]. change (nxt h a = c /\ prv h c = a /\ nxt h c = b /\ prv h b = c /\ chain h (b :: Y)) in C2. tauto. }
    destruct Ch1 as (C1 & Na & Pc & Nc & Pb & C2). rewrite Pc, Nc. exists (mkO K V e (drop (o_map K V s) k) (drop (o_dict K V s) k) (set_prev K (set_next K h a b) b a) (o_free K V s)), (l1 ++ l2). split; [reflexivity|].
    set (h' := set_prev K (set_next K h a b) b a).
    assert (Nx : forall x, nxt h' x = if x =? a then b else nxt h x).
    { intros x. unfold h', set_prev, set_next, upd. destruct (Nat.eqb_spec x b), (Nat.eqb_spec x a), (Nat.eqb_spec b a); subst; cbn; try reflexivity; congruence. }
    assert (Pv : forall x, prv h' x = if x =? b then a else prv h x).
    { intros x. unfold h', set_prev, set_next, upd. destruct (Nat.eqb_spec x b), (Nat.eqb_spec x a), (Nat.eqb_spec b a); subst; cbn; try reflexivity; congruence. }
    assert (Ky : forall x, c_key K (h' x) = c_key K (h x)).
    { intros x. unfold h', set_prev, set_next, upd. destruct (Nat.eqb_spec x b), (Nat.eqb_spec x a), (Nat.eqb_spec b a); subst; cbn; try reflexivity; congruence. }
    assert (NdX : NoDup (X ++ [a])). { rewrite <- EX. rewrite app_comm_cons in Nd. apply NoDup_remove_1 in Nd. clear -Nd. revert Nd. rewrite <- app_comm_cons. intros H. inversion H as [|? ? H1 H2]; subst. constructor; [intros I; apply H1, in_or_app; auto|]. clear -H2. induction l1; [constructor|]. inversion H2; subst. constructor; [intros I; apply H1, in_or_app; auto|auto]. }
    assert (Ne : ~ In e (l1 ++ c :: l2)) by (inversion Nd; assumption). assert (Ndl : NoDup (l1 ++ c :: l2)) by (inversion Nd; assumption).
    assert (Bl : b = e /\ l2 = [] /\ Y = [] \/ exists l2', l2 = b :: l2' /\ Y = l2' ++ [e]).
    { destruct l2 as [|b' l2']; cbn in EY; injection EY as <- <-; [left; auto|right; eauto]. }
    assert (Al : In a (e :: l1)) by (rewrite EX; apply in_or_app; right; left; reflexivity).
    assert (A2 : ~ In a l2). { intros I. destruct Al as [<-|Al]; [apply Ne, in_or_app; right; right; exact I|]. apply (nodup_mid l1 l2 c a Ndl Al). right. exact I. }
    assert (B1 : ~ In b l1). { intros I. destruct Bl as [(-> & _)|(l2' & -> & _)]; [apply Ne, in_or_app; auto|]. apply (nodup_mid l1 (b :: l2') c b Ndl I). right. left. reflexivity. }
    constructor; cbn [o_end o_map o_dict o_heap o_free].
    - fold e. rewrite <- app_assoc, EY, app_comm_cons, EX, <- app_assoc. cbn [app]. apply chain_app. split.
      + revert C1. apply chain_ext.
        * intros x Hx. rewrite removelast_last in Hx. rewrite Nx. destruct (Nat.eqb_spec x a) as [->|]; [|reflexivity]. apply NoDup_remove_2 in NdX. rewrite app_nil_r in NdX. contradiction.
        * intros x Hx. rewrite <- EX in Hx. cbn [tl] in Hx. rewrite Pv. destruct (Nat.eqb_spec x b) as [->|]; [contradiction|reflexivity].
      + change (nxt h' a = b /\ prv h' b = a /\ chain h' (b :: Y)). rewrite Nx, Pv, !Nat.eqb_refl. split; [reflexivity|]. split; [reflexivity|]. revert C2. apply chain_ext.
        * intros x Hx. rewrite Nx. destruct (Nat.eqb_spec x a) as [->|]; [|reflexivity]. exfalso. rewrite <- EY, removelast_last in Hx. contradiction.
        * intros x Hx. cbn [tl] in Hx. rewrite Pv. destruct (Nat.eqb_spec x b) as [->|]; [|reflexivity]. exfalso. destruct Bl as [(_ & _ & ->)|(l2' & -> & ->)]; [destruct Hx|].
          apply in_app_or in Hx. destruct Hx as [Hx|[<-|[]]]; [|apply Ne, in_or_app; right; right; left; reflexivity].
          apply NoDup_remove_1 in Ndl. apply NoDup_remove_2 in Ndl. apply Ndl, in_or_app. auto.
    - rewrite app_comm_cons in Nd. apply NoDup_remove_1 in Nd. exact Nd.
    - intros x Hx. apply Fr. destruct Hx as [<-|Hx]; [left; reflexivity|right]. apply in_app_or in Hx. apply in_or_app. cbn. tauto.
    - rewrite app_length in *. cbn in Le. lia.
    - rewrite !map_app in Ks. cbn [map fst] in Ks. rewrite drop_app. cbn [OdModel.drop]. rewrite keqb_refl, (drop_absent a1 k Nk1), (drop_absent a2 k Nk2). rewrite !map_app.
      assert (K1 : map (keyof s) l1 = map (fun p => Some (fst p)) a1 /\ map (keyof s) (c :: l2) = map (fun p => Some (fst p)) ((k, v) :: a2)). { apply app_inv_ in Ks; [exact Ks|]. now rewrite !map_length. }
      destruct K1 as [K1 K2]. cbn [map fst] in K2. injection K2 as _ K2. rewrite <- K1, <- K2. f_equal; apply map_ext; intros x; unfold keyof; cbn [o_heap]; apply Ky.
    - now apply drop_nodup.
    - intros q. rewrite lookup_drop, Mp. fold (addr q). rewrite drop_app. cbn [OdModel.drop]. rewrite keqb_refl, (drop_absent a1 k Nk1), (drop_absent a2 k Nk2). rewrite !addr_app by exact L1. cbn [addr].
      destruct (kdec q k) as [->|N]; [rewrite keqb_refl, !addr_none by assumption; reflexivity|]. rewrite (keqb_ne q k N). reflexivity.
    - intros q. rewrite !lookup_drop, Di. reflexivity.
    - assert (I : In k (map fst (o_dict K V s))). { destruct (in_dec kdec k (map fst (o_dict K V s))) as [I|I]; [exact I|]. apply lookup_none in I. congruence. }
      pose proof (drop_len (o_dict K V s) k Du I). pose proof (drop_len (a1 ++ (k, v) :: a2) k Un Hk). lia.
    - now apply drop_nodup.
  Qed.
  Lemma del_absent s l al k : repr s l al -> ~ In k (map fst al) -> o_del s k = inr OKey.
  Proof. intros R N. unfold OdModel.o_del. rewrite (r_dict _ _ _ R). apply lookup_none in N. now rewrite N. Qed.

  Lemma walk_next h e l : forall fuel, ~ In e l -> chain h (l ++ [e]) -> length l <= fuel -> walk K (c_next K) h e fuel (hd e l) = Some (map (fun x => c_key K (h x)) l).
  Proof.
    induction l as [|x l IH]; intros fuel Ne Ch Lf; [cbn [hd map]; destruct fuel; cbn [walk]; now rewrite Nat.eqb_refl|]. destruct fuel as [|fuel]; [cbn in Lf; lia|]. cbn [hd walk map].
    destruct (Nat.eqb_spec x e) as [->|]; [exfalso; apply Ne; left; reflexivity|]. cbn [app] in Ch. assert (Hn : nxt h x = hd e l) by (destruct l; cbn in Ch; cbn; tauto). rewrite Hn, IH; [reflexivity| | |].
    - intros I. apply Ne. right. exact I.
    - destruct l; [exact I|]. cbn [app chain] in Ch. tauto.
    - cbn in Lf. lia.
  Qed.
  Lemma walk_prev h e l : forall fuel, ~ In e l -> chain h (e :: l) -> length l <= fuel -> walk K (c_prev K) h e fuel (last l e) = Some (map (fun x => c_key K (h x)) (rev l)).
  Proof.
    induction l as [|x l IH] using rev_ind; intros fuel Ne Ch Lf; [cbn; destruct fuel; cbn [walk]; now rewrite Nat.eqb_refl|]. rewrite app_length in Lf. cbn in Lf. destruct fuel as [|fuel]; [lia|].
    rewrite last_last, rev_app_distr. cbn [walk rev app map]. destruct (Nat.eqb_spec x e) as [->|]; [exfalso; apply Ne, in_or_app; right; left; reflexivity|].
    destruct (last_app_ e l) as (X & a & EX & La). rewrite app_comm_cons, EX, <- app_assoc in Ch. cbn [app] in Ch. apply chain_app in Ch. destruct Ch as [C1 C2]. cbn in C2.
    assert (Hp : prv h x = last l e) by (rewrite <- La; tauto). rewrite Hp, IH; [reflexivity| | |lia].
    - intros I. apply Ne, in_or_app. auto.
    - rewrite EX. exact C1.
  Qed.
  Lemma iter_repr s l al : repr s l al -> o_iter s = Some (map Some (map fst al)) /\ o_reversed s = Some (map Some (rev (map fst al))).
  Proof.
    intros [Ch Nd Fr Le Ks Un Mp Di Sz Du]. unfold OdModel.o_iter, OdModel.o_reversed. inversion Nd as [|? ? Ne Nl]; subst. split.
    - assert (Hn : nxt (o_heap K V s) (o_end K V s) = hd (o_end K V s) l) by (destruct l; cbn in Ch; cbn; tauto). rewrite Hn, walk_next; [|exact Ne|destruct l; cbn [app chain] in *; tauto|exact Le].
      f_equal. change (map (keyof s) l = map Some (map fst al)). now rewrite Ks, map_map.
    - assert (Hp : prv (o_heap K V s) (o_end K V s) = last l (o_end K V s)).
      { destruct (last_app_ (o_end K V s) l) as (X & a & EX & <-). rewrite app_comm_cons, EX, <- app_assoc in Ch. apply chain_app in Ch. destruct Ch as [_ C2]. cbn in C2. tauto. }
      rewrite Hp, walk_prev; [|exact Ne| |exact Le].
      + f_equal. change (map (keyof s) (rev l) = map Some (rev (map fst al))). rewrite !map_rev. f_equal. now rewrite Ks, map_map.
      + destruct (last_app_ (o_end K V s) l) as (X & a & EX & _). rewrite app_comm_cons, EX, <- app_assoc in Ch. apply chain_app in Ch. rewrite EX. tauto.
  Qed.
  Lemma items_repr s l al : repr s l al -> o_items s = Some al.
  Proof.
    intros R. unfold OdModel.o_items. destruct (iter_repr s l al R) as [-> _]. pose proof (r_unique _ _ _ R) as Un. pose proof (r_dict _ _ _ R) as Di.
    assert (G : forall bl, (forall k v, In (k, v) bl -> lookup al k = Some v) -> fold_right (fun k r => match k, r with Some k, Some r => match lookup (o_dict K V s) k with Some v => Some ((k, v) :: r) | None => None end | _, _ => None end) (Some []) (map Some (map fst bl)) = Some bl).
    { induction bl as [|[q w] bl IH]; intros H; [reflexivity|]. cbn [map fst fold_right]. rewrite IH by (intros k v I; apply H; right; exact I). rewrite Di, (H q w) by (left; reflexivity). reflexivity. }
    apply G. clear -Un keqb_ok. intros k v I. induction al as [|[q w] al IH]; [destruct I|]. cbn [map fst] in Un. inversion Un as [|? ? U1 U2]; subst. cbn [OdModel.lookup]. destruct I as [[= -> ->]|I]; [now rewrite keqb_refl|].
    rewrite keqb_ne; [now apply IH|]. intros ->. apply U1. apply in_map_iff. exists (q, v). auto.
  Qed.

  (** ** C485: iteration in the order of insertion *)
  Inductive op := Set_ (k : K) (v : V) | Del (k : K) | Clear.
  (** __setitem__, __delitem__ and clear; a KeyError leaves the dictionary as it is *)
  Definition run1 (s : od) (o : op) : od := match o with Set_ k v => o_set s k v | Del k => match o_del s k with inl s => s | inr _ => s end | Clear => o_clear K V s end.
  Definition spec1 (l : list (K * V)) (o : op) : list (K * V) := match o with Set_ k v => aset l k v | Del k => drop l k | Clear => [] end.
  Lemma run_repr ops : forall s l al, repr s l al -> exists l', repr (fold_left run1 ops s) l' (fold_left spec1 ops al).
  Proof.
    induction ops as [|o ops IH]; intros s l al R; [eauto|]. cbn [fold_left]. destruct o as [k v|k|]; cbn [run1 spec1]; [| |exact (IH _ _ _ (clear_repr s))].
    - destruct (set_repr s l al k v R) as [l' R']. eauto.
    - destruct (in_dec kdec k (map fst al)) as [I|I].
      + destruct (del_repr s l al k R I) as (s' & l' & -> & R'). eauto.
      + rewrite (del_absent s l al k R I), (drop_absent al k I). eauto.
  Qed.
  (** iteration, reverse iteration, items and length are those of the list of items, in which a new key is appended, an old key keeps its place, and a deleted key is removed *)
  Theorem C485_order : forall ops, let s := fold_left run1 ops o_new in let l := fold_left spec1 ops [] in
    o_items s = Some l /\ o_iter s = Some (map Some (map fst l)) /\ o_reversed s = Some (map Some (rev (map fst l))) /\ length (o_dict K V s) = length l /\ forall k, lookup (o_dict K V s) k = lookup l k.
  Proof.
    intros ops s l. destruct (run_repr ops o_new [] [] new_repr) as [l' R]. fold s l in R. split; [exact (items_repr s l' l R)|]. destruct (iter_repr s l' l R) as [-> ->]. split; [reflexivity|]. split; [reflexivity|].
    split; [exact (r_size _ _ _ R)|exact (r_dict _ _ _ R)].
  Qed.
  (** what the list of items does *)
  Theorem C485_spec : forall ops k v, let l := fold_left spec1 ops [] in NoDup (map fst l) /\ (~ In k (map fst l) -> spec1 l (Set_ k v) = l ++ [(k, v)]) /\
    (In k (map fst l) -> map fst (spec1 l (Set_ k v)) = map fst l /\ lookup (spec1 l (Set_ k v)) k = Some v) /\ spec1 l (Del k) = filter (fun p => negb (keqb k (fst p))) l.
  Proof.
    intros ops k v l. destruct (run_repr ops o_new [] [] new_repr) as [l' R]. split; [exact (r_unique _ _ _ R)|]. split; [intros N; apply aset_absent; now apply lookup_none|]. split.
    - intros I. cbn [spec1]. rewrite aset_keys, lookup_aset, keqb_refl. destruct (lookup l k) eqn:E; [auto|]. apply lookup_none in E. contradiction.
    - cbn [spec1]. clear. induction l as [|[q w] l IH]; [reflexivity|]. cbn [OdModel.drop filter fst]. destruct (keqb k q); cbn [negb]; now rewrite IH.
  Qed.
  (** ** C486: __delitem__ and popitem *)
  Theorem C486_del : forall ops k, let s := fold_left run1 ops o_new in (exists v, lookup (o_dict K V s) k = Some v) <-> exists s', o_del s k = inl s'.
  Proof.
    intros ops k s. destruct (run_repr ops o_new [] [] new_repr) as [l' R]. fold s in R. set (l := fold_left spec1 ops []) in *. rewrite (r_dict _ _ _ R). destruct (in_dec kdec k (map fst l)) as [I|I].
    - destruct (del_repr s l' l k R I) as (s' & l2 & E & _). split; [eauto|]. intros _. destruct (lookup l k) eqn:El; [eauto|]. apply lookup_none in El. contradiction.
    - rewrite (del_absent s l' l k R I). apply lookup_none in I. rewrite I. split; [intros [? [=]]|intros [? [=]]].
  Qed.
  Theorem C486_popitem : forall ops last_, let s := fold_left run1 ops o_new in let l := fold_left spec1 ops [] in
    match (if last_ : bool then rev l else l) with
    | [] => o_popitem last_ s = inr OKey
    | (k, v) :: r => exists s', o_popitem last_ s = inl (k, v, s') /\ o_items s' = Some (if last_ then rev r else r)
    end.
  Proof.
    intros ops last_ s l. destruct (run_repr ops o_new [] [] new_repr) as [l' R]. fold s l in R. pose proof (repr_len s l' l R) as Ln. pose proof (r_size _ _ _ R) as Sz. unfold OdModel.o_popitem.
    assert (Hk : forall k v, (if last_ then rev l else l) <> [] -> In (k, v) l -> c_key K (o_heap K V s (if last_ then prv (o_heap K V s) (o_end K V s) else nxt (o_heap K V s) (o_end K V s))) = Some k ->
      (match c_key K (o_heap K V s (if last_ then prv (o_heap K V s) (o_end K V s) else nxt (o_heap K V s) (o_end K V s))) with Some k0 => match o_pop K V keqb s k0 with inl (v0, s0) => inl (k0, v0, s0) | inr e => inr e end | None => inr OKey end) =
      match o_del s k with inl s' => inl (k, v, s') | inr e => inr e end).
    { intros k v _ I E. rewrite E. unfold o_pop. rewrite (r_dict _ _ _ R). assert (El : lookup l k = Some v).
      { pose proof (r_unique _ _ _ R) as Un. clear -Un I keqb_ok. induction l as [|[q w] l IH]; [destruct I|]. cbn [map fst] in Un. inversion Un as [|? ? U1 U2]; subst. cbn [OdModel.lookup]. destruct I as [[= -> ->]|I]; [now rewrite keqb_refl|].
        rewrite keqb_ne; [now apply IH|]. intros ->. apply U1. apply in_map_iff. exists (q, v). auto. }
      rewrite El. destruct (o_del s k); reflexivity. }
    destruct last_.
    - destruct (rev l) as [|[k v] r] eqn:Er.
      + assert (l = []) by (rewrite <- (rev_involutive l), Er; reflexivity). rewrite H in Sz. destruct (o_dict K V s); [reflexivity|discriminate].
      + assert (El : l = rev r ++ [(k, v)]) by (rewrite <- (rev_involutive l), Er; reflexivity).
        assert (I : In (k, v) l) by (rewrite El; apply in_or_app; right; left; reflexivity). destruct (o_dict K V s) as [|d ds] eqn:Ed; [rewrite El, app_length in Sz; cbn in Sz; lia|].
        assert (Ck : c_key K (o_heap K V s (prv (o_heap K V s) (o_end K V s))) = Some k).
        { destruct (last_app_ (o_end K V s) l') as (X & a & EX & La). pose proof (r_chain _ _ _ R) as Ch. rewrite app_comm_cons, EX, <- app_assoc in Ch. apply chain_app in Ch. destruct Ch as [_ C2]. cbn in C2. destruct C2 as (_ & -> & _).
          pose proof (r_keys _ _ _ R) as Ks. rewrite El, map_app in Ks. cbn [map fst] in Ks. destruct (exists_last (l := l')) as (Y & b & ->); [intros ->; rewrite El, app_length in Ln; cbn in Ln; lia|].
          rewrite last_last in La. rewrite map_app in Ks. cbn [map] in Ks. apply app_inj_tail in Ks. destruct Ks as [_ Ks]. subst a. exact Ks. }
        rewrite (Hk k v) by (auto; discriminate). assert (Ik : In k (map fst l)) by (apply in_map_iff; exists (k, v); auto). destruct (del_repr s l' l k R Ik) as (s' & l2 & -> & R2). exists s'. split; [reflexivity|].
        rewrite (items_repr s' l2 _ R2). f_equal. rewrite El, drop_app. cbn [OdModel.drop]. rewrite keqb_refl, app_nil_r. apply drop_absent. pose proof (r_unique _ _ _ R) as Un. rewrite El, map_app in Un. cbn [map fst] in Un. apply NoDup_remove_2 in Un. now rewrite app_nil_r in Un.
    - destruct l as [|[k v] r] eqn:El; [destruct (o_dict K V s); [reflexivity|discriminate]|].
      assert (I : In (k, v) l) by (rewrite El; left; reflexivity). destruct (o_dict K V s) as [|d ds] eqn:Ed; [discriminate|].
      assert (Ck : c_key K (o_heap K V s (nxt (o_heap K V s) (o_end K V s))) = Some k).
      { destruct l' as [|b l']; [discriminate|]. pose proof (r_chain _ _ _ R) as Ch. cbn [app chain] in Ch. destruct Ch as (-> & _). pose proof (r_keys _ _ _ R) as Ks. cbn [map fst] in Ks. now injection Ks. }
      rewrite <- El in *. rewrite (Hk k v) by (auto; rewrite El; discriminate). assert (Ik : In k (map fst l)) by (apply in_map_iff; exists (k, v); auto). destruct (del_repr s l' l k R Ik) as (s' & l2 & -> & R2). exists s'. split; [reflexivity|].
      rewrite (items_repr s' l2 _ R2). f_equal. rewrite El. cbn [OdModel.drop]. rewrite keqb_refl. apply drop_absent. pose proof (r_unique _ _ _ R) as Un. rewrite El in Un. now inversion Un.
  Qed.
  (** ** C487: copies and equality *)
  Lemma of_items l : NoDup (map fst l) -> exists l', repr (o_of l) l' l.
  Proof.
    intros Nd. unfold OdModel.o_of, o_update. assert (G : forall r s l0 al, repr s l0 al -> NoDup (map fst (al ++ r)) -> exists l', repr (fold_left (fun s p => o_set s (fst p) (snd p)) r s) l' (al ++ r)).
    { induction r as [|[k v] r IH]; intros s l0 al R N; [rewrite app_nil_r; eauto|]. cbn [fold_left fst snd]. destruct (set_repr s l0 al k v R) as [l1 R1]. rewrite aset_absent in R1.
      - destruct (IH _ _ _ R1) as [l2 R2]; [rewrite <- app_assoc; exact N|]. rewrite <- app_assoc in R2. eauto.
      - apply lookup_none. rewrite map_app in N. cbn [map fst] in N. apply NoDup_remove_2 in N. intros I. apply N, in_or_app. auto. }
    exact (G l o_new [] [] new_repr Nd).
  Qed.
  Theorem C487_copy : forall ops, let s := fold_left run1 ops o_new in exists t, o_copy s = Some t /\ o_items t = o_items s /\ o_reversed t = o_reversed s.
  Proof.
    intros ops s. destruct (run_repr ops o_new [] [] new_repr) as [l' R]. fold s in R. set (l := fold_left spec1 ops []) in *. unfold OdModel.o_copy. rewrite (items_repr s l' l R). cbn [option_map]. eexists. split; [reflexivity|].
    destruct (of_items l (r_unique _ _ _ R)) as [l2 R2]. rewrite (items_repr _ _ _ R2). split; [reflexivity|]. destruct (iter_repr _ _ _ R2) as [_ ->]. now destruct (iter_repr s l' l R) as [_ ->].
  Qed.
  Variable veqb : V -> V -> bool.
  Hypothesis veqb_ok : forall a b, veqb a b = true <-> a = b.
  Lemma items_eqb_ok l : forall r, items_eqb K V keqb veqb l r = true <-> l = r.
  Proof.
    induction l as [|[k v] l IH]; intros [|[q w] r]; cbn [items_eqb]; try (split; congruence). rewrite !andb_true_iff, keqb_ok, veqb_ok, IH. split; [intros [[-> ->] ->]; reflexivity|intros [= -> -> ->]; auto].
  Qed.
  (** equality is that of the items, in their order *)
  Theorem C487_eq : forall ops ops', let s := fold_left run1 ops o_new in let t := fold_left run1 ops' o_new in exists b, o_eq K V keqb veqb s t = Some b /\ (b = true <-> o_items s = o_items t).
  Proof.
    intros ops ops' s t. destruct (run_repr ops o_new [] [] new_repr) as [l1 R1]. destruct (run_repr ops' o_new [] [] new_repr) as [l2 R2]. fold s in R1. fold t in R2. unfold o_eq. rewrite (items_repr _ _ _ R1), (items_repr _ _ _ R2), (r_size _ _ _ R1), (r_size _ _ _ R2).
    set (a := fold_left spec1 ops []) in *. set (b := fold_left spec1 ops' []) in *. destruct (Nat.eqb_spec (length a) (length b)) as [L|L]; cbn [negb].
    - eexists. split; [reflexivity|]. rewrite items_eqb_ok. split; [now intros ->|now intros [= ->]].
    - eexists. split; [reflexivity|]. split; [discriminate|]. intros [= E]. rewrite E in L. now destruct L.
  Qed.
End Od.

(** * Examples *)
Example ex_C485 : let s := fold_left (run1 nat nat Nat.eqb) [Set_ nat nat 3 30; Set_ nat nat 1 10; Set_ nat nat 2 20; Set_ nat nat 3 33; Del nat nat 1; Set_ nat nat 1 11] (o_new nat nat) in
  o_items nat nat Nat.eqb s = Some [(3, 33); (2, 20); (1, 11)] /\ o_reversed nat nat s = Some [Some 1; Some 2; Some 3].
Proof. vm_compute. auto. Qed.
Example ex_C486 : let s := fold_left (run1 nat nat Nat.eqb) [Set_ nat nat 3 30; Set_ nat nat 1 10; Set_ nat nat 2 20] (o_new nat nat) in
  (exists t, o_popitem nat nat Nat.eqb true s = inl (2, 20, t) /\ o_items nat nat Nat.eqb t = Some [(3, 30); (1, 10)]) /\ (exists t, o_popitem nat nat Nat.eqb false s = inl (3, 30, t)) /\
  o_popitem nat nat Nat.eqb true (o_new nat nat) = inr OKey /\ o_del nat nat Nat.eqb s 7 = inr OKey.
Proof. split; [eexists; split; [reflexivity|vm_compute; reflexivity]|]. split; [eexists; reflexivity|]. split; reflexivity. Qed.
Example ex_C487 : let s := o_of nat nat Nat.eqb [(1, 10); (2, 20)] in let t := o_of nat nat Nat.eqb [(2, 20); (1, 10)] in o_eq nat nat Nat.eqb Nat.eqb s t = Some false /\ o_eq nat nat Nat.eqb Nat.eqb s s = Some true.
Proof. vm_compute. auto. Qed.
