(** Properties of coroutines as methods of BiNodes (CoroModel.v). *)
From Coq Require Import List Arith Bool String Lia.
From Verif Require Import CoroModel.
Import ListNotations.
Open Scope nat_scope.

Section Coro.
  Variables V W G E : Type.
  Notation node := (node W G).
  Notation cres := (cres V E).
  Notation gst := (gst G).
  Arguments mkN {W G}. Arguments n_tab {W G}. Arguments n_attr {W G}. Arguments n_heap {W G}. Arguments n_w {W G}.
  Arguments GOpen {G}. Arguments GRunning {G}. Arguments GClosed {G}. Arguments RNone {V E}. Arguments RVal {V E}. Arguments RTuple {V E}. Arguments RRaise {V E}.
  Inductive cst := Absent | Live (g : G) | Dead.
  Definition upd (f : string -> cst) (k : string) (v : cst) : string -> cst := fun k' => if String.eqb k k' then v else f k'.
  Variable hook : W -> W.
  (** ** Bookkeeping *)
  Definition tab (s : node) : list (string * nat) := match n_tab s with None => [] | Some t => t end.
  Definition view (c : cst) : gst := match c with Live g => GOpen g | _ => GClosed end.
  Definition Inv (s : node) (f : string -> cst) : Prop :=
    NoDup (map fst (tab s)) /\ (forall k k' i, get (tab s) k = Some i -> get (tab s) k' = Some i -> k = k') /\
    forall k, match get (tab s) k with
              | None => f k = Absent /\ shadowed k (n_attr s) = false
              | Some i => shadowed k (n_attr s) = true /\ i < List.length (n_heap s) /\ nth i (n_heap s) GClosed = view (f k) /\ f k <> Absent
              end.
  Lemma get_del : forall t k k', get (del t k) k' = if String.eqb k k' then None else get t k'.
  Proof.
    intros t k k'. unfold get, del. induction t as [|[a i] t IH]; cbn; [now destruct (String.eqb k k')|].
    destruct (String.eqb_spec a k) as [->|N]; cbn.
    - rewrite IH. destruct (String.eqb k k'); reflexivity.
    - destruct (String.eqb_spec a k') as [->|N']; [|exact IH]. destruct (String.eqb_spec k k'); [congruence|reflexivity].
  Qed.
  Lemma get_app : forall t k i k', get t k = None -> get (t ++ [(k, i)]) k' = if String.eqb k k' then Some i else get t k'.
  Proof.
    intros t k i k' H. unfold get in *. induction t as [|[a j] t IH]; cbn in *; [now destruct (String.eqb k k')|].
    destruct (String.eqb_spec a k) as [->|N]; [discriminate|]. destruct (String.eqb_spec a k') as [->|N']; [|auto]. destruct (String.eqb_spec k k'); [congruence|reflexivity].
  Qed.
  Lemma get_in : forall t k, get t k = None <-> ~ In k (map fst t).
  Proof.
    intros t k. unfold get. induction t as [|[a i] t IH]; cbn; [tauto|]. destruct (String.eqb_spec a k) as [->|N]; [split; [discriminate|tauto]|].
    rewrite IH. split; [intros H [H'|H']; tauto|tauto].
  Qed.
  Lemma del_absent : forall t k, get t k = None -> del t k = t.
  Proof.
    intros t k H. unfold get, del in *. induction t as [|[a i] t IH]; cbn in *; [reflexivity|]. destruct (String.eqb_spec a k); [discriminate|]. cbn. f_equal. auto.
  Qed.
  Lemma nodup_del : forall t k, NoDup (map fst t) -> NoDup (map fst (del t k)).
  Proof.
    intros t k. unfold del. induction t as [|[a i] t IH]; cbn; intros H; [constructor|]. inversion H as [|? ? N1 N2]; subst. destruct (String.eqb a k); cbn; [auto|].
    constructor; [|auto]. intros I. apply N1. apply in_map_iff in I as (p & <- & I). apply filter_In in I. apply in_map. tauto.
  Qed.
  Lemma nodup_app1 : forall (l : list string) k, NoDup l -> ~ In k l -> NoDup (l ++ [k]).
  Proof. induction l as [|a l IH]; intros k H N; cbn; [constructor; [tauto|constructor]|]. inversion H; subst. constructor; [|apply IH; cbn in N; tauto]. rewrite in_app_iff. cbn in *. intuition congruence. Qed.
  Lemma shadowed_remove : forall k l k', shadowed k' (remove k l) = if String.eqb k k' then false else shadowed k' l.
  Proof.
    intros k l k'. unfold shadowed, remove. induction l as [|a l IH]; cbn; [now destruct (String.eqb k k')|].
    destruct (String.eqb_spec k a) as [->|N]; cbn.
    - rewrite IH. destruct (String.eqb_spec a k') as [->|N']; [reflexivity|]. destruct (String.eqb_spec k' a); [congruence|reflexivity].
    - rewrite IH. destruct (String.eqb_spec k k') as [->|N']; [|reflexivity]. destruct (String.eqb_spec k' a); [congruence|reflexivity].
  Qed.
  Lemma shadowed_app : forall k l k', shadowed k' (l ++ [k]) = shadowed k' l || String.eqb k' k.
  Proof. intros k l k'. unfold shadowed. rewrite existsb_app. cbn. now rewrite orb_false_r. Qed.
  Lemma setn_length : forall (l : list gst) i v, List.length (setn G l i v) = List.length l.
  Proof. intros l i v. unfold setn. revert i. induction l as [|a l IH]; intros [|i]; cbn; auto. Qed.
  Lemma setn_nth : forall (l : list gst) i v j, i < List.length l -> nth j (setn G l i v) GClosed = if i =? j then v else nth j l GClosed.
  Proof. intros l i v. unfold setn. revert i. induction l as [|a l IH]; intros [|i] [|j] H; cbn in *; try lia; auto. apply IH. lia. Qed.
  Lemma setn_twice : forall (l : list gst) i u v, setn G (setn G l i u) i v = setn G l i v.
  Proof. intros l i u v. unfold setn. revert i. induction l as [|a l IH]; intros [|i]; cbn; auto. now rewrite IH. Qed.
  Lemma shadowed_all : forall l, (forall k, shadowed k l = false) -> l = [].
  Proof. intros [|a l] H; [reflexivity|]. specialize (H a). cbn in H. rewrite String.eqb_refl in H. discriminate. Qed.
  Lemma del_attrs_ok : forall ks l, NoDup ks -> (forall k, In k ks -> shadowed k l = true) ->
    exists l', del_attrs ks l = (l', true) /\ forall k, shadowed k l' = if in_dec string_dec k ks then false else shadowed k l.
  Proof using.
    induction ks as [|k ks IH]; intros l ND H; cbn [del_attrs]; [exists l; split; [reflexivity|]; intros k; now destruct (in_dec string_dec k [])|].
    inversion ND as [|? ? N1 N2]; subst. rewrite (H k) by (cbn; auto). destruct (IH (remove k l)) as (l' & Ed & S).
    { assumption. } { intros k' I. rewrite shadowed_remove. destruct (String.eqb_spec k k'); [congruence|]. apply H. cbn. auto. }
    exists l'. split; [exact Ed|]. intros k'. rewrite S, shadowed_remove. destruct (in_dec string_dec k' ks), (in_dec string_dec k' (k :: ks)), (String.eqb_spec k k'); cbn in *; try reflexivity; try tauto; intuition congruence.
  Qed.
  Lemma reset_inv : forall s f, Inv s f -> reset W G hook s = (mkN None [] (n_heap s) (hook (n_w s)), true).
  Proof using.
    intros s f (ND & _ & H). unfold reset, tab in *. destruct (n_tab s) as [t|] eqn:Et.
    - destruct (del_attrs_ok (map fst t) (n_attr s) ND) as (l' & Ed & S).
      { intros k I. specialize (H k). destruct (get t k) eqn:G0; [tauto|]. apply get_in in G0. contradiction. }
      rewrite Ed. assert (l' = []) as ->; [|reflexivity]. apply shadowed_all. intros k. rewrite S. destruct (in_dec string_dec k (map fst t)) as [I|N]; [reflexivity|].
      specialize (H k). apply get_in in N. rewrite N in H. tauto.
    - assert (n_attr s = []) as ->; [|reflexivity]. apply shadowed_all. intros k. specialize (H k). cbn in H. tauto.
  Qed.
  Lemma fresh_inv : forall h w, Inv (mkN None [] h w) (fun _ => Absent).
  Proof using. intros h w. unfold Inv. cbn. split; [constructor|]. split; [discriminate|]. auto. Qed.

  Variable start : string -> V -> G.
  (** bodies that use the node but not the bookkeeping of the coroutines *)
  Variable body : G -> option V -> W -> W * outcome V G E.
  Definition quiet (g : G) (a : option V) (s : node) : node * outcome V G E :=
    let (w, o) := body g a (n_w s) in (mkN (n_tab s) (n_attr s) (n_heap s) w, o).

  (** ** The ideal: every method has at most one activation; a call resumes it, or makes a new one *)
  (** [raised]: what is left of an activation that raised an exception *)
  Variable raised : cst.
  Definition ideal_call (k : string) (a : V) (f : string -> cst) (w : W) : (string -> cst) * W * cres :=
    let run := fun g b => match body g b w with
               | (w', Yields _ _ _ v g') => (upd f k (Live g'), w', RVal v)
               | (w', Returns _ _ _ o) => (upd f k Absent, w', match o with None => RNone | Some v => RTuple v end)
               | (w', Raises _ _ _ e) => (upd f k raised, w', RRaise e)
               end in
    match f k with
    | Absent => run (start k a) None
    | Live g => run g (Some a)
    | Dead => (upd f k Absent, w, RNone)
    end.
  Fixpoint ideal (es : list (event V)) (f : string -> cst) (w : W) : W * list (option cres) :=
    match es with
    | [] => (w, [])
    | Call _ k a :: es => let '(f', w', r) := ideal_call k a f w in let (w2, rs) := ideal es f' w' in (w2, Some r :: rs)
    | DoReset _ :: es => let (w2, rs) := ideal es (fun _ => Absent) (hook w) in (w2, None :: rs)
    end.

  (** one resumption *)
  Lemma resume_inv : forall s f k i g a, Inv s f -> get (tab s) k = Some i -> f k = Live g ->
    match resume V W G E quiet k i a s, body g a (n_w s) with
    | (s', r), (w', Yields _ _ _ v g') => r = RVal v /\ n_w s' = w' /\ Inv s' (upd f k (Live g'))
    | (s', r), (w', Returns _ _ _ o) => r = match o with None => RNone | Some v => RTuple v end /\ n_w s' = w' /\ Inv s' (upd f k Absent)
    | (s', r), (w', Raises _ _ _ e) => r = RRaise e /\ n_w s' = w' /\ Inv s' (upd f k Dead)
    end.
  Proof.
    intros s f k i g a (ND & Inj & H) Gk Fk. pose proof (H k) as Hk. rewrite Gk, Fk in Hk. destruct Hk as (Sh & Li & Nt & _). cbn in Nt.
    unfold resume, send. rewrite Nt. unfold quiet at 1. cbn [set_heap n_w]. destruct (body g a (n_w s)) as [w' [v g'|o|e]]; cbn [set_heap n_tab n_attr n_heap n_w].
    - repeat split; try reflexivity; try assumption. intros k'. specialize (H k'). unfold tab in *. unfold set_heap; cbn [n_tab n_attr n_heap]. rewrite setn_twice, setn_length.
      destruct (get _ k') as [j|] eqn:Gj.
      + destruct H as (S1 & L1 & N1 & A1). rewrite setn_nth by assumption. unfold upd. destruct (Nat.eqb_spec i j) as [->|Nij].
        * rewrite (Inj _ _ _ Gk Gj). rewrite String.eqb_refl. repeat split; auto. discriminate.
        * destruct (String.eqb_spec k k') as [<-|]; [congruence|]. auto.
      + unfold upd. destruct (String.eqb_spec k k') as [<-|]; [congruence|]. exact H.
    - unfold finish, set_heap. cbn [n_attr n_tab n_heap n_w]. rewrite Sh. unfold tab in *. destruct (n_tab s) as [t|] eqn:Et; [|discriminate]. rewrite Gk. cbn [n_attr n_heap n_w].
      split; [reflexivity|]. split; [reflexivity|]. split; [cbn; now apply nodup_del|]. split.
      + cbn. intros k1 k2 j. rewrite !get_del. destruct (String.eqb k k1), (String.eqb k k2); try discriminate. apply Inj.
      + intros k'. unfold tab. cbn [n_tab n_attr n_heap]. rewrite get_del, setn_twice, setn_length, shadowed_remove. unfold upd. destruct (String.eqb_spec k k') as [<-|Nk]; [auto|]. specialize (H k').
        destruct (get t k') as [j|] eqn:Gj; [|exact H]. destruct H as (S1 & L1 & N1 & A1). rewrite setn_nth by assumption.
        destruct (Nat.eqb_spec i j) as [->|Nij]; [exfalso; apply Nk; eapply Inj; eauto|]. auto.
    - repeat split; try reflexivity; try assumption. intros k'. specialize (H k'). unfold tab in *. unfold set_heap; cbn [n_tab n_attr n_heap]. rewrite setn_twice, setn_length.
      destruct (get _ k') as [j|] eqn:Gj.
      + destruct H as (S1 & L1 & N1 & A1). rewrite setn_nth by assumption. unfold upd. destruct (Nat.eqb_spec i j) as [->|Nij].
        * rewrite (Inj _ _ _ Gk Gj). rewrite String.eqb_refl. repeat split; auto. discriminate.
        * destruct (String.eqb_spec k k') as [<-|]; [congruence|]. auto.
      + unfold upd. destruct (String.eqb_spec k k') as [<-|]; [congruence|]. exact H.
  Qed.
  Hypothesis left_dead : raised = Dead.
  Lemma call_inv : forall s f k a, Inv s f ->
    match call V W G E start quiet k a s, ideal_call k a f (n_w s) with (s', r), (f', w', r') => r = r' /\ n_w s' = w' /\ Inv s' f' end.
  Proof.
    intros s f k a I. pose proof I as (ND & Inj & H). pose proof (H k) as Hk. unfold call, ideal_call. destruct (get (tab s) k) as [i|] eqn:Gk.
    - destruct Hk as (Sh & Li & Nt & A). rewrite Sh. unfold interface. unfold tab in Gk. destruct (n_tab s) as [t|] eqn:Et; [|discriminate]. rewrite Gk.
      assert (get (tab s) k = Some i) as Gk' by (unfold tab; now rewrite Et). destruct (f k) as [|g|] eqn:Fk; [congruence| |].
      + pose proof (resume_inv s f k i g (Some a) I Gk' Fk) as R. destruct (resume V W G E quiet k i (Some a) s) as [s' r]. destruct (body g (Some a) (n_w s)) as [w' [v g'|o|e]]; rewrite ?left_dead; exact R.
      + cbn in Nt. unfold resume, send. rewrite Nt. unfold finish. rewrite Sh, Et, Gk. cbn [n_attr n_heap n_w]. split; [reflexivity|]. split; [reflexivity|].
        unfold tab in *. rewrite Et in *. split; [cbn; now apply nodup_del|]. split.
        * cbn. intros k1 k2 j. rewrite !get_del. destruct (String.eqb k k1), (String.eqb k k2); try discriminate. apply Inj.
        * intros k'. unfold tab; cbn [n_tab n_attr n_heap]. rewrite get_del, shadowed_remove. unfold upd. destruct (String.eqb_spec k k') as [<-|Nk]; [auto|]. exact (H k').
    - destruct Hk as (Fk & Sh). rewrite Sh, Fk. unfold initialize. fold (tab s).
      set (s1 := mkN (Some (del (tab s) k ++ [(k, List.length (n_heap s))])) (remove k (n_attr s) ++ [k]) (n_heap s ++ [GOpen (start k a)]) (n_w s)).
      assert (Inv s1 (upd f k (Live (start k a)))) as I1.
      { unfold s1. rewrite del_absent by assumption. split; [|split].
        - cbn. rewrite map_app. cbn. apply nodup_app1; [assumption|]. now apply get_in.
        - cbn. intros k1 k2 j. rewrite !get_app by assumption. destruct (String.eqb_spec k k1) as [<-|N1], (String.eqb_spec k k2) as [<-|N2]; try congruence; try apply Inj.
          + intros E1 E2. injection E1 as <-. pose proof (H k2) as H2. rewrite E2 in H2. lia.
          + intros E1 E2. injection E2 as <-. pose proof (H k1) as H1. rewrite E1 in H1. lia.
        - intros k'. unfold tab at 1. cbn [n_tab n_attr n_heap]. rewrite get_app by assumption. rewrite shadowed_app, shadowed_remove, app_length. cbn [List.length]. unfold upd. destruct (String.eqb_spec k k') as [<-|N].
          + rewrite String.eqb_refl, orb_true_r. split; [reflexivity|]. split; [lia|]. split; [|discriminate]. rewrite app_nth2 by lia. now rewrite Nat.sub_diag.
          + specialize (H k'). destruct (String.eqb_spec k' k); [congruence|]. rewrite orb_false_r. destruct (get (tab s) k') as [j|]; [|exact H].
            destruct H as (S1 & L1 & N1 & A1). split; [assumption|]. split; [lia|]. split; [|assumption]. now rewrite app_nth1. }
      assert (get (tab s1) k = Some (List.length (n_heap s))) as G1.
      { unfold s1. cbn. rewrite del_absent by assumption. rewrite get_app by assumption. now rewrite String.eqb_refl. }
      assert (upd f k (Live (start k a)) k = Live (start k a)) as U1 by (unfold upd; now rewrite String.eqb_refl).
      pose proof (resume_inv s1 _ k _ _ None I1 G1 U1) as R.
      assert (forall s' c, Inv s' (upd (upd f k (Live (start k a))) k c) -> Inv s' (upd f k c)) as UU.
      { intros s' c (A1 & A2 & A3). split; [assumption|]. split; [assumption|]. intros k'. specialize (A3 k'). unfold upd in *. destruct (String.eqb k k'); exact A3. }
      destruct (resume V W G E quiet k (List.length (n_heap s)) None s1) as [s' r]. cbn [n_w] in *. change (n_w s1) with (n_w s) in R.
      destruct (body (start k a) None (n_w s)) as [w' [v g'|o|e]]; rewrite ?left_dead; destruct R as (R1 & R2 & R3); auto.
  Qed.
  (** C413: exactly what a node does: a call resumes the activation of the method, or makes a new one; the call after an exception returns None and does nothing else *)
  Theorem C413_exact : forall es s f, Inv s f -> let (s', rs) := history V W G E start quiet hook es s in let (w', rs') := ideal es f (n_w s) in rs = rs' /\ n_w s' = w'.
  Proof.
    induction es as [|[k a|] es IH]; intros s f I; cbn [history ideal do]; [auto| |].
    - pose proof (call_inv s f k a I) as C. destruct (call V W G E start quiet k a s) as [s1 r]. destruct (ideal_call k a f (n_w s)) as [[f1 w1] r1]. destruct C as (-> & <- & I1).
      specialize (IH s1 f1 I1). destruct (history _ _ _ _ _ _ _ es s1) as [s2 rs]. destruct (ideal es f1 (n_w s1)) as [w2 rs2]. destruct IH as [-> ->]. auto.
    - rewrite (reset_inv s f I). specialize (IH _ _ (fresh_inv (n_heap s) (hook (n_w s)))). cbn [n_w] in IH. destruct (history _ _ _ _ _ _ _ es _) as [s2 rs]. destruct (ideal es _ (hook (n_w s))) as [w2 rs2]. destruct IH as [-> ->]. auto.
  Qed.
  Lemma history_inv : forall es w, exists f, Inv (fst (history V W G E start quiet hook es (fresh W G w))) f.
  Proof.
    intros es w. enough (forall s f, Inv s f -> exists f', Inv (fst (history V W G E start quiet hook es s)) f') as Q by (eapply Q; apply (fresh_inv [] w)).
    induction es as [|[k a|] es IH]; intros s f I; cbn [history do]; [eauto| |].
    - pose proof (call_inv s f k a I) as C. destruct (call V W G E start quiet k a s) as [s1 r]. destruct (ideal_call k a f (n_w s)) as [[f1 w1] r1]. destruct C as (_ & _ & I1).
      specialize (IH s1 f1 I1). destruct (history _ _ _ _ _ _ _ es s1) as [s2 rs]. exact IH.
    - rewrite (reset_inv s f I). specialize (IH _ _ (fresh_inv (n_heap s) (hook (n_w s)))). destruct (history _ _ _ _ _ _ _ es _) as [s2 rs]. exact IH.
  Qed.
End Coro.

Section Coro2.
  Variables V W G E : Type.
  Variable start : string -> V -> G.
  Variable body : G -> option V -> W -> W * outcome V G E.
  Variable hook : W -> W.
  Notation history := (history V W G E start (quiet V W G E body) hook).
  Notation ideal := (ideal V W G E hook start body).
  Notation cres := (cres V E).
  Definition no_raise (rs : list (option cres)) : Prop := forall e, ~ In (Some (RRaise V E e)) rs.
  (** what is left of a raising activation plays no role as long as none raises *)
  Lemma ideal_no_raise : forall es c c' f w, no_raise (snd (ideal c es f w)) -> ideal c es f w = ideal c' es f w.
  Proof.
    induction es as [|[k a|] es IH]; intros c c' f w N; [reflexivity| |].
    - cbn [CoroProps.ideal] in *.
      assert (ideal_call V W G E start body c k a f w = ideal_call V W G E start body c' k a f w) as E1.
      { unfold ideal_call in *. destruct (f k) as [|g|]; [| |reflexivity].
        - destruct (body (start k a) None w) as [w' [v g'|o|e]]; try reflexivity. exfalso. apply (N e). destruct (ideal c es _ w'). cbn. auto.
        - destruct (body g (Some a) w) as [w' [v g'|o|e]]; try reflexivity. exfalso. apply (N e). destruct (ideal c es _ w'). cbn. auto. }
      rewrite <- E1. destruct (ideal_call V W G E start body c k a f w) as [[f' w'] r]. rewrite (IH c c' f' w'); [reflexivity|].
      intros e I. apply (N e). destruct (ideal c es f' w'). cbn in *. auto.
    - cbn [CoroProps.ideal] in *. rewrite (IH c c' _ (hook w)); [reflexivity|]. intros e I. apply (N e). destruct (ideal c es _ (hook w)). cbn in *. auto.
  Qed.
  (** C410: without exceptions the methods are coroutines: each call resumes where the last one stopped; after the end, or a bi_reset, the next call starts anew *)
  Theorem C410_coroutines : forall es w s rs, history es (fresh W G w) = (s, rs) -> no_raise rs -> ideal (Absent G) es (fun _ => Absent G) w = (n_w W G s, rs).
  Proof.
    intros es w s rs H N. pose proof (C413_exact V W G E hook start body (Dead G) eq_refl es (fresh W G w) _ (fresh_inv W G [] w)) as X.
    rewrite H in X. cbn [fresh n_w] in X. destruct (ideal (Dead G) es (fun _ => Absent G) w) as [w' rs'] eqn:Ei. destruct X as [-> <-].
    rewrite <- (ideal_no_raise es (Dead G) (Absent G)); [exact Ei|]. now rewrite Ei.
  Qed.
  (** C411: calls of one method have no influence on the activation of another one, except through the node itself *)
  Theorem C411_other : forall c k a k' f w, k <> k' -> fst (fst (ideal_call V W G E start body c k a f w)) k' = f k'.
  Proof.
    intros c k a k' f w N. unfold ideal_call, upd. destruct (f k) as [|g|]; [destruct (body _ _ w) as [w' [v g'|o|e]]|destruct (body g _ w) as [w' [v g'|o|e]]|]; cbn; destruct (String.eqb_spec k k'); congruence.
  Qed.
  (** C412: bi_reset never fails, and afterwards every method starts anew, whatever happened before *)
  Theorem C412_reset : forall es w, let s := fst (history es (fresh W G w)) in
    exists s', reset W G hook s = (s', true) /\ n_w W G s' = hook (n_w W G s) /\ copyable W G s' = true /\
      forall es', snd (history es' s') = snd (history es' (fresh W G (n_w W G s'))) .
  Proof.
    intros es w s. destruct (history_inv V W G E hook start body (Dead G) eq_refl es w) as [f I]. fold s in I. rewrite (reset_inv W G hook s f I).
    eexists. split; [reflexivity|]. split; [reflexivity|]. split; [reflexivity|]. intros es'. cbn [n_w].
    pose proof (C413_exact V W G E hook start body (Dead G) eq_refl es' _ _ (fresh_inv W G (n_heap W G s) (hook (n_w W G s)))) as A.
    pose proof (C413_exact V W G E hook start body (Dead G) eq_refl es' _ _ (fresh_inv W G [] (hook (n_w W G s)))) as B. cbn [n_w] in *. unfold fresh.
    destruct (history es' _) as [s1 r1]. destruct (history es' _) as [s2 r2]. destruct (ideal (Dead G) es' _ _). cbn. destruct A as [-> _]. destruct B as [-> _]. reflexivity.
  Qed.
  (** no call ever fails in the bookkeeping *)
  Theorem C412_calls : forall es w r, In (Some r) (snd (history es (fresh W G w))) -> r <> RAttr V E /\ r <> RKey V E /\ r <> RBusy V E.
  Proof.
    intros es w r. pose proof (C413_exact V W G E hook start body (Dead G) eq_refl es _ _ (fresh_inv W G [] w)) as A. unfold fresh. destruct (history es _) as [s rs].
    cbn [n_w] in A. destruct (ideal (Dead G) es _ w) as [w' rs'] eqn:Ei. destruct A as [-> _]. cbn [snd]. clear s.
    revert w w' rs' Ei. generalize (fun _ : string => Absent G) as f. induction es as [|[k a|] es IH]; intros f w w' rs' Ei I; cbn [CoroProps.ideal] in Ei.
    - injection Ei as <- <-. contradiction.
    - destruct (ideal_call V W G E start body (Dead G) k a f w) as [[f1 w1] r1] eqn:Ec. destruct (ideal (Dead G) es f1 w1) as [w2 rs2] eqn:E2. injection Ei as <- <-.
      destruct I as [I|I]; [|eapply IH; eauto]. injection I as ->. unfold ideal_call in Ec.
      destruct (f k) as [|g|]; [destruct (body _ _ w) as [w3 [v g'|[o|]|e]]|destruct (body g _ w) as [w3 [v g'|[o|]|e]]|]; injection Ec as <- <- <-; repeat split; discriminate.
    - destruct (ideal (Dead G) es _ (hook w)) as [w2 rs2] eqn:E2. injection Ei as <- <-. destruct I as [I|I]; [discriminate|eapply IH; eauto].
  Qed.
End Coro2.

(** ** A coroutine to compute with: it yields its argument plus 0, 1, 2, ..., up to three times; 9 makes it raise; the state counts the resumptions.  Another method
    yields twice *)
Definition ex_start (k : string) (a : nat) : nat * nat * nat := (if String.eqb k "_execute" then 3 else 2, 0, a).
Definition ex_body (g : nat * nat * nat) (a : option nat) (w : nat) : nat * outcome nat (nat * nat * nat) unit :=
  let '(m, i, x) := g in let x := match a with Some x => x | None => x end in
  (S w, if x =? 9 then Raises _ _ _ tt else if i <? m then Yields _ _ _ (x + i) (m, S i, x) else Returns _ _ _ None).
Definition ex_run (es : list (event nat)) := history nat nat (nat * nat * nat) unit ex_start (quiet nat nat (nat * nat * nat) unit ex_body) (fun w => w) es (fresh nat (nat * nat * nat) 0).
Example C410_example : snd (ex_run [Call _ "_execute" 10; Call _ "_stop_training" 5; Call _ "_execute" 20; Call _ "_execute" 30; Call _ "_execute" 40; Call _ "_execute" 50; DoReset _; Call _ "_execute" 60; Call _ "_stop_training" 5])
  = [Some (RVal _ _ 10); Some (RVal _ _ 5); Some (RVal _ _ 21); Some (RVal _ _ 32); Some (RNone _ _); Some (RVal _ _ 50); None; Some (RVal _ _ 60); Some (RVal _ _ 5)].
Proof. reflexivity. Qed.
(** C413 (refuted): after an exception in a coroutine the next call starts it anew *)
Theorem C413_refuted : let es := [Call nat "_execute" 10; Call _ "_execute" 9; Call _ "_execute" 20; Call _ "_execute" 30] in
  snd (ex_run es) = [Some (RVal _ _ 10); Some (RRaise _ _ tt); Some (RNone _ _); Some (RVal _ _ 30)] /\ n_w _ _ (fst (ex_run es)) = 3.
Proof. split; reflexivity. Qed.
Example C413_reset : snd (ex_run [Call nat "_execute" 10; Call _ "_execute" 9; DoReset _; Call _ "_execute" 30]) = [Some (RVal _ _ 10); Some (RRaise _ _ tt); None; Some (RVal _ _ 30)].
Proof. reflexivity. Qed.

(** ** C414: the value of a return statement *)
Section Return.
  Variables V W G E M T : Type.
  Variable emptyb : M -> bool.
  Variable update : M -> V -> M.
  (** a returned value arrives as a tuple with one entry *)
  Theorem C414_returned : forall (start : string -> V -> G) (body : G -> option V -> W -> W * outcome V G E) k a w v w',
    body (start k a) None w = (w', Returns _ _ _ (Some v)) -> snd (call V W G E start (quiet V W G E body) k a (fresh W G w)) = RTuple V E v.
  Proof.
    intros start body k a w v w' H. unfold call, fresh. cbn [shadowed existsb n_attr]. unfold initialize, resume, send. cbn [n_heap n_tab List.length app nth n_w n_attr].
    unfold quiet. cbn [set_heap n_w]. rewrite H. unfold finish, set_heap. cbn. unfold shadowed, get. cbn. rewrite String.eqb_refl. cbn. reflexivity.
  Qed.
  (** and execute raises IndexError if there is a message left, and drops the target *)
  Theorem C414_combined : forall v m t, combine_result V M T emptyb update (Tup V [v]) m t =
    match m with Some g => if emptyb g then Some (inl [EV V M T v]) else None | None => Some (inl [EV V M T v]) end.
  Proof. intros v [g|] [t|]; cbn; try destruct (emptyb g); reflexivity. Qed.
End Return.
(** a method that returns y: y alone, with the message if it is not empty, with the message and the target if there is a target *)
Theorem C414_plain V M T emptyb update (v : V) (m : option M) (t : option T) : combine_result V M T emptyb update (Plain V v) m t =
  match t with
  | Some t => Some (inl [EV V M T v; EM V M T m; ET V M T t])
  | None => match m with Some g => if emptyb g then Some (inr v) else Some (inl [EV V M T v; EM V M T m]) | None => Some (inr v) end
  end.
Proof. destruct m as [g|], t as [t|]; cbn; try destruct (emptyb g); reflexivity. Qed.
(** C414 (refuted): a coroutine ending with [return y] gives the result that a method with [return y] gives *)
Theorem C414_refuted : let c := combine_result nat (list nat) nat (fun m => match m with [] => true | _ => false end) (fun m v => m) in
  c (Plain _ 7) (Some [1]) None = Some (inl [EV _ _ _ 7; EM _ _ _ (Some [1])]) /\ c (Tup _ [7]) (Some [1]) None = None /\
  c (Plain _ 7) None None = Some (inr 7) /\ c (Tup _ [7]) None None = Some (inl [EV _ _ _ 7]).
Proof. repeat split. Qed.

(** ** C415: a coroutine that overrides one of the base class with the same name and calls it.  The body of the derived class has the states 0 (calls the coroutine of
    the base class, yields its result), 1 (yields 100 plus the argument), 2 (end); that of the base class 10 (yields the argument), 11 (yields 10 plus it), 12 (end) *)
Definition base_step (g : nat * nat) (a : option nat) (s : node nat (nat * nat)) : node nat (nat * nat) * outcome nat (nat * nat) unit :=
  let (q, x) := g in let x := match a with Some x => x | None => x end in
  (s, if q =? 10 then Yields _ _ _ x (11, x) else if q =? 11 then Yields _ _ _ (10 + x) (12, x) else Returns _ _ _ None).
Definition derived_step (g : nat * nat) (a : option nat) (s : node nat (nat * nat)) : node nat (nat * nat) * outcome nat (nat * nat) unit :=
  let (q, x) := g in let x := match a with Some x => x | None => x end in
  if 10 <=? q then base_step g a s else
  if q =? 0 then
    match initialize nat nat (nat * nat) unit base_step "_execute" (10, x) s with
    | (s', RVal _ _ y) => (s', Yields _ _ _ y (1, x))
    | (s', _) => (s', Returns _ _ _ None)
    end
  else (s, if q =? 1 then Yields _ _ _ (100 + x) (2, x) else Returns _ _ _ None).
Definition derived_run (es : list (event nat)) := history nat nat (nat * nat) unit (fun _ a => (0, a)) derived_step (fun w => w) es (fresh nat (nat * nat) 0).
(** C415 (refuted): the second call resumes the derived coroutine (giving 106); it resumes that of the base class *)
Theorem C415_refuted : snd (derived_run [Call _ "_execute" 5; Call _ "_execute" 6; Call _ "_execute" 7]) = [Some (RVal _ _ 5); Some (RVal _ _ 16); Some (RNone _ _)].
Proof. reflexivity. Qed.
(** if the two have different names, the body may start the other one *)
Definition derived_step2 (g : nat * nat) (a : option nat) (s : node nat (nat * nat)) : node nat (nat * nat) * outcome nat (nat * nat) unit :=
  let (q, x) := g in let x := match a with Some x => x | None => x end in
  if 10 <=? q then base_step g a s else
  if q =? 0 then
    match initialize nat nat (nat * nat) unit base_step "_base" (10, x) s with
    | (s', RVal _ _ y) => (s', Yields _ _ _ y (1, x))
    | (s', _) => (s', Returns _ _ _ None)
    end
  else (s, if q =? 1 then Yields _ _ _ (100 + x) (2, x) else Returns _ _ _ None).
Example C415_other_name : snd (history nat nat (nat * nat) unit (fun _ a => (0, a)) derived_step2 (fun w => w) [Call _ "_execute" 5; Call _ "_execute" 6; Call _ "_base" 7] (fresh nat (nat * nat) 0))
  = [Some (RVal _ _ 5); Some (RVal _ _ 106); Some (RVal _ _ 17)].
Proof. reflexivity. Qed.
