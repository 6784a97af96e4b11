(** Property: C518 *)
From Coq Require Import List Arith Bool Lia.
From Verif Require Import SkModel.
Import ListNotations.

Lemma inb_spec x l : inb x l = true <-> In x l.
Proof. unfold inb. rewrite existsb_exists. split; [intros (y & I & E); apply Nat.eqb_eq in E; now subst|intros I; exists x; split; [exact I|apply Nat.eqb_refl]]. Qed.
Section Sk.
  Variable members : nat -> list (bool * member).
  Variable alg sk : nat -> bool.
  (** modules which can be reached by public names, through modules of sklearn *)
  Inductive reach (m : nat) : nat -> Prop :=
  | reach_refl : reach m m
  | reach_step : forall k j, reach m k -> In (true, Mod j) (members k) -> sk j = true -> reach m j.
  Lemma reach_trans a b c : reach a b -> reach b c -> reach a c.
  Proof. intros H1 H2. induction H2 as [|k j _ IH I S1]; [exact H1|]. eapply reach_step; eauto. Qed.
  Variable U : list nat.
  Hypothesis HU : forall m j, In m U -> In (true, Mod j) (members m) -> In j U.
  Definition left (s : sst) : nat := length (filter (fun m => negb (inb m (pmods s))) U).
  Definition handled (s : sst) (x : bool * member) : Prop := match x with (true, Cls c) => In c (pcls s) | (true, Mod j) => sk j = true -> In j (pmods s) | _ => True end.
  Definition good (s : sst) : Prop := NoDup (pcls s) /\ calls s = filter alg (pcls s).
  (** what a part of the traversal does, which starts from the modules in [P] *)
  Definition post (P : nat -> Prop) (Q : nat -> Prop) (s s' : sst) : Prop :=
    incl (pmods s) (pmods s') /\ incl (pcls s) (pcls s') /\
    (forall k, In k (pmods s') -> In k (pmods s) \/ exists a, P a /\ reach a k) /\
    (forall c, In c (pcls s') -> In c (pcls s) \/ Q c \/ exists a k, P a /\ reach a k /\ In (true, Cls c) (members k)) /\
    (forall k, In k (pmods s') -> In k (pmods s) \/ forall x, In x (members k) -> handled s' x) /\
    (good s -> good s').
  Lemma handled_mono s s' x : incl (pmods s) (pmods s') -> incl (pcls s) (pcls s') -> handled s x -> handled s' x.
  Proof. intros A B H. destruct x as [[] [c|j|]]; cbn in *; auto. Qed.
  Lemma filter_le {A} (f g : A -> bool) l : (forall x, g x = true -> f x = true) -> length (filter g l) <= length (filter f l).
  Proof. intros H. induction l as [|a l IH]; cbn; [lia|]. specialize (H a). destruct (g a); [rewrite H by reflexivity; cbn; lia|]. destruct (f a); cbn; lia. Qed.
  Lemma filter_lt {A} (f g : A -> bool) l a : (forall x, g x = true -> f x = true) -> In a l -> f a = true -> g a = false -> length (filter g l) < length (filter f l).
  Proof. intros H I F G. induction l as [|b l IH]; [destruct I|]. pose proof (filter_le f g l H) as L. cbn. destruct I as [->|I]; [rewrite F, G; cbn; lia|]. specialize (IH I). specialize (H b). destruct (g b); [rewrite H by reflexivity; cbn; lia|]. destruct (f b); cbn; lia. Qed.
  Lemma left_le s s' : incl (pmods s) (pmods s') -> left s' <= left s.
  Proof. intros H. apply filter_le. intros x X. apply negb_true_iff in X. apply negb_true_iff. destruct (inb x (pmods s)) eqn:E; [|reflexivity]. apply inb_spec, H, inb_spec in E. congruence. Qed.
  Lemma post_refl P Q s : post P Q s s.
  Proof. split; [apply incl_refl|]. split; [apply incl_refl|]. repeat split; auto; apply H. Qed.
  Lemma post_trans P Q s1 s2 s3 : post P Q s1 s2 -> post P Q s2 s3 -> post P Q s1 s3.
  Proof.
    intros (A1 & B1 & C1 & D1 & E1 & G1) (A2 & B2 & C2 & D2 & E2 & G2). split; [eapply incl_tran; eauto|]. split; [eapply incl_tran; eauto|]. split; [intros k K; destruct (C2 k K) as [X|X]; auto|]. split; [intros c K; destruct (D2 c K) as [X|X]; auto|]. split; [|auto].
    intros k K. destruct (E2 k K) as [X|X]; [|now right]. destruct (E1 k X) as [Y|Y]; [now left|right]. intros x I. eapply handled_mono; eauto.
  Qed.
  Lemma post_weak (P P' Q Q' : nat -> Prop) s s' : (forall a, P a -> P' a) -> (forall c, Q c -> Q' c) -> post P Q s s' -> post P' Q' s s'.
  Proof.
    intros HP HQ (A & B & C & D & E & G). split; [exact A|]. split; [exact B|]. split; [intros k K; destruct (C k K) as [X|(a & X & Y)]; eauto|]. split; [|now split].
    intros c K. destruct (D c K) as [X|[X|(a & k & X & Y)]]; [now left|right; left; auto|right; right; exists a, k; auto].
  Qed.
  Lemma visit_ok f : forall m s, In m U -> left s < f -> exists s', visit members alg sk f m s = Some s' /\ post (eq m) (fun _ => False) s s' /\ In m (pmods s').
  Proof.
    induction f as [|f IH]; intros m s I L; [lia|]. cbn [visit]. destruct (inb m (pmods s)) eqn:E; [exists s; split; [reflexivity|split; [apply post_refl|now apply inb_spec]]|].
    set (s0 := mkSt (pmods s ++ [m]) (pcls s) (calls s)). assert (L0 : left s0 < f).
    { enough (left s0 < left s) by lia. apply (filter_lt _ _ U m); [|exact I|now rewrite E|].
      - intros x X. apply negb_true_iff in X. apply negb_true_iff. destruct (inb x (pmods s)) eqn:F; [|reflexivity]. apply inb_spec in F. assert (T : inb x (pmods s0) = true) by (apply inb_spec; cbn; apply in_or_app; now left). congruence.
      - apply negb_false_iff, inb_spec. cbn. apply in_or_app. right. now left. }
    assert (K : forall l s1, (forall x, In x l -> In x (members m)) -> left s1 < f -> exists s', all_members alg sk (visit members alg sk f) l s1 = Some s' /\ post (fun a => In (true, Mod a) l /\ sk a = true) (fun c => In (true, Cls c) l) s1 s' /\ forall x, In x l -> handled s' x).
    { clear s0 L0. induction l as [|x l IHl]; intros s1 Hl L1; [exists s1; split; [reflexivity|split; [apply post_refl|intros ? []]]|]. cbn [all_members].
      assert (O : exists s2, one_member alg sk (visit members alg sk f) x s1 = Some s2 /\ post (fun a => x = (true, Mod a) /\ sk a = true) (fun c => x = (true, Cls c)) s1 s2 /\ handled s2 x).
      { destruct x as [b y]. unfold one_member. cbn [fst snd]. destruct b; [|exists s1; split; [reflexivity|split; [apply post_refl|exact Logic.I]]]. destruct y as [c|j|].
        - destruct (inb c (pcls s1)) eqn:F; [exists s1; split; [reflexivity|split; [apply post_refl|now apply inb_spec]]|]. eexists. split; [reflexivity|]. split; [|cbn; apply in_or_app; right; now left]. split; [apply incl_refl|]. split; [cbn; apply incl_appl, incl_refl|]. split; [auto|]. split; [|split; [auto|]].
          + intros d X. cbn in X. apply in_app_or in X. destruct X as [X|[<-|[]]]; auto.
          + intros [N C]. split; cbn.
            * apply NoDup_rev in N. rewrite <- (rev_involutive (pcls s1 ++ [c])). apply NoDup_rev. rewrite rev_app_distr. cbn. constructor; [|exact N]. rewrite <- in_rev. intros X. apply inb_spec in X. congruence.
            * rewrite filter_app, C. cbn. now destruct (alg c).
        - destruct (sk j) eqn:F; [|exists s1; split; [reflexivity|split; [apply post_refl|cbn; congruence]]]. destruct (IH j s1) as (s2 & V & Po & Ij); [eapply HU; [exact I|apply Hl; now left]|exact L1|]. exists s2. split; [exact V|]. split; [|cbn; auto]. eapply post_weak; [| |exact Po]; [intros a <-; auto|intros c []].
        - exists s1. split; [reflexivity|split; [apply post_refl|exact Logic.I]]. }
      destruct O as (s2 & -> & P1 & H1). assert (Inc := proj1 P1). destruct (IHl s2) as (s3 & -> & P2 & H2); [intros y Y; apply Hl; now right|pose proof (left_le s1 s2 Inc); lia|]. exists s3. split; [reflexivity|]. split.
      - eapply post_trans; eapply post_weak; try exact P1; try exact P2; cbn; intros; intuition.
      - intros y [<-|Y]; [|now apply H2]. eapply handled_mono; [apply P2|apply P2|exact H1]. }
    destruct (K (members m) s0 (fun x X => X) L0) as (s' & R & (A & B & C & D & E' & G) & H). exists s'. split; [exact R|]. split; [|apply A; cbn; apply in_or_app; right; now left].
    split; [intros k X; apply A; cbn; apply in_or_app; now left|]. split; [exact B|]. split; [|split; [|split; [|exact G]]].
    - intros k X. destruct (C k X) as [Y|(a & [Y S1] & Z)]; [cbn in Y; apply in_app_or in Y; destruct Y as [Y|[<-|[]]]; [now left|right; exists m; split; [reflexivity|constructor]]|]. right. exists m. split; [reflexivity|]. eapply reach_trans; [|exact Z]. eapply reach_step; [constructor|exact Y|exact S1].
    - intros c X. destruct (D c X) as [Y|[Y|(a & k & [Y S1] & Z & W)]]; [now left|right; right; exists m, m; repeat split; [constructor|exact Y]|]. right. right. exists m, k. split; [reflexivity|]. split; [|exact W]. eapply reach_trans; [|exact Z]. eapply reach_step; [constructor|exact Y|exact S1].
    - intros k X. destruct (E' k X) as [Y|Y]; [|now right]. cbn in Y. apply in_app_or in Y. destruct Y as [Y|[<-|[]]]; [now left|right; exact H].
  Qed.
End Sk.
(** ** C518: the traversal ends for every finite set of modules, with cycles, and calls the action once for every algorithm which is a public member of a module which can be reached, and for nothing else *)
Theorem C518_once : forall members alg sk U m, In m U -> (forall k j, In k U -> In (true, Mod j) (members k) -> In j U) ->
  exists s, apply_to_scikits members alg sk (S (length U)) m = Some s /\ NoDup (calls s) /\
  (forall c, In c (calls s) <-> alg c = true /\ exists k, reach members sk m k /\ In (true, Cls c) (members k)) /\
  NoDup (pcls s) /\ forall c, In c (pcls s) <-> exists k, reach members sk m k /\ In (true, Cls c) (members k).
Proof.
  intros members alg sk U m I HU. destruct (visit_ok members alg sk U HU (S (length U)) m (mkSt [] [] []) I) as (s & R & (A & B & C & D & E & G) & M).
  { assert (T : forall l : list nat, filter (fun _ => true) l = l) by (induction l as [|a l IH]; cbn; [reflexivity|now rewrite IH]). unfold left. change (length (filter (fun _ => true) U) < S (length U)). rewrite T. lia. }
  exists s. split; [exact R|]. destruct G as [N Ca]; [split; [constructor|reflexivity]|].
  assert (RM : forall k, reach members sk m k -> In k (pmods s)). { intros k H. induction H as [|k j _ IH J S1]; [exact M|]. destruct (E k IH) as [[]|X]. exact (X _ J S1). }
  assert (PC : forall c, In c (pcls s) <-> exists k, reach members sk m k /\ In (true, Cls c) (members k)).
  { intros c. split; [intros X; destruct (D c X) as [[]|[[]|(a & k & <- & Y)]]; eauto|]. intros (k & K & X). destruct (E k (RM k K)) as [[]|Y]. exact (Y _ X). }
  split; [rewrite Ca; now apply NoDup_filter|]. split; [|now split]. intros c. rewrite Ca, filter_In, PC. tauto.
Qed.
Example ex_C518 : let members m := match m with 0 => [(true, Mod 1); (true, Cls 5); (false, Cls 9); (true, Mod 3)] | 1 => [(true, Cls 6); (true, Mod 0); (true, Cls 5); (true, Cls 7)] | _ => [(true, Cls 8)] end in
  option_map calls (apply_to_scikits members (fun c => negb (c =? 7)) (fun m => m <? 3) 5 0) = Some [6; 5].
Proof. reflexivity. Qed.
