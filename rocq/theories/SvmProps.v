(** Properties: C514, C515 *)
From Coq Require Import String List Arith ZArith Bool Ascii Lia.
From Verif Require Import SvmModel.
Import ListNotations.
Local Open Scope string_scope.

Section Svm.
  Variable names : list string.
  Variable attr : string -> bool.
  Variable default : param.
  Variable const : string -> Z.
  Lemma existsb_str k l : existsb (String.eqb k) l = true <-> In k l.
  Proof. rewrite existsb_exists. split; [intros (x & I & E); apply String.eqb_eq in E; now subst|intros I; exists k; split; [exact I|apply String.eqb_refl]]. Qed.
  (** ** C514: a kernel in any case sets the kernel type only; another one is a TypeError and changes nothing; the same for the classifier *)
  Theorem C514_kernel : forall p k, (In (upper k) ["RBF"; "LINEAR"; "POLY"; "SIGMOID"] /\ exists q, set_kernel const p k = (q, None) /\ q "kernel_type" = const (upper k) /\ forall x, x <> "kernel_type" -> q x = p x)
    \/ (~ In (upper k) ["RBF"; "LINEAR"; "POLY"; "SIGMOID"] /\ set_kernel const p k = (p, Some ETypeError)).
  Proof.
    intros p k. unfold set_kernel. destruct (existsb (String.eqb (upper k)) kernels) eqn:E.
    - left. split; [now apply existsb_str in E|]. eexists. split; [reflexivity|]. unfold setp. split; [reflexivity|]. intros x N. apply String.eqb_neq in N. now rewrite N.
    - right. split; [|reflexivity]. intros I. assert (T : existsb (String.eqb (upper k)) kernels = true) by now apply existsb_str. congruence.
  Qed.
  Theorem C514_classifier : forall p k, (In (upper k) ["C_SVC"; "NU_SVC"; "ONE_CLASS"; "EPSILON_SVR"; "NU_SVR"] /\ exists q, set_classifier const p k = (q, None) /\ q "svm_type" = const (upper k) /\ forall x, x <> "svm_type" -> q x = p x)
    \/ (~ In (upper k) ["C_SVC"; "NU_SVC"; "ONE_CLASS"; "EPSILON_SVR"; "NU_SVR"] /\ set_classifier const p k = (p, Some ETypeError)).
  Proof.
    intros p k. unfold set_classifier. destruct (existsb (String.eqb (upper k)) classifiers) eqn:E.
    - left. split; [now apply existsb_str in E|]. eexists. split; [reflexivity|]. unfold setp. split; [reflexivity|]. intros x N. apply String.eqb_neq in N. now rewrite N.
    - right. split; [|reflexivity]. intros I. assert (T : existsb (String.eqb (upper k)) classifiers = true) by now apply existsb_str. congruence.
  Qed.
  (** the parameters: all names known - the values are set, the others kept *)
  Lemma params_ok l : forall p, NoDup (map fst l) -> (forall k v, In (k, v) l -> In k names /\ attr k = true) -> exists q, set_params names attr p l = (q, None) /\ (forall k v, In (k, v) l -> q k = v) /\ forall k, ~ In k (map fst l) -> q k = p k.
  Proof.
    induction l as [|[k v] l IH]; intros p D H; [exists p; split; [reflexivity|split; [intros ? ? []|auto]]|]. cbn [map fst] in D. inversion D as [|? ? N D']; subst. destruct (H k v (or_introl eq_refl)) as [I A]. cbn [set_params]. assert (E : existsb (String.eqb k) names = true) by now apply existsb_str. rewrite E, A. cbn [negb].
    destruct (IH (setp p k v) D' (fun k0 v0 I0 => H k0 v0 (or_intror I0))) as (q & Q & Q1 & Q2). exists q. split; [exact Q|]. split.
    - intros k0 v0 [X|X]; [injection X as <- <-; rewrite Q2 by exact N; unfold setp; now rewrite String.eqb_refl|now apply Q1].
    - intros k0 N0. cbn in N0. rewrite Q2 by tauto. unfold setp. destruct (String.eqb_spec k0 k); [subst; tauto|reflexivity].
  Qed.
  (** the constructor: params have priority over kernel, classifier and probability; these over the default *)
  Theorem C514_init : forall kernel classifier prob l, (forall k, kernel = Some k -> In (upper k) kernels) -> (forall k, classifier = Some k -> In (upper k) classifiers) -> NoDup (map fst l) -> (forall k v, In (k, v) l -> In k names /\ attr k = true) ->
    exists q, svm_init names attr default const kernel classifier prob l = inl q /\ (forall k v, In (k, v) l -> q k = v) /\
    forall x, ~ In x (map fst l) -> q x = if String.eqb x "svm_type" then match classifier with Some k => const (upper k) | None => default x end
      else if String.eqb x "kernel_type" then match kernel with Some k => const (upper k) | None => default x end
      else if String.eqb x "probability" then if prob then 1%Z else default x else default x.
  Proof.
    intros kernel classifier pr l K C D H. unfold svm_init. set (p0 := if pr then _ else _).
    assert (K1 : exists p1, opt (set_kernel const) p0 kernel = (p1, None) /\ forall x, p1 x = if String.eqb x "kernel_type" then match kernel with Some k => const (upper k) | None => p0 x end else p0 x).
    { destruct kernel as [k|]; cbn [opt]; [|exists p0; split; [reflexivity|]; intros x; now destruct (String.eqb x _)]. unfold set_kernel. assert (E : existsb (String.eqb (upper k)) kernels = true) by (apply existsb_str; now apply K). rewrite E. eexists. split; reflexivity. }
    destruct K1 as (p1 & -> & P1).
    assert (C1 : exists p2, opt (set_classifier const) p1 classifier = (p2, None) /\ forall x, p2 x = if String.eqb x "svm_type" then match classifier with Some k => const (upper k) | None => p1 x end else p1 x).
    { destruct classifier as [k|]; cbn [opt]; [|exists p1; split; [reflexivity|]; intros x; now destruct (String.eqb x _)]. unfold set_classifier. assert (E : existsb (String.eqb (upper k)) classifiers = true) by (apply existsb_str; now apply C). rewrite E. eexists. split; reflexivity. }
    destruct C1 as (p2 & -> & P2). destruct (params_ok l p2 D H) as (q & -> & Q1 & Q2). exists q. split; [reflexivity|]. split; [exact Q1|]. intros x N. rewrite Q2, P2, P1 by exact N. subst p0.
    destruct (String.eqb_spec x "svm_type") as [->|]; [destruct classifier, pr; reflexivity|]. destruct (String.eqb_spec x "kernel_type") as [->|]; [destruct kernel, pr; reflexivity|]. destruct pr; [|now destruct (String.eqb x "probability")]. unfold setp. now destruct (String.eqb x "probability").
  Qed.
  (** an unknown parameter is an exception, wherever it stands *)
  Theorem C514_unknown : forall kernel classifier prob l k v, In (k, v) l -> ~ In k names \/ attr k = false -> exists e, svm_init names attr default const kernel classifier prob l = inr e.
  Proof.
    intros kernel classifier pr l k v I N. unfold svm_init. destruct (opt _ _ kernel) as [p1 [e|]]; [eauto|]. destruct (opt _ p1 classifier) as [p2 [e|]]; [eauto|].
    enough (exists q e, set_params names attr p2 l = (q, Some e)) as (q & e & ->) by eauto. revert p2. induction l as [|[k0 v0] l IH]; [destruct I|]. intros p2. cbn [set_params]. destruct (existsb (String.eqb k0) names) eqn:E; cbn [negb]; [|eauto]. destruct (attr k0) eqn:At; [|eauto].
    destruct I as [X|I]; [injection X as -> ->; apply existsb_str in E; destruct N; [contradiction|congruence]|now apply IH].
  Qed.
  (** an unknown kernel or classifier is a TypeError of the constructor *)
  Theorem C514_type : forall kernel classifier prob l, (exists k, kernel = Some k /\ ~ In (upper k) kernels) \/ (exists k, classifier = Some k /\ ~ In (upper k) classifiers) -> svm_init names attr default const kernel classifier prob l = inr ETypeError.
  Proof.
    assert (B : forall k l, ~ In k l -> existsb (String.eqb k) l = false) by (intros k l N; destruct (existsb (String.eqb k) l) eqn:E; [apply existsb_str in E; contradiction|reflexivity]).
    intros kernel classifier pr l H. unfold svm_init. set (p := if pr then _ else _). destruct H as [(k & -> & N)|(k & -> & N)]; cbn [opt].
    - unfold set_kernel. now rewrite B.
    - destruct (opt (set_kernel const) p kernel) as [p1 [e|]] eqn:E.
      + destruct kernel as [k'|]; cbn in E; [|discriminate]. unfold set_kernel in E. destruct (existsb _ kernels); [discriminate|]. now injection E as _ <-.
      + unfold set_classifier. now rewrite B.
  Qed.
End Svm.
(** upper and lower case make no difference: [k] is the documented name, with some capital letters replaced by small ones *)
Fixpoint spelling (name k : string) : Prop :=
  match name, k with
  | EmptyString, EmptyString => True
  | String d name, String c k => (c = d \/ 65 <= nat_of_ascii d <= 90 /\ nat_of_ascii c = nat_of_ascii d + 32) /\ spelling name k
  | _, _ => False
  end.
Fixpoint no_small (s : string) : bool := match s with EmptyString => true | String c s => negb (Nat.leb 97 (nat_of_ascii c) && Nat.leb (nat_of_ascii c) 122) && no_small s end.
Lemma upper_spelling name : forall k, no_small name = true -> spelling name k -> upper k = name.
Proof.
  induction name as [|d name IH]; intros [|c k] N H; cbn in H; try contradiction; [reflexivity|]. cbn [no_small] in N. apply andb_true_iff in N. destruct N as [Nd N], H as [C H]. cbn [upper]. rewrite (IH k N H). f_equal. unfold upper_char. destruct C as [-> | [B E]]; [apply negb_true_iff in Nd; now rewrite Nd|].
  rewrite E. replace (nat_of_ascii d + 32 - 32) with (nat_of_ascii d) by lia. rewrite (proj2 (Nat.leb_le 97 _)), (proj2 (Nat.leb_le _ 122)) by lia. apply ascii_nat_embedding.
Qed.
Theorem C514_case : forall const p name k, spelling name k -> (In name ["RBF"; "LINEAR"; "POLY"; "SIGMOID"] -> set_kernel const p k = set_kernel const p name /\ snd (set_kernel const p k) = None)
  /\ (In name ["C_SVC"; "NU_SVC"; "ONE_CLASS"; "EPSILON_SVR"; "NU_SVR"] -> set_classifier const p k = set_classifier const p name /\ snd (set_classifier const p k) = None).
Proof.
  intros const p name k H. split; intros I; assert (N : no_small name = true) by (cbn in I; decompose [or] I; subst; try contradiction; reflexivity); assert (U : upper name = name) by (cbn in I; decompose [or] I; subst; try contradiction; reflexivity); apply upper_spelling in H; try exact N; unfold set_kernel, set_classifier; rewrite H, U; (split; [reflexivity|]); apply existsb_str in I.
  - change kernels with ["RBF"; "LINEAR"; "POLY"; "SIGMOID"]. now rewrite I.
  - change classifiers with ["C_SVC"; "NU_SVC"; "ONE_CLASS"; "EPSILON_SVR"; "NU_SVR"]. now rewrite I.
Qed.
Example ex_C514 : upper "Rbf" = "RBF" /\ upper "nu_svr" = "NU_SVR" /\ snd (set_kernel (fun _ => 2%Z) (fun _ => 0%Z) "rbf") = None /\ snd (set_kernel (fun _ => 2%Z) (fun _ => 0%Z) "rbfs") = Some ETypeError
  /\ match svm_init ["C"; "gamma"] (fun _ => true) (fun _ => 0%Z) (fun s => Z.of_nat (String.length s)) (Some "poly") None true [("C", 5%Z)] with inl p => (p "C", p "kernel_type", p "svm_type", p "probability") = (5, 4, 0, 1)%Z | inr _ => False end.
Proof. repeat split. Qed.

(** ** C515: the probabilities: for every row the one of every label of the model, nothing for other labels *)
Lemma dict_fold l : forall d x, ~ In x (map fst l) -> fold_left (fun (d : Z -> option Z) kv => fun x => if Z.eqb x (fst kv) then Some (snd kv) else d x) l d x = d x.
Proof. induction l as [|[k v] l IH]; intros d x N; [reflexivity|]. cbn in N |- *. rewrite IH by tauto. cbn. destruct (Z.eqb_spec x k); [subst; tauto|reflexivity]. Qed.
Lemma combine_fst (a : list Z) : forall b : list Z, length a = length b -> map fst (combine a b) = a.
Proof. induction a as [|x a IH]; intros [|y b] L; cbn in *; try discriminate; [reflexivity|]. f_equal. apply IH. lia. Qed.
Theorem C515_prob : forall labels vals, NoDup labels -> Forall (fun ps => length ps = length labels) vals -> length (prob labels vals) = length vals /\
  forall r ps, nth_error vals r = Some ps -> exists d, nth_error (prob labels vals) r = Some d /\ (forall i l p, nth_error labels i = Some l -> nth_error ps i = Some p -> d l = Some p) /\ forall l, ~ In l labels -> d l = None.
Proof.
  intros labels vals D F. split; [apply map_length|]. intros r ps R. exists (dict_zip labels ps). split; [now apply map_nth_error|]. rewrite Forall_forall in F. specialize (F ps (nth_error_In _ _ R)). unfold dict_zip. split.
  - generalize (fun _ : Z => @None Z). clear R. revert ps F. induction labels as [|a labels IH]; intros [|b ps] F d0 i l p L P; cbn in F; try discriminate; [destruct i; discriminate|]. inversion D as [|? ? N D']; subst. destruct i as [|i]; cbn in L, P.
    + injection L as ->. injection P as ->. cbn. rewrite dict_fold by (rewrite combine_fst by lia; exact N). now rewrite Z.eqb_refl.
    + cbn. eapply IH; eauto.
  - intros l N. now rewrite dict_fold by (rewrite combine_fst by lia; exact N).
Qed.
Example ex_C515 : map (fun d => (d 1%Z, d (-1)%Z, d 0%Z)) (prob [1; -1]%Z [[30; 70]; [90; 10]]%Z) = [(Some 30, Some 70, None); (Some 90, Some 10, None)]%Z.
Proof. reflexivity. Qed.
