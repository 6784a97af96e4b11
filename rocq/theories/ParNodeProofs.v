(** Trees of forks, and the lemmas behind C281-C296. *)
From Coq Require Import String List Arith ZArith QArith Qcanon Bool Lia Permutation FunctionalExtensionality Field.
From Verif Require Import CovModel ClassModel GaussModel OField PCAModel SymeigModel SFAModel FDAModel VSFAModel VSFAProofs ParNodeModel.
Import ListNotations.
Open Scope nat_scope.

(** ** training in parallel: the node is trained with some data, then forks are made, every fork is trained (in parallel itself), and the forks are joined one after another *)
Inductive ptree (X : Type) := PT (own : list X) (subs : list (ptree X)).
Arguments PT {X}.
Fixpoint flatten {X} (t : ptree X) : list X := match t with PT own subs => own ++ flat_map flatten subs end.
(** every fork gets some data *)
Fixpoint fed {X} (t : ptree X) : Prop := match t with PT _ subs => (fix go (l : list (ptree X)) : Prop := match l with [] => True | t :: l => flatten t <> [] /\ fed t /\ go l end) subs end.
Section TreeInd.
  Context {X : Type} (P : ptree X -> Prop) (H : forall own subs, Forall P subs -> P (PT own subs)).
  Fixpoint ptree_ind' (t : ptree X) : P t := match t with PT own subs => H own subs ((fix go (l : list (ptree X)) : Forall P l := match l with [] => Forall_nil P | t :: l => Forall_cons t (ptree_ind' t) (go l) end) subs) end.
End TreeInd.
Lemma fed_forall {X} own (subs : list (ptree X)) : fed (PT own subs) <-> Forall (fun t => flatten t <> [] /\ fed t) subs.
Proof.
  cbn [fed]. induction subs as [|t l IH]; [split; constructor|]. rewrite IH. split.
  - intros (A & B & C). now repeat constructor.
  - intros F. pose proof (Forall_inv F) as (A & B). now apply Forall_inv_tail in F.
Qed.
Section Tree.
  Context {N X : Type} (train : N -> X -> option N) (fork : N -> option N) (join : N -> N -> option N).
  Fixpoint seqtrain (s : N) (xs : list X) : option N := match xs with [] => Some s | x :: xs => match train s x with Some s => seqtrain s xs | None => None end end.
  Fixpoint par (t : ptree X) (s : N) : option N :=
    match t with
    | PT own subs =>
        match seqtrain s own with
        | None => None
        | Some s0 =>
            (fix go (l : list (ptree X)) (s : N) : option N :=
               match l with
               | [] => Some s
               | t :: l =>
                   match fork s0 with
                   | None => None
                   | Some f => match par t f with None => None | Some f => match join s f with None => None | Some s => go l s end end
                   end
               end) subs s0
        end
    end.
  Fixpoint par_subs (s0 : N) (l : list (ptree X)) (s : N) : option N :=
    match l with
    | [] => Some s
    | t :: l => match fork s0 with None => None | Some f => match par t f with None => None | Some f => match join s f with None => None | Some s => par_subs s0 l s end end end
    end.
  Lemma par_eq own subs s : par (PT own subs) s = match seqtrain s own with None => None | Some s0 => par_subs s0 subs s0 end.
  Proof. cbn [par]. destruct (seqtrain s own) as [s0|]; [|reflexivity]. generalize s0 at 2 4. induction subs as [|t l IH]; intros s1; [reflexivity|]. cbn [par_subs]. destruct (fork s0); [|reflexivity]. destruct (par t n); [|reflexivity]. destruct (join s1 n0); [apply IH|reflexivity]. Qed.
  Lemma seqtrain_app xs : forall ys s, seqtrain s (xs ++ ys) = match seqtrain s xs with Some s => seqtrain s ys | None => None end.
  Proof. induction xs as [|x xs IH]; intros ys s; [reflexivity|]. cbn [seqtrain app]. destruct (train s x); [apply IH|reflexivity]. Qed.

  (** the contract with relations: [Rt c s xs] (trainable) and [Rj c s xs] (perhaps joined): the node s of kind c holds the statistics of the data xs *)
  Section Rel.
    Context {C : Type} (okx : X -> Prop) (kind : C -> C) (Rt Rj : C -> N -> list X -> Prop).
    Hypothesis Htrain : forall c s xs x, Rt c s xs -> okx x -> exists s', train s x = Some s' /\ Rt c s' (xs ++ [x]).
    Hypothesis Hfork : forall c s xs, Rt c s xs -> exists f, fork s = Some f /\ Rt (kind c) f [].
    Hypothesis Hjoin : forall c s xs f ys, Rj c s xs -> Rj (kind c) f ys -> ys <> [] -> exists s', join s f = Some s' /\ Rj c s' (xs ++ ys).
    Hypothesis Hrel : forall c s xs, Rt c s xs -> Rj c s xs.
    Lemma rel_seq ys : forall c s xs, Rt c s xs -> Forall okx ys -> exists s', seqtrain s ys = Some s' /\ Rt c s' (xs ++ ys).
    Proof.
      induction ys as [|y ys IH]; intros c s xs R F; [exists s; rewrite app_nil_r; now split|]. destruct (Htrain c s xs y R (Forall_inv F)) as (s1 & E & R1).
      destruct (IH c s1 (xs ++ [y]) R1 (Forall_inv_tail F)) as (s2 & E2 & R2). exists s2. cbn [seqtrain]. rewrite E. split; [exact E2|]. now rewrite <- app_assoc in R2.
    Qed.
    Lemma rel_tree t : forall c s xs, Rt c s xs -> fed t -> Forall okx (flatten t) -> exists s', par t s = Some s' /\ Rj c s' (xs ++ flatten t).
    Proof.
      induction t as [own subs IH] using ptree_ind'. intros c s xs R FD F. rewrite fed_forall in FD. cbn [flatten] in F. apply Forall_app in F. destruct F as (F1 & F2).
      destruct (rel_seq own c s xs R F1) as (s0 & E & R0). rewrite par_eq, E. destruct (Hfork c s0 _ R0) as (f & EF & RF). cbn [flatten]. rewrite app_assoc. generalize (xs ++ own) as zs, (Hrel _ _ _ R0). revert E R0. intros E R0.
      clear -IH FD F2 Hjoin Hrel EF RF R0. intros zs RJ. revert zs RJ. generalize s0 at 1 3 as s1. revert RF. induction subs as [|t l IHl]; intros RF s1 zs RJ; [exists s1; split; [reflexivity|]; cbn [flat_map]; now rewrite app_nil_r|].
      cbn [par_subs flat_map] in *. rewrite EF. apply Forall_app in F2. destruct F2 as (G1 & G2). pose proof (Forall_inv FD) as (NE & FD1).
      destruct (Forall_inv IH (kind c) f [] RF FD1 G1) as (f' & EP & RP). rewrite EP. cbn [app] in RP.
      destruct (Hjoin c s1 zs f' (flatten t) RJ RP NE) as (s2 & EJ & RJ2). rewrite EJ.
      destruct (IHl (Forall_inv_tail IH) (Forall_inv_tail FD) G2 RF s2 (zs ++ flatten t) RJ2) as (s3 & E3 & R3). exists s3. split; [exact E3|]. now rewrite app_assoc.
    Qed.
  End Rel.

  (** the contract with equality *)
  Section Eq.
    Context (good : N -> Prop) (okx : X -> Prop).
    Hypothesis Htrain : forall s x, good s -> okx x -> exists s', train s x = Some s' /\ good s' /\ fork s' = fork s.
    Hypothesis Hfork : forall s, good s -> exists f, fork s = Some f /\ good f.
    Hypothesis Hjoin : forall s f f' ys, good s -> fork s = Some f -> ys <> [] -> Forall okx ys -> seqtrain f ys = Some f' -> join s f' = seqtrain s ys.
    Lemma eq_good ys : forall s s', good s -> Forall okx ys -> seqtrain s ys = Some s' -> good s' /\ fork s' = fork s.
    Proof.
      induction ys as [|y ys IH]; intros s s' G F E; [injection E as <-; now split|]. cbn [seqtrain] in E. destruct (Htrain s y G (Forall_inv F)) as (s1 & E1 & G1 & K1). rewrite E1 in E.
      destruct (IH s1 s' G1 (Forall_inv_tail F) E) as (A & B). split; [exact A|congruence].
    Qed.
    Lemma eq_total ys : forall s, good s -> Forall okx ys -> exists s', seqtrain s ys = Some s'.
    Proof. induction ys as [|y ys IH]; intros s G F; [now exists s|]. cbn [seqtrain]. destruct (Htrain s y G (Forall_inv F)) as (s1 & E1 & G1 & _). rewrite E1. apply IH; [exact G1|now apply Forall_inv_tail in F]. Qed.
    Lemma eq_tree t s : good s -> fed t -> Forall okx (flatten t) -> exists s', par t s = Some s' /\ seqtrain s (flatten t) = Some s'.
    Proof.
      intros G FD F.
      destruct (rel_tree (C := N) okx (fun b => match fork b with Some f => f | None => b end) (fun b s xs => good b /\ Forall okx xs /\ seqtrain b xs = Some s) (fun b s xs => good b /\ Forall okx xs /\ seqtrain b xs = Some s)) with (t := t) (c := s) (s := s) (xs := @nil X) as (s' & E & _ & _ & E'); try assumption.
      - intros b s1 xs x (A & B & D) OK. destruct (eq_good xs b s1 A B D) as (G1 & _). destruct (Htrain s1 x G1 OK) as (s2 & E2 & _). exists s2. split; [exact E2|]. split; [exact A|]. split; [apply Forall_app; split; [exact B|now repeat constructor]|]. rewrite seqtrain_app, D. cbn [seqtrain]. now rewrite E2.
      - intros b s1 xs (A & B & D). destruct (eq_good xs b s1 A B D) as (_ & K1). destruct (Hfork b A) as (f & EF & GF). exists f. rewrite K1, EF. split; [reflexivity|]. split; [exact GF|]. split; [constructor|reflexivity].
      - intros b s1 xs f ys (A & B & D) (A' & B' & D') NE. destruct (eq_good xs b s1 A B D) as (G1 & K1). destruct (Hfork b A) as (f0 & EF & GF). rewrite EF in D'. destruct (eq_total ys s1 G1 B') as (s2 & E2).
        exists s2. split; [rewrite (Hjoin s1 f0 f ys G1); [exact E2|congruence|exact NE|exact B'|exact D']|]. split; [exact A|]. split; [now apply Forall_app|]. now rewrite seqtrain_app, D.
      - intros b s1 xs H. exact H.
      - split; [exact G|]. split; [constructor|reflexivity].
      - exists s'. split; [exact E|exact E'].
    Qed.
  End Eq.
  (** training in any order *)
  Lemma seq_perm (good : N -> Prop) (okx : X -> Prop) : (forall s x, good s -> okx x -> exists s', train s x = Some s' /\ good s') ->
    (forall s x y, good s -> okx x -> okx y -> seqtrain s [x; y] = seqtrain s [y; x]) ->
    forall xs ys, Permutation xs ys -> forall s, good s -> Forall okx xs -> seqtrain s xs = seqtrain s ys.
  Proof.
    intros HT HC xs ys P. induction P as [|x xs ys P IH|x y xs|xs ys zs P1 IH1 P2 IH2]; intros s G F; [reflexivity| | |].
    - cbn [seqtrain]. destruct (HT s x G (Forall_inv F)) as (s1 & E & G1). rewrite E. apply IH; [exact G1|now apply Forall_inv_tail in F].
    - change (y :: x :: xs) with ([y; x] ++ xs). change (x :: y :: xs) with ([x; y] ++ xs). rewrite !seqtrain_app. rewrite (HC s y x); [reflexivity|exact G|exact (Forall_inv F)|exact (Forall_inv (Forall_inv_tail F))].
    - rewrite (IH1 s G F). apply IH2; [exact G|]. now apply (Permutation_Forall P1).
  Qed.
End Tree.

Definition okp {N} (r : N * pres unit) : option N := match r with (s, POk _) => Some s | _ => None end.
Definition oks {N} (r : N * sres unit) : option N := match r with (s, SOk _) => Some s | _ => None end.
Definition okf {N} (r : N * fres unit) : option N := match r with (s, FOk _) => Some s | _ => None end.
Definition okj {N} (r : N * jres) : option N := match r with (s, JOk) => Some s | _ => None end.

Section Moments.
  Context {K : ofield}.
  Add Field Kpn : (fth K).
  Notation vec := (OField.vec (K := K)). Notation mtx := (mtx (K := K)). Notation acc := (acc (K := K)). Notation pca := (pca (K := K)). Notation sfa := (sfa (K := K)).
  Notation fda := (fda (K := K)).
  Lemma acc_ext (a b : acc) : (forall i j, a_m a i j = a_m b i j) -> (forall i, a_s a i = a_s b i) -> a_n a = a_n b -> a = b.
  Proof. destruct a, b. cbn. intros A B ->. f_equal; [extensionality i; extensionality j; apply A|extensionality i; apply B]. Qed.
  Lemma join_new_l (b : acc) : acc_join acc_new b = b.
  Proof. apply acc_ext; intros; cbn; [ring|ring|reflexivity]. Qed.
  Lemma join_new_r (b : acc) : acc_join b acc_new = b.
  Proof. apply acc_ext; intros; cbn; [ring|ring|lia]. Qed.
  Lemma join_comm (a b : acc) : acc_join a b = acc_join b a.
  Proof. apply acc_ext; intros; cbn; [ring|ring|lia]. Qed.
  Lemma join_assoc (a b c : acc) : acc_join a (acc_join b c) = acc_join (acc_join a b) c.
  Proof. apply acc_ext; intros; cbn; [ring|ring|lia]. Qed.
  Lemma update_join (a : acc) (x : list vec) : acc_update a x = acc_join a (acc_update acc_new x).
  Proof. apply acc_ext; intros; cbn; [ring|ring|lia]. Qed.
  Lemma fold_join (xs : list (list vec)) : forall a : acc, fold_left acc_update xs a = acc_join a (fold_left acc_update xs acc_new).
  Proof.
    induction xs as [|x xs IH]; intros a; cbn [fold_left]; [now rewrite join_new_r|]. rewrite IH, (IH (acc_update acc_new x)), (update_join a x). now rewrite join_assoc.
  Qed.
  Lemma fold_n (xs : list (list vec)) : forall a : acc, a_n (fold_left acc_update xs a) = a_n a + length (concat xs).
  Proof. induction xs as [|x xs IH]; intros a; cbn [fold_left concat]; [cbn; lia|]. rewrite IH, app_length. cbn [acc_update a_n]. lia. Qed.
  Lemma concat_ne (xs : list (list vec)) : xs <> [] -> Forall (fun x => x <> []) xs -> length (concat xs) <> 0.
  Proof. destruct xs as [|x xs]; [now intros|]. intros _ F. pose proof (Forall_inv F). cbn [concat]. rewrite app_length. destruct x; [easy|cbn; lia]. Qed.

  (** *** PCANode *)
  Definition pca_good (s : pca) : Prop := p_training s = true /\ exists a, p_acc s = Some a /\ (a_n a = 0 -> a = acc_new).
  Definition ptrain (s : pca) (x : list vec) : option pca := okp (pca_train s x).
  Definition pfork (s : pca) : option pca := Some (pca_fork s).
  Definition pjoin (s f : pca) : option pca := okj (pca_join s f).
  Lemma pca_seq xs : forall s : pca, p_training s = true -> forall a, p_acc s = Some a -> xs <> [] ->
    seqtrain ptrain s xs = Some (mkP (p_out s) (p_desired s) (Some (fold_left acc_update xs a)) (p_tlen s) (p_avg s) (p_d s) (p_v s) (p_vartot s) (p_expl s) true (p_training s)).
  Proof.
    induction xs as [|x xs IH]; intros s T a E N; [easy|]. cbn [seqtrain]. unfold ptrain, pca_train. rewrite T, E. cbn [negb okp]. destruct xs as [|y ys]; [reflexivity|].
    rewrite IH with (a := acc_update a x); [reflexivity|(reflexivity || exact T)|reflexivity|discriminate].
  Qed.
  Lemma pca_train_good (s : pca) x : pca_good s -> x <> [] -> exists s', ptrain s x = Some s' /\ pca_good s' /\ pfork s' = pfork s.
  Proof.
    intros (T & a & E & Z) N. unfold ptrain, pca_train. rewrite T, E. cbn [negb okp]. eexists. split; [reflexivity|]. split; [|reflexivity]. split; [reflexivity|]. eexists. split; [reflexivity|]. cbn [acc_update a_n].
    intros H. destruct x; [easy|cbn in H; lia].
  Qed.
  Lemma pca_join_seq (s f f' : pca) ys : pca_good s -> pfork s = Some f -> ys <> [] -> Forall (fun x => x <> []) ys -> seqtrain ptrain f ys = Some f' -> pjoin s f' = seqtrain ptrain s ys.
  Proof.
    intros (T & a & E & Z) EF N F S. injection EF as <-. rewrite (pca_seq ys (pca_fork s) eq_refl acc_new eq_refl N) in S. injection S as <-. rewrite (pca_seq ys s T a E N).
    unfold pjoin, pca_join. rewrite E. cbn [p_acc p_out p_started pca_fork pca_new].
    assert (FO : first_of (p_out s) (p_out (pca_fork s)) = p_out s) by (unfold pca_fork; destruct (p_out s); reflexivity). cbn [p_out pca_fork pca_new] in FO.
    rewrite fold_n. cbn [acc_new a_n]. pose proof (concat_ne ys N F) as CN. rewrite orb_true_r. rewrite FO. destruct (Nat.eqb_spec (a_n a) 0) as [Z0|Z0].
    - cbn [okj]. rewrite (Z Z0). reflexivity.
    - destruct (Nat.eqb_spec (0 + length (concat ys)) 0); [lia|]. cbn [okj]. rewrite <- fold_join. reflexivity.
  Qed.
  Lemma pca_swap (s : pca) x y : pca_good s -> seqtrain ptrain s [x; y] = seqtrain ptrain s [y; x].
  Proof.
    intros (T & a & E & _). rewrite !(pca_seq _ s T a E) by discriminate. do 2 f_equal. f_equal. cbn [fold_left]. rewrite (update_join (acc_update a x) y), (update_join a x), (update_join (acc_update a y) x), (update_join a y).
    rewrite <- !join_assoc. f_equal. apply join_comm.
  Qed.

  (** *** SFANode *)
  Definition scall : Type := list vec * option bool.
  Definition sfa_good (s : sfa) : Prop := s_training s = true /\ exists c dc, s_accs s = Some (c, dc) /\ (a_n c = 0 -> c = acc_new /\ dc = acc_new).
  Definition strain (s : sfa) (x : scall) : option sfa := oks (sfa_train s (fst x) (snd x)).
  Definition sfork (s : sfa) : option sfa := Some (sfa_fork s).
  Definition sjoin (s f : sfa) : option sfa := okj (sfa_join s f).
  Definition okcall (x : scall) : Prop := 2 <= length (fst x).
  (** the rows which enter the covariance matrix *)
  Definition taken (incl : bool) (x : scall) : list vec := if match snd x with Some b => b | None => incl end then fst x else removelast (fst x).
  Definition sder (x : scall) : list vec := time_derivative (fst x).
  Lemma sfa_seq xs : forall s : sfa, s_training s = true -> forall c dc, s_accs s = Some (c, dc) -> xs <> [] -> Forall okcall xs ->
    seqtrain strain s xs = Some (mkS (s_out s) (s_incl s) (Some (fold_left acc_update (map (taken (s_incl s)) xs) c, fold_left acc_update (map sder xs) dc))
      (s_mats s) (s_avg s) (s_tlen s) (s_dtlen s) (s_meth s) (s_dfc s) (s_d s) (s_sf s) (s_bias s) true (s_training s)).
  Proof.
    induction xs as [|x xs IH]; intros s T c dc E N F; [easy|]. cbn [seqtrain]. pose proof (Forall_inv F) as L. unfold okcall in L. unfold strain, sfa_train. rewrite T, E. cbn [negb].
    destruct (Nat.eqb_spec (length (fst x)) 0); [lia|]. destruct (Nat.ltb_spec (length (fst x)) 2); [lia|]. cbn [oks]. destruct xs as [|y ys]; [reflexivity|].
    rewrite IH with (c := acc_update c (taken (s_incl s) x)) (dc := acc_update dc (sder x)); [reflexivity|(reflexivity || exact T)|reflexivity|discriminate|now apply Forall_inv_tail in F].
  Qed.
  Lemma removelast_length {T} (l : list T) : length (removelast l) = length l - 1.
  Proof. induction l as [|a [|b l] IH]; cbn in *; lia. Qed.
  Lemma taken_len incl x : okcall x -> 1 <= length (taken incl x).
  Proof. unfold okcall, taken. intros L. destruct (match snd x with Some b => b | None => incl end); [lia|]. rewrite removelast_length. lia. Qed.
  Lemma der_len (x : list vec) : length (time_derivative x) = length x - 1.
  Proof. unfold time_derivative. rewrite map_length, combine_length, removelast_length. destruct x; cbn; lia. Qed.
  Lemma taken_ne incl xs : Forall okcall xs -> Forall (fun x => x <> []) (map (taken incl) xs).
  Proof. intros F. apply Forall_map. refine (Forall_impl _ _ F). intros x L E. apply (taken_len incl) in L. rewrite E in L. cbn in L. lia. Qed.
  Lemma der_ne (xs : list scall) : Forall okcall xs -> Forall (fun x => x <> []) (map sder xs).
  Proof. intros F. apply Forall_map. refine (Forall_impl _ _ F). unfold okcall, sder. intros x L E. pose proof (der_len (fst x)) as D. rewrite E in D. cbn in D. lia. Qed.
  Lemma sfa_train_good (s : sfa) x : sfa_good s -> okcall x -> exists s', strain s x = Some s' /\ sfa_good s' /\ sfork s' = sfork s.
  Proof.
    intros (T & c & dc & E & Z) L. pose proof (sfa_seq [x] s T c dc E) as Q. cbn [seqtrain] in Q. destruct (strain s x) as [s'|] eqn:ES; specialize (Q ltac:(discriminate) ltac:(now repeat constructor)); [|discriminate].
    exists s'. split; [reflexivity|]. injection Q as ->. split; [|reflexivity]. split; [exact T|]. eexists _, _. split; [reflexivity|]. cbn [map fold_left acc_update a_n]. intros H. pose proof (taken_len (s_incl s) x L). lia.
  Qed.
  Lemma sfa_join_seq (s f f' : sfa) ys : sfa_good s -> sfork s = Some f -> ys <> [] -> Forall okcall ys -> seqtrain strain f ys = Some f' -> sjoin s f' = seqtrain strain s ys.
  Proof.
    intros (T & c & dc & E & Z) EF N F S. injection EF as <-. rewrite (sfa_seq ys (sfa_fork s) eq_refl acc_new acc_new eq_refl N F) in S. injection S as <-. rewrite (sfa_seq ys s T c dc E N F).
    unfold sjoin, sfa_join. rewrite E. cbn [s_accs s_out s_started s_incl sfa_fork sfa_new]. rewrite !fold_n, orb_true_r. cbn [acc_new a_n].
    assert (FO : first_of (s_out s) (s_out s) = s_out s) by (destruct (s_out s); reflexivity). rewrite FO.
    assert (N1 : map (taken (s_incl s)) ys <> []) by (destruct ys; [easy|discriminate]). assert (N2 : map sder ys <> []) by (destruct ys; [easy|discriminate]).
    pose proof (concat_ne _ N1 (taken_ne _ _ F)) as C1. pose proof (concat_ne _ N2 (der_ne _ F)) as C2. destruct (Nat.eqb_spec (a_n c) 0) as [Z0|Z0].
    - cbn [okj]. destruct (Z Z0) as (-> & ->). reflexivity.
    - destruct (Nat.eqb_spec (0 + length (concat (map (taken (s_incl s)) ys))) 0); [lia|]. destruct (Nat.eqb_spec (0 + length (concat (map sder ys))) 0); [lia|].
      cbn [okj]. rewrite <- !fold_join. reflexivity.
  Qed.
  Lemma fold_swap (a : acc) x y : acc_update (acc_update a x) y = acc_update (acc_update a y) x.
  Proof. rewrite (update_join (acc_update a x) y), (update_join a x), (update_join (acc_update a y) x), (update_join a y). rewrite <- !join_assoc. f_equal. apply join_comm. Qed.
  Lemma sfa_swap (s : sfa) x y : sfa_good s -> okcall x -> okcall y -> seqtrain strain s [x; y] = seqtrain strain s [y; x].
  Proof.
    intros (T & c & dc & E & _) Ox Oy. rewrite !(sfa_seq _ s T c dc E) by (discriminate || now repeat constructor). cbn [map fold_left]. rewrite (fold_swap c), (fold_swap dc). reflexivity.
  Qed.

  (** *** FDANode, first phase *)
  Section FDA.
  Variable labset : list nat -> list nat.
  Notation groups := (groups labset). Notation ftrain0 := (fda_train labset).
  Definition fcall : Type := list vec * labels.
  Definition ftrain (s : fda) (x : fcall) : option fda := okf (ftrain0 s (fst x) (snd x)).
  Definition ffork (s : fda) : option fda := Some (fda_fork s).
  Definition fjoin (s f : fda) : option fda := okj (fda_join s f).
  Definition okfit (x : fcall) : Prop := fst x <> [] /\ labels_fit (snd x) (fst x) = true.
  Definition grp (x : fcall) : list (nat * list vec) := groups (snd x) (fst x).
  Notation dict := (nat -> option (vec * nat)).
  Definition dnone : dict := fun _ => None.
  Lemma dict_ext (d e : dict) : (forall l, d l = e l) -> d = e.
  Proof. intros H. extensionality l. apply H. Qed.
  Lemma entry_ext (m m' : vec) (n n' : nat) : (forall i, m i = m' i) -> n = n' -> Some (m, n) = Some (m', n').
  Proof. intros A ->. do 2 f_equal. extensionality i. apply A. Qed.
  Lemma mj_nil_l (e : dict) : means_join dnone e = e.
  Proof. apply dict_ext. intros l. unfold means_join, dnone. now destruct (e l) as [[m n]|]. Qed.
  Lemma mj_assoc (a b c : dict) : means_join a (means_join b c) = means_join (means_join a b) c.
  Proof.
    apply dict_ext. intros l. unfold means_join. destruct (c l) as [[m n]|], (b l) as [[m' n']|], (a l) as [[m'' n'']|]; try reflexivity. apply entry_ext; [intros i; ring|lia].
  Qed.
  Lemma mj_comm (a b : dict) : means_join a b = means_join b a.
  Proof. apply dict_ext. intros l. unfold means_join. destruct (b l) as [[m' n']|], (a l) as [[m'' n'']|]; try reflexivity. apply entry_ext; [intros i; ring|lia]. Qed.
  Lemma update_mj (d : dict) g : update_means d g = means_join d (update_means dnone g).
  Proof.
    apply dict_ext. intros l. unfold means_join, update_means, dnone. destruct (l =? fst g); [|reflexivity]. destruct (d l) as [[m n]|]; [|reflexivity]. apply entry_ext; [intros i; ring|lia].
  Qed.
  Lemma fold_mj gs : forall d : dict, fold_left update_means gs d = means_join d (fold_left update_means gs dnone).
  Proof. induction gs as [|g gs IH]; intros d; cbn [fold_left]; [reflexivity|]. rewrite IH, (IH (update_means dnone g)), (update_mj d g). now rewrite mj_assoc. Qed.
  Definition fda_good0 (s : fda) : Prop := f_phase s = 0.
  Lemma fda_seq0 xs : forall s : fda, f_phase s = 0 -> xs <> [] -> Forall okfit xs ->
    seqtrain ftrain s xs = Some (mkF (f_out s) (fold_left update_means (flat_map grp xs) (f_means s)) 0 true (f_all s) (f_sw s) (f_v s) (f_avg s)).
  Proof.
    induction xs as [|x xs IH]; intros s P N F; [easy|]. cbn [seqtrain]. pose proof (Forall_inv F) as (NX & LF). unfold ftrain, fda_train. rewrite P, LF. cbn [Nat.leb Nat.eqb negb].
    destruct (Nat.eqb_spec (length (fst x)) 0) as [Z|Z]; [destruct (fst x); [easy|discriminate]|]. cbn [okf]. destruct xs as [|y ys]; [cbn [seqtrain flat_map]; now rewrite app_nil_r|].
    rewrite IH; [cbn [f_out f_means f_all f_sw f_v f_avg]; change (flat_map grp (x :: y :: ys)) with (grp x ++ flat_map grp (y :: ys)); rewrite (fold_left_app _ (grp x)); reflexivity|reflexivity|discriminate|now apply Forall_inv_tail in F].
  Qed.
  Lemma fda_train_good0 (s : fda) x : fda_good0 s -> okfit x -> exists s', ftrain s x = Some s' /\ fda_good0 s' /\ ffork s' = ffork s.
  Proof.
    intros G O. pose proof (fda_seq0 [x] s G ltac:(discriminate) (Forall_cons x O (Forall_nil okfit))) as Q. cbn [seqtrain] in Q. destruct (ftrain s x) as [s'|]; [|discriminate].
    exists s'. injection Q as ->. split; [reflexivity|]. split; [reflexivity|]. unfold ffork, fda_fork. rewrite G. reflexivity.
  Qed.
  Lemma fda_join_seq0 (s f f' : fda) ys : fda_good0 s -> ffork s = Some f -> ys <> [] -> Forall okfit ys -> seqtrain ftrain f ys = Some f' -> fjoin s f' = seqtrain ftrain s ys.
  Proof.
    intros G EF N F S. unfold ffork, fda_fork in EF. rewrite G in EF. cbn [Nat.eqb] in EF. injection EF as <-. rewrite (fda_seq0 ys (fda_new (f_out s)) eq_refl N F) in S. injection S as <-.
    rewrite (fda_seq0 ys s G N F). unfold fjoin, fda_join. rewrite G. cbn [Nat.eqb f_out f_means f_started fda_new okj]. rewrite orb_true_r, (fold_mj _ (f_means s)).
    assert (FO : first_of (f_out s) (f_out s) = f_out s) by (destruct (f_out s); reflexivity). rewrite FO. reflexivity.
  Qed.
  Lemma fda_swap0 (s : fda) x y : fda_good0 s -> okfit x -> okfit y -> seqtrain ftrain s [x; y] = seqtrain ftrain s [y; x].
  Proof.
    intros G Ox Oy. rewrite !(fda_seq0 _ s G) by (discriminate || (constructor; [assumption|constructor; [assumption|constructor]])). cbn [flat_map]. rewrite !app_nil_r, !fold_left_app.
    do 2 f_equal. rewrite (fold_mj (grp y)), (fold_mj (grp x) (f_means s)), (fold_mj (grp x) (fold_left _ _ _)), (fold_mj (grp y) (f_means s)). rewrite <- !mj_assoc. f_equal. apply mj_comm.
  Qed.

  (** *** second phase *)
  Definition known (d : dict) (x : fcall) : Prop := okfit x /\ Forall (fun g => d (fst g) <> None) (grp x).
  Definition swof (d : dict) (g : nat * list vec) : mtx := fun i j => match d (fst g) with Some (m, _) => fsum (map (fun v : vec => (v i - m i) * (v j - m j)) (snd g))%of | None => f0 end.
  Definition swsum (d : dict) (xs : list fcall) : mtx := fun i j => fsum (map (fun g => swof d g i j) (flat_map grp xs)).
  Lemma update_sw_ok (d : dict) gs : forall w : mtx, Forall (fun g => d (fst g) <> None) gs -> update_sw d w gs = (fun i j => w i j + fsum (map (fun g => swof d g i j) gs), FOk tt)%of.
  Proof.
    induction gs as [|[l x] gs IH]; intros w F; cbn [update_sw map fsum].
    - f_equal. extensionality i. extensionality j. cbn. ring.
    - pose proof (Forall_inv F) as H. cbn [fst] in H. destruct (d l) as [[m n]|] eqn:E; [|easy]. rewrite IH by (now apply Forall_inv_tail in F). f_equal. extensionality i. extensionality j.
      cbn [map fsum]. unfold swof at 2. cbn [fst snd]. rewrite E. ring.
  Qed.
  Definition inner (s : fda) : option mtx := match f_sw s with Some w => w | None => None end.
  Definition base (s : fda) : mtx := match inner s with Some w => w | None => fun _ _ => f0 end.
  Definition fda_good1 (s : fda) : Prop :=
    f_phase s = 1 /\ (exists a, f_all s = Some a /\ (inner s = None -> a = acc_new) /\ (inner s <> None -> a_n a <> 0)) /\ exists w, f_sw s = Some w.
  (** s was trained with xs, starting from b *)
  Definition rep1 (b s : fda) (xs : list fcall) : Prop :=
    fda_good1 b /\ Forall (known (f_means b)) xs /\ f_out s = f_out b /\ f_means s = f_means b /\ f_phase s = 1 /\ f_v s = f_v b /\ f_avg s = f_avg b /\
    (forall a, f_all b = Some a -> f_all s = Some (fold_left acc_update (map fst xs) a)) /\
    f_sw s = Some (match xs with [] => inner b | _ => Some (fun i j => base b i j + swsum (f_means b) xs i j)%of end) /\ (xs <> [] -> f_started s = true).
  Lemma swsum_app d xs ys i j : swsum d (xs ++ ys) i j = (swsum d xs i j + swsum d ys i j)%of.
  Proof. unfold swsum. rewrite flat_map_app, map_app, fsum_app. reflexivity. Qed.
  Lemma rep1_base b s xs : rep1 b s xs -> base s = (fun i j => base b i j + swsum (f_means b) xs i j)%of.
  Proof.
    intros (_ & _ & _ & _ & _ & _ & _ & _ & W & _). unfold base at 1, inner. rewrite W. destruct xs as [|x xs]; [|reflexivity].
    extensionality i. extensionality j. unfold base. destruct (inner b); unfold swsum; cbn; ring.
  Qed.
  Lemma rep1_train b s xs x : rep1 b s xs -> known (f_means b) x -> exists s', ftrain s x = Some s' /\ rep1 b s' (xs ++ [x]).
  Proof.
    intros R KN. pose proof (rep1_base b s xs R) as BS. destruct R as (G & FK & O & M & P & V & A & AL & W & ST). destruct KN as ((NX & LF) & KN).
    destruct G as (Pb & (a & Ea & Z1 & Z2) & (w & Ew)). unfold ftrain, fda_train. rewrite P, LF. cbn [Nat.leb Nat.eqb negb].
    destruct (Nat.eqb_spec (length (fst x)) 0) as [Z|Z]; [destruct (fst x); [easy|discriminate]|]. rewrite W, (AL a Ea), M. unfold base at 1 in BS. unfold inner at 1 in BS. rewrite W in BS.
    set (w0 := match xs with [] => inner b | _ => _ end) in *. rewrite (update_sw_ok (f_means b) (groups (snd x) (fst x))) by exact KN. cbn [okf]. eexists. split; [reflexivity|].
    split; [now repeat split; [exact Pb|exists a; repeat split|exists w]|]. split; [apply Forall_app; split; [exact FK|now repeat constructor]|]. cbn [f_out f_means f_phase f_v f_avg f_all f_sw f_started].
    repeat (split; [reflexivity || assumption|]). split; [intros a' Ea'; rewrite Ea in Ea'; injection Ea' as <-; now rewrite map_app, fold_left_app|]. split; [|reflexivity].
    assert (NE : exists y ys, xs ++ [x] = y :: ys) by (destruct xs; [now exists x, []|now exists f, (xs ++ [x])]). destruct NE as (y & ys & NE). rewrite NE. rewrite <- NE. do 2 f_equal. extensionality i. extensionality j.
    rewrite BS, swsum_app. assert (E1 : swsum (f_means b) [x] i j = fsum (map (fun g => swof (f_means b) g i j) (groups (snd x) (fst x)))) by (unfold swsum; cbn [flat_map]; now rewrite app_nil_r). rewrite E1. ring.
  Qed.
  Lemma rep1_fork b s xs : rep1 b s xs -> exists f, ffork s = Some f /\ rep1 (fda_fork b) f [].
  Proof.
    intros (G & FK & O & M & P & V & A & AL & W & ST). destruct G as (Pb & _). eexists. split; [reflexivity|]. unfold fda_fork. rewrite P, Pb. cbn [Nat.eqb].
    split; [split; [reflexivity|]; split; [|now exists None]; exists acc_new; repeat split; intros H; now destruct H|]. split; [constructor|]. cbn [f_phase f_all f_sw f_out f_means f_v f_avg].
    repeat (split; [reflexivity || assumption|]). split; [intros a Ea; exact Ea|]. split; [reflexivity|easy].
  Qed.
  Lemma rep1_join b s xs f ys : rep1 b s xs -> rep1 (fda_fork b) f ys -> ys <> [] -> exists s', fjoin s f = Some s' /\ rep1 b s' (xs ++ ys).
  Proof.
    intros R (G' & FK' & O' & M' & P' & V' & A' & AL' & W' & ST') NY. pose proof (rep1_base b s xs R) as BS. destruct R as (G & FK & O & M & P & V & A & AL & W & ST). destruct G as (Pb & (a & Ea & Z1 & Z2) & (w & Ew)).
    unfold fda_fork in O', M', AL', W', FK'. rewrite Pb in O', M', AL', W', FK'. cbn [Nat.eqb f_out f_means f_all f_sw] in O', M', AL', W', FK'. specialize (AL' acc_new eq_refl). specialize (AL a Ea). specialize (ST' NY).
    assert (SWf : f_sw f = Some (Some (swsum (f_means b) ys))).
    { rewrite W'. destruct ys as [|y ys]; [easy|]. do 2 f_equal. extensionality i. extensionality j. unfold base, inner. cbn [f_sw]. ring. }
    assert (CN : length (concat (map fst ys)) <> 0).
    { destruct ys as [|y ys]; [easy|]. pose proof (Forall_inv FK') as ((H & _) & _). cbn [map concat]. rewrite app_length. destruct (fst y); [easy|cbn; lia]. }
    assert (FO : first_of (f_out s) (f_out f) = f_out b) by (rewrite O, O'; destruct (f_out b); reflexivity).
    assert (NE : exists y zs, xs ++ ys = y :: zs) by (destruct xs; [destruct ys as [|y ys]; [easy|now exists y, ys]|now exists f0, (xs ++ ys)]). destruct NE as (y & zs & NE).
    assert (FIN : forall aa ww, aa = fold_left acc_update (map fst (xs ++ ys)) a -> ww = (fun i j => base b i j + swsum (f_means b) (xs ++ ys) i j)%of ->
      rep1 b (mkF (f_out b) (f_means s) 1 (f_started s || f_started f) (Some aa) (Some (Some ww)) (f_v s) (f_avg s)) (xs ++ ys)).
    { intros aa ww -> ->. split; [now repeat split; [exact Pb|exists a; repeat split|exists w]|]. split; [now apply Forall_app|]. cbn [f_out f_means f_phase f_v f_avg f_all f_sw f_started].
      split; [reflexivity|]. repeat (split; [reflexivity || assumption|]). split; [intros a' Ea'; rewrite Ea in Ea'; now injection Ea' as <-|]. split; [rewrite NE; reflexivity|]. intros _. rewrite ST'. apply orb_true_r. }
    assert (BW : base s = match inner s with Some w => w | None => fun _ _ => OField.f0 end) by reflexivity.
    unfold fjoin, fda_join. rewrite P, P'. cbn [Nat.eqb negb]. rewrite SWf, AL', AL, FO, W. destruct (match xs with [] => inner b | _ :: _ => _ end) as [ww|] eqn:EW.
    - assert (NZ : a_n (fold_left acc_update (map fst xs) a) <> 0).
      { rewrite fold_n. destruct xs as [|x xs]; [cbn; assert (inner b <> None) by congruence; specialize (Z2 H); lia|]. pose proof (Forall_inv FK) as ((H & _) & _). cbn [map concat]. rewrite app_length. destruct (fst x); [easy|cbn; lia]. }
      destruct (Nat.eqb_spec (a_n (fold_left acc_update (map fst xs) a)) 0); [easy|]. rewrite fold_n. cbn [acc_new a_n]. destruct (Nat.eqb_spec (0 + length (concat (map fst ys))) 0); [lia|]. cbn [orb okj]. eexists. split; [reflexivity|].
      apply FIN; [rewrite map_app, fold_left_app; symmetry; apply fold_join|]. unfold base at 1 in BS. unfold inner at 1 in BS. rewrite W in BS. extensionality i. extensionality j. rewrite BS, swsum_app. ring.
    - cbn [okj]. eexists. split; [reflexivity|]. destruct xs as [|x xs]; [|discriminate]. apply FIN; [cbn [app]; now rewrite (Z1 EW)|].
      extensionality i. extensionality j. unfold base. rewrite EW. cbn [app]. ring.
  Qed.
  Lemma rep1_refl s : fda_good1 s -> rep1 s s [].
  Proof.
    intros G. pose proof G as (P & _ & (w & W)). split; [exact G|]. split; [constructor|]. repeat (split; [reflexivity || exact P|]). split; [intros a E; exact E|]. split; [unfold inner; rewrite W; reflexivity|easy].
  Qed.
  Lemma rep1_det b s s' xs ys : rep1 b s xs -> rep1 b s' ys -> Permutation xs ys -> xs <> [] -> s = s'.
  Proof.
    intros (G & FK & O & M & P & V & A & AL & W & ST) (G' & FK' & O' & M' & P' & V' & A' & AL' & W' & ST') PM NE. assert (NE' : ys <> []) by (intros ->; apply Permutation_sym, Permutation_nil in PM; easy).
    specialize (ST NE). specialize (ST' NE'). destruct G as (_ & (a & Ea & _) & _). specialize (AL a Ea). specialize (AL' a Ea).
    destruct s as [o m ph st al sw v av], s' as [o' m' ph' st' al' sw' v' av']. cbn in *. subst. f_equal.
    - f_equal. rewrite (fold_join _ a), (fold_join (map fst ys) a). f_equal. clear -PM. induction PM as [|x xs ys P IH|x y xs|xs ys zs P1 IH1 P2 IH2]; [reflexivity| | |congruence].
      + cbn [map fold_left]. rewrite (fold_join _ (acc_update acc_new (fst x))), (fold_join (map fst ys) (acc_update acc_new (fst x))). now rewrite IH.
      + cbn [map fold_left]. f_equal. apply fold_swap.
    - f_equal. destruct xs as [|x xs]; [easy|]. destruct ys as [|y ys]; [easy|]. f_equal. extensionality i. extensionality j. f_equal. unfold swsum. apply fsum_perm, Permutation_map, Permutation_flat_map. exact PM.
  Qed.
  End FDA.
End Moments.

(** ** dictionaries to whose entries values are added *)
Section DictSum.
  Context {L V : Type} (eqL : forall a b : L, {a = b} + {a <> b}) (add : V -> V -> V) (assoc : forall a b c, add a (add b c) = add (add a b) c).
  Definition dadd (s : list (L * V)) (e : L * V) : list (L * V) := dupd eqL (fun o => match o with Some a => add a (snd e) | None => snd e end) (fst e) s.
  Definition dsum (s f : list (L * V)) : list (L * V) := fold_left dadd f s.
  Lemma dadd_keys s e : incl (map fst (dadd s e)) (fst e :: map fst s) /\ In (fst e) (map fst (dadd s e)) /\ incl (map fst s) (map fst (dadd s e)).
  Proof.
    destruct e as [k v]. unfold dadd. cbn [fst snd]. induction s as [|[k' a] s IH]; cbn [dupd map fst]; [repeat split; [intros x [->|[]]; now left|now left|easy]|].
    destruct (eqL k k') as [->|NE]; cbn [map fst]; [repeat split; [intros x H; now right|now left|intros x H; exact H]|]. destruct IH as (A & B & C). repeat split.
    - intros x [->|H]; [right; now left|]. destruct (A x H) as [->|H']; [now left|right; now right].
    - now right.
    - intros x [->|H]; [now left|right; now apply C].
  Qed.
  Lemma dadd_nodup s e : NoDup (map fst s) -> NoDup (map fst (dadd s e)).
  Proof.
    destruct e as [k v]. induction s as [|[k' a] s IH]; intros N; [cbn; repeat constructor; easy|]. unfold dadd in *. cbn [dupd fst snd] in *. destruct (eqL k k') as [->|NE]; cbn [map fst] in *; [exact N|].
    apply NoDup_cons_iff in N. destruct N as (N1 & N2). constructor; [|now apply IH]. intros H. destruct (dadd_keys s (k, v)) as (A & _). destruct (A k' H) as [E|H']; [cbn in E; congruence|easy].
  Qed.
  Lemma dsum_nodup f : forall s, NoDup (map fst s) -> NoDup (map fst (dsum s f)).
  Proof. induction f as [|e f IH]; intros s N; [exact N|]. apply IH. now apply dadd_nodup. Qed.
  Lemma dadd_twice s k a v : dadd (dadd s (k, a)) (k, v) = dadd s (k, add a v).
  Proof.
    unfold dadd. cbn [fst snd]. induction s as [|[k' b] s IH]; cbn [dupd]; [destruct (eqL k k); [reflexivity|congruence]|]. destruct (eqL k k') as [->|NE]; cbn [dupd].
    - destruct (eqL k' k'); [|congruence]. now rewrite assoc.
    - destruct (eqL k k'); [congruence|]. now rewrite IH.
  Qed.
  Lemma dadd_swap s k k' a v : k <> k' -> In k (map fst s) -> dadd (dadd s (k', a)) (k, v) = dadd (dadd s (k, v)) (k', a).
  Proof.
    intros NE. unfold dadd. cbn [fst snd]. induction s as [|[q b] s IH]; intros I; [easy|]. cbn [dupd]. destruct (eqL k' q) as [->|N1], (eqL k q) as [->|N2]; cbn [dupd]; try easy.
    - destruct (eqL k q); [congruence|]. destruct (eqL q q); [reflexivity|congruence].
    - destruct (eqL q q); [|congruence]. destruct (eqL k' q); [congruence|]. reflexivity.
    - destruct (eqL k q); [congruence|]. destruct (eqL k' q); [congruence|]. f_equal. apply IH. destruct I as [I|I]; [cbn in I; congruence|exact I].
  Qed.
  Lemma dsum_in f : forall s k v, In k (map fst s) -> ~ In k (map fst f) -> dadd (dsum s f) (k, v) = dsum (dadd s (k, v)) f.
  Proof.
    induction f as [|[k' a] f IH]; intros s k v I N; [reflexivity|]. cbn [dsum fold_left]. fold (dsum (dadd s (k', a)) f). rewrite IH.
    - unfold dsum at 1. fold (dsum (dadd (dadd s (k', a)) (k, v)) f). rewrite dadd_swap; [reflexivity|intros ->; apply N; now left|exact I].
    - destruct (dadd_keys s (k', a)) as (_ & _ & C). now apply C.
    - intros H. apply N. now right.
  Qed.
  Lemma dsum_dadd d : forall s e, NoDup (map fst d) -> dsum s (dadd d e) = dadd (dsum s d) e.
  Proof.
    induction d as [|[k' a] d IH]; intros s [k v] N; [reflexivity|]. cbn [map fst] in N. apply NoDup_cons_iff in N. destruct N as (N1 & N2). unfold dadd at 1. cbn [dupd fst snd]. destruct (eqL k k') as [->|NE].
    - unfold dsum. cbn [fold_left]. fold (dsum (dadd s (k', add a v)) d) (dsum (dadd s (k', a)) d). rewrite dsum_in; [now rewrite dadd_twice|exact (proj1 (proj2 (dadd_keys s (k', a))))|exact N1].
    - unfold dsum. cbn [fold_left]. change (dupd eqL (fun o => match o with Some a0 => add a0 v | None => v end) k d) with (dadd d (k, v)).
      fold (dsum (dadd s (k', a)) (dadd d (k, v))) (dsum (dadd s (k', a)) d). now apply IH.
  Qed.
  (** adding the entries of a dictionary of sums gives the same as adding the single values *)
  Lemma dsum_dsum its s : dsum s (dsum [] its) = dsum s its.
  Proof.
    induction its as [|e its IH] using rev_ind; [reflexivity|]. assert (E : dsum [] (its ++ [e]) = dadd (dsum [] its) e) by (unfold dsum; now rewrite fold_left_app). rewrite E, dsum_dadd by (apply dsum_nodup; constructor).
    rewrite IH. unfold dsum. now rewrite fold_left_app.
  Qed.
  Lemma dadd_new s e : ~ In (fst e) (map fst s) -> dadd s e = s ++ [e].
  Proof.
    destruct e as [k v]. unfold dadd. cbn [fst snd]. induction s as [|[k' a] s IH]; intros N; [reflexivity|]. cbn [dupd]. destruct (eqL k k') as [->|NE]; [destruct N; now left|]. cbn [app]. rewrite IH; [reflexivity|]. intros H. apply N. now right.
  Qed.
  Lemma dsum_nil_l (f : list (L * V)) : forall s, NoDup (map fst (s ++ f)) -> dsum s f = s ++ f.
  Proof.
    induction f as [|e f IH]; intros s N; [now rewrite app_nil_r|]. unfold dsum. cbn [fold_left]. fold (dsum (dadd s e) f). rewrite dadd_new.
    - rewrite IH; [now rewrite <- app_assoc|]. now rewrite <- app_assoc.
    - rewrite map_app in N. cbn [map] in N. apply NoDup_remove_2 in N. intros H. apply N. apply in_or_app. now left.
  Qed.
  Lemma dget_none (s : list (L * V)) k : dget eqL k s = None -> ~ In k (map fst s).
  Proof. induction s as [|[k' a] s IH]; [easy|]. cbn [dget map fst]. destruct (eqL k k') as [->|NE]; [easy|]. intros H [E|I]; [congruence|now apply IH]. Qed.
  Lemma dget_some (s : list (L * V)) k b v : dget eqL k s = Some b -> dupd eqL (fun _ => add b v) k s = dadd s (k, v).
  Proof. unfold dadd. cbn [fst snd]. induction s as [|[k' a] s IH]; [easy|]. cbn [dget dupd]. destruct (eqL k k') as [->|NE]; [intros E; now injection E as ->|]. intros E. now rewrite IH. Qed.
  Lemma dget_in (s : list (L * V)) k b : dget eqL k s = Some b -> In (k, b) s.
  Proof. induction s as [|[k' a] s IH]; [easy|]. cbn [dget]. destruct (eqL k k') as [->|NE]; [intros E; injection E as ->; now left|]. intros E. right. now apply IH. Qed.
  Lemma dadd_forall (P : V -> Prop) (s : list (L * V)) e : (forall a b, P a -> P b -> P (add a b)) -> Forall (fun e : L * V => P (snd e)) s -> P (snd e) -> Forall (fun e : L * V => P (snd e)) (dadd s e).
  Proof.
    destruct e as [k v]. intros HP. unfold dadd. cbn [fst snd]. intros F Q. induction s as [|[k' a] s IH]; cbn [dupd]; [now repeat constructor|]. pose proof (Forall_inv F) as A. cbn [snd] in A. apply Forall_inv_tail in F.
    destruct (eqL k k') as [->|NE]; constructor; cbn [snd]; auto.
  Qed.
  Lemma dsum_forall (P : V -> Prop) (f : list (L * V)) : (forall a b, P a -> P b -> P (add a b)) -> forall s, Forall (fun e : L * V => P (snd e)) s -> Forall (fun e : L * V => P (snd e)) f -> Forall (fun e : L * V => P (snd e)) (dsum s f).
  Proof. intros HP. induction f as [|e f IH]; intros s A B; [exact A|]. apply IH; [|now apply Forall_inv_tail in B]. apply dadd_forall; [exact HP|exact A|exact (Forall_inv B)]. Qed.
End DictSum.

Section Classifiers.
  Context {L : Type} (eqL : forall a b : L, {a = b} + {a <> b}) (enum : list L -> list L).
  Notation vec := ClassModel.vec.
  Definition lcall : Type := list vec * labels_arg L.
  Definition lgroups (x : lcall) : list (L * list vec) := match label_groups eqL enum (fst x) (snd x) with Some g => g | None => [] end.
  Definition okl (x : lcall) : Prop := label_groups eqL enum (fst x) (snd x) <> None.
  (** *** NearestMeanClassifier *)
  Lemma vadd_assoc (a b c : vec) : vadd a (vadd b c) = vadd (vadd a b) c.
  Proof. revert b c. induction a as [|p a IH]; intros [|q b] [|r c]; try reflexivity. unfold vadd in *. cbn [combine map fst snd]. rewrite IH. f_equal. ring. Qed.
  Lemma vsum_length d (x : list vec) : length (vsum d x) <= d.
  Proof.
    induction x as [|v x IH]; [cbn; now rewrite repeat_length|]. change (vsum d (v :: x)) with (vadd v (vsum d x)). unfold vadd. rewrite map_length, combine_length. etransitivity; [apply Nat.le_min_r|exact IH].
  Qed.
  Lemma vadd_zero d : forall v : vec, length v <= d -> vadd (repeat 0%Qc d) v = v.
  Proof. induction d as [|d IH]; intros [|q v] H; try reflexivity; [cbn in H; lia|]. cbn [repeat]. unfold vadd in *. cbn [combine map fst snd]. rewrite IH by (cbn in H; lia). f_equal. ring. Qed.
  Definition nadd (a b : vec * nat) : vec * nat := (vadd (fst a) (fst b), snd a + snd b).
  Lemma nadd_assoc a b c : nadd a (nadd b c) = nadd (nadd a b) c.
  Proof. unfold nadd. cbn [fst snd]. now rewrite vadd_assoc, Nat.add_assoc. Qed.
  Lemma update_mean_dadd d s (g : L * list vec) : update_mean eqL d s g = dadd eqL nadd s (fst g, (vsum d (snd g), length (snd g))).
  Proof.
    unfold update_mean, dadd, nadd. cbn [fst snd]. destruct g as [k x]. cbn [fst snd]. induction s as [|[k' [m n]] s IH]; cbn [dupd].
    - cbn. rewrite vadd_zero by apply vsum_length. reflexivity.
    - destruct (eqL k k'); [reflexivity|]. now rewrite IH.
  Qed.
  Lemma nm_join_dsum (s f : nm_state) : nm_join eqL s f = dsum eqL nadd s f.
  Proof. unfold nm_join, dsum. revert s. induction f as [|[k v] f IH]; intros s; [reflexivity|]. cbn [fold_left]. rewrite IH. f_equal. unfold dadd. cbn [fst snd]. clear. induction s as [|[k' [m n]] s IH]; [reflexivity|]. cbn [dupd]. destruct (eqL k k'); [reflexivity|]. now rewrite IH. Qed.
  Definition nmtrain d (s : nm_state) (x : lcall) : option nm_state := nm_train eqL enum d s (fst x) (snd x).
  Definition nitems d (xs : list lcall) : list (L * (vec * nat)) := map (fun g => (fst g, (vsum d (snd g), length (snd g)))) (flat_map lgroups xs).
  Lemma nm_seq d xs : forall s, Forall okl xs -> seqtrain (nmtrain d) s xs = Some (dsum eqL nadd s (nitems d xs)).
  Proof.
    induction xs as [|x xs IH]; intros s F; [reflexivity|]. pose proof (Forall_inv F) as O. unfold okl in O. cbn [seqtrain]. unfold nmtrain at 1, nm_train. unfold nitems. cbn [flat_map]. rewrite map_app. unfold dsum. rewrite fold_left_app. assert (EG : forall g, label_groups eqL enum (fst x) (snd x) = Some g -> lgroups x = g) by (unfold lgroups; intros g ->; reflexivity).
    destruct (label_groups eqL enum (fst x) (snd x)) as [g|]; [|easy]. rewrite (EG g eq_refl). cbn [option_map]. rewrite IH by (now apply Forall_inv_tail in F). unfold dsum, nitems. do 2 f_equal.
    clear. revert s. induction g as [|a g IH]; intros s; [reflexivity|]. cbn [fold_left map]. now rewrite IH, update_mean_dadd.
  Qed.
  (** *** KNNClassifier *)
  Lemma add_samples_dadd s (g : L * list vec) : add_samples eqL s g = dadd eqL (@app (list vec)) s (fst g, [snd g]).
  Proof. unfold add_samples, dadd. destruct g as [k x]. cbn [fst snd]. induction s as [|[k' c] s IH]; [reflexivity|]. cbn [dupd]. destruct (eqL k k'); [reflexivity|]. now rewrite IH. Qed.
  Lemma knn_join_dsum (s f : knn_state) : knn_join eqL s f = dsum eqL (@app (list vec)) s f.
  Proof. reflexivity. Qed.
  Definition knntrain (s : knn_state) (x : lcall) : option knn_state := knn_train eqL enum s (fst x) (snd x).
  Definition kitems (xs : list lcall) : list (L * list (list vec)) := map (fun g => (fst g, [snd g])) (flat_map lgroups xs).
  Lemma knn_seq xs : forall s, Forall okl xs -> seqtrain knntrain s xs = Some (dsum eqL (@app (list vec)) s (kitems xs)).
  Proof.
    induction xs as [|x xs IH]; intros s F; [reflexivity|]. pose proof (Forall_inv F) as O. unfold okl in O. cbn [seqtrain]. unfold knntrain at 1, knn_train. unfold kitems. cbn [flat_map]. rewrite map_app. unfold dsum. rewrite fold_left_app. assert (EG : forall g, label_groups eqL enum (fst x) (snd x) = Some g -> lgroups x = g) by (unfold lgroups; intros g ->; reflexivity).
    destruct (label_groups eqL enum (fst x) (snd x)) as [g|]; [|easy]. rewrite (EG g eq_refl). cbn [option_map]. rewrite IH by (now apply Forall_inv_tail in F). unfold dsum, kitems. do 2 f_equal.
    clear. revert s. induction g as [|a g IH]; intros s; [reflexivity|]. cbn [fold_left map]. now rewrite IH, add_samples_dadd.
  Qed.
  (** *** GaussianClassifier *)
  Definition cadd (a b : cov) : cov :=
    mkCov (match c_acc a, c_acc b with Some (m, u), Some (m', u') => Some ((fun i j => m i j + m' i j)%Qc, (fun i => u i + u' i)%Qc) | None, x => x | x, None => x end) (c_tlen a + c_tlen b).
  Lemma cadd_assoc a b c : cadd a (cadd b c) = cadd (cadd a b) c.
  Proof.
    unfold cadd. cbn [c_acc c_tlen]. f_equal; [|lia]. destruct (c_acc a) as [[m u]|], (c_acc b) as [[m' u']|], (c_acc c) as [[m'' u'']|]; try reflexivity. do 2 f_equal; [extensionality i; extensionality j|extensionality i]; ring.
  Qed.
  Lemma cov_update_cadd c x : cov_update c x = cadd c (cov_update cov_init x).
  Proof.
    unfold cov_update, cadd. cbn [c_acc c_tlen cov_init]. destruct (c_acc c) as [[m u]|]; cbn [c_acc c_tlen]; [|reflexivity]. f_equal. do 2 f_equal; [extensionality i; extensionality j|extensionality i]; unfold zero_mat, zero_row; ring.
  Qed.
  Definition gval (g : L * list vec) : L * cov := (fst g, cov_update cov_init (map to_row (snd g))).
  Lemma update_covs_dadd s (g : L * list vec) : update_covs eqL s g = dadd eqL cadd s (gval g).
  Proof. unfold update_covs, dadd, gval. destruct g as [k x]. cbn [fst snd]. induction s as [|[k' c] s IH]; [reflexivity|]. cbn [dupd]. destruct (eqL k k'); [now rewrite <- cov_update_cadd|]. now rewrite IH. Qed.
  Definition full (c : cov) : Prop := c_acc c <> None.
  Lemma full_cadd a b : full a -> full b -> full (cadd a b).
  Proof. unfold full, cadd. cbn [c_acc]. destruct (c_acc a) as [[m u]|], (c_acc b) as [[m' u']|]; easy. Qed.
  Lemma cov_join_cadd a b : full a -> full b -> cov_join a b = Some (cadd a b).
  Proof. unfold full, cov_join, cadd. destruct (c_acc a) as [[m u]|], (c_acc b) as [[m' u']|]; easy. Qed.
  Lemma objs_join_dsum f : forall s, Forall (fun e : L * cov => full (snd e)) s -> Forall (fun e : L * cov => full (snd e)) f -> objs_join eqL s f = (dsum eqL cadd s f, true).
  Proof.
    induction f as [|[k c] f IH]; intros s A B; [reflexivity|]. pose proof (Forall_inv B) as C. cbn [snd] in C. apply Forall_inv_tail in B. cbn [objs_join]. unfold dsum. cbn [fold_left]. fold (dsum eqL cadd (dadd eqL cadd s (k, c)) f). destruct (dget eqL k s) as [b|] eqn:E.
    - pose proof (dget_in eqL s k b E) as I. pose proof (proj1 (Forall_forall _ _) A _ I) as FB. cbn [snd] in FB. rewrite cov_join_cadd, (dget_some eqL cadd s k b c E) by assumption. apply IH; [|exact B]. apply (dadd_forall eqL cadd full); [apply full_cadd|exact A|exact C].
    - rewrite <- (dadd_new eqL cadd s (k, c)) by (now apply (dget_none eqL)). apply IH; [|exact B]. apply (dadd_forall eqL cadd full); [apply full_cadd|exact A|exact C].
  Qed.
  Definition gtrain (s : gauss) (x : lcall) : option gauss := gauss_train eqL enum s (fst x) (snd x).
  Definition gjoin (s f : gauss) : option gauss := match gauss_join eqL s f with (s, true) => Some s | _ => None end.
  Definition gset (s : gauss) (o : list (L * cov)) : gauss := mkG o (g_dets s) (g_invs s) (g_means s) (g_p s) (g_labels s).
  Lemma g_seq xs : forall s, Forall okl xs -> seqtrain gtrain s xs = Some (gset s (dsum eqL cadd (g_objs s) (map gval (flat_map lgroups xs)))).
  Proof.
    induction xs as [|x xs IH]; intros s F; [now destruct s|]. pose proof (Forall_inv F) as O. unfold okl in O. cbn [seqtrain]. unfold gtrain at 1, gauss_train. cbn [flat_map]. rewrite map_app. unfold dsum. rewrite fold_left_app. assert (EG : forall g, label_groups eqL enum (fst x) (snd x) = Some g -> lgroups x = g) by (unfold lgroups; intros g ->; reflexivity).
    destruct (label_groups eqL enum (fst x) (snd x)) as [g|]; [|easy]. rewrite (EG g eq_refl). cbn [option_map]. rewrite IH by (now apply Forall_inv_tail in F). unfold gset. cbn [g_objs g_dets g_invs g_means g_p g_labels]. unfold dsum. do 3 f_equal.
    clear. generalize (g_objs s). intros o. revert o. induction g as [|a g IH]; intros o; [reflexivity|]. cbn [fold_left map]. now rewrite IH, update_covs_dadd.
  Qed.
  Definition gauss_good (s : gauss) : Prop := NoDup (map fst (g_objs s)) /\ Forall (fun e : L * cov => full (snd e)) (g_objs s).
  Lemma gvals_full gs : Forall (fun e : L * cov => full (snd e)) (map gval gs).
  Proof. apply Forall_map, Forall_forall. intros g _. unfold gval, full, cov_update. cbn. discriminate. Qed.
  Lemma g_good xs s s' : gauss_good s -> Forall okl xs -> seqtrain gtrain s xs = Some s' -> gauss_good s'.
  Proof. intros (A & B) F E. rewrite g_seq in E by exact F. injection E as <-. split; cbn [gset g_objs]; [now apply dsum_nodup|]. apply (dsum_forall eqL cadd full); [apply full_cadd|exact B|apply gvals_full]. Qed.
  Lemma g_join_seq s f' ys : gauss_good s -> Forall okl ys -> seqtrain gtrain gauss_init ys = Some f' -> gjoin s f' = seqtrain gtrain s ys.
  Proof.
    intros (A & B) F E. rewrite (g_seq ys s F). rewrite (g_seq ys gauss_init F) in E. injection E as <-. unfold gjoin, gauss_join, gset. cbn [g_objs gauss_init]. set (its := map gval (flat_map lgroups ys)).
    assert (G : Forall (fun e : L * cov => full (snd e)) (dsum eqL cadd [] its)) by (apply (dsum_forall eqL cadd full); [apply full_cadd|constructor|apply gvals_full]).
    destruct (g_objs s) as [|e o] eqn:EO; [reflexivity|]. rewrite objs_join_dsum by assumption. now rewrite dsum_dsum by (exact cadd_assoc).
  Qed.
End Classifiers.

(** ** VartimeSFANode: the blocks of VSFAProofs.v; every fork begins a block *)
Section Vartime.
  Context {K : ofield}.
  Add Field Kvt : (fth K).
  Notation vec := (OField.vec (K := K)). Notation vsfa := (vsfa (K := K)). Notation vcall := (vcall (K := K)). Notation vacc := (vacc (K := K)). Notation block := (list vec * list K)%type.
  Context (junk : vec).
  Definition okv {N} (r : N * vres unit) : option N := match r with (s, VOk _) => Some s | _ => None end.
  Definition vtrain (s : vsfa) (c : vcall) : option vsfa := okv (v_train junk s (fst (fst c)) (snd (fst c)) (snd c)).
  Definition vfork (s : vsfa) : option vsfa := Some (vsfa_fork s).
  Definition vjoin (s f : vsfa) : option vsfa := okj (vsfa_join s f).
  (** the call with time_dep=False *)
  Definition cutc (c : vcall) : vcall := (fst c, false).
  Definition okvc (c : vcall) : Prop := ok_call true c /\ ok_call false c /\ ok_call false (cutc c).
  Definition cuth (l : list vcall) : list vcall := match l with [] => [] | c :: r => cutc c :: r end.
  (** the calls of all nodes, the first one of every fork with time_dep=False *)
  Fixpoint cut (t : ptree vcall) : list vcall := match t with PT own subs => own ++ flat_map (fun t => cuth (cut t)) subs end.
  Lemma cut_ok t : Forall okvc (flatten t) -> fed t -> (exists r, Forall (ok_call false) r /\ match cut t with [] => flatten t = [] | c :: r' => ok_call true c /\ r = r' end) /\ (flatten t = [] <-> cut t = []) /\ Forall (ok_call false) (cuth (cut t)) /\ Forall okvc (cut t).
  Proof.
    intros F FD. assert (FC : Forall okvc (cut t) /\ (flatten t = [] <-> cut t = [])).
    { revert F FD. induction t as [own subs IH] using ptree_ind'. intros F FD. rewrite fed_forall in FD. cbn [flatten cut] in *. apply Forall_app in F. destruct F as (F1 & F2).
      assert (G : Forall okvc (flat_map (fun t => cuth (cut t)) subs) /\ (flat_map flatten subs = [] <-> flat_map (fun t => cuth (cut t)) subs = [])).
      { clear F1 own. induction subs as [|t l IHl]; [split; [constructor|split; reflexivity]|]. cbn [flat_map] in *. apply Forall_app in F2. destruct F2 as (G1 & G2). destruct (IHl (Forall_inv_tail IH) G2 (Forall_inv_tail FD)) as (A & B).
        destruct (Forall_inv IH G1 (proj2 (Forall_inv FD))) as (C & D). split.
        - apply Forall_app. split; [|exact A]. destruct (cut t) as [|c r]; [constructor|]. cbn [cuth]. constructor; [|now apply Forall_inv_tail in C]. pose proof (Forall_inv C) as (O1 & O2 & O3). destruct c as [[x dt] td]. unfold okvc, cutc in *. cbn [fst snd] in *.
          split; [|now split]. exact O1.
        - split; intros H; apply app_eq_nil in H; destruct H as (H1 & H2); [rewrite (proj1 D H1); cbn [cuth app]; now apply B|]. destruct (cut t) as [|c r]; [|discriminate]. rewrite (proj2 D eq_refl). cbn [app]. now apply B. }
      destruct G as (A & B). split; [now apply Forall_app|]. split; intros H; apply app_eq_nil in H; destruct H as (-> & H); cbn [app]; now apply B. }
    destruct FC as (FC & EQ). split; [|split; [exact EQ|split; [|exact FC]]].
    - exists (tl (cut t)). split; [destruct (cut t) as [|c r]; [constructor|]; apply Forall_inv_tail in FC; eapply Forall_impl; [|exact FC]; intros a Ha; apply Ha|]. destruct (cut t) as [|c r]; [now apply EQ|]. split; [apply (Forall_inv FC)|reflexivity].
    - destruct (cut t) as [|c r]; [constructor|]. cbn [cuth]. constructor; [apply (Forall_inv FC)|]. apply Forall_inv_tail in FC. eapply Forall_impl; [|exact FC]. intros a Ha. apply Ha.
  Qed.
  Lemma absorb_cut bs ys : fold_left absorb (cuth ys) bs = blocks ys ++ bs.
  Proof.
    destruct ys as [|[[x dt] td] r]; [reflexivity|]. unfold blocks. change (fold_left absorb r (absorb bs (x, dt, false)) = fold_left absorb r (absorb [] (x, dt, td)) ++ bs). assert (E : absorb bs (x, dt, false) = (absorb [] (x, dt, td) ++ bs : list block)) by (destruct bs as [|[X D] bs]; reflexivity). rewrite E.
    assert (G : absorb [] (x, dt, td) <> ([] : list block)) by discriminate. revert G. generalize (absorb [] (x, dt, td) : list block) as cs. induction r as [|[[y e] b] r IH]; intros cs G; [reflexivity|]. cbn [fold_left].
    destruct cs as [|[X D] cs]; [easy|]. cbn [app absorb]. destruct b.
    - change ((X ++ y, D ++ incs (length y) e) :: cs ++ bs) with (((X ++ y, D ++ incs (length y) e) :: cs) ++ bs). now apply IH.
    - change ((y, incs (length y - 1) e) :: (X, D) :: cs ++ bs) with (((y, incs (length y - 1) e) :: (X, D) :: cs) ++ bs). now apply IH.
  Qed.
  (** the statistics of the blocks, after a join *)
  Definition wrepr (out : option nat) (m : method) (s : vsfa) (bs : list block) : Prop :=
    Forall okb bs /\ v_sfa s = (match bs with [] => v_sfa (vsfa_new out m) | _ => set_started (v_sfa (vsfa_new out m)) end) /\
    exists c dc, v_accs s = Some (c, dc) /\ holds c (pts bs) /\ holds dc (vpts bs) /\ w_chunks dc = w_chunks c /\ (w_chunks c = 0 <-> bs = []).
  Lemma absorb_ne bs c : absorb bs c <> ([] : list block).
  Proof. destruct c as [[x dt] td], bs as [|[X D] bs]; cbn; [discriminate|]. destruct td; discriminate. Qed.
  Lemma vseq_repr calls : forall (s : vsfa) bs b, repr s bs -> Forall okvc calls -> v_sfa s = (match bs with [] => b | _ => set_started b end) ->
    exists s', seqtrain vtrain s calls = Some s' /\ repr s' (fold_left absorb calls bs) /\ v_sfa s' = (match fold_left absorb calls bs with [] => b | _ => set_started b end).
  Proof.
    induction calls as [|[[x dt] td] r IH]; intros s bs b R F E; [exists s; split; [reflexivity|now split]|]. pose proof (Forall_inv F) as (O1 & O2 & _).
    pose proof (train_step junk s bs (x, dt, td) R) as H. destruct H as (s' & Es & R' & Ef & _); [destruct bs; assumption|].
    cbn [seqtrain fold_left]. unfold vtrain at 1. cbn [fst snd]. rewrite Es. cbn [okv]. apply IH; [exact R'|now apply Forall_inv_tail in F|]. rewrite Ef, E. pose proof (absorb_ne bs (x, dt, td)). destruct (absorb bs (x, dt, td)); [easy|]. destruct bs; [reflexivity|]. unfold set_started. now destruct b.
  Qed.
  Lemma repr_wrepr out m s bs : repr s bs -> v_sfa s = (match bs with [] => v_sfa (vsfa_new out m) | _ => set_started (v_sfa (vsfa_new out m)) end) -> wrepr out m s bs.
  Proof.
    intros (T & OB & c & dc & EA & HC & HD & CH & TC & NZ & _) E. split; [exact OB|]. split; [exact E|]. exists c, dc. repeat (split; [assumption|]). destruct bs; destruct (Nat.ltb_spec 0 (w_chunks c)); try discriminate; split; intros; try easy; lia.
  Qed.
  Lemma holds_join (a b : vacc) L M : holds a L -> holds b M -> holds (vacc_join a b) (M ++ L).
  Proof.
    intros (A1 & A2 & A3) (B1 & B2 & B3). unfold holds, vacc_join, wlen. cbn [w_m w_s w_t]. repeat split; intros; rewrite wsum_app; [rewrite A1, B1|rewrite A2, B2|rewrite A3, B3; unfold wlen]; ring.
  Qed.
  Lemma wrepr_join out m m' s bs f cs : wrepr out m s bs -> wrepr out m' f cs -> cs <> [] -> exists s', vjoin s f = Some s' /\ wrepr out m s' (cs ++ bs).
  Proof.
    intros (OB & E & c & dc & EA & HC & HD & CH & Z) (OB' & E' & c' & dc' & EA' & HC' & HD' & CH' & Z') N. unfold vjoin, vsfa_join. rewrite EA, EA'. destruct cs as [|b0 cs]; [easy|]. cbn [app].
    assert (Z1 : w_chunks c' <> 0) by (intros H; apply Z' in H; discriminate). destruct (Nat.eqb_spec (w_chunks c) 0) as [Z0|Z0].
    - pose proof (proj1 Z Z0) as ->. cbn [okj]. eexists. split; [reflexivity|]. rewrite app_nil_r. split; [exact OB'|]. cbn [v_sfa v_accs]. rewrite E, E'. split; [now destruct out|].
      exists c', dc'. repeat (split; [assumption || reflexivity|]). exact Z'.
    - destruct (Nat.eqb_spec (w_chunks c') 0); [easy|]. destruct (Nat.eqb_spec (w_chunks dc') 0); [congruence|]. cbn [okj]. eexists. split; [reflexivity|].
      split; [change (b0 :: cs ++ bs) with ((b0 :: cs) ++ bs); now apply Forall_app|]. cbn [v_sfa v_accs]. destruct bs as [|b1 bs]; [now destruct Z0; apply Z|]. split; [rewrite E, E'; now destruct out|].
      exists (vacc_join c c'), (vacc_join dc dc'). split; [reflexivity|]. unfold pts, vpts. change (b0 :: cs ++ b1 :: bs) with ((b0 :: cs) ++ b1 :: bs). rewrite !flat_map_app. split; [now apply holds_join|]. split; [now apply holds_join|]. cbn [vacc_join w_chunks]. split; [exact CH|]. split; [easy|discriminate].
  Qed.
  Lemma vpar t : forall out m, fed t -> Forall okvc (flatten t) -> exists s, par vtrain vfork vjoin t (vsfa_new out m) = Some s /\ wrepr out m s (blocks (cut t)).
  Proof.
    induction t as [own subs IH] using ptree_ind'. intros out m FD F. rewrite fed_forall in FD. cbn [flatten] in F. apply Forall_app in F. destruct F as (F1 & F2).
    destruct (vseq_repr own (vsfa_new out m) [] (v_sfa (vsfa_new out m)) (repr_new out m) F1 eq_refl) as (s0 & E & R & EV). rewrite par_eq, E.
    assert (EF : vfork s0 = Some (vsfa_new out MNone)) by (unfold vfork, vsfa_fork; rewrite EV; destruct (fold_left absorb own []); reflexivity).
    pose proof (repr_wrepr out m s0 _ R EV) as W. cbn [cut]. unfold blocks in *. rewrite fold_left_app. revert W. generalize (fold_left absorb own [] : list block) as bs. generalize s0 at 1 3 as s1. clear E R EV F1 own. induction subs as [|t l IHl]; intros s1 bs W; [exists s1; split; [reflexivity|exact W]|].
    cbn [par_subs flat_map] in *. rewrite EF. apply Forall_app in F2. destruct F2 as (G1 & G2). pose proof (Forall_inv FD) as (NE & FD1). destruct (Forall_inv IH out MNone FD1 G1) as (f & EP & WP). rewrite EP.
    destruct (wrepr_join out m MNone s1 bs f _ W WP) as (s2 & EJ & WJ).
    { destruct (cut_ok t G1 FD1) as (_ & EQ & _). destruct (cut t) as [|c r] eqn:EC; [now destruct NE; apply EQ|]. cbn [fold_left]. clear. pose proof (absorb_ne [] c) as N. revert N. generalize (absorb [] c : list block) as bs. induction r as [|c' r IH]; intros bs N; [exact N|]. cbn [fold_left]. apply IH, absorb_ne. }
    rewrite EJ. rewrite fold_left_app, absorb_cut. apply IHl; [exact (Forall_inv_tail IH)|exact (Forall_inv_tail FD)|exact G2|exact WJ].
  Qed.
End Vartime.
