(** Weighted graphs and the sums kept by CovDCovMatrix (GSFAModel.v). *)
From Coq Require Import List Arith ZArith Bool Lia Permutation Field.
From Verif Require Import OField LinAlg GenEig PCAModel SymeigModel SFAModel GSFAModel.
Import ListNotations.
Open Scope nat_scope.

Lemma div_mul_ b k : b <> 0 -> k * b / b = k. Proof. apply Nat.div_mul. Qed.
Lemma combine_swap {A B} (l : list A) : forall r : list B, combine r l = map (fun p => (snd p, fst p)) (combine l r).
Proof. induction l as [|a l IH]; intros [|b r]; cbn; [reflexivity..|]. now rewrite IH. Qed.
Lemma length_concat_blocks {A} b (Bs : list (list A)) : Forall (fun B => length B = b) Bs -> length (concat Bs) = length Bs * b.
Proof. induction 1 as [|B Bs H _ IH]; cbn; [reflexivity|]. rewrite app_length. lia. Qed.
Lemma combine_map_l {A B C} (f : A -> B) (l : list A) : forall r : list C, combine (map f l) r = map (fun p => (f (fst p), snd p)) (combine l r).
Proof. induction l as [|a l IH]; intros [|b r]; cbn; [reflexivity..|]. now rewrite IH. Qed.
Lemma combine_map_r {A B C} (f : A -> B) (r : list A) : forall l : list C, combine l (map f r) = map (fun p => (fst p, f (snd p))) (combine l r).
Proof. induction r as [|a r IH]; intros [|b l]; cbn; [reflexivity..|]. now rewrite IH. Qed.
Lemma nth_skipn_ {A} (d : A) (x : list A) : forall a k, nth k (skipn a x) d = nth (a + k) x d.
Proof. induction x as [|v x IH]; intros [|a] k; cbn [skipn nth plus]; try reflexivity; [destruct k; reflexivity|apply IH]. Qed.
Lemma tl_map {A B} (f : A -> B) (l : list A) : tl (map f l) = map f (tl l). Proof. now destruct l. Qed.
Lemma combine_self {A} (l : list A) : combine l l = map (fun a => (a, a)) l.
Proof. induction l; cbn; [reflexivity|]. now rewrite IHl. Qed.
Lemma combine_nth_seq {A} (d : A) (l : list A) : combine (seq 0 (length l)) l = map (fun k => (k, nth k l d)) (seq 0 (length l)).
Proof.
  cut (forall s, combine (seq s (length l)) l = map (fun k => (k, nth (k - s) l d)) (seq s (length l))).
  { intros H. rewrite H. apply map_ext. intros k. now rewrite Nat.sub_0_r. }
  induction l as [|a l IH]; intros s; cbn [length seq combine map]; [reflexivity|]. rewrite IH, Nat.sub_diag. cbn [nth]. f_equal. apply map_ext_in. intros k Hk. apply in_seq in Hk.
  replace (k - s) with (S (k - S s)) by lia. reflexivity.
Qed.

Section G.
  Context {K : ofield}.
  Add Field Kgs : (fth K).
  Notation vec := (vec (K := K)). Notation mtx := (mtx (K := K)). Notation cdc := (cdc (K := K)).
  Notation two := (f1 + f1 : K)%of.
  (** nodes: weight and sample; edges: weight and the two samples *)
  Notation node := (K * vec)%type. Notation edge := (K * (vec * vec))%type.
  Definition nmass (N : list node) : K := fsum (map fst N).
  Definition nsum (N : list node) (i : nat) : K := fsum (map (fun p => fst p * snd p i)%of N).
  Definition nprod (N : list node) (i j : nat) : K := fsum (map (fun p => fst p * (snd p i * snd p j))%of N).
  Definition dd (p : vec * vec) (i j : nat) : K := ((snd p i - fst p i) * (snd p j - fst p j))%of.
  Definition emass (E : list edge) : K := fsum (map fst E).
  Definition eprod (E : list edge) (i j : nat) : K := fsum (map (fun e => fst e * dd (snd e) i j)%of E).
  Definition sx (c : cdc) (i : nat) : K := match c_x c with None => f0 | Some p => fst p i end.
  Definition sp (c : cdc) (i j : nat) : K := match c_x c with None => f0 | Some p => snd p i j end.
  Definition sd (c : cdc) (i j : nat) : K := match c_d c with None => f0 | Some d => d i j end.
  (** the sums are those of these nodes and edges *)
  Definition mnodes (c : cdc) (N : list node) : Prop := (forall i, sx c i = nsum N i) /\ (forall i j, sp c i j = nprod N i j).
  Definition medges (c : cdc) (E : list edge) : Prop := c_nd c = emass E /\ (forall i j, sd c i j = eprod E i j).
  Definition measures (c : cdc) (N : list node) (E : list edge) : Prop := mnodes c N /\ c_n c = nmass N /\ medges c E.

  Lemma nmass_app N M : nmass (N ++ M) = (nmass N + nmass M)%of. Proof. unfold nmass. now rewrite map_app, fsum_app. Qed.
  Lemma nsum_app N M i : nsum (N ++ M) i = (nsum N i + nsum M i)%of. Proof. unfold nsum. now rewrite map_app, fsum_app. Qed.
  Lemma nprod_app N M i j : nprod (N ++ M) i j = (nprod N i j + nprod M i j)%of. Proof. unfold nprod. now rewrite map_app, fsum_app. Qed.
  Lemma emass_app N M : emass (N ++ M) = (emass N + emass M)%of. Proof. unfold emass. now rewrite map_app, fsum_app. Qed.
  Lemma eprod_app N M i j : eprod (N ++ M) i j = (eprod N i j + eprod M i j)%of. Proof. unfold eprod. now rewrite map_app, fsum_app. Qed.

  Lemma add_samples_nodes c N N' P s n w : mnodes c N -> (forall i, w * s i = nsum N' i)%of -> (forall i j, w * P i j = nprod N' i j)%of -> mnodes (add_samples P s n w c) (N ++ N').
  Proof.
    intros [H1 H2] H3 H4. split; intros; unfold sx, sp, add_samples in *; cbn [c_x].
    - rewrite nsum_app, <- H1, <- H3. destruct (c_x c) as [[a b]|]; cbn; unfold vadd, vscale; ring.
    - rewrite nprod_app, <- H2, <- H4. destruct (c_x c) as [[a b]|]; cbn; unfold madd, mscale; ring.
  Qed.
  Lemma add_samples_ok c N E N' P s n w : measures c N E -> (forall i, w * s i = nsum N' i)%of -> (forall i j, w * P i j = nprod N' i j)%of -> (n * w = nmass N')%of ->
    measures (add_samples P s n w c) (N ++ N') E.
  Proof.
    intros (H1 & H2 & H3) H4 H5 H6. split; [now apply add_samples_nodes|]. split; [|exact H3]. cbn [add_samples c_n]. now rewrite nmass_app, H2, <- H6.
  Qed.
  Lemma add_diffs_edges c E E' P n w : medges c E -> (forall i j, w * P i j = eprod E' i j)%of -> (n * w = emass E')%of -> medges (add_diffs P n w c) (E ++ E').
  Proof.
    intros [H1 H2] H3 H4. split; intros; unfold sd, add_diffs in *; cbn [c_d c_nd].
    - now rewrite emass_app, H1, <- H4.
    - rewrite eprod_app, <- H2, <- H3. destruct (c_d c); cbn; unfold madd, mscale; ring.
  Qed.
  Lemma add_diffs_ok c N E E' P n w : measures c N E -> (forall i j, w * P i j = eprod E' i j)%of -> (n * w = emass E')%of -> measures (add_diffs P n w c) N (E ++ E').
  Proof. intros (H1 & H2 & H3) H4 H5. split; [exact H1|]. split; [exact H2|]. now apply add_diffs_edges. Qed.
  Lemma add_diffs_sx c P n w i : sx (add_diffs P n w c) i = sx c i. Proof. reflexivity. Qed.
  Lemma new_ok : measures cdc_new [] []. Proof. repeat split. Qed.
  Lemma nodes_eq c N N' E : measures c N E -> nmass N = nmass N' -> (forall i, nsum N i = nsum N' i) -> (forall i j, nprod N i j = nprod N' i j) -> measures c N' E.
  Proof. intros ((H1 & H2) & H3 & H4) A B C. repeat split; try apply H4; intros; congruence. Qed.
  Lemma edges_eq c N E E' : measures c N E -> emass E = emass E' -> (forall i j, eprod E i j = eprod E' i j) -> measures c N E'.
  Proof. intros (H1 & H2 & H3 & H4) A B. repeat split; try apply H1; intros; congruence. Qed.
  Lemma nodes_perm N N' : Permutation N N' -> nmass N = nmass N' /\ (forall i, nsum N i = nsum N' i) /\ (forall i j, nprod N i j = nprod N' i j).
  Proof. intros P. repeat split; intros; apply fsum_perm, Permutation_map, P. Qed.
  Lemma edges_perm E E' : Permutation E E' -> emass E = emass E' /\ (forall i j, eprod E i j = eprod E' i j).
  Proof. intros P. repeat split; intros; apply fsum_perm, Permutation_map, P. Qed.

  (** ** lists of nodes and edges with the same weight *)
  Definition wn (w : K) (x : list vec) : list node := map (fun v => (w, v)) x.
  Definition we (w : K) (ps : list (vec * vec)) : list edge := map (fun p => (w, p)) ps.
  Definition s1 (x : list vec) (i : nat) : K := fsum (map (fun v : vec => v i) x).
  Definition s2 (x : list vec) (i j : nat) : K := fsum (map (fun v : vec => v i * v j)%of x).
  Definition pd (ps : list (vec * vec)) (i j : nat) : K := fsum (map (fun p => dd p i j) ps).
  Lemma sumv_s1 x i : sumv x i = s1 x i. Proof. reflexivity. Qed.
  Lemma gram_self x i j : gram x x i j = s2 x i j. Proof. unfold gram. rewrite combine_self, map_map. reflexivity. Qed.
  Lemma gram_map {A} (f g : A -> vec) (l : list A) i j : gram (map f l) (map g l) i j = fsum (map (fun a => f a i * g a j)%of l).
  Proof. unfold gram. rewrite combine_map_l, combine_map_r, combine_self, !map_map. reflexivity. Qed.
  Lemma nmass_wn w x : nmass (wn w x) = (fn (length x) * w)%of. Proof. unfold nmass, wn. rewrite map_map. cbn. apply fsum_map_const. Qed.
  Lemma nsum_wn w x i : nsum (wn w x) i = (w * s1 x i)%of. Proof. unfold nsum, wn. rewrite map_map. cbn. apply fsum_map_mul. Qed.
  Lemma nprod_wn w x i j : nprod (wn w x) i j = (w * s2 x i j)%of. Proof. unfold nprod, wn. rewrite map_map. cbn. apply fsum_map_mul. Qed.
  Lemma emass_we w ps : emass (we w ps) = (fn (length ps) * w)%of. Proof. unfold emass, we. rewrite map_map. cbn. apply fsum_map_const. Qed.
  Lemma eprod_we w ps i j : eprod (we w ps) i j = (w * pd ps i j)%of. Proof. unfold eprod, we. rewrite map_map. cbn. apply fsum_map_mul. Qed.
  Lemma s1_app x y i : s1 (x ++ y) i = (s1 x i + s1 y i)%of. Proof. unfold s1. now rewrite map_app, fsum_app. Qed.
  Lemma s2_app x y i j : s2 (x ++ y) i j = (s2 x i j + s2 y i j)%of. Proof. unfold s2. now rewrite map_app, fsum_app. Qed.
  Lemma pd_app x y i j : pd (x ++ y) i j = (pd x i j + pd y i j)%of. Proof. unfold pd. now rewrite map_app, fsum_app. Qed.
  Lemma unlabeled_ok w x c N E : measures c N E -> measures (up_unlabeled w x c) (N ++ wn w x) E.
  Proof.
    intros H. apply add_samples_ok; [exact H| | |].
    - intros i. now rewrite nsum_wn.
    - intros i j. now rewrite nprod_wn, gram_self.
    - now rewrite nmass_wn.
  Qed.
  Lemma dd_swap a b i j : dd (a, b) i j = dd (b, a) i j. Proof. unfold dd. cbn. ring. Qed.
  (** products of the differences of two lists *)
  Lemma gram_diffs x y i j : let d := diffs_of x y in gram d d i j = pd (combine y x) i j.
  Proof.
    cbn. unfold diffs_of. rewrite gram_map. unfold pd. rewrite (combine_swap x y), map_map. apply fsum_map_ext. intros [a b] _. reflexivity.
  Qed.
  Lemma regular_ok w x c N E : x <> [] -> measures c N E -> measures (up_regular w x c) (N ++ wn w x) (E ++ we w (combine (removelast x) (tl x))).
  Proof.
    intros Hx H. unfold up_regular. apply add_diffs_ok; [now apply unlabeled_ok| |].
    - intros i j. rewrite eprod_we. f_equal. exact (gram_diffs (tl x) (removelast x) i j).
    - rewrite emass_we. f_equal. destruct x as [|a x]; [contradiction|]. rewrite combine_length. cbn [tl].
      assert (length (removelast (a :: x)) = length x) as -> by (rewrite removelast_firstn_len, firstn_length; cbn; lia). rewrite Nat.min_id. cbn [length fn]. ring.
  Qed.

  (** ** double sums *)
  Lemma fsum_list_prod {A B} (f : A * B -> K) (l : list A) (r : list B) : fsum (map f (list_prod l r)) = fsum (map (fun a => fsum (map (fun b => f (a, b)) r)) l).
  Proof. induction l as [|a l IH]; cbn; [reflexivity|]. now rewrite map_app, fsum_app, IH, map_map. Qed.
  Lemma fsum_flat_map {A B} (f : A -> list B) (g : B -> K) (l : list A) : fsum (map g (flat_map f l)) = fsum (map (fun a => fsum (map g (f a))) l).
  Proof. induction l; cbn; [reflexivity|]. now rewrite map_app, fsum_app, IHl. Qed.
  Lemma pd_cross (A B : list vec) i j : pd (list_prod A B) i j = (fn (length A) * s2 B i j + fn (length B) * s2 A i j - s1 A i * s1 B j - s1 B i * s1 A j)%of.
  Proof.
    unfold pd. rewrite fsum_list_prod.
    rewrite (fsum_map_ext A _ (fun a => s2 B i j + (fn (length B) * (a i * a j) - a i * s1 B j - a j * s1 B i))%of).
    - rewrite fsum_map_add, fsum_map_const, !fsum_map_sub, fsum_map_mul, !fsum_map_mulr. unfold s1, s2. ring.
    - intros a _. unfold dd. cbn [fst snd].
      rewrite (fsum_map_ext B _ (fun b => b i * b j + (a i * a j - a i * b j - a j * b i))%of) by (intros; ring).
      rewrite fsum_map_add, !fsum_map_sub, fsum_map_const, !fsum_map_mul. unfold s1, s2. ring.
  Qed.
  Lemma length_prod {A B} (l : list A) (r : list B) : length (list_prod l r) = length l * length r. Proof. apply prod_length. Qed.

  (** ** blocks *)
  Lemma slice_app_r (y x : list vec) a b : slice (length y + a) (length y + b) (y ++ x) = slice a b x.
  Proof. unfold slice. replace (length y + b - (length y + a)) with (b - a) by lia. f_equal. rewrite skipn_app. rewrite skipn_all2 by lia. cbn. f_equal. lia. Qed.
  Lemma block_S b B (Bs : list (list vec)) k : length B = b -> block b (concat (B :: Bs)) (S k) = block b (concat Bs) k.
  Proof. intros H. unfold block. cbn [concat]. rewrite <- (slice_app_r B (concat Bs) (k * b)). f_equal; lia. Qed.
  Lemma block_0 b (B : list vec) Bs : length B = b -> block b (concat (B :: Bs)) 0 = B.
  Proof. intros H. unfold block, slice. cbn [concat]. rewrite Nat.mul_0_l. cbn [skipn]. replace ((0 + 1) * b - 0) with (length B) by lia. rewrite firstn_app, Nat.sub_diag, firstn_all. cbn. apply app_nil_r. Qed.
  Lemma media_concat b (Bs : list (list vec)) : b <> 0 -> Forall (fun B => length B = b) Bs -> media b (concat Bs) = map (fun B => vscale (f1 / fn b)%of (sumv B)) Bs.
  Proof.
    intros Hb F. unfold media. rewrite (length_concat_blocks b) by exact F. rewrite div_mul_ by exact Hb.
    induction F as [|B Bs HB F IH]; [reflexivity|]. cbn [length seq map]. rewrite block_0 by exact HB. f_equal. rewrite <- seq_shift, map_map. rewrite <- IH. apply map_ext. intros k. now rewrite block_S.
  Qed.
  Lemma s2_concat (Bs : list (list vec)) i j : s2 (concat Bs) i j = fsum (map (fun B => s2 B i j) Bs).
  Proof. induction Bs; [reflexivity|]; cbn [concat map fsum]. rewrite s2_app. now rewrite IHBs. Qed.
  Lemma s1_concat (Bs : list (list vec)) i : s1 (concat Bs) i = fsum (map (fun B => s1 B i) Bs).
  Proof. induction Bs; [reflexivity|]; cbn [concat map fsum]. rewrite s1_app. now rewrite IHBs. Qed.
  (** the complete graph on every group; the weight of an edge is the node weight over the size of the group *)
  Definition clique (w : K) (B : list vec) : list edge := we (w / fn (length B))%of (list_prod B B).
  Definition cliques (w : K) (Bs : list (list vec)) : list edge := flat_map (clique w) Bs.
  Lemma emass_clique w B : B <> [] -> emass (clique w B) = (fn (length B) * w)%of.
  Proof.
    intros H. unfold clique. rewrite emass_we, length_prod. assert (forall a b, fn (a * b) = fn a * fn b :> K)%of as E by (intros a b; induction a; cbn [Nat.mul fn]; [ring|rewrite fn_add, IHa; ring]).
    rewrite E. field. apply fn_ne. destruct B; [contradiction|discriminate].
  Qed.
  Lemma fn_mul a b : fn (a * b) = (fn a * fn b : K)%of.
  Proof. induction a; cbn [Nat.mul fn]; [ring|]. rewrite fn_add, IHa. ring. Qed.
  Lemma eprod_clique w B i j : B <> [] -> eprod (clique w B) i j = (w * (two * (s2 B i j - s1 B i * s1 B j / fn (length B))))%of.
  Proof. intros H. unfold clique. rewrite eprod_we, pd_cross. field. apply fn_ne. destruct B; [contradiction|discriminate]. Qed.
  Lemma homog_ok w b (Bs : list (list vec)) c N E : b <> 0 -> Forall (fun B => length B = b) Bs -> measures c N E ->
    exists c', up_homog w (BInt b) true (concat Bs) c = (c', GOk tt) /\ measures c' (N ++ wn w (concat Bs)) (E ++ cliques w Bs).
  Proof.
    intros Hb F H. unfold up_homog. destruct b as [|b']; [contradiction|]. set (b := S b') in *. pose proof (length_concat_blocks b Bs F) as HL. rewrite HL, Nat.mod_mul by exact Hb. cbn [Nat.eqb negb].
    eexists. split; [reflexivity|]. rewrite div_mul_ by exact Hb. assert (NB : (fn b : K) <> f0) by (apply fn_ne; exact Hb).
    assert (FB : forall B, In B Bs -> B <> [] /\ length B = b) by (intros B HB; rewrite Forall_forall in F; specialize (F B HB); split; [destruct B; [cbn in F; congruence|discriminate]|exact F]).
    apply add_diffs_ok; [now apply unlabeled_ok| |].
    - intros i j. rewrite gram_self, media_concat by assumption. rewrite gram_map. rewrite s2_concat. unfold cliques, eprod. rewrite fsum_flat_map.
      rewrite (fsum_map_ext Bs (fun a => fsum (map _ (clique w a))) (fun B => w * two * s2 B i j - w * two * fn b * (vscale (f1 / fn b)%of (sumv B) i * vscale (f1 / fn b)%of (sumv B) j))%of).
      + rewrite fsum_map_sub, !fsum_map_mul. field. exact NB.
      + intros B HB. destruct (FB B HB) as [B1 B2]. change (eprod (clique w B) i j = w * two * s2 B i j - w * two * fn b * (vscale (f1 / fn b)%of (sumv B) i * vscale (f1 / fn b)%of (sumv B) j))%of.
        rewrite eprod_clique by exact B1. rewrite B2. unfold vscale. change (@sumv K) with s1. field. exact NB.
    - unfold cliques, emass. rewrite fsum_flat_map. rewrite (fsum_map_ext Bs _ (fun _ => fn b * w)%of); [rewrite fsum_map_const; ring|].
      intros B HB. destruct (FB B HB) as [B1 B2]. rewrite <- B2. now apply emass_clique.
  Qed.
  Lemma blocks_ok w (Bs : list (list vec)) : forall c N E, Forall (fun B => B <> []) Bs -> measures c N E ->
    exists c', up_blocks w true (map (@length vec) Bs) (concat Bs) c = (c', GOk tt) /\ measures c' (N ++ wn w (concat Bs)) (E ++ cliques w Bs).
  Proof.
    induction Bs as [|B Bs IH]; intros c N E F H; cbn [map up_blocks concat].
    - exists c. split; [reflexivity|]. cbn. now rewrite !app_nil_r.
    - inversion F as [|? ? HB HF]; subst. rewrite firstn_app, skipn_app, Nat.sub_diag, firstn_all, skipn_all. cbn [firstn skipn app]. rewrite app_nil_r.
      destruct (homog_ok w (length B) [B] c N E) as (c1 & E1 & M1); [destruct B; [contradiction|discriminate]|repeat constructor|exact H|]. cbn [concat] in E1, M1. rewrite app_nil_r in E1, M1. rewrite E1.
      cbn [cliques flat_map] in M1. rewrite app_nil_r in M1. destruct (IH c1 _ _ HF M1) as (c2 & E2 & M2). exists c2. split; [exact E2|]. unfold wn in *. rewrite map_app.
      cbn [cliques flat_map]. now rewrite !app_assoc in *.
  Qed.

  (** ** consecutive groups *)
  Definition pairs {T} (l : list T) : list (T * T) := combine l (tl l).
  Lemma pairs_cons {T} (a b : T) l : pairs (a :: b :: l) = (a, b) :: pairs (b :: l). Proof. reflexivity. Qed.
  Lemma pairs_length {T} (l : list T) : length (pairs l) = length l - 1.
  Proof. unfold pairs. rewrite combine_length. destruct l as [|a l]; [reflexivity|]. cbn [tl length]. lia. Qed.
  Lemma fsum_pairs {T} (f : T -> K) (Z : T) : forall Ms A, fsum (map (fun p => f (fst p) + f (snd p))%of (pairs (A :: Ms ++ [Z]))) = (f A + two * fsum (map f Ms) + f Z)%of.
  Proof.
    induction Ms as [|M Ms IH]; intros A; cbn [app]; rewrite pairs_cons; cbn [map fsum fst snd].
    - cbn. ring.
    - rewrite (IH M). ring.
  Qed.
  Lemma pairs_removelast {T} (l : list T) : combine (removelast l) (tl l) = pairs l.
  Proof. unfold pairs. induction l as [|a [|b l] IH]; [reflexivity..|]. change (removelast (a :: b :: l)) with (a :: removelast (b :: l)). cbn [tl combine] in *. now rewrite <- IH. Qed.
  (** the serial graph: all pairs of samples of neighbouring groups in both directions; a node is counted once for every neighbouring group *)
  Definition serial_nodes (w : K) (Bs : list (list vec)) : list node := flat_map (fun p => wn w (fst p) ++ wn w (snd p)) (pairs Bs).
  Definition serial_edges (w : K) (b : nat) (Bs : list (list vec)) : list edge := flat_map (fun p => we (w / fn b)%of (list_prod (fst p) (snd p) ++ list_prod (snd p) (fst p))) (pairs Bs).
  Lemma in_pairs {T} (l : list T) a b : In (a, b) (pairs l) -> In a l /\ In b l.
  Proof. intros H. split; [apply (in_combine_l _ _ _ _ H)|]. apply in_combine_r in H. destruct l; [destruct H|now right]. Qed.
  Lemma serial_ok w b (Bs : list (list vec)) c N E : b <> 0 -> 2 <= length Bs -> Forall (fun B => length B = b) Bs -> measures c N E ->
    exists c', up_serial w (BInt b) (concat Bs) c = (c', GOk tt) /\ measures c' (N ++ serial_nodes w Bs) (E ++ serial_edges w b Bs).
  Proof.
    intros Hb H2 F H. assert (NB : (fn b : K) <> f0) by (apply fn_ne; exact Hb). pose proof (length_concat_blocks b Bs F) as HL.
    assert (exists A Ms Z, Bs = A :: Ms ++ [Z]) as (A & Ms & Z & EB).
    { destruct Bs as [|A Bs]; [cbn in H2; lia|]. destruct (@exists_last _ Bs) as (Ms & Z & E1); [intros ->; cbn in H2; lia|]. exists A, Ms, Z. now rewrite E1. }
    assert (FB : forall B, In B Bs -> length B = b) by (intros B HB; rewrite Forall_forall in F; now apply F).
    assert (LA : length A = b) by (apply FB; rewrite EB; now left). assert (LZ : length Z = b) by (apply FB; rewrite EB; right; apply in_or_app; right; now left).
    assert (EC : concat Bs = A ++ concat Ms ++ Z) by (rewrite EB; cbn; rewrite concat_app; cbn; now rewrite app_nil_r).
    assert (LM : length (concat Ms) = length Ms * b) by (apply length_concat_blocks; apply Forall_forall; intros B HB; apply FB; rewrite EB; right; apply in_or_app; now left).
    assert (LB : length Bs = length Ms + 2) by (rewrite EB; cbn; rewrite app_length; cbn; lia).
    assert (LN : length (concat Bs) - b = length A + length (concat Ms)) by (rewrite HL; nia).
    unfold up_serial, serial_size. destruct b as [|b']; [contradiction|]. set (b := S b') in *. cbv zeta. replace (length (concat Bs) mod b) with 0 by (rewrite HL, Nat.mod_mul by exact Hb; reflexivity). cbn [Nat.eqb negb].
    assert (E1 : firstn b (concat Bs) = A) by (rewrite EC, <- LA, firstn_app, Nat.sub_diag, firstn_all; cbn; apply app_nil_r).
    assert (E2 : skipn (length (concat Bs) - b) (concat Bs) = Z) by (rewrite LN, EC, app_assoc, skipn_app, skipn_all2 by (rewrite app_length; lia); rewrite app_length, Nat.sub_diag; reflexivity).
    assert (E3 : slice b (length (concat Bs) - b) (concat Bs) = concat Ms).
    { rewrite LN, EC. rewrite <- LA at 1. replace (length A) with (length A + 0) at 1 by lia. rewrite slice_app_r. unfold slice. cbn [skipn]. rewrite Nat.sub_0_r, firstn_app, firstn_all, Nat.sub_diag. cbn. apply app_nil_r. }
    rewrite E1, E2, E3. eexists. split; [reflexivity|].
    match goal with |- measures (add_diffs _ _ _ (add_samples ?p _ _ _ _)) _ _ => set (P := p) in * end.
    assert (HP : forall i j, P i j = fsum (map (fun p : list vec * list vec => s2 (fst p) i j + s2 (snd p) i j)%of (pairs Bs))).
    { intros i j. rewrite EB, (fsum_pairs (fun B => s2 B i j)). unfold P, madd, mscale. rewrite !gram_self, s2_concat. ring. }
    apply add_diffs_ok; [apply add_samples_ok; [exact H| | |]| |].
    - intros i. unfold serial_nodes, nsum. rewrite fsum_flat_map. rewrite (fsum_map_ext _ _ (fun p => w * (s1 (fst p) i + s1 (snd p) i))%of).
      + rewrite fsum_map_mul, EB, (fsum_pairs (fun B => s1 B i)). unfold vadd, vscale. change (@sumv K) with s1. rewrite s1_concat. ring.
      + intros [B C] _. cbn [fst snd]. change (nsum (wn w B ++ wn w C) i = w * (s1 B i + s1 C i))%of. rewrite nsum_app, !nsum_wn. ring.
    - intros i j. rewrite HP. unfold serial_nodes, nprod. rewrite fsum_flat_map, <- fsum_map_mul. apply fsum_map_ext. intros [B C] _. cbn [fst snd].
      change (w * (s2 B i j + s2 C i j) = nprod (wn w B ++ wn w C) i j)%of. rewrite nprod_app, !nprod_wn. ring.
    - unfold serial_nodes, nmass. rewrite fsum_flat_map. rewrite (fsum_map_ext _ _ (fun _ => two * fn b * w)%of).
      + rewrite fsum_map_const, pairs_length. rewrite HL, fn_mul. rewrite LB, !fn_add. replace (length Ms + 2 - 1) with (length Ms + 1) by lia. rewrite fn_add. cbn [fn]. ring.
      + intros [B C] HIN. destruct (in_pairs _ _ _ HIN) as [I1 I2]. cbn [fst snd]. change (nmass (wn w B ++ wn w C) = two * fn b * w)%of. rewrite nmass_app, !nmass_wn, (FB B I1), (FB C I2). ring.
    - intros i j. unfold mscale. rewrite HP. rewrite media_concat by assumption. set (g := fun B => vscale (f1 / fn b)%of (sumv B)).
      assert (G1 : gram (removelast (map g Bs)) (tl (map g Bs)) i j = fsum (map (fun p => g (fst p) i * g (snd p) j)%of (pairs Bs))).
      { unfold gram. rewrite pairs_removelast. unfold pairs. rewrite tl_map, combine_map_l, combine_map_r, !map_map. reflexivity. }
      assert (G2 : gram (tl (map g Bs)) (removelast (map g Bs)) i j = fsum (map (fun p => g (snd p) i * g (fst p) j)%of (pairs Bs))).
      { unfold gram. rewrite combine_swap, pairs_removelast. unfold pairs. rewrite tl_map, combine_map_l, combine_map_r, !map_map. reflexivity. }
      rewrite G1, G2. unfold serial_edges, eprod. rewrite fsum_flat_map.
      rewrite (fsum_map_ext (pairs Bs) (fun a => fsum (map _ (we _ _)))
        (fun p => two * w * (s2 (fst p) i j + s2 (snd p) i j) - two * w * fn b * (g (fst p) i * g (snd p) j) - two * w * fn b * (g (snd p) i * g (fst p) j))%of).
      + rewrite !fsum_map_sub, !fsum_map_mul. field. exact NB.
      + intros [B C] HIN. destruct (in_pairs _ _ _ HIN) as [I1 I2]. cbn [fst snd].
        change (eprod (we (w / fn b)%of (list_prod B C ++ list_prod C B)) i j = two * w * (s2 B i j + s2 C i j) - two * w * fn b * (g B i * g C j) - two * w * fn b * (g C i * g B j))%of.
        rewrite eprod_we, pd_app, !pd_cross, (FB B I1), (FB C I2). unfold g, vscale. change (@sumv K) with s1. field. exact NB.
    - unfold serial_edges, emass. rewrite fsum_flat_map. rewrite (fsum_map_ext _ _ (fun _ => two * fn b * w)%of).
      + rewrite fsum_map_const, pairs_length. rewrite HL, div_mul_ by exact Hb. rewrite LB. replace (length Ms + 2 - 1) with (length Ms + 1) by lia. rewrite !fn_add. cbn [fn]. ring.
      + intros [B C] HIN. destruct (in_pairs _ _ _ HIN) as [I1 I2]. cbn [fst snd].
        change (emass (we (w / fn b)%of (list_prod B C ++ list_prod C B)) = two * fn b * w)%of. rewrite emass_we, app_length, !length_prod, (FB B I1), (FB C I2), fn_add, fn_mul. field. exact NB.
  Qed.

  (** ** sliding windows *)
  Definition psum (g : nat -> K) (k : nat) : K := fsumn k g.
  Lemma tri_up g c : fsumn c (fun k => fn (k + 1) * g k)%of = (fn c * psum g c - fsumn c (psum g))%of.
  Proof.
    induction c as [|c IH]; [cbn; unfold psum, fsumn; cbn; ring|]. rewrite !fsumn_S, IH. unfold psum at 3. rewrite fsumn_S. fold (psum g c). replace (c + 1)%nat with (S c) by lia. cbn [fn]. ring.
  Qed.
  Lemma tri_down g m c : fsumn c (fun k => fn (c - k) * g (m + k)%nat)%of = fsumn c (fun t => psum g (m + S t) - psum g m)%of.
  Proof.
    induction c as [|c IH]; [reflexivity|]. rewrite !fsumn_S, <- IH, Nat.sub_diag || rewrite !fsumn_S, <- IH. replace (S c - c) with 1 by lia. cbn [fn].
    rewrite (fsumn_ext c _ (fun k => fn (c - k) * g (m + k)%nat + g (m + k)%nat)%of) by (intros k Hk; replace (S c - k) with (S (c - k)) by lia; cbn [fn]; ring).
    rewrite fsumn_add. assert (psum g (m + S c) = psum g m + fsumn c (fun k => g (m + k)%nat) + g (m + c)%nat)%of as ->.
    { unfold psum. replace (m + S c) with (S (m + c)) by lia. now rewrite fsumn_S, fsumn_split. }
    ring.
  Qed.
  Lemma fsumn_S1 n (f : nat -> K) : fsumn (S n) f = (f O + fsumn n (fun k => f (S k)))%of.
  Proof. unfold fsumn. cbn [seq map fsum]. rewrite <- seq_shift, map_map. reflexivity. Qed.
  (** the sums over all windows of width c+1 *)
  Lemma conv g c m : fsumn m (fun i => fsumn (c + 1) (fun o => g (i + o)%nat)) = (fsumn c (fun k => fn (k + 1) * g k) + fsumn c (fun k => fn (c - k) * g (m + k)%nat) + fn (c + 1) * (psum g m - psum g c))%of.
  Proof.
    rewrite tri_up, tri_down. rewrite fsumn_sub.
    assert (C : forall n (a : K), fsumn n (fun _ => a) = (fn n * a)%of) by (intros n a; unfold fsumn; rewrite fsum_map_const, seq_length; reflexivity). rewrite C.
    rewrite (fsumn_ext m _ (fun i => psum g (i + (c + 1)) - psum g i)%of) by (intros i _; unfold psum; rewrite (fsumn_split i (c + 1)); ring). rewrite fsumn_sub.
    assert (E : (fsumn (c + 1) (psum g) + fsumn m (fun i => psum g (c + 1 + i)) = fsumn m (psum g) + (psum g m + fsumn c (fun t => psum g (m + S t))))%of).
    { rewrite <- fsumn_split. replace (c + 1 + m) with (m + S c) by lia. rewrite fsumn_split. apply f_equal. rewrite fsumn_S1. rewrite Nat.add_0_r. reflexivity. }
    rewrite (fsumn_ext m (fun i => psum g (i + (c + 1))) (fun i => psum g (c + 1 + i))) by (intros; f_equal; lia).
    replace (c + 1)%nat with (S c) in * by lia. rewrite fsumn_S in E. cbn [fn]. transitivity (fsumn c (psum g) + psum g c + fsumn m (fun i => psum g (S c + i)) - fsumn c (psum g) - psum g c - fsumn m (psum g))%of; [ring|].
    rewrite E. ring.
  Qed.
  Lemma row_app_r y x k : row (y ++ x) (length y + k) = row x k :> vec. Proof. unfold row. rewrite app_nth2_plus. reflexivity. Qed.
  Lemma s1_rows x i : s1 x i = fsumn (length x) (fun k => row x k i). Proof. apply (fsum_map_nth x (fun v : vec => v i) vzero). Qed.
  Lemma s2_rows x i j : s2 x i j = fsumn (length x) (fun k => row x k i * row x k j)%of. Proof. apply (fsum_map_nth x (fun v : vec => v i * v j)%of vzero). Qed.
  Lemma csum_rows y k i : k <= length y -> csum y k i = psum (fun p => row y p i) k.
  Proof.
    intros H. unfold csum. change (@sumv K) with s1. rewrite s1_rows. rewrite firstn_length, Nat.min_l by exact H. apply fsumn_ext. intros p Hp. unfold row. rewrite nth_firstn_ by exact Hp. reflexivity.
  Qed.
  Lemma row_slice x a b k : k < b - a -> row (slice a b x) k = row x (a + k) :> vec.
  Proof.
    intros H. unfold row, slice. rewrite nth_firstn_ by exact H. revert a k H. induction x as [|v x IH]; intros [|a] k H; cbn [skipn nth plus]; try reflexivity; [destruct k; reflexivity|]. apply IH. lia.
  Qed.
  Lemma length_slice a b (x : list vec) : b <= length x -> length (slice a b x) = b - a.
  Proof. intros H. unfold slice. rewrite firstn_length, skipn_length. lia. Qed.
  Lemma combine_rows (l r : list vec) : length l = length r -> combine l r = map (fun k => (row l k, row r k)) (seq 0 (length l)).
  Proof.
    revert r. induction l as [|a l IH]; intros [|b r] H; cbn in H; try discriminate; [reflexivity|]. cbn [combine length seq map]. f_equal. rewrite IH by lia. rewrite <- seq_shift, map_map. reflexivity.
  Qed.
  Lemma gram_rows (l r : list vec) i j : length l = length r -> gram l r i j = fsumn (length l) (fun k => row l k i * row r k j)%of.
  Proof. intros H. unfold gram. rewrite combine_rows by exact H. rewrite map_map. reflexivity. Qed.
  Lemma window_products_ok h m z y i j : length z = m -> length y = m + 2 * h -> 2 * h <= m ->
    window_products h m z y i j = fsumn m (fun k => fsumn (2 * h + 1) (fun o => dd (row z k, row y (k + o)) i j)).
  Proof.
    intros LZ LY Hm. unfold window_products. set (B := map _ (seq 0 m)). assert (LB : length B = m) by (unfold B; now rewrite map_length, seq_length).
    assert (RB : forall k a, k < m -> row B k a = fsumn (2 * h + 1) (fun o => row y (k + o) a)).
    { intros k a Hk. unfold B, row. rewrite (nth_indep _ vzero (sub (csum y (2 * h + 1 + 0)) (csum y 0))) by (rewrite map_length, seq_length; exact Hk).
      rewrite (map_nth (fun k => sub (csum y (2 * h + 1 + k)) (csum y k))), seq_nth by exact Hk. unfold sub. rewrite !csum_rows by lia. unfold psum. cbn [plus]. replace (2 * h + 1 + k) with (k + (2 * h + 1)) by lia. rewrite fsumn_split. unfold row. ring. }
    rewrite (gram_rows z B i j), (gram_rows z B j i), gram_rows by congruence. rewrite LZ.
    rewrite (fsumn_ext m (fun k => row z k i * row B k j)%of (fun k => row z k i * fsumn (2 * h + 1) (fun o => row y (k + o) j))%of) by (intros; now rewrite RB).
    rewrite (fsumn_ext m (fun k => row z k j * row B k i)%of (fun k => row z k j * fsumn (2 * h + 1) (fun o => row y (k + o) i))%of) by (intros; now rewrite RB).
    assert (EA : aacc h m y i j = fsumn m (fun k => fsumn (2 * h + 1) (fun o => row y (k + o) i * row y (k + o) j))%of).
    { rewrite (conv (fun p => row y p i * row y p j)%of). unfold aacc. f_equal; [f_equal|].
      - apply fsumn_ext. intros k Hk. replace (m + 2 * h - (m + k)) with (2 * h - k) by lia. reflexivity.
      - f_equal. rewrite gram_self, s2_rows, length_slice by lia. unfold psum. replace m with (2 * h + (m - 2 * h)) at 2 by lia. rewrite fsumn_split.
        rewrite (fsumn_ext (m - 2 * h) _ (fun k => row y (2 * h + k) i * row y (2 * h + k) j)%of) by (intros k Hk; rewrite !row_slice by exact Hk; reflexivity). ring. }
    rewrite EA. rewrite <- fsumn_mul, <- fsumn_add, <- !fsumn_sub. apply fsumn_ext. intros k _.
    assert (C : forall n (a : K), fsumn n (fun _ => a) = (fn n * a)%of) by (intros n a; unfold fsumn; rewrite fsum_map_const, seq_length; reflexivity).
    rewrite <- C, <- !fsumn_mul, <- fsumn_add, <- !fsumn_sub. apply fsumn_ext. intros o _. unfold dd. cbn [fst snd]. ring.
  Qed.
  Lemma fsum_filter {A} (p : A -> bool) (f : A -> K) l : fsum (map f (filter p l)) = fsum (map (fun a => if p a then f a else f0) l).
  Proof. induction l as [|a l IH]; cbn; [reflexivity|]. destruct (p a); cbn; rewrite IH; ring. Qed.
  Lemma emass_flat {A} (f : A -> list edge) l : emass (flat_map f l) = fsum (map (fun a => emass (f a)) l). Proof. apply fsum_flat_map. Qed.
  Lemma eprod_flat {A} (f : A -> list edge) l i j : eprod (flat_map f l) i j = fsum (map (fun a => eprod (f a) i j) l). Proof. apply fsum_flat_map. Qed.
  Lemma fold_edges {A} (step : cdc -> A -> cdc) (ed : A -> list edge) (l : list A) : (forall c N E a, In a l -> mnodes c N /\ medges c E -> mnodes (step c a) N /\ c_n (step c a) = c_n c /\ medges (step c a) (E ++ ed a)) ->
    forall c N E, mnodes c N -> medges c E -> mnodes (fold_left step l c) N /\ c_n (fold_left step l c) = c_n c /\ medges (fold_left step l c) (E ++ flat_map ed l).
  Proof.
    induction l as [|a l IH]; intros H c N E HN HE; cbn [fold_left flat_map]; [now rewrite app_nil_r|]. destruct (H c N E a (or_introl eq_refl) (conj HN HE)) as (H1 & H2 & H3).
    destruct (IH (fun c N E b Hb => H c N E b (or_intror Hb)) (step c a) N (E ++ ed a) H1 H3) as (I1 & I2 & I3). rewrite I2, H2, app_assoc. auto.
  Qed.
  (** the mirrored sequence: position p of it is sample mir h n p *)
  Definition mir (h n p : nat) : nat := if p <? h then h - 1 - p else if p <? h + n then p - h else 2 * n + h - 1 - p.
  Lemma row_mirror h (x : list vec) p : h <= length x -> p < length x + 2 * h -> row (mirror h x) p = row x (mir h (length x) p).
  Proof.
    intros Hh Hp. unfold mirror, mir, row. destruct (Nat.ltb_spec p h) as [L|L].
    - rewrite app_nth1 by (rewrite rev_length, firstn_length; lia). rewrite rev_nth by (rewrite firstn_length; lia). rewrite firstn_length, Nat.min_l by exact Hh. rewrite nth_firstn_ by lia. f_equal. lia.
    - rewrite app_nth2 by (rewrite rev_length, firstn_length; lia). rewrite rev_length, firstn_length, Nat.min_l by exact Hh. destruct (Nat.ltb_spec p (h + length x)) as [L2|L2].
      + now rewrite app_nth1 by lia.
      + rewrite app_nth2 by lia. rewrite rev_nth by (rewrite skipn_length; lia). rewrite skipn_length.
        rewrite nth_skipn_. f_equal. lia.
  Qed.
  Lemma length_mirror h (x : list vec) : h <= length x -> length (mirror h x) = length x + 2 * h.
  Proof. intros H. unfold mirror. rewrite !app_length, !rev_length, firstn_length, skipn_length. lia. Qed.
  (** every sample is connected to its neighbours at a distance of at most h in the mirrored sequence *)
  Definition mirror_edges (w : K) (h : nat) (x : list vec) : list edge :=
    flat_map (fun i => map (fun o => (w, (row x i, row x (mir h (length x) (i + o))))) (filter (fun o => negb (o =? h)) (seq 0 (2 * h + 1)))) (seq 0 (length x)).
  Lemma mir_self h n i : i < n -> mir h n (i + h) = i.
  Proof. intros H. unfold mir. destruct (Nat.ltb_spec (i + h) h); [lia|]. destruct (Nat.ltb_spec (i + h) (h + n)); lia. Qed.
  Lemma fsumn_const n (a : K) : fsumn n (fun _ => a) = (fn n * a)%of. Proof. unfold fsumn. rewrite fsum_map_const, seq_length. reflexivity. Qed.
  (** leaving out one index *)
  Lemma fsum_without (f : nat -> K) h n : h < n -> fsum (map f (filter (fun o => negb (o =? h)) (seq 0 n))) = (fsumn n f - f h)%of.
  Proof.
    intros H. rewrite fsum_filter. transitivity (fsumn n (fun o => f o - f o * delta h o)%of).
    - apply fsum_map_ext. intros o _. unfold delta. rewrite (Nat.eqb_sym h o). destruct (o =? h); cbn; ring.
    - rewrite fsumn_sub, fsumn_delta by exact H. reflexivity.
  Qed.
  Lemma mirror_edges_sums w h (x : list vec) : emass (mirror_edges w h x) = (fn (length x) * fn (2 * h) * w)%of /\
    (forall i j, eprod (mirror_edges w h x) i j = w * fsumn (length x) (fun k => fsumn (2 * h + 1) (fun o => dd (row x k, row x (mir h (length x) (k + o))) i j)))%of.
  Proof.
    unfold mirror_edges. split; [|intros i j].
    - rewrite emass_flat. rewrite (fsum_map_ext _ _ (fun _ => fn (2 * h) * w)%of); [rewrite fsum_map_const, seq_length; ring|]. intros k _. unfold emass. rewrite map_map. cbn [fst].
      rewrite (fsum_without (fun _ => w)) by lia. rewrite fsumn_const, fn_add. cbn [fn]. ring.
    - rewrite eprod_flat, <- fsumn_mul. unfold fsumn at 1. apply fsum_map_ext. intros k Hk. apply in_seq in Hk. unfold eprod. rewrite map_map. cbn [fst snd].
      rewrite (fsum_without (fun o => w * dd (row x k, row x (mir h (length x) (k + o))) i j)%of) by lia. rewrite mir_self by lia. rewrite fsumn_mul. unfold dd. cbn [fst snd]. ring.
  Qed.
  Lemma mirror_ok w h (x : list vec) c N E : h <> 0 -> 2 * h < length x -> measures c N E -> exists c', up_mirror w h x c = (c', GOk tt) /\ measures c' (N ++ wn w x) (E ++ mirror_edges w h x).
  Proof.
    intros Hh Hn H. unfold up_mirror. destruct (Nat.leb_spec (length x) (2 * h)); [lia|]. destruct (Nat.eqb_spec h 0); [contradiction|]. eexists. split; [reflexivity|].
    destruct (mirror_edges_sums w h x) as [M1 M2]. apply add_diffs_ok; [now apply unlabeled_ok| |now rewrite M1].
    intros i j. rewrite M2. f_equal. rewrite window_products_ok; [|reflexivity|apply length_mirror; lia|lia]. apply fsumn_ext. intros k Hk. apply fsumn_ext. intros o Ho. rewrite row_mirror by lia. reflexivity.
  Qed.
  Lemma smirror_ok w h (x : list vec) c N E : h <> 0 -> 2 * h < length x -> measures c N E -> exists c', up_smirror w h x c = (c', GOk tt) /\ measures c' (N ++ wn w x) (E ++ mirror_edges w h x).
  Proof.
    intros Hh Hn H. unfold up_smirror. destruct (Nat.leb_spec (length x) (2 * h)); [lia|]. destruct (Nat.eqb_spec h 0); [contradiction|]. eexists. split; [reflexivity|].
    apply (unlabeled_ok w x) in H. destruct H as (H1 & H2 & H3).
    set (ed := fun k => if k =? h then [] else we w (map (fun i => (row x i, row x (mir h (length x) (i + k)))) (seq 0 (length x)))).
    match goal with |- measures (fold_left ?st _ _) _ _ => destruct (fold_edges st ed (seq 0 (2 * h + 1))) with (c := up_unlabeled w x c) (N := N ++ wn w x) (E := E) as (F1 & F2 & F3); [|exact H1|exact H3|] end.
    - intros c0 N0 E0 k Hk [A B]. apply in_seq in Hk. unfold ed. destruct (k =? h); [rewrite app_nil_r; auto|]. split; [exact A|]. split; [reflexivity|].
      apply add_diffs_edges; [exact B| |].
      + intros i j. rewrite eprod_we. f_equal. rewrite (gram_diffs (slice k (k + length x) (mirror h x)) x i j). rewrite combine_rows by (rewrite length_slice by (rewrite length_mirror; lia); lia).
        unfold pd. rewrite !map_map. apply fsum_map_ext. intros p Hp. apply in_seq in Hp. rewrite row_slice by lia. rewrite row_mirror by lia. now rewrite (Nat.add_comm k p).
      + rewrite emass_we, map_length, seq_length. unfold diffs_of. rewrite map_length, combine_length, length_slice by (rewrite length_mirror; lia). replace (Nat.min (k + length x - k) (length x)) with (length x) by lia. reflexivity.
    - split; [exact F1|]. split; [congruence|]. destruct (mirror_edges_sums w h x) as [M1 M2]. destruct F3 as [F3 F4].
      assert (SW : forall g : nat -> nat -> K, fsum (map (fun k => if k =? h then f0 else fsumn (length x) (fun p => g p k)) (seq 0 (2 * h + 1))) = fsumn (length x) (fun p => fsumn (2 * h + 1) (fun k => g p k) - g p h)%of).
      { intros g. rewrite fsumn_sub, (fsumn_swap (length x)). rewrite <- (fsum_without (fun k => fsumn (length x) (fun p => g p k)) h (2 * h + 1)) by lia. rewrite fsum_filter. apply fsum_map_ext. intros k _. now destruct (k =? h). }
      split.
      + rewrite F3, !emass_app, M1. f_equal. unfold ed. rewrite emass_flat. rewrite (fsum_map_ext _ _ (fun k => if k =? h then f0 else fsumn (length x) (fun _ => w))).
        * rewrite (SW (fun _ _ => w)). rewrite !fsumn_const. rewrite fn_add. cbn [fn]. ring.
        * intros k _. destruct (k =? h); [reflexivity|]. rewrite emass_we, map_length, seq_length, fsumn_const. reflexivity.
      + intros i j. rewrite F4, !eprod_app, M2. f_equal. unfold ed. rewrite eprod_flat. rewrite (fsum_map_ext _ _ (fun k => if k =? h then f0 else fsumn (length x) (fun p => w * dd (row x p, row x (mir h (length x) (p + k))) i j)%of)).
        * rewrite (SW (fun p k => w * dd (row x p, row x (mir h (length x) (p + k))) i j)%of). rewrite <- fsumn_mul. apply fsumn_ext. intros p Hp. rewrite fsumn_mul, mir_self by exact Hp. unfold dd. cbn [fst snd]. ring.
        * intros k _. destruct (k =? h); [reflexivity|]. rewrite eprod_we. unfold pd. rewrite map_map. rewrite fsumn_mul. reflexivity.
  Qed.

  (** ** windows without mirroring *)
  Lemma range_sum (f : nat -> K) lo hi n : lo <= hi -> hi <= n -> fsumn n (fun j => if (lo <=? j) && (j <? hi) then f j else f0) = fsumn (hi - lo) (fun k => f (lo + k)%nat).
  Proof.
    intros H1 H2. replace n with (lo + ((hi - lo) + (n - hi))) by lia. rewrite !fsumn_split.
    rewrite (fsumn_zero lo) by (intros j Hj; destruct (Nat.leb_spec lo j); [lia|reflexivity]).
    rewrite (fsumn_zero (n - hi)) by (intros j Hj; destruct (Nat.leb_spec lo (lo + (hi - lo + j))); [|reflexivity]; destruct (Nat.ltb_spec (lo + (hi - lo + j)) hi); [lia|reflexivity]).
    rewrite (fsumn_ext (hi - lo) _ (fun k => f (lo + k)%nat)) by (intros j Hj; destruct (Nat.leb_spec lo (lo + j)); [|lia]; destruct (Nat.ltb_spec (lo + j) hi); [reflexivity|lia]). ring.
  Qed.
  Definition near (h i j : nat) : bool := negb (i =? j) && (i <=? j + h) && (j <=? i + h).
  Definition ahead (h i j : nat) : bool := (i <? j) && (j <=? i + h).
  (** the edges from one sample, and all edges: to all samples at a distance of at most h, or only to the later ones *)
  Definition out_edges (p : nat -> nat -> bool) (w : K) (x : list vec) (i : nat) : list edge := map (fun j => (w, (row x i, row x j))) (filter (p i) (seq 0 (length x))).
  Definition pair_edges (p : nat -> nat -> bool) (w : K) (x : list vec) : list edge := flat_map (out_edges p w x) (seq 0 (length x)).
  Lemma near_sum (f : nat -> K) h i n : i < n -> fsumn n (fun j => if near h i j then f j else f0) = (fsumn (Nat.min n (i + h + 1) - (i - h)) (fun k => f (i - h + k)%nat) - f i)%of.
  Proof.
    intros H. rewrite <- (range_sum f (i - h) (Nat.min n (i + h + 1)) n) by lia. rewrite <- (fsumn_delta n f i H) at 1. rewrite <- fsumn_sub. apply fsumn_ext. intros j Hj. unfold near, delta.
    destruct (Nat.eqb_spec i j) as [->|NE]; cbn [negb andb].
    - destruct (Nat.leb_spec (j - h) j); [|lia]. destruct (Nat.ltb_spec j (Nat.min n (j + h + 1))); [cbn; ring|lia].
    - destruct (Nat.leb_spec i (j + h)); destruct (Nat.leb_spec j (i + h)); destruct (Nat.leb_spec (i - h) j); destruct (Nat.ltb_spec j (Nat.min n (i + h + 1))); try lia; cbn; ring.
  Qed.
  Lemma emass_out p w (x : list vec) i : emass (out_edges p w x i) = (w * fsumn (length x) (fun j => if p i j then f1 else f0))%of.
  Proof. unfold out_edges, emass. rewrite map_map. cbn [fst]. rewrite fsum_filter, <- fsumn_mul. apply fsum_map_ext. intros j _. destruct (p i j); ring. Qed.
  Lemma eprod_out p w (x : list vec) i a b : eprod (out_edges p w x i) a b = (w * fsumn (length x) (fun j => if p i j then dd (row x i, row x j) a b else f0))%of.
  Proof. unfold out_edges, eprod. rewrite map_map. cbn [fst snd]. rewrite fsum_filter, <- fsumn_mul. apply fsum_map_ext. intros j _. destruct (p i j); ring. Qed.
  Lemma emass_pairs p w (x : list vec) : emass (pair_edges p w x) = (w * fsumn (length x) (fun i => fsumn (length x) (fun j => if p i j then f1 else f0)))%of.
  Proof. unfold pair_edges. rewrite emass_flat, <- fsumn_mul. apply fsum_map_ext. intros i _. apply emass_out. Qed.
  Lemma eprod_pairs p w (x : list vec) a b : eprod (pair_edges p w x) a b = (w * fsumn (length x) (fun i => fsumn (length x) (fun j => if p i j then dd (row x i, row x j) a b else f0)))%of.
  Proof. unfold pair_edges. rewrite eprod_flat, <- fsumn_mul. apply fsum_map_ext. intros i _. apply eprod_out. Qed.
  (** both directions: twice *)
  Lemma near_ahead (f : nat -> nat -> K) h n : (forall i j, f i j = f j i) ->
    fsumn n (fun i => fsumn n (fun j => if near h i j then f i j else f0)) = (two * fsumn n (fun i => fsumn n (fun j => if ahead h i j then f i j else f0)))%of.
  Proof.
    intros S. set (T := fsumn n (fun i => fsumn n (fun j => if ahead h i j then f i j else f0))). transitivity (T + T)%of; [|ring]. replace (T + T)%of with (T + fsumn n (fun j => fsumn n (fun i => if ahead h i j then f i j else f0)))%of by (f_equal; unfold T; apply fsumn_swap). unfold T. rewrite <- fsumn_add. apply fsumn_ext. intros i _. rewrite <- fsumn_add. apply fsumn_ext. intros j _.
    cbv beta. unfold near, ahead. destruct (Nat.eq_dec i j) as [->|NE]; [rewrite Nat.eqb_refl, !Nat.ltb_irrefl; cbn [negb andb]; ring|]. rewrite (proj2 (Nat.eqb_neq i j) NE). cbn [negb andb].
    destruct (Nat.leb_spec i (j + h)); destruct (Nat.leb_spec j (i + h)); destruct (Nat.ltb_spec i j); destruct (Nat.ltb_spec j i); try lia; cbn; try ring; rewrite (S j i); ring.
  Qed.
  Lemma dd_row_sym (x : list vec) i j a b : dd (row x i, row x j) a b = dd (row x j, row x i) a b. Proof. apply dd_swap. Qed.
  Lemma near_twice w h (x : list vec) : emass (pair_edges (near h) w x) = (two * emass (pair_edges (ahead h) w x))%of /\ (forall a b, eprod (pair_edges (near h) w x) a b = two * eprod (pair_edges (ahead h) w x) a b)%of.
  Proof.
    split; [|intros a b].
    - rewrite !emass_pairs, (near_ahead (fun _ _ => f1)) by reflexivity. ring.
    - rewrite !eprod_pairs, (near_ahead (fun i j => dd (row x i, row x j) a b)) by (intros; apply dd_row_sym). ring.
  Qed.
  (** the samples at offset o *)
  Definition off_edges (w : K) (x : list vec) (o : nat) : list edge := we w (map (fun k => (row x k, row x (o + k))) (seq 0 (length x - o))).
  Lemma off_pairs (x : list vec) o : o <= length x -> combine (firstn (length x - o) x) (skipn o x) = map (fun k => (row x k, row x (o + k))) (seq 0 (length x - o)).
  Proof.
    intros H. rewrite combine_rows by (rewrite firstn_length, skipn_length; lia). rewrite firstn_length, Nat.min_l by lia. apply map_ext_in. intros k Hk. apply in_seq in Hk. unfold row. rewrite nth_firstn_ by lia. now rewrite nth_skipn_.
  Qed.
  Lemma gram_off (x : list vec) o i j : o <= length x -> let d := diffs_of (skipn o x) (firstn (length x - o) x) in gram d d i j = pd (map (fun k => (row x k, row x (o + k))) (seq 0 (length x - o))) i j.
  Proof. intros H. cbn zeta. rewrite (gram_diffs (skipn o x) (firstn (length x - o) x) i j). now rewrite off_pairs. Qed.
  Lemma length_off (x : list vec) o : o <= length x -> length (diffs_of (skipn o x) (firstn (length x - o) x)) = length x - o.
  Proof. intros H. unfold diffs_of. rewrite map_length, combine_length, firstn_length, skipn_length. lia. Qed.
  Lemma ahead_sum (f : nat -> nat -> K) h n : h <= n -> fsum (map (fun o => fsumn (n - o) (fun k => f k (o + k)%nat)) (seq 1 h)) = fsumn n (fun i => fsumn n (fun j => if ahead h i j then f i j else f0)).
  Proof.
    intros Hh. rewrite <- seq_shift, map_map. change (fsum (map _ (seq 0 h))) with (fsumn h (fun o => fsumn (n - S o) (fun k => f k (S o + k)%nat))).
    rewrite (fsumn_ext h _ (fun o => fsumn n (fun k => if S o + k <? n then f k (S o + k)%nat else f0))).
    - rewrite fsumn_swap. apply fsumn_ext. intros i Hi. rewrite (fsumn_ext n (fun j => if ahead h i j then f i j else f0) (fun j => if (i + 1 <=? j) && (j <? Nat.min n (i + h + 1)) then f i j else f0)).
      + rewrite range_sum by lia. rewrite (fsumn_ext h _ (fun o => if (0 <=? o) && (o <? Nat.min h (n - i - 1)) then f i (S o + i)%nat else f0)).
        * rewrite (range_sum (fun o => f i (S o + i)%nat)) by lia. replace (Nat.min h (n - i - 1) - 0) with (Nat.min n (i + h + 1) - (i + 1)) by lia. apply fsumn_ext. intros k _. f_equal. lia.
        * intros o Ho. cbn [Nat.leb andb]. destruct (Nat.ltb_spec (S o + i) n); destruct (Nat.ltb_spec o (Nat.min h (n - i - 1))); try lia; reflexivity.
      + intros j Hj. unfold ahead. destruct (Nat.ltb_spec i j); destruct (Nat.leb_spec j (i + h)); destruct (Nat.leb_spec (i + 1) j); destruct (Nat.ltb_spec j (Nat.min n (i + h + 1))); try lia; reflexivity.
    - intros o Ho. rewrite (fsumn_ext n _ (fun k => if (0 <=? k) && (k <? n - S o) then f k (S o + k)%nat else f0)).
      + rewrite (range_sum (fun k => f k (S o + k)%nat)) by lia. now rewrite Nat.sub_0_r.
      + intros k Hk. cbn [Nat.leb andb]. destruct (Nat.ltb_spec (S o + k) n); destruct (Nat.ltb_spec k (n - S o)); try lia; reflexivity.
  Qed.
  Lemma off_sums w h (x : list vec) : h <= length x -> emass (flat_map (off_edges w x) (seq 1 h)) = emass (pair_edges (ahead h) w x) /\ (forall a b, eprod (flat_map (off_edges w x) (seq 1 h)) a b = eprod (pair_edges (ahead h) w x) a b).
  Proof.
    intros H. split; [|intros a b].
    - rewrite emass_flat, emass_pairs. rewrite <- (ahead_sum (fun _ _ => f1)) by exact H. rewrite <- fsum_map_mul. apply fsum_map_ext. intros o _. unfold off_edges. rewrite emass_we, map_length, seq_length, fsumn_const. ring.
    - rewrite eprod_flat, eprod_pairs. rewrite <- (ahead_sum (fun i j => dd (row x i, row x j) a b)) by exact H. rewrite <- fsum_map_mul. apply fsum_map_ext. intros o _. unfold off_edges. rewrite eprod_we. unfold pd. rewrite map_map. reflexivity.
  Qed.
  (** the node weights of the windows *)
  Definition window_nodes (w : K) (h : nat) (x : list vec) : list node := map (fun k => (w * wnode h (length x) k, row x k)%of) (seq 0 (length x)).
  Lemma x_sel_rows h (x : list vec) : x_sel h x = map (fun k => vscale (wnode h (length x) k) (row x k)) (seq 0 (length x)).
  Proof. unfold x_sel, weighted. rewrite combine_map_l, (combine_nth_seq vzero), !map_map. reflexivity. Qed.
  Lemma rows_self (x : list vec) : map (row x) (seq 0 (length x)) = x.
  Proof. apply (nth_ext _ _ vzero vzero); rewrite map_length, seq_length; [reflexivity|]. intros k Hk. rewrite (nth_indep _ vzero (row x 0)) by now rewrite map_length, seq_length. rewrite (map_nth (row x)). now rewrite seq_nth. Qed.
  Lemma window_samples_nodes w h (x : list vec) c N : mnodes c N -> mnodes (window_samples w h x c) (N ++ window_nodes w h x).
  Proof.
    intros H. apply add_samples_nodes; [exact H| |].
    - intros i. unfold window_nodes, nsum, sumv. rewrite x_sel_rows, !map_map. rewrite <- fsum_map_mul. apply fsum_map_ext. intros k _. unfold vscale. cbn [fst snd]. ring.
    - intros i j. unfold window_nodes, nprod. rewrite x_sel_rows. rewrite <- (rows_self x) at 2. rewrite gram_map, !map_map. rewrite <- fsum_map_mul. apply fsum_map_ext. intros k _. unfold vscale. cbn [fst snd]. ring.
  Qed.
  Lemma window_ok w h (x : list vec) c N E : h <> 0 -> 2 * h < length x -> mnodes c N -> medges c E -> exists c', up_window w h x c = (c', GOk tt) /\
    mnodes c' (N ++ window_nodes w h x) /\ c_n c' = (c_n c + (fn (length x) - (fn h / two - f1 / two)) * w)%of /\ medges c' (E ++ pair_edges (ahead h) w x).
  Proof.
    intros Hh Hn HN HE. unfold up_window. destruct (Nat.leb_spec (length x) (2 * h)); [lia|]. destruct (Nat.eqb_spec h 0); [contradiction|]. eexists. split; [reflexivity|].
    match goal with |- mnodes (fold_left ?st _ _) _ /\ _ => destruct (fold_edges st (off_edges w x) (seq 1 h)) with (c := window_samples w h x c) (N := N ++ window_nodes w h x) (E := E) as (F1 & F2 & F3); [|now apply window_samples_nodes|exact HE|] end.
    - intros c0 N0 E0 o Ho [A B]. apply in_seq in Ho. split; [exact A|]. split; [reflexivity|]. unfold off_edges. apply add_diffs_edges; [exact B| |].
      + intros i j. rewrite eprod_we. f_equal. apply (gram_off x o i j). lia.
      + rewrite emass_we, map_length, seq_length, length_off by lia. reflexivity.
    - split; [exact F1|]. split; [exact F2|]. destruct F3 as [F3 F4]. destruct (off_sums w h x ltac:(lia)) as [O1 O2]. split; [now rewrite F3, !emass_app, O1|]. intros i j. now rewrite F4, !eprod_app, O2.
  Qed.
  Lemma truncating_ok w h (x : list vec) c N E : h <> 0 -> 2 * h < length x -> measures c N E -> exists c', up_truncating w h x c = (c', GOk tt) /\ measures c' (N ++ wn w x) (E ++ pair_edges (near h) w x).
  Proof.
    intros Hh Hn H. unfold up_truncating. destruct (Nat.leb_spec (length x) (2 * h)); [lia|]. destruct (Nat.eqb_spec h 0); [contradiction|]. eexists. split; [reflexivity|].
    apply (unlabeled_ok w x) in H. destruct H as (H1 & H2 & H3).
    match goal with |- measures (fold_left ?st _ _) _ _ => destruct (fold_edges st (off_edges (two * w)%of x) (seq 1 h)) with (c := up_unlabeled w x c) (N := N ++ wn w x) (E := E) as (F1 & F2 & F3); [|exact H1|exact H3|] end.
    - intros c0 N0 E0 o Ho [A B]. apply in_seq in Ho. split; [exact A|]. split; [reflexivity|]. unfold off_edges. apply add_diffs_edges; [exact B| |].
      + intros i j. rewrite eprod_we. unfold mscale. rewrite (gram_off x o i j) by lia. ring.
      + rewrite emass_we, map_length, seq_length. assert ((fn (length x) : K) = fn (length x - o) + fn o)%of as -> by (rewrite <- fn_add; f_equal; lia). ring.
    - split; [exact F1|]. split; [congruence|]. destruct F3 as [F3 F4]. destruct (off_sums (two * w)%of h x ltac:(lia)) as [O1 O2]. destruct (near_twice w h x) as [T1 T2]. split.
      + rewrite F3, !emass_app, O1, T1, !emass_pairs. ring.
      + intros i j. rewrite F4, !eprod_app, O2, T2, !eprod_pairs. ring.
  Qed.
  (** the sum over three ranges *)
  Lemma three_ranges (f : nat -> K) h n : 2 * h <= n -> fsumn n f = (fsumn h f + fsum (map f (seq (n - h) h)) + fsumn (n - 2 * h) (fun k => f (h + k)%nat))%of.
  Proof.
    intros H. replace n with (h + ((n - 2 * h) + h)) at 1 by lia. rewrite !fsumn_split. assert (fsum (map f (seq (n - h) h)) = fsumn h (fun k => f (n - h + k)%nat)) as ->.
    { unfold fsumn. f_equal. rewrite <- (map_map (fun k => n - h + k) f). f_equal. generalize (n - h) as a. clear. induction h as [|h IH]; intros a; [reflexivity|]. cbn [seq map]. rewrite Nat.add_0_r. f_equal. rewrite (IH (S a)), <- seq_shift, map_map. apply map_ext. intros. lia. }
    rewrite (fsumn_ext h (fun i => f (h + (n - 2 * h + i))%nat) (fun k => f (n - h + k)%nat)) by (intros; f_equal; lia). ring.
  Qed.
  Lemma border_edges w (x : list vec) (p : list vec * vec) E' c N E : (forall i j, w * pd (map (fun v => (snd p, v)) (fst p)) i j = eprod E' i j)%of -> ((fn (length (fst p)) - 1) * w = emass E')%of ->
    mnodes c N /\ medges c E -> mnodes (border w x c p) N /\ c_n (border w x c p) = c_n c /\ medges (border w x c p) (E ++ E').
  Proof.
    intros H1 H2 [A B]. split; [exact A|]. split; [reflexivity|]. unfold border. apply add_diffs_edges; [exact B| |].
    - intros i j. rewrite <- H1. f_equal. rewrite gram_map. unfold pd. rewrite map_map. reflexivity.
    - rewrite map_length. exact H2.
  Qed.
  Lemma slice_rows (x : list vec) a b : b <= length x -> slice a b x = map (fun k => row x (a + k)) (seq 0 (b - a)).
  Proof.
    intros H. rewrite <- (rows_self (slice a b x)). rewrite length_slice by exact H. apply map_ext_in. intros k Hk. apply in_seq in Hk. rewrite row_slice by lia. reflexivity.
  Qed.
  Lemma fwindow_ok w h (x : list vec) c N E : h <> 0 -> 4 * h <= length x -> mnodes c N -> medges c E -> exists c', up_fwindow w h x c = (c', GOk tt) /\
    mnodes c' (N ++ window_nodes w h x) /\ c_n c' = (c_n c + (fn (length x) - (fn h / two - f1 / two)) * w)%of /\ medges c' (E ++ pair_edges (near h) w x).
  Proof.
    intros Hh Hn HN HE. unfold up_fwindow. destruct (Nat.leb_spec (length x) (2 * h)); [lia|]. destruct (Nat.eqb_spec h 0); [contradiction|]. clear n. set (n := length x) in *. eexists. split; [reflexivity|].
    assert (EO : forall i a b, i < n -> i - h <= b -> b = Nat.min n (i + h + 1) -> a = i - h -> forall c N E, mnodes c N /\ medges c E ->
       mnodes (border w x c (slice a b x, row x i)) N /\ c_n (border w x c (slice a b x, row x i)) = c_n c /\ medges (border w x c (slice a b x, row x i)) (E ++ out_edges (near h) w x i)).
    { intros i a b Hi Hab Hb Ha c0 N0 E0. apply border_edges; cbn [fst snd].
      - intros p q. rewrite eprod_out. fold n. rewrite (near_sum (fun j => dd (row x i, row x j) p q)) by exact Hi. f_equal. rewrite <- Hb, <- Ha. rewrite slice_rows by lia. unfold pd. rewrite !map_map. fold n.
        change (fsum (map _ (seq 0 (b - a)))) with (fsumn (b - a) (fun k => dd (row x i, row x (a + k)) p q)). unfold dd at 3. cbn [fst snd]. ring.
      - rewrite emass_out. fold n. rewrite (near_sum (fun _ => f1)) by exact Hi. rewrite <- Hb, <- Ha, fsumn_const, length_slice by lia. ring. }
    assert (FL : forall (a b : nat -> nat) l, (forall i, In i l -> i < n /\ i - h <= b i /\ b i = Nat.min n (i + h + 1) /\ a i = i - h) -> forall c N E, mnodes c N -> medges c E ->
       let c' := fold_left (border w x) (map (fun i => (slice (a i) (b i) x, row x i)) l) c in mnodes c' N /\ c_n c' = c_n c /\ medges c' (E ++ flat_map (out_edges (near h) w x) l)).
    { intros a b l HL c0 N0 E0 A B. cbn zeta. assert (ED : forall s, fold_left (border w x) (map (fun i => (slice (a i) (b i) x, row x i)) l) s = fold_left (fun s i => border w x s (slice (a i) (b i) x, row x i)) l s).
      { clear. induction l as [|i l IH]; intros s; [reflexivity|]. cbn [map fold_left]. apply IH. }
      rewrite ED. apply fold_edges; [|exact A|exact B]. intros c1 N1 E1 i Hi AB. destruct (HL i Hi) as (L1 & L2 & L3 & L4). now apply EO. }
    pose proof (window_samples_nodes w h x c N HN) as HN1. 
    destruct (FL (fun _ => 0) (fun i => h + i + 1) (seq 0 h)) with (c := window_samples w h x c) (N := N ++ window_nodes w h x) (E := E) as (A1 & A2 & A3); [intros i Hi; apply in_seq in Hi; lia|exact HN1|exact HE|].
    match type of A1 with mnodes ?s _ => set (c1 := s) in * end.
    destruct (FL (fun i => i - h) (fun _ => n) (seq (n - h) h)) with (c := c1) (N := N ++ window_nodes w h x) (E := E ++ flat_map (out_edges (near h) w x) (seq 0 h)) as (B1 & B2 & B3); [intros i Hi; apply in_seq in Hi; lia|exact A1|exact A3|].
    match type of B1 with mnodes ?s _ => set (c2 := s) in * end.
    split; [exact B1|]. split; [cbn [add_diffs c_n]; rewrite B2, A2; reflexivity|].
    set (ctr := flat_map (out_edges (near h) w x) (map (fun k => h + k) (seq 0 (n - 2 * h)))).
    assert (C3 : medges (add_diffs (window_products h (n - 2 * h) (slice h (n - h) x) x) ((fn n - fn (2 * h)) * fn (2 * h))%of w c2) ((E ++ flat_map (out_edges (near h) w x) (seq 0 h)) ++ flat_map (out_edges (near h) w x) (seq (n - h) h) ++ ctr)).
    { rewrite app_assoc. apply add_diffs_edges; [exact B3| |].
      - intros i j. unfold ctr. rewrite eprod_flat, map_map. rewrite window_products_ok; [|rewrite length_slice by (fold n; lia); lia|fold n; lia|lia]. rewrite <- fsumn_mul. unfold fsumn at 1. apply fsum_map_ext. intros k Hk. apply in_seq in Hk.
        rewrite eprod_out. fold n. rewrite (near_sum (fun p => dd (row x (h + k), row x p) i j)) by lia. f_equal. rewrite row_slice by lia. replace (Nat.min n (h + k + h + 1) - (h + k - h)) with (2 * h + 1) by lia.
        rewrite (fsumn_ext (2 * h + 1) (fun o => dd (row x (h + k), row x (h + k - h + o)) i j) (fun o => dd (row x (h + k), row x (k + o)) i j)) by (intros o _; do 3 f_equal; lia). unfold dd at 3. cbn [fst snd]. ring.
      - unfold ctr. rewrite emass_flat, map_map. rewrite (fsum_map_ext _ _ (fun _ => fn (2 * h) * w)%of).
        + rewrite fsum_map_const, seq_length. assert ((fn n : K) = fn (n - 2 * h) + fn (2 * h))%of as -> by (rewrite <- fn_add; f_equal; lia). ring.
        + intros k Hk. apply in_seq in Hk. rewrite emass_out. fold n. rewrite (near_sum (fun _ => f1)) by lia. replace (Nat.min n (h + k + h + 1) - (h + k - h)) with (2 * h + 1) by lia. rewrite fsumn_const, fn_add. cbn [fn]. ring. }
    destruct C3 as [C3 C4]. split.
    - rewrite C3. rewrite !emass_app. unfold pair_edges, ctr. rewrite !emass_flat, map_map. fold n. change (fsum (map (fun a => emass (out_edges (near h) w x a)) (seq 0 n))) with (fsumn n (fun a => emass (out_edges (near h) w x a))).
      rewrite (three_ranges _ h n) by lia. unfold fsumn. ring.
    - intros i j. rewrite C4. rewrite !eprod_app. unfold pair_edges, ctr. rewrite !eprod_flat, map_map. fold n. change (fsum (map (fun a => eprod (out_edges (near h) w x a) i j) (seq 0 n))) with (fsumn n (fun a => eprod (out_edges (near h) w x a) i j)).
      rewrite (three_ranges _ h n) by lia. unfold fsumn. ring.
  Qed.
End G.
