(** Properties of GSFANode and CovDCovMatrix: C262-C280. *)
From Coq Require Import List Arith ZArith QArith Qcanon Bool Lia Permutation Sorting.Sorted Field.
From Verif Require Import OField LinAlg GenEig PCAModel SymeigModel SymeigProofs SymeigProps SFAModel SFAProps GSFAModel GSFAProofs GSFAProofs2.
Import ListNotations.
Open Scope nat_scope.

Section Props.
  Context {K : ofield}.
  Add Field Kgp : (fth K).
  Notation vec := (vec (K := K)). Notation mtx := (mtx (K := K)). Notation cdc := (cdc (K := K)). Notation gsfa := (gsfa (K := K)). Notation targs := (targs (K := K)). Notation mode := (mode (K := K)).
  Notation two := (f1 + f1 : K)%of.
  Notation node := (K * vec)%type. Notation edge := (K * (vec * vec))%type.
  Context (argsort : list nat -> list nat) (vunl : K) (dim : nat) (solver : option (Z * Z) -> mtx -> mtx -> solres K vec).
  Notation mode1 := (up_mode argsort vunl). Notation modes := (up_modes argsort vunl). Notation trains := (g_trains argsort vunl). Notation stop := (g_stop dim solver).

  (** the graph of a training mode: its nodes and its edges *)
  Inductive mode_graph : mode -> bsize -> option (list K) -> option edges -> list vec -> list node -> list edge -> Prop :=
  | G_regular m b nw ew x : m = MNoneG \/ m = MRegular -> mode_graph m b nw ew x (wn f1 x) (we f1 (combine (removelast x) (tl x)))
  | G_unlabeled b nw ew x : mode_graph MUnlabeled b nw ew x (wn f1 x) []
  | G_ignore b nw ew x : mode_graph MIgnore b nw ew x [] []
  | G_clustered b nw ew Bs : b <> 0 -> Forall (fun B => length B = b) Bs -> mode_graph MClustered (BInt b) nw ew (concat Bs) (wn f1 (concat Bs)) (cliques f1 Bs)
  | G_clusters nw ew Bs : Forall (fun B => B <> []) Bs -> mode_graph MClustered (BList (map (@length vec) Bs)) nw ew (concat Bs) (wn f1 (concat Bs)) (cliques f1 Bs)
  | G_serial b bs nw ew Bs : b <> 0 -> 2 <= length Bs -> Forall (fun B => length B = b) Bs -> bs = BInt b \/ (exists k, bs = BList (repeat b (S k))) ->
      mode_graph MSerial bs nw ew (concat Bs) (serial_nodes f1 Bs) (serial_edges f1 b Bs)
  | G_mixed b nw ew A Ms Z : b <> 0 -> Forall (fun B => length B = b) (A :: Ms ++ [Z]) ->
      mode_graph MMixed (BInt b) nw ew (concat (A :: Ms ++ [Z])) (wn (two + f1)%of (concat (A :: Ms ++ [Z]))) (clique two A ++ cliques f1 Ms ++ clique two Z ++ serial_edges f1 b (A :: Ms ++ [Z]))
  | G_mirror m h b nw ew x : m = MMirror h \/ m = MSMirror h -> h <> 0 -> 2 * h < length x -> mode_graph m b nw ew x (wn f1 x) (mirror_edges f1 h x)
  | G_dict m b nw l x : m = MGraph \/ m = MGraphOld -> (forall v, nw = Some v -> length v = length x) -> valid x l ->
      mode_graph m b nw (Some (EDict l)) x (graph_nodes f1 (node_weights nw x) x) (graph_edges f1 x l)
  | G_array b nw W x : (forall v, nw = Some v -> length v = length x) -> balanced (length x) (node_weights nw x) W ->
      mode_graph MGraph b nw (Some (EArr (length x) (length x) W)) x (graph_nodes f1 (node_weights nw x) x) (array_edges f1 x W)
  | G_old b nw W x : (forall v, nw = Some v -> length v = length x) ->
      mode_graph MGraphOld b nw (Some (EArr (length x) (length x) W)) x (graph_nodes f1 (node_weights nw x) x) (array_edges f1 x W)
  | G_class labels w b nw ew x : sorts labels (argsort labels) -> length labels = length x -> mode_graph (MClass labels w) b nw ew x (wn w x) (class_edges w labels x)
  | G_regress k labels w b nw ew x Bs : sorts labels (argsort labels) -> length labels = length x -> k <> 0 -> 2 <= length Bs -> Forall (fun B => length B = k) Bs ->
      map (row x) (argsort labels) = concat Bs -> mode_graph (MRegress k labels w) b nw ew x (serial_nodes w Bs) (serial_edges w k Bs).
  Inductive modes_graph : list mode -> bsize -> option (list K) -> option edges -> list vec -> list node -> list edge -> Prop :=
  | GM_nil b nw ew x : modes_graph [] b nw ew x [] []
  | GM_cons m ms b nw ew x N E N' E' : mode_graph m b nw ew x N E -> modes_graph ms (next_size m b) nw ew x N' E' -> modes_graph (m :: ms) b nw ew x (N ++ N') (E ++ E').

  Lemma serial_size_repeat b k : serial_size (BList (repeat b (S k))) = GOk b.
  Proof. cbn [repeat serial_size]. rewrite (proj2 (forallb_forall _ _)); [reflexivity|]. intros a Ha. apply repeat_spec in Ha. subst. apply Nat.eqb_refl. Qed.
  Lemma serial_list w b k x (c : cdc) : up_serial w (BList (repeat b (S k))) x c = up_serial w (BInt b) x c.
  Proof. unfold up_serial. rewrite serial_size_repeat. reflexivity. Qed.
  Lemma wn_app w x y : @wn K w (x ++ y) = wn w x ++ wn w y. Proof. apply map_app. Qed.
  Lemma list_sum_lengths (Bs : list (list vec)) : length (concat Bs) = list_sum (map (@length vec) Bs).
  Proof. induction Bs as [|B Bs IH]; [reflexivity|]. cbn [concat map list_sum fold_right]. now rewrite app_length, IH. Qed.
  Lemma serial_sums (f : vec -> K) A Ms Z : fsum (map (fun p => fsum (map f (fst p)) + fsum (map f (snd p)))%of (pairs (A :: Ms ++ [Z]))) = (fsum (map f A) + two * fsum (map f (concat Ms)) + fsum (map f Z))%of.
  Proof. rewrite (fsum_pairs (fun B => fsum (map f B)) Z Ms A). rewrite concat_map. f_equal. f_equal. f_equal. induction Ms as [|M Ms IH]; [reflexivity|]. cbn [map concat fsum]. rewrite fsum_app. now rewrite <- IH. Qed.
  Lemma serial_nodes_sums A Ms Z (f : vec -> K) : fsum (map (fun p : node => fst p * f (snd p))%of (serial_nodes f1 (A :: Ms ++ [Z]))) = (fsum (map f A) + two * fsum (map f (concat Ms)) + fsum (map f Z))%of.
  Proof.
    unfold serial_nodes. rewrite fsum_flat_map. rewrite <- serial_sums. apply fsum_map_ext. intros p _. unfold wn. rewrite map_app, fsum_app, !map_map. cbn [fst snd]. rewrite !fsum_map_mul. ring.
  Qed.
  Lemma mixed_nodes_sums A Ms Z (f : vec -> K) :
    fsum (map (fun p : node => fst p * f (snd p))%of (((wn two A ++ wn f1 (concat Ms)) ++ wn two Z) ++ serial_nodes f1 (A :: Ms ++ [Z]))) = fsum (map (fun p : node => fst p * f (snd p))%of (wn (two + f1)%of (concat (A :: Ms ++ [Z])))).
  Proof.
    rewrite !map_app, !fsum_app, serial_nodes_sums. cbn [concat]. rewrite concat_app, !wn_app, !map_app, !fsum_app. cbn [concat]. rewrite app_nil_r. unfold wn. rewrite !map_map. cbn [fst snd]. rewrite !fsum_map_mul. ring.
  Qed.
  Lemma fsum_ones (N : list node) : nmass N = fsum (map (fun p : node => fst p * f1)%of N). Proof. unfold nmass. apply fsum_map_ext. intros. ring. Qed.
  Lemma slice_mid (A M Z : list vec) : slice (length A) (length A + length M) (A ++ M ++ Z) = M.
  Proof. unfold slice. rewrite skipn_app, Nat.sub_diag, skipn_all. cbn [app skipn]. rewrite firstn_app. replace (length A + length M - length A) with (length M) by lia. rewrite Nat.sub_diag, firstn_all, firstn_O. apply app_nil_r. Qed.
  Lemma mixed_ok b A Ms Z (c : cdc) N E : b <> 0 -> Forall (fun B => length B = b) (A :: Ms ++ [Z]) -> measures c N E -> exists c', mode1 MMixed (BInt b) None None (concat (A :: Ms ++ [Z])) c = (c', GOk tt) /\
    measures c' (N ++ wn (two + f1)%of (concat (A :: Ms ++ [Z]))) (E ++ clique two A ++ cliques f1 Ms ++ clique two Z ++ serial_edges f1 b (A :: Ms ++ [Z])).
  Proof.
    intros Hb F M. pose proof (length_concat_blocks b _ F) as HL. inversion F as [|? ? FA F']; subst. apply Forall_app in F'. destruct F' as [FM FZ]. inversion FZ as [|? ? FZ1 _]; subst. pose proof (length_concat_blocks (length A) _ FM) as HM.
    set (b := length A) in *. set (x := concat (A :: Ms ++ [Z])) in *. assert (Ex : x = A ++ concat Ms ++ Z) by (unfold x; cbn [concat]; rewrite concat_app; cbn [concat]; now rewrite app_nil_r).
    assert (Lx : length x = b + (length Ms * b + b)) by (rewrite Ex, !app_length, HM, FZ1; reflexivity).
    assert (S1 : firstn b x = A) by (rewrite Ex, firstn_app; unfold b; rewrite Nat.sub_diag, firstn_all; cbn; apply app_nil_r).
    assert (S3 : skipn (length x - b) x = Z). { rewrite Ex at 2. replace (length x - b) with (b + length Ms * b) by lia. rewrite app_assoc, skipn_app, app_length, HM. replace (b + length Ms * b - (length A + length Ms * b)) with 0 by (unfold b; lia). rewrite skipn_all2; [reflexivity|rewrite app_length, HM; unfold b; lia]. }
    assert (S2 : slice b (length x - b) x = concat Ms) by (rewrite Lx, Ex; replace (b + (length Ms * b + b) - b) with (length A + length (concat Ms)) by (unfold b in *; lia); apply slice_mid).
    destruct (homog_ok two b [A] c N E Hb ltac:(repeat constructor) M) as (c1 & E1 & M1). cbn [concat cliques flat_map] in E1, M1. rewrite app_nil_r in E1. rewrite !app_nil_r in M1.
    destruct (homog_ok f1 b Ms c1 _ _ Hb FM M1) as (c2 & E2 & M2).
    destruct (homog_ok two b [Z] c2 _ _ Hb ltac:(repeat constructor; exact FZ1) M2) as (c3 & E3 & M3). cbn [concat cliques flat_map] in E3, M3. rewrite app_nil_r in E3. rewrite !app_nil_r in M3.
    destruct (serial_ok f1 b (A :: Ms ++ [Z]) c3 _ _ Hb ltac:(cbn [length]; rewrite app_length; cbn; lia) F M3) as (c4 & E4 & M4).
    exists c4. split.
    - cbn [up_mode]. rewrite S1, S2, S3. rewrite E1. cbn [bind]. rewrite E2. cbn [bind]. rewrite E3. cbn [bind]. exact E4.
    - replace (E ++ clique two A ++ cliques f1 Ms ++ clique two Z ++ serial_edges f1 b (A :: Ms ++ [Z])) with ((((E ++ clique two A) ++ cliques f1 Ms) ++ clique two Z) ++ serial_edges f1 b (A :: Ms ++ [Z])) by now rewrite !app_assoc.
      apply (nodes_eq _ _ _ _ M4); rewrite <- !app_assoc.
      + rewrite !nmass_app. rewrite !fsum_ones. pose proof (mixed_nodes_sums A Ms Z (fun _ => f1)) as S. rewrite !map_app, !fsum_app in S. fold x in S. rewrite <- S. ring.
      + intros i. rewrite !nsum_app. pose proof (mixed_nodes_sums A Ms Z (fun v => v i)) as S. rewrite !map_app, !fsum_app in S. fold x in S. change (nsum (wn two A) i + nsum (wn f1 (concat Ms)) i + nsum (wn two Z) i + nsum (serial_nodes f1 (A :: Ms ++ [Z])) i = nsum (wn (two + f1)%of x) i)%of in S. rewrite <- S. ring.
      + intros i j. rewrite !nprod_app. pose proof (mixed_nodes_sums A Ms Z (fun v => v i * v j)%of) as S. rewrite !map_app, !fsum_app in S. fold x in S. change (nprod (wn two A) i j + nprod (wn f1 (concat Ms)) i j + nprod (wn two Z) i j + nprod (serial_nodes f1 (A :: Ms ++ [Z])) i j = nprod (wn (two + f1)%of x) i j)%of in S. rewrite <- S. ring.
  Qed.
  Lemma take_sorted labels (x : list vec) : sorts labels (argsort labels) -> length labels = length x -> take x (argsort labels) = Some (map (row x) (argsort labels)).
  Proof. intros [P _] L. unfold take. rewrite (proj2 (forallb_forall _ _)); [reflexivity|]. intros k Hk. apply (Permutation_in _ P) in Hk. apply in_seq in Hk. apply Nat.ltb_lt. lia. Qed.
  Lemma class_size labels (x : list vec) : sorts labels (argsort labels) -> length labels = length x -> length (map (row x) (argsort labels)) = list_sum (map (fun v => count_occ Nat.eq_dec labels v) (uniq labels)).
  Proof.
    intros S L. rewrite <- (sizes_Bs labels (argsort labels) x S), <- list_sum_lengths. rewrite (concat_Bs labels (argsort labels) x S); [reflexivity|exact L].
  Qed.
  Lemma mode_ok m b nw ew x N' E' : mode_graph m b nw ew x N' E' -> x <> [] -> forall c N E, measures c N E -> exists c', mode1 m b nw ew x c = (c', GOk tt) /\ measures c' (N ++ N') (E ++ E').
  Proof.
    destruct 1; intros Hx c N E M; cbn [up_mode].
    - exists (up_regular f1 x c). split; [destruct H as [-> | ->]; reflexivity|now apply regular_ok].
    - exists (up_unlabeled f1 x c). split; [reflexivity|]. rewrite app_nil_r. now apply unlabeled_ok.
    - exists c. rewrite !app_nil_r. now split.
    - now apply homog_ok.
    - cbn [up_clustered]. rewrite list_sum_lengths, Nat.eqb_refl. cbn [negb]. now apply blocks_ok.
    - destruct H2 as [-> | [k ->]]; [|rewrite serial_list]; now apply serial_ok.
    - now apply (mixed_ok b A Ms Z c N E).
    - destruct H as [-> | ->]; [now apply mirror_ok|now apply smirror_ok].
    - destruct (graph_dict_ok f1 nw x l c N E) as (c' & E1 & E2 & M'); try assumption. exists c'. split; [destruct H as [-> | ->]; assumption|exact M'].
    - now apply graph_array_ok.
    - now apply graph_old_ok.
    - rewrite take_sorted by assumption. cbn [up_clustered]. rewrite class_size, Nat.eqb_refl by assumption. cbn [negb]. now apply (class_ok labels (argsort labels) x).
    - rewrite take_sorted by assumption. rewrite H4. now apply serial_ok.
  Qed.
  Lemma modes_ok ms b nw ew x N' E' : modes_graph ms b nw ew x N' E' -> x <> [] -> forall c N E, measures c N E -> exists c', modes ms b nw ew x c = (c', GOk tt) /\ measures c' (N ++ N') (E ++ E').
  Proof.
    induction 1 as [|m ms b nw ew x N1 E1 N2 E2 H _ IH]; intros Hx c N E M; cbn [up_modes]; [exists c; rewrite !app_nil_r; now split|].
    destruct (mode_ok _ _ _ _ _ _ _ H Hx c N E M) as (c1 & Ec & M1). rewrite Ec. cbn [bind]. destruct (IH Hx _ _ _ M1) as (c2 & Ec2 & M2). exists c2. split; [exact Ec2|]. now rewrite !app_assoc.
  Qed.

  (** sums exist as soon as the weights are not zero *)
  Lemma wf_fold {A} (st : cdc -> A -> cdc) l : (forall c a, wf c -> wf (st c a)) -> forall c, wf c -> wf (fold_left st l c).
  Proof. intros H. induction l as [|a l IH]; intros c W; [exact W|]. cbn. apply IH. now apply H. Qed.
  Lemma wf_unlabeled w x (c : cdc) : wf c -> wf (up_unlabeled w x c). Proof. apply wf_samples. Qed.
  Lemma wf_homog w b l x (c : cdc) : wf c -> wf (fst (up_homog w b l x c)).
  Proof. intros W. unfold up_homog. destruct b as [|[|b]|]; try exact W. destruct (negb _); [exact W|]. destruct l; [apply wf_diffs, wf_unlabeled, W|]. destruct (_ =? 1); cbn [fst]; [|apply wf_diffs]; apply wf_unlabeled, W. Qed.
  Lemma wf_blocks w l bs : forall x (c : cdc), wf c -> wf (fst (up_blocks w l bs x c)).
  Proof.
    induction bs as [|b bs IH]; intros x c W; [exact W|]. cbn [up_blocks]. pose proof (wf_homog w (BInt b) l (firstn b x) c W) as H. destruct (up_homog w (BInt b) l (firstn b x) c) as [c1 [u|e]]; [apply IH|]; exact H.
  Qed.
  Lemma wf_clustered w b l x (c : cdc) : wf c -> wf (fst (up_clustered w b l x c)).
  Proof. intros W. destruct b as [|b|bs]; cbn [up_clustered]; [exact W|now apply wf_homog|]. destruct (negb _); [exact W|now apply wf_blocks]. Qed.
  Lemma wf_serial w b x (c : cdc) : wf c -> wf (fst (up_serial w b x c)).
  Proof. intros W. unfold up_serial. destruct (serial_size b) as [[|n]|e]; [exact W| |exact W]. destruct (negb _); [exact W|]. apply wf_diffs, wf_samples, W. Qed.
  Lemma wf_graph w nw ew x (c : cdc) : wf c -> wf (fst (up_graph w nw ew x c)).
  Proof.
    intros W. unfold up_graph. destruct (negb _); [exact W|]. destruct ew as [[r q A|l]|]; [| |exact W].
    - destruct (negb _); [exact W|]. apply wf_diffs, wf_samples, W.
    - destruct (dict_diffs x l) as [[sd nd]|]; [apply wf_diffs|]; apply wf_samples, W.
  Qed.
  Lemma wf_graph_old w nw ew x (c : cdc) : wf c -> wf (fst (up_graph_old w nw ew x c)).
  Proof.
    intros W. unfold up_graph_old. destruct (negb _); [exact W|]. destruct (match ew with Some _ => _ | None => None end) as [l|]; [|exact W]. destruct (dict_diffs x l) as [[sd nd]|]; [apply wf_diffs|]; apply wf_samples, W.
  Qed.
  Lemma wf_bind (r : cdc * gres unit) f : wf (fst r) -> (forall c, wf c -> wf (fst (f c))) -> wf (fst (bind r f)).
  Proof. destruct r as [c [u|e]]; cbn; auto. Qed.
  Lemma wf_mode m b nw ew x c : wf c -> wf (fst (mode1 m b nw ew x c)).
  Proof.
    intros W. destruct m; cbn [up_mode]; try exact W.
    - apply wf_diffs, wf_unlabeled, W.
    - apply wf_unlabeled, W.
    - apply wf_diffs, wf_unlabeled, W.
    - now apply wf_clustered.
    - now apply wf_serial.
    - destruct b as [|[|b]|]; try exact W. destruct (k =? 0); [exact W|]. apply wf_bind; [now apply wf_serial|intros; now apply wf_serial].
    - destruct b as [|b|]; try exact W. apply wf_bind; [now apply wf_homog|]. intros c1 W1. apply wf_bind; [now apply wf_homog|]. intros c2 W2. apply wf_bind; [now apply wf_homog|]. intros c3 W3. now apply wf_serial.
    - unfold up_window. destruct (_ <=? _); [exact W|]. destruct (h =? 0); [exact W|]. cbn [fst]. apply wf_fold; [intros; now apply wf_diffs|apply wf_samples, W].
    - unfold up_fwindow. destruct (_ <=? _); [exact W|]. destruct (h =? 0); [exact W|]. cbn [fst]. apply wf_diffs. apply wf_fold; [intros; now apply wf_diffs|]. apply wf_fold; [intros; now apply wf_diffs|]. apply wf_samples, W.
    - unfold up_mirror. destruct (_ <=? _); [exact W|]. destruct (h =? 0); cbn [fst]; [apply wf_unlabeled, W|apply wf_diffs, wf_unlabeled, W].
    - unfold up_smirror. destruct (_ <=? _); [exact W|]. destruct (h =? 0); cbn [fst]; [apply wf_unlabeled, W|]. apply wf_fold; [|apply wf_unlabeled, W]. intros c1 a W1. destruct (a =? h); [exact W1|now apply wf_diffs].
    - now apply wf_graph.
    - now apply wf_graph_old.
    - unfold up_smart2. destruct (c_x c) as [[sl pl]|] eqn:CX; [|exact W]. destruct (feqb (c_nd c) f0); [exact W|]. destruct (c_d c) as [d|] eqn:CD; [|exact W]. assert (W' : forall v, wf (mkC (Some (sl, pl)) (c_n c) (Some (mscale v d)) (c_nd c * v)%of)) by (intros; split; discriminate).
      destruct (feqb (c_n c) f0); [apply W'|]. apply wf_homog, wf_diffs, wf_samples, W'.
    - unfold up_smart3. destruct (c_x c) as [[sl pl]|] eqn:CX; [|exact W]. cbv zeta. destruct (feqb _ f0); [exact W|]. destruct (c_d c) as [d|] eqn:CD; [|split; [discriminate|]; intros _; now apply (proj2 W)].
      destruct (feqb _ f0); [split; discriminate|]. apply wf_bind; [apply wf_homog; split; discriminate|]. intros c1 W1. cbn [fst]. apply wf_samples, wf_samples, wf_diffs, W1.
    - destruct (take x _); [now apply wf_clustered|exact W].
    - destruct (take x _); [now apply wf_serial|exact W].
  Qed.
  Lemma wf_modes ms : forall b nw ew x c, wf c -> wf (fst (modes ms b nw ew x c)).
  Proof. induction ms as [|m ms IH]; intros b nw ew x c W; [exact W|]. cbn [up_modes]. apply wf_bind; [now apply wf_mode|]. intros; now apply IH. Qed.

  (** ** C262: the sums are those of the union of the graphs *)
  Definition call_graph (bs : bsize) (ms : list mode) (a : targs) (G : list node * list edge) : Prop :=
    t_x a <> [] /\ modes_graph (match t_modes a with Some m => m | None => ms end) (match t_bs a with BNone => bs | b => b end) (t_nw a) (t_ew a) (t_x a) (fst G) (snd G).
  Definition allnodes (G : list (list node * list edge)) : list node := concat (map fst G).
  Definition alledges (G : list (list node * list edge)) : list edge := concat (map snd G).
  Lemma trains_ok calls : forall G (s : gsfa) c N E, g_training s = true -> g_c s = Some c -> measures c N E -> wf c -> Forall2 (call_graph (g_bs s) (g_modes s)) calls G ->
    exists s' c', trains s calls = (s', GOk tt) /\ g_c s' = Some c' /\ measures c' (N ++ allnodes G) (E ++ alledges G) /\ wf c' /\
      g_training s' = true /\ g_out s' = g_out s /\ g_verbose s' = g_verbose s /\ g_started s' = (match calls with [] => g_started s | _ => true end).
  Proof.
    induction calls as [|a calls IH]; intros G s c N E HT HC M W F; inversion F as [|? g ? G' [Hx HG] F']; subst.
    - exists s, c. unfold allnodes, alledges. cbn [map concat]. rewrite !app_nil_r. split; [reflexivity|]. split; [exact HC|]. split; [exact M|]. split; [exact W|]. now repeat split.
    - cbn [g_trains]. unfold g_train. rewrite HT, HC. cbn [negb]. destruct (Nat.eqb_spec (length (t_x a)) 0) as [Z|_]; [apply length_zero_iff_nil in Z; contradiction|].
      destruct (modes_ok _ _ _ _ _ _ _ HG Hx c N E M) as (c1 & E1 & M1). pose proof (wf_modes (match t_modes a with Some m => m | None => g_modes s end) (match t_bs a with BNone => g_bs s | b => b end) (t_nw a) (t_ew a) (t_x a) c W) as W1.
      rewrite E1 in *. cbn [fst] in W1. destruct (IH G' (g_mid s (Some c1) (g_avg s) (g_out s) true) c1 _ _ HT eq_refl M1 W1 F') as (s' & c' & T & HC' & M' & W' & T1 & T2 & T3 & T4).
      exists s', c'. unfold allnodes, alledges in *. cbn [map concat]. rewrite !app_assoc. split; [exact T|]. split; [exact HC'|]. split; [exact M'|]. split; [exact W'|]. split; [exact T1|]. split; [exact T2|]. split; [exact T3|]. rewrite T4. now destruct calls.
  Qed.
  Theorem C262_union : forall out bs ms verbose calls G, Forall2 (call_graph bs ms) calls G -> nmass (allnodes G) <> f0 -> emass (alledges G) <> f0 ->
    exists s c cm avg dm, trains (gsfa_new out bs ms verbose) calls = (s, GOk tt) /\ g_c s = Some c /\ cdc_fix c = GOk (cm, avg, dm) /\
      (forall i, avg i = gmean (allnodes G) i) /\ (forall i j, cm i j = gcov (allnodes G) i j) /\ (forall i j, dm i j = gder (alledges G) i j).
  Proof.
    intros out bs ms verbose calls G F HN HE. destruct (trains_ok calls G (gsfa_new out bs ms verbose) cdc_new [] [] eq_refl eq_refl new_ok ltac:(split; reflexivity) F) as (s & c & T & HC & M & W & _).
    cbn [app] in M. destruct (fix_ok c _ _ W M HN HE) as (cm & avg & dm & EF & F1 & F2 & F3). exists s, c, cm, avg, dm. now repeat split.
  Qed.
  (** neither the order of the calls nor the distribution of the graphs over the calls matters *)
  Theorem C262_order : forall (G G' : list (list node * list edge)), Permutation (allnodes G) (allnodes G') -> Permutation (alledges G) (alledges G') ->
    (forall i, gmean (allnodes G) i = gmean (allnodes G') i) /\ (forall i j, gcov (allnodes G) i j = gcov (allnodes G') i j) /\ (forall i j, gder (alledges G) i j = gder (alledges G') i j).
  Proof.
    intros G G' PN PE. apply edges_perm in PE. destruct PE as [E1 E2]. pose proof PN as PN'. apply nodes_perm in PN'. destruct PN' as (N1 & N2 & _).
    assert (HM : forall i, gmean (allnodes G) i = gmean (allnodes G') i) by (intros; unfold gmean; now rewrite N1, N2). split; [exact HM|]. split; intros i j.
    - unfold gcov. rewrite N1. f_equal. rewrite (fsum_map_ext (allnodes G) _ (fun p : node => fst p * ((snd p i - gmean (allnodes G') i) * (snd p j - gmean (allnodes G') j)))%of) by (intros; now rewrite !HM). now apply fsum_perm, Permutation_map.
    - unfold gder. now rewrite E1, E2.
  Qed.

  (** ** C273-C274: the eigenvalue problem *)
  Definition trained (out : option nat) (bs : bsize) (ms : list mode) (calls : list targs) (s : gsfa) : Prop :=
    exists s0, trains (gsfa_new out bs ms false) calls = (s0, GOk tt) /\ stop s0 false None = (s, GOk tt).
  Definition outk (s : gsfa) (k : nat) (x : vec) : K := nth k (g_execute dim s None x) f0.
  (** weighted mean over the nodes and over the edges *)
  Definition nmean (N : list node) (f : vec -> K) : K := (fsum (map (fun p : node => fst p * f (snd p))%of N) / nmass N)%of.
  Definition emean (E : list edge) (f : vec -> vec -> K) : K := (fsum (map (fun e : edge => fst e * f (fst (snd e)) (snd (snd e)))%of E) / emass E)%of.
  Definition gsolver_ok (A0 B0 : mtx) : Prop := forall A B, (forall i j, A i j = A0 i j) -> (forall i j, B i j = B0 i j) -> forall k dfc d U, symmetric dim A -> symmetric dim B -> psd dim A -> psd dim B ->
    (forall n, k = Some n -> 1 <= n <= dim) -> solver (range_of k) A B = SolOk dfc d U -> exists D0 U0, gsolves dim A B D0 U0 /\ d = prefix (range_of k) D0 /\ U = prefix (range_of k) U0.
  Definition gsolver_complete (A0 B0 : mtx) : Prop := forall A B, (forall i j, A i j = A0 i j) -> (forall i j, B i j = B0 i j) -> forall k dfc d U, symmetric dim A -> symmetric dim B -> psd dim A -> psd dim B ->
    (forall n, k = Some n -> 1 <= n <= dim) -> solver (range_of k) A B = SolOk dfc d U -> exists D0 U0, gsolves dim A B D0 U0 /\ gcomplete dim A B U0 /\ d = prefix (range_of k) D0 /\ U = prefix (range_of k) U0.
  Lemma gcomplete_ok A B : gsolver_complete A B -> gsolver_ok A B.
  Proof. intros H A' B' EA EB k dfc d U SA SB PA PB Hk E. destruct (H A' B' EA EB k dfc d U SA SB PA PB Hk E) as (D0 & U0 & G1 & _ & G2). now exists D0, U0. Qed.
  Lemma quad_wsum {A} (l : list A) (w : A -> K) (f : A -> vec) (m : K) n (M : mtx) a b : (forall i j, M i j = fsum (map (fun t => w t * (f t i * f t j)) l) / m)%of ->
    quad n M a b = (fsum (map (fun t => w t * (dot n (f t) a * dot n (f t) b)) l) / m)%of.
  Proof.
    intros HM. unfold quad, dot at 1, mulv. rewrite (fsumn_ext n _ (fun i => fsumn n (fun j => fsum (map (fun t => w t * ((f t i * a i) * (f t j * b j))) l)) * finv m)%of).
    - rewrite fsumn_mulr. rewrite (Fdiv_def (fth K)). f_equal. rewrite (fsumn_ext n _ (fun i => fsum (map (fun t => w t * ((f t i * a i) * dot n (f t) b)) l))%of).
      + rewrite fsumn_fsum. apply fsum_map_ext. intros t _. rewrite fsumn_mul, fsumn_mulr. reflexivity.
      + intros i _. rewrite fsumn_fsum. apply fsum_map_ext. intros t _. unfold dot. now rewrite fsumn_mul, fsumn_mul.
    - intros i _. rewrite <- fsumn_mulr, <- fsumn_mul. apply fsumn_ext. intros j _. rewrite HM. rewrite (Fdiv_def (fth K)).
      rewrite (fsum_map_ext l (fun t => w t * (f t i * a i * (f t j * b j)))%of (fun t => (a i * b j) * (w t * (f t i * f t j)))%of) by (intros; ring). rewrite fsum_map_mul. ring.
  Qed.
  Lemma quad_gcov n M N a b : (forall i j, M i j = gcov N i j) -> quad n M a b = nmean N (fun x => dot n (sub x (gmean N)) a * dot n (sub x (gmean N)) b)%of.
  Proof. intros H. apply (quad_wsum N fst (fun p : node => sub (snd p) (gmean N)) (nmass N)). intros i j. rewrite H. reflexivity. Qed.
  Lemma quad_gder n M E a b : (forall i j, M i j = gder E i j) -> quad n M a b = emean E (fun u v => dot n (sub v u) a * dot n (sub v u) b)%of.
  Proof. intros H. apply (quad_wsum E fst (fun e : edge => sub (snd (snd e)) (fst (snd e))) (emass E)). intros i j. rewrite H. reflexivity. Qed.
  Lemma nmean_nonneg N f : Forall (fun p : node => (0 <= fst p)%of) N -> (0 < nmass N)%of -> (forall x, (0 <= f x)%of) -> (0 <= nmean N f)%of.
  Proof. intros F P H. apply fdiv_pos; [|exact P]. apply fsum_map_nonneg. intros p Hp. rewrite Forall_forall in F. apply fle_mul0; [now apply F|apply H]. Qed.
  Lemma emean_nonneg E f : Forall (fun p : edge => (0 <= fst p)%of) E -> (0 < emass E)%of -> (forall x y, (0 <= f x y)%of) -> (0 <= emean E f)%of.
  Proof. intros F P H. apply fdiv_pos; [|exact P]. apply fsum_map_nonneg. intros p Hp. rewrite Forall_forall in F. apply fle_mul0; [now apply F|apply H]. Qed.
  (** weights which are not negative *)
  Definition weighted_graph (N : list node) (E : list edge) : Prop := Forall (fun p : node => (0 <= fst p)%of) N /\ (0 < nmass N)%of /\ Forall (fun p : edge => (0 <= fst p)%of) E /\ (0 < emass E)%of.
  Lemma mats_ok N E A B : weighted_graph N E -> (forall i j, A i j = gder E i j) -> (forall i j, B i j = gcov N i j) -> symmetric dim A /\ symmetric dim B /\ psd dim A /\ psd dim B.
  Proof.
    intros (F1 & P1 & F2 & P2) HA HB. split; [|split; [|split]].
    - intros i j _ _. rewrite !HA. unfold gder, eprod. f_equal. apply fsum_map_ext. intros. unfold dd. ring.
    - intros i j _ _. rewrite !HB. unfold gcov. f_equal. apply fsum_map_ext. intros. ring.
    - intros w. rewrite (quad_gder dim A E) by exact HA. apply emean_nonneg; try assumption. intros. apply fsq.
    - intros w. rewrite (quad_gcov dim B N) by exact HB. apply nmean_nonneg; try assumption. intros. apply fsq.
  Qed.
  Lemma trained_ok out bs ms calls G s : trained out bs ms calls s -> Forall2 (call_graph bs ms) calls G -> weighted_graph (allnodes G) (alledges G) ->
    exists cm avg dm dfc, (forall i j, cm i j = gcov (allnodes G) i j) /\ (forall i, avg i = gmean (allnodes G) i) /\ (forall i j, dm i j = gder (alledges G) i j) /\
      solver (range_of out) dm cm = SolOk dfc (g_d s) (g_sf s) /\ g_avg s = Some avg /\ g_bias s = map (fun v => dot dim avg v) (g_sf s) /\ (forall k, out = Some k -> k <= dim) /\
      g_out s = Some (match out with Some k => k | None => dim end) /\ g_training s = false /\ g_c s = None /\ (forall a, In a (g_d s) -> (0 <= a)%of).
  Proof.
    intros (s0 & T & ST) F (_ & PN & _ & PE). assert (HN : nmass (allnodes G) <> f0) by (intros Z; rewrite Z in PN; unfold flt in PN; now rewrite flt_irrefl in PN). assert (HE : emass (alledges G) <> f0) by (intros Z; rewrite Z in PE; unfold flt in PE; now rewrite flt_irrefl in PE).
    destruct (trains_ok calls G (gsfa_new out bs ms false) cdc_new [] [] eq_refl eq_refl new_ok ltac:(split; reflexivity) F) as (s1 & c & T' & HC & M & W & T1 & T2 & T3 & T4). rewrite T in T'. injection T' as <-. cbn [app] in M.
    destruct (fix_ok c _ _ W M HN HE) as (cm & avg & dm & EF & F1 & F2 & F3). unfold g_stop in ST. rewrite T1, HC, EF in ST. destruct (g_started s0); cbn [negb andb] in ST; [|discriminate]. cbn [g_mid g_out g_started g_c g_bs g_modes g_verbose g_avg g_bias g_training g_d g_sf] in ST. rewrite T3 in ST. cbn [gsfa_new g_verbose] in ST. rewrite T2 in ST. cbn [gsfa_new g_out] in ST.
    assert (Q : exists rng, rng = range_of out /\ (forall k, out = Some k -> k <= dim) /\ match solver rng dm cm with SolOk _ d u => if length d =? 0 then False else if existsb (fun a => fltb a f0) d then False else s = mkG (Some (match out with Some k => k | None => dim end)) (g_bs s0) (g_modes s0) false None d u (Some avg) (map (fun v => dot dim avg v) u) false false | _ => False end).
    { destruct out as [k|].
      - destruct (Nat.leb_spec k dim) as [L|L]; [|discriminate]. exists (range_of (Some k)). split; [reflexivity|]. split; [intros ? [= <-]; exact L|]. cbn [range_of]. destruct (solver _ dm cm) as [dfc d u| |]; [|discriminate..]. destruct (length d =? 0); [discriminate|]. destruct (existsb _ d); [discriminate|]. injection ST as <-. reflexivity.
      - exists None. split; [reflexivity|]. split; [discriminate|]. destruct (solver _ dm cm) as [dfc d u| |]; [|discriminate..]. destruct (length d =? 0); [discriminate|]. destruct (existsb _ d); [discriminate|]. injection ST as <-. reflexivity. }
    destruct Q as (rng & -> & HO & Q). destruct (solver (range_of out) dm cm) as [dfc d u| |] eqn:ES; [|contradiction..]. destruct (length d =? 0); [contradiction|]. destruct (existsb (fun a => fltb a f0) d) eqn:EX; [contradiction|]. subst s. cbn [g_d g_sf g_avg g_bias g_out g_training g_c].
    exists cm, avg, dm, dfc. repeat (split; [first [assumption|reflexivity]|]).
    intros a Ha. unfold fle. destruct (fltb a f0) eqn:X; [|reflexivity]. assert (existsb (fun a => fltb a f0) d = true) by (apply existsb_exists; now exists a). congruence.
  Qed.
  Lemma outk_dot out bs ms calls G s k x : trained out bs ms calls s -> Forall2 (call_graph bs ms) calls G -> weighted_graph (allnodes G) (alledges G) -> k < length (g_sf s) ->
    outk s k x = dot dim (sub x (gmean (allnodes G))) (nth k (g_sf s) vzero).
  Proof.
    intros T F WG Hk. destruct (trained_ok _ _ _ _ _ _ T F WG) as (cm & avg & dm & dfc & _ & EA & _ & _ & _ & EB & _). unfold outk, g_execute, upto. rewrite EB.
    assert (GG : forall l k, k < length l -> nth k (map (fun p : vec * K => (dot dim x (fst p) - snd p)%of) (combine l (map (fun v => dot dim avg v) l))) f0 = (dot dim x (nth k l vzero) - dot dim avg (nth k l vzero))%of).
    { induction l as [|a l IH]; intros [|i] Hi; cbn in Hi; try lia; [reflexivity|]. cbn. apply IH. lia. }
    rewrite GG by exact Hk. rewrite <- dot_sub_l. apply dot_ext; [|reflexivity]. intros i _. unfold sub. now rewrite EA.
  Qed.
  Lemma trained_solves out bs ms calls G s : trained out bs ms calls s -> Forall2 (call_graph bs ms) calls G -> weighted_graph (allnodes G) (alledges G) -> gsolver_ok (gder (alledges G)) (gcov (allnodes G)) -> out <> Some 0 ->
    gsolves dim (gder (alledges G)) (gcov (allnodes G)) (g_d s) (g_sf s).
  Proof.
    intros T F WG OK NZ. destruct (trained_ok _ _ _ _ _ _ T F WG) as (cm & avg & dm & dfc & E1 & _ & E3 & ES & _ & _ & HO & _). destruct (mats_ok _ _ dm cm WG E3 E1) as (SA & SB & PA & PB).
    destruct (OK dm cm E3 E1 out dfc (g_d s) (g_sf s) SA SB PA PB) as (D0 & U0 & GS & ED & EU); [intros n ->; split; [destruct n; [now destruct NZ|lia]|now apply HO]|exact ES|].
    apply (prefix_solves _ _ _ _ _ (range_of out)) in GS. rewrite <- ED, <- EU in GS. destruct GS as (L & B & A & S). split; [exact L|]. split; [|split; [|exact S]]; intros i j Hi Hj.
    - rewrite <- (B i j Hi Hj). apply quad_mtx. intros. now rewrite E1.
    - rewrite <- (A i j Hi Hj). apply quad_mtx. intros. now rewrite E3.
  Qed.
  Lemma gmean_zero N k (u : vec) : nmass N <> f0 -> nmean N (fun x => dot k (sub x (gmean N)) u) = f0.
  Proof.
    intros H. unfold nmean. transitivity (f0 / nmass N)%of; [|field; exact H]. f_equal. unfold dot.
    rewrite (fsum_map_ext N _ (fun p : node => fsumn k (fun i => fst p * ((snd p i - gmean N i) * u i))%of)) by (intros; now rewrite fsumn_mul). rewrite <- fsumn_fsum. apply fsumn_zero. intros i _.
    rewrite (fsum_map_ext N _ (fun p : node => u i * (fst p * snd p i) - u i * gmean N i * fst p)%of) by (intros; ring). rewrite fsum_map_sub, !fsum_map_mul. transitivity (u i * nsum N i - u i * gmean N i * nmass N)%of; [reflexivity|]. unfold gmean. field. exact H.
  Qed.
  (** weighted mean zero, weighted variance one, uncorrelated *)
  Theorem C273_white : forall out bs ms calls G s k l, trained out bs ms calls s -> Forall2 (call_graph bs ms) calls G -> weighted_graph (allnodes G) (alledges G) ->
    gsolver_ok (gder (alledges G)) (gcov (allnodes G)) -> out <> Some 0 -> k < length (g_sf s) -> l < length (g_sf s) ->
    nmean (allnodes G) (outk s k) = f0 /\ nmean (allnodes G) (fun x => outk s k x * outk s l x)%of = (if k =? l then f1 else f0).
  Proof.
    intros out bs ms calls G s k l T F WG OK NZ Hk Hl. pose proof (trained_solves _ _ _ _ _ _ T F WG OK NZ) as (LD & HB & _). set (N := allnodes G) in *.
    assert (HN : nmass N <> f0) by (intros Z; destruct WG as (_ & P & _); fold N in P; rewrite Z in P; unfold flt in P; now rewrite flt_irrefl in P).
    assert (E : forall k x, k < length (g_sf s) -> outk s k x = dot dim (sub x (gmean N)) (nth k (g_sf s) vzero)) by (intros; now apply (outk_dot out bs ms calls G)).
    split.
    - rewrite <- (gmean_zero N dim (nth k (g_sf s) vzero) HN). unfold nmean. f_equal. apply fsum_map_ext. intros p _. now rewrite E.
    - rewrite <- (HB k l Hk Hl : _ = if k =? l then f1 else f0). rewrite (quad_gcov dim _ N) by reflexivity. unfold nmean. f_equal. apply fsum_map_ext. intros p _. now rewrite !E.
  Qed.
  (** d: the weighted delta values; the differences of different outputs are uncorrelated *)
  Lemma outk_diff out bs ms calls G s k (u v : vec) : trained out bs ms calls s -> Forall2 (call_graph bs ms) calls G -> weighted_graph (allnodes G) (alledges G) -> k < length (g_sf s) ->
    (outk s k v - outk s k u)%of = dot dim (sub v u) (nth k (g_sf s) vzero).
  Proof. intros T F WG Hk. rewrite !(outk_dot out bs ms calls G s k) by assumption. rewrite <- dot_sub_l. apply dot_ext; [|reflexivity]. intros i _. unfold sub. ring. Qed.
  Theorem C273_delta : forall out bs ms calls G s k l, trained out bs ms calls s -> Forall2 (call_graph bs ms) calls G -> weighted_graph (allnodes G) (alledges G) ->
    gsolver_ok (gder (alledges G)) (gcov (allnodes G)) -> out <> Some 0 -> k < length (g_sf s) -> l < length (g_sf s) ->
    emean (alledges G) (fun u v => (outk s k v - outk s k u) * (outk s l v - outk s l u))%of = (if k =? l then nth k (g_d s) f0 else f0) /\ length (g_d s) = length (g_sf s) /\ StronglySorted fle (g_d s).
  Proof.
    intros out bs ms calls G s k l T F WG OK NZ Hk Hl. pose proof (trained_solves _ _ _ _ _ _ T F WG OK NZ) as (LD & _ & HA & SS). split; [|now split].
    transitivity (nth k (g_d s) f0 * delta k l)%of; [|unfold delta; destruct (k =? l); ring]. rewrite <- (HA k l Hk Hl). rewrite (quad_gder dim _ (alledges G)) by reflexivity. unfold emean. f_equal. apply fsum_map_ext. intros e _. now rewrite !(outk_diff out bs ms calls G).
  Qed.
  (** slowest: among all linear functions with weighted variance one and uncorrelated *)
  Theorem C273_slowest : forall out bs ms calls G s W, trained out bs ms calls s -> Forall2 (call_graph bs ms) calls G -> weighted_graph (allnodes G) (alledges G) ->
    gsolver_complete (gder (alledges G)) (gcov (allnodes G)) -> out <> Some 0 -> length W <= length (g_sf s) ->
    let f := fun k (x : vec) => dot dim x (nth k W vzero) in
    let N := allnodes G in
    (forall i j, i < length W -> j < length W -> nmean N (fun x => (f i x - nmean N (f i)) * (f j x - nmean N (f j)))%of = if i =? j then f1 else f0) ->
    (fsumn (length W) (fun k => emean (alledges G) (fun u v => (outk s k v - outk s k u) * (outk s k v - outk s k u))%of)
     <= fsumn (length W) (fun k => emean (alledges G) (fun u v => (f k v - f k u) * (f k v - f k u))%of))%of.
  Proof.
    intros out bs ms calls G s W T F WG OK NZ LW f N HW. destruct (trained_ok _ _ _ _ _ _ T F WG) as (cm & avg & dm & dfc & E1 & _ & E3 & ES & _ & _ & HO & _). destruct (mats_ok _ _ dm cm WG E3 E1) as (SA & SB & PA & PB).
    assert (HO' : forall n, out = Some n -> 1 <= n <= dim) by (intros n ->; split; [destruct n; [now destruct NZ|lia]|now apply HO]).
    destruct (OK dm cm E3 E1 out dfc (g_d s) (g_sf s) SA SB PA PB HO' ES) as (D0 & U0 & GS & GC & ED & EU). fold N in E1.
    assert (HN : nmass N <> f0) by (intros Z; destruct WG as (_ & P & _); fold N in P; rewrite Z in P; unfold flt in P; now rewrite flt_irrefl in P).
    assert (BW : borth dim cm W).
    { intros i j Hi Hj. rewrite (quad_gcov dim cm N) by exact E1. rewrite <- (HW i j Hi Hj : _ = delta i j). unfold nmean at 1 2. f_equal. apply fsum_map_ext. intros p _. f_equal.
      assert (EM : forall k, dot dim (sub (snd p) (gmean N)) (nth k W vzero) = (f k (snd p) - nmean N (f k))%of).
      { intros k. unfold sub. rewrite dot_sub_l. f_equal. transitivity (dot dim (gmean N) (nth k W vzero) + nmean N (fun x => dot dim (sub x (gmean N)) (nth k W vzero)))%of; [rewrite gmean_zero by exact HN; ring|].
        unfold nmean, f. rewrite (fsum_map_ext N (fun p0 : node => fst p0 * dot dim (sub (snd p0) (gmean N)) (nth k W vzero))%of (fun p0 : node => fst p0 * dot dim (snd p0) (nth k W vzero) - dot dim (gmean N) (nth k W vzero) * fst p0)%of) by (intros; unfold sub; rewrite dot_sub_l; ring).
        rewrite fsum_map_sub, fsum_map_mul. set (g := dot dim (gmean N) (nth k W vzero)). set (h := fsum (map (fun x : node => fst x * dot dim (snd x) (nth k W vzero))%of N)). transitivity (g + (h - g * nmass N) / nmass N)%of; [reflexivity|]. field. exact HN. }
      now rewrite !EM. }
    pose proof (gen_ky_fan dim dm cm D0 U0 SA SB GS GC W BW) as KF.
    assert (LDU : length (g_d s) = length (g_sf s)) by (destruct (prefix_solves _ _ _ _ _ (range_of out) GS) as (LL & _); now rewrite <- ED, <- EU in LL).
    rewrite (fsumn_ext (length W) (fun k => emean (alledges G) (fun u v => (f k v - f k u) * (f k v - f k u))%of) (fun k => quad dim dm (nth k W vzero) (nth k W vzero))).
    - rewrite (fsumn_ext (length W) _ (fun k => nth k D0 f0)); [exact KF|]. intros k Hk. destruct (C273_delta out bs ms calls G s k k T F WG (gcomplete_ok _ _ OK) NZ ltac:(lia) ltac:(lia)) as (E & _). rewrite Nat.eqb_refl in E. rewrite E.
      rewrite ED. rewrite ED in LDU. destruct out as [n|]; cbn [range_of prefix] in *; [|reflexivity]. apply nth_firstn_. rewrite firstn_length in LDU. lia.
    - intros k _. rewrite (quad_gder dim dm (alledges G)) by exact E3. unfold emean. f_equal. apply fsum_map_ext. intros e _. unfold f, sub. rewrite !dot_sub_l. reflexivity.
  Qed.
  (** ** C274: graph_delta_values of the outputs *)
  Theorem C274_values : forall out nw l x s k, trained out BNone [MGraph] [mkT x BNone None nw (Some (EDict l))] s -> (forall v, nw = Some v -> length v = length x) -> valid x l -> x <> [] ->
    weighted_graph (graph_nodes f1 (node_weights nw x) x) (graph_edges f1 x l) ->
    gsolver_ok (gder (graph_edges f1 x l)) (gcov (graph_nodes f1 (node_weights nw x) x)) -> out <> Some 0 -> k < length (g_sf s) ->
    graph_delta_values (map (g_execute dim s None) x) l k = nth k (g_d s) f0.
  Proof.
    intros out nw l x s k T HL V Hx WG OK NZ Hk. set (N := graph_nodes f1 (node_weights nw x) x) in *. set (E := graph_edges f1 x l) in *.
    assert (EN : allnodes [(N, E)] = N) by (unfold allnodes; cbn; apply app_nil_r). assert (EE : alledges [(N, E)] = E) by (unfold alledges; cbn; apply app_nil_r).
    assert (F : Forall2 (call_graph BNone [MGraph]) [mkT x BNone None nw (Some (EDict l))] [(N, E)]).
    { constructor; [|constructor]. split; [exact Hx|]. cbn [fst snd t_modes t_bs t_nw t_ew t_x]. rewrite <- (app_nil_r N), <- (app_nil_r E). econstructor; [|constructor]. apply G_dict; auto. }
    destruct (C273_delta out BNone [MGraph] _ [(N, E)] s k k T F) as (D & _); try assumption; rewrite ?EN, ?EE; try assumption. rewrite Nat.eqb_refl, EE in D. rewrite <- D. unfold graph_delta_values, emean. f_equal.
    - unfold E, graph_edges. rewrite map_map. cbn [fst snd]. apply fsum_map_ext. intros e He. destruct (V e He) as [V1 V2]. assert (R : forall p, p < length x -> nth k (nth p (map (g_execute dim s None) x) []) f0 = outk s k (row x p)).
      { intros p Hp. unfold outk, row. rewrite (nth_indep _ [] (g_execute dim s None vzero)) by now rewrite map_length. now rewrite map_nth. }
      rewrite !R by assumption. ring.
    - unfold E, graph_edges, emass. rewrite map_map. cbn [fst]. apply fsum_map_ext. intros. ring.
  Qed.
  (** ** C263: groups *)
  Theorem C263_groups : forall w b (Bs : list (list vec)) c N E, b <> 0 -> Forall (fun B => length B = b) Bs -> measures c N E ->
    exists c', up_clustered w (BInt b) true (concat Bs) c = (c', GOk tt) /\ measures c' (N ++ wn w (concat Bs)) (E ++ cliques w Bs).
  Proof. intros. now apply homog_ok. Qed.
  Theorem C263_sizes : forall w (Bs : list (list vec)) c N E, Forall (fun B => B <> []) Bs -> measures c N E ->
    exists c', up_clustered w (BList (map (@length vec) Bs)) true (concat Bs) c = (c', GOk tt) /\ measures c' (N ++ wn w (concat Bs)) (E ++ cliques w Bs).
  Proof. intros w Bs c N E H M. cbn [up_clustered]. rewrite list_sum_lengths, Nat.eqb_refl. cbn [negb]. now apply blocks_ok. Qed.
  Theorem C263_loopless : forall w b (Bs : list (list vec)) c N E, 2 <= b -> Forall (fun B => length B = b) Bs -> measures c N E ->
    exists c', up_clustered w (BInt b) false (concat Bs) c = (c', GOk tt) /\ measures c' (N ++ wn w (concat Bs)) (E ++ flat_map (loopless w) Bs).
  Proof. intros. now apply loopless_ok. Qed.
  (** ** C264: consecutive groups *)
  Theorem C264_serial : forall w b bs (Bs : list (list vec)) c N E, b <> 0 -> 2 <= length Bs -> Forall (fun B => length B = b) Bs -> bs = BInt b \/ (exists k, bs = BList (repeat b (S k))) -> measures c N E ->
    exists c', up_serial w bs (concat Bs) c = (c', GOk tt) /\ measures c' (N ++ serial_nodes w Bs) (E ++ serial_edges w b Bs).
  Proof. intros w b bs Bs c N E H H0 H1 [-> | [k ->]] M; [|rewrite serial_list]; now apply serial_ok. Qed.
  (** one group: accepted, but num_samples and num_diffs stay zero, and stop_training divides by zero; sum_x is not zero *)
  Theorem C264_refuted : forall (B : list vec) out verbose, B <> [] -> exists s c, trains (gsfa_new out (BInt (length B)) [MSerial] verbose) [mkT B BNone None None None] = (s, GOk tt) /\ stop s false (Some false) = (s, GErr GZero) /\
    g_c s = Some c /\ c_n c = f0 /\ c_nd c = f0 /\ (forall i, sx c i = (two * sumv B i)%of) /\ (forall i j, sd c i j = (two * (two * gram B B i j))%of).
  Proof.
    intros B out verbose HB. assert (L : length B <> 0) by (destruct B; [contradiction|discriminate]). assert (NB : (fn (length B) : K) <> f0) by now apply fn_ne. cbn [g_trains]. unfold g_train. cbn [gsfa_new g_training negb g_c g_modes g_bs t_x t_bs t_modes t_nw t_ew]. destruct (Nat.eqb_spec (length B) 0); [contradiction|].
    cbn [up_modes up_mode]. unfold up_serial. cbn [serial_size]. destruct (length B) as [|b'] eqn:LB; [contradiction|]. rewrite Nat.mod_same by discriminate. cbn [Nat.eqb negb]. rewrite <- LB in *. rewrite Nat.sub_diag. cbn [bind].
    eexists _, _. split; [reflexivity|]. cbn [g_mid g_c g_out g_avg g_started g_training].
    match goal with |- context [Some (add_diffs ?P ?n ?w ?c)] => set (cc := add_diffs P n w c) end. assert (Z : c_n cc = f0) by (unfold cc; cbn [add_diffs c_n add_samples cdc_new]; ring).
    assert (FX : firstn (length B) B = B) by apply firstn_all. assert (XP : slice (length B) 0 B = []) by reflexivity.
    split; [|split; [reflexivity|split; [exact Z|split; [|split]]]].
    - unfold g_stop, cdc_fix. cbn [g_mid g_training g_started negb andb g_c]. assert (FE : feqb (c_n cc) f0 = true) by now apply feqb_eq. rewrite FE. reflexivity.
    - unfold cc. cbn [add_diffs c_nd add_samples cdc_new]. rewrite Nat.div_same by exact L. cbn [fn]. ring.
    - intros i. unfold cc, sx. cbn [add_diffs c_x add_samples cdc_new fst]. rewrite FX, XP. cbn [skipn]. unfold vadd, vscale. cbn [sumv map fsum]. unfold sumv. cbn [map fsum]. ring.
    - intros i j. unfold cc, sd. cbn [add_diffs c_d add_samples cdc_new]. rewrite FX, XP. cbn [skipn]. unfold mscale, madd. unfold media. rewrite Nat.div_same by exact L. cbn [seq map removelast tl]. unfold gram. cbn [combine map fsum]. field. exact NB.
  Qed.
  (** ** C265: all samples of the mixed graph have the same weight *)
  Theorem C265_mixed : forall b A Ms Z (c : cdc) N E, b <> 0 -> Forall (fun B => length B = b) (A :: Ms ++ [Z]) -> measures c N E -> exists c', mode1 MMixed (BInt b) None None (concat (A :: Ms ++ [Z])) c = (c', GOk tt) /\
    measures c' (N ++ wn (two + f1)%of (concat (A :: Ms ++ [Z]))) (E ++ clique two A ++ cliques f1 Ms ++ clique two Z ++ serial_edges f1 b (A :: Ms ++ [Z])).
  Proof. exact mixed_ok. Qed.
  (** ** C266: the regular mode and SFANode *)
  Definition regular_nodes (xs : list (list vec)) : list node := flat_map (wn f1) xs.
  Definition regular_edges (xs : list (list vec)) : list edge := flat_map (fun x => we f1 (combine (removelast x) (tl x))) xs.
  Lemma samples_plain (xs : list (list vec)) : samples true (plain xs) = concat xs.
  Proof. unfold samples, plain, cchunk. rewrite map_map. cbn. now rewrite map_id. Qed.
  Lemma regular_node_sum xs (f : vec -> K) : fsum (map (fun p : node => fst p * f (snd p))%of (regular_nodes xs)) = fsum (map f (concat xs)).
  Proof. unfold regular_nodes. induction xs as [|x xs IH]; [reflexivity|]. cbn [flat_map concat]. rewrite !map_app, !fsum_app, IH. f_equal. unfold wn. rewrite map_map. cbn [fst snd]. apply fsum_map_ext. intros. ring. Qed.
  Lemma regular_edge_sum xs (f : vec * vec -> K) : (forall u v, f (u, v) = f (v, u)) -> fsum (map (fun e : edge => fst e * f (snd e))%of (regular_edges xs)) = fsum (map f (steps (plain xs))).
  Proof.
    intros S. unfold regular_edges, steps, plain. rewrite map_map. induction xs as [|x xs IH]; [reflexivity|]. cbn [flat_map concat map fst]. rewrite !map_app, !fsum_app, IH. f_equal. unfold we. rewrite map_map. cbn [fst snd].
    rewrite (combine_swap (removelast x) (tl x)), map_map. apply fsum_map_ext. intros [u v] _. cbn [fst snd]. rewrite (S u v). ring.
  Qed.
  Lemma regular_mass xs : nmass (regular_nodes xs) = fn (length (concat xs)).
  Proof. rewrite fsum_ones, (regular_node_sum xs (fun _ => f1)), fsum_map_const. ring. Qed.
  Lemma regular_emass xs : emass (regular_edges xs) = fn (length (steps (plain xs))).
  Proof. transitivity (fsum (map (fun e : edge => fst e * (fun _ => f1) (snd e))%of (regular_edges xs))); [unfold emass; apply fsum_map_ext; intros; ring|]. rewrite (regular_edge_sum xs (fun _ => f1)) by reflexivity. rewrite fsum_map_const. ring. Qed.
  Theorem C266_regular : forall xs : list (list vec), 2 <= length (concat xs) -> 2 <= length (steps (plain xs)) ->
    let n := (fn (length (concat xs)) : K) in let m := (fn (length (steps (plain xs))) : K) in
    (forall i j, gcov (regular_nodes xs) i j = (n - f1) / n * covm true (plain xs) i j)%of /\ (forall i j, gder (regular_edges xs) i j = (m - f1) / m * derm (plain xs) i j)%of.
  Proof.
    intros xs H1 H2 n m. assert (NN : n <> f0) by (apply fn_ne; lia). assert (NM : m <> f0) by (apply fn_ne; lia).
    assert (NN1 : (n - f1)%of <> f0) by (intros Z; pose proof (fn_pred (K := K) _ H1) as P; fold n in P; rewrite Z in P; unfold flt in P; now rewrite flt_irrefl in P). assert (NM1 : (m - f1)%of <> f0) by (intros Z; pose proof (fn_pred (K := K) _ H2) as P; fold m in P; rewrite Z in P; unfold flt in P; now rewrite flt_irrefl in P).
    assert (GM : forall i, gmean (regular_nodes xs) i = PCAProofs.dmean (concat xs) i). { intros i. unfold gmean, PCAProofs.dmean. rewrite regular_mass. f_equal. apply (regular_node_sum xs (fun v => v i)). }
    split; intros i j.
    - rewrite cov_eq by now rewrite samples_plain. rewrite samples_plain. unfold gcov, PCAProofs.dcov. rewrite regular_mass. fold n.
      assert (S : fsum (map (fun p : node => fst p * ((snd p i - gmean (regular_nodes xs) i) * (snd p j - gmean (regular_nodes xs) j)))%of (regular_nodes xs)) = fsum (map (fun x : vec => (x i - PCAProofs.dmean (concat xs) i) * (x j - PCAProofs.dmean (concat xs) j))%of (concat xs))).
      { rewrite <- (regular_node_sum xs). apply fsum_map_ext. intros p _. now rewrite !GM. }
      rewrite S. field. now split.
    - rewrite der_eq. fold m. unfold gder. rewrite regular_emass. fold m. assert (S : eprod (regular_edges xs) i j = fsum (map (fun p => dstep p i * dstep p j)%of (steps (plain xs)))).
      { rewrite <- (regular_edge_sum xs (fun p => dstep p i * dstep p j)%of) by (intros u v; unfold dstep, sub; cbn; ring). unfold eprod. apply fsum_map_ext. intros e _. f_equal. unfold dd, dstep, sub. ring. }
      rewrite S. field. now split.
  Qed.
  (** the same directions: u solves the eigenvalue problem of SFANode iff it solves that of GSFANode, with the eigenvalue scaled *)
  Theorem C266_directions : forall (xs : list (list vec)) n0 (u : vec) (lam : K), 2 <= length (concat xs) -> 2 <= length (steps (plain xs)) ->
    let n := (fn (length (concat xs)) : K) in let m := (fn (length (steps (plain xs))) : K) in
    (forall i, mulv n0 (derm (plain xs)) u i = lam * mulv n0 (covm true (plain xs)) u i)%of <->
    (forall i, mulv n0 (gder (regular_edges xs)) u i = (m - f1) / m * (n / (n - f1)) * lam * mulv n0 (gcov (regular_nodes xs)) u i)%of.
  Proof.
    intros xs n0 u lam H1 H2 n m. destruct (C266_regular xs H1 H2) as [C D]. fold n m in C, D. assert (NN : n <> f0) by (apply fn_ne; lia). assert (NM : m <> f0) by (apply fn_ne; lia).
    assert (NN1 : (n - f1)%of <> f0) by (intros Z; pose proof (fn_pred (K := K) _ H1) as P; fold n in P; rewrite Z in P; unfold flt in P; now rewrite flt_irrefl in P). assert (NM1 : (m - f1)%of <> f0) by (intros Z; pose proof (fn_pred (K := K) _ H2) as P; fold m in P; rewrite Z in P; unfold flt in P; now rewrite flt_irrefl in P).
    assert (MC : forall i, mulv n0 (gcov (regular_nodes xs)) u i = ((n - f1) / n * mulv n0 (covm true (plain xs)) u i)%of) by (intros i; unfold mulv; rewrite <- fsumn_mul; apply fsumn_ext; intros; rewrite C; ring).
    assert (MD : forall i, mulv n0 (gder (regular_edges xs)) u i = ((m - f1) / m * mulv n0 (derm (plain xs)) u i)%of) by (intros i; unfold mulv; rewrite <- fsumn_mul; apply fsumn_ext; intros; rewrite D; ring).
    split; intros H i; specialize (H i).
    - rewrite MC, MD, H. field. repeat split; assumption.
    - rewrite MC, MD in H. set (a := mulv n0 (derm (plain xs)) u i) in *. set (b := mulv n0 (covm true (plain xs)) u i) in *. transitivity (m / (m - f1) * ((m - f1) / m * a))%of; [field; now split|]. rewrite H. field. repeat split; assumption.
  Qed.
  (** ** C267 *)
  Theorem C267_mirror : forall w h (x : list vec) c N E, h <> 0 -> 2 * h < length x -> measures c N E -> exists c1 c2,
    up_mirror w h x c = (c1, GOk tt) /\ up_smirror w h x c = (c2, GOk tt) /\ measures c1 (N ++ wn w x) (E ++ mirror_edges w h x) /\ measures c2 (N ++ wn w x) (E ++ mirror_edges w h x).
  Proof. intros w h x c N E H0 H1 M. destruct (mirror_ok w h x c N E H0 H1 M) as (c1 & E1 & M1). destruct (smirror_ok w h x c N E H0 H1 M) as (c2 & E2 & M2). now exists c1, c2. Qed.
  Theorem C267_truncating : forall w h (x : list vec) c N E, h <> 0 -> 2 * h < length x -> measures c N E -> exists c', up_truncating w h x c = (c', GOk tt) /\ measures c' (N ++ wn w x) (E ++ pair_edges (near h) w x).
  Proof. exact truncating_ok. Qed.
  (** ** C268: windows *)
  Theorem C268_fast_partial : forall w h (x : list vec) c N E, h <> 0 -> 4 * h <= length x -> measures c N E -> exists c', up_fwindow w h x c = (c', GOk tt) /\
    mnodes c' (N ++ window_nodes w h x) /\ medges c' (E ++ pair_edges (near h) w x).
  Proof. intros w h x c N E H0 H1 (M1 & M2 & M3). destruct (fwindow_ok w h x c N E H0 H1 M1 M3) as (c' & E' & R1 & R2 & R3). now exists c'. Qed.
  Theorem C268_slow : forall w h (x : list vec) c N E, h <> 0 -> 2 * h < length x -> measures c N E -> exists c', up_window w h x c = (c', GOk tt) /\
    mnodes c' (N ++ window_nodes w h x) /\ medges c' (E ++ pair_edges (ahead h) w x).
  Proof. intros w h x c N E H0 H1 (M1 & M2 & M3). destruct (window_ok w h x c N E H0 H1 M1 M3) as (c' & E' & R1 & R2 & R3). now exists c'. Qed.
  (** the fast one counts every pair twice: the same matrices, if nothing else is trained *)
  Theorem C268_same : forall w h (x : list vec), w <> f0 -> h <> 0 -> 4 * h <= length x -> exists c1 c2, up_fwindow w h x cdc_new = (c1, GOk tt) /\ up_window w h x cdc_new = (c2, GOk tt) /\
    (forall i j, sp c1 i j = sp c2 i j) /\ (forall i, sx c1 i = sx c2 i) /\ c_n c1 = c_n c2 /\ (forall i j, sd c1 i j = two * sd c2 i j)%of /\ c_nd c1 = (two * c_nd c2)%of.
  Proof.
    intros w h x Hw H0 H1. destruct (fwindow_ok w h x cdc_new [] [] H0 H1) as (c1 & E1 & (A1 & A2) & A3 & A4 & A5); [apply new_ok..|]. destruct (window_ok w h x cdc_new [] [] H0 ltac:(lia)) as (c2 & E2 & (B1 & B2) & B3 & B4 & B5); [apply new_ok..|].
    cbn [app] in *. exists c1, c2. destruct (near_twice w h x) as [T1 T2]. split; [exact E1|]. split; [exact E2|]. split; [intros; now rewrite A2, B2|]. split; [intros; now rewrite A1, B1|]. split; [now rewrite A3, B3|]. split; [intros; now rewrite A5, B5|now rewrite A4, B4].
  Qed.
  (** ** C269: the number of samples of the windows *)
  Lemma two_ne0 : (f1 + f1 : K)%of <> f0.
  Proof. intros Z. apply (fn_ne (K := K) 2); [discriminate|]. cbn [fn]. transitivity (f1 + f1 : K)%of; [ring|exact Z]. Qed.
  Lemma window_mass w h (x : list vec) : h <> 0 -> 2 * h < length x -> nmass (window_nodes w h x) = (w * (fn (length x) - fn h / two - f1 / two))%of.
  Proof.
    intros H0 H1. unfold window_nodes, nmass. rewrite map_map. cbn [fst]. rewrite fsum_map_mul. f_equal. change (fsum (map (wnode h (length x)) (seq 0 (length x)))) with (fsumn (length x) (wnode (K := K) h (length x))). set (n := length x) in *.
    assert (N2 : (fn (2 * h) : K) <> f0) by (apply fn_ne; lia). pose proof (two_ne0) as T2.
    rewrite (three_ranges _ h n) by lia.
    rewrite (fsumn_ext h _ (fun k => fn (h + k) / fn (2 * h))%of) by (intros k Hk; unfold wnode; destruct (Nat.ltb_spec k h); [reflexivity|lia]).
    rewrite (fsumn_ext (n - 2 * h) _ (fun _ => f1)) by (intros k Hk; unfold wnode; destruct (Nat.ltb_spec (h + k) h); [lia|]; destruct (Nat.leb_spec (n - h) (h + k)); [lia|reflexivity]).
    assert (R : fsum (map (wnode h n) (seq (n - h) h)) = fsumn h (fun k => fn (2 * h - 1 - k) / fn (2 * h) : K)%of).
    { assert (SQ : seq (n - h) h = map (fun k => n - h + k) (seq 0 h)). { generalize (n - h) as a. clear. induction h as [|h IH]; intros a; [reflexivity|]. cbn [seq map]. rewrite Nat.add_0_r. f_equal. rewrite (IH (S a)), <- seq_shift, map_map. apply map_ext. intros. lia. }
      rewrite SQ, map_map. apply fsum_map_ext. intros k Hk. apply in_seq in Hk. unfold wnode. destruct (Nat.ltb_spec (n - h + k) h); [lia|]. destruct (Nat.leb_spec (n - h) (n - h + k)); [|lia]. do 3 f_equal. lia. }
    rewrite R. rewrite fsumn_const. assert (P : (fsumn h (fun k => fn (h + k) / fn (2 * h)) + fsumn h (fun k => fn (2 * h - 1 - k) / fn (2 * h)) = fn h * ((fn (2 * h) + fn h - f1) / fn (2 * h)) :> K)%of).
    { rewrite <- fsumn_add, <- fsumn_const. apply fsumn_ext. intros k Hk. assert (Q : (fn (h + k) + fn (2 * h - 1 - k) = fn (2 * h) + fn h - f1 :> K)%of).
      { rewrite <- fn_add. replace (h + k + (2 * h - 1 - k)) with (2 * h + (h - 1)) by lia. rewrite fn_add. assert ((fn h : K) = fn (h - 1) + f1)%of as ->; [|ring]. replace h with (S (h - 1)) at 1 by lia. cbn [fn]. ring. }
      rewrite <- Q. field. exact N2. }
    rewrite P. assert (D : (fn (2 * h) : K) = ((f1 + f1) * fn h)%of) by (replace (2 * h) with (h + h) by lia; rewrite fn_add; ring). assert (NH : (fn h : K) <> f0) by now apply fn_ne.
    assert ((fn (n - 2 * h) : K) = fn n - fn (2 * h))%of as ->. { assert (X : (fn n : K) = (fn (n - 2 * h) + fn (2 * h))%of) by (rewrite <- fn_add; f_equal; lia). rewrite X. ring. }
    rewrite D. field. now split.
  Qed.
  (** the average of constant data is not that constant *)
  Theorem C269_refuted : forall w h (v : vec) n c cm avg dm m i, w <> f0 -> h <> 0 -> 2 * h < n -> m = up_window w h (repeat v n) cdc_new \/ (4 * h <= n /\ m = up_fwindow w h (repeat v n) cdc_new) ->
    m = (c, GOk tt) -> cdc_fix c = GOk (cm, avg, dm) -> (avg i * (fn n - fn h / two + f1 / two) = v i * (fn n - fn h / two - f1 / two))%of /\ (v i <> f0 -> avg i <> v i).
  Proof.
    intros w h v n c cm avg dm m i Hw H0 H1 Hm Em FX. assert (L : length (repeat v n) = n) by apply repeat_length.
    assert (MN : mnodes c (window_nodes w h (repeat v n)) /\ c_n c = ((fn n - (fn h / two - f1 / two)) * w)%of).
    { destruct Hm as [-> | [H4 ->]].
      - destruct (window_ok w h (repeat v n) cdc_new [] [] H0 ltac:(rewrite L; lia)) as (c' & E' & R1 & R2 & _); [apply new_ok..|]. rewrite Em in E'. injection E' as <-. rewrite L in R2. split; [exact R1|]. rewrite R2. cbn [cdc_new c_n]. ring.
      - destruct (fwindow_ok w h (repeat v n) cdc_new [] [] H0 ltac:(rewrite L; lia)) as (c' & E' & R1 & R2 & _); [apply new_ok..|]. rewrite Em in E'. injection E' as <-. rewrite L in R2. split; [exact R1|]. rewrite R2. cbn [cdc_new c_n]. ring. }
    destruct MN as [[S1 _] CN]. unfold cdc_fix in FX. destruct (feqb (c_n c) f0) eqn:FZ; [discriminate|]. assert (NZ : c_n c <> f0) by (intros Z; apply feqb_eq in Z; congruence). destruct (c_x c) as [[sx0 p]|] eqn:CX; [|discriminate]. destruct (c_d c) as [d|]; [|discriminate]. destruct (feqb (c_nd c) f0); [discriminate|]. injection FX as _ <- _.
    specialize (S1 i). unfold sx in S1. rewrite CX in S1. cbn [fst] in S1. assert (SV : sx0 i = (v i * (w * (fn n - fn h / two - f1 / two)))%of).
    { rewrite S1. rewrite <- L at 2. rewrite <- window_mass by (rewrite ?L; assumption). unfold window_nodes, nsum, nmass. rewrite !map_map. cbn [fst snd]. rewrite <- fsum_map_mul. apply fsum_map_ext. intros k Hk. apply in_seq in Hk. rewrite L in Hk.
      assert (RW : row (repeat v n) k = v) by (unfold row; rewrite (nth_indep _ vzero v) by (rewrite L; lia); apply nth_repeat). rewrite RW. ring. }
    set (q := (fn n - fn h / two + f1 / two : K)%of). assert (CQ : c_n c = (q * w)%of) by (rewrite CN; unfold q; rewrite !(Fdiv_def (fth K)); ring). assert (NQ : q <> f0) by (intros Z; apply NZ; rewrite CQ, Z; ring).
    assert (EQ : (vscale (f1 / c_n c) sx0 i * q = v i * (fn n - fn h / two - f1 / two))%of). { unfold vscale. rewrite SV, CQ. field. pose proof (two_ne0) as T2. repeat split; assumption. }
    split; [exact EQ|]. intros NV E. rewrite E in EQ. apply NV. pose proof (two_ne0) as T2.
    assert (X : (v i * (q - (fn n - fn h / two - f1 / two)))%of = f0) by (transitivity (v i * q - v i * (fn n - fn h / two - f1 / two))%of; [ring|]; rewrite EQ; ring). assert (Y : (q - (fn n - fn h / two - f1 / two) = f1)%of) by (unfold q; field; exact T2). rewrite Y in X. rewrite <- X. ring.
  Qed.
  (** ** C270: classification; the order of the samples does not matter *)
  Theorem C270_classes : forall labels w bs nw ew (x : list vec) c N E, sorts labels (argsort labels) -> length labels = length x -> x <> [] -> measures c N E ->
    exists c', mode1 (MClass labels w) bs nw ew x c = (c', GOk tt) /\ measures c' (N ++ wn w x) (E ++ class_edges w labels x).
  Proof. intros labels w bs nw ew x c N E S L Hx M. exact (mode_ok _ _ _ _ _ _ _ (G_class labels w bs nw ew x S L) Hx c N E M). Qed.
  (** the trace of the derivative matrix counts pairs of samples with equal labels only *)
  Theorem C270_pairs : forall labels w (x : list vec) e, length labels = length x -> In e (class_edges w labels x) ->
    exists a b, a < length x /\ b < length x /\ nth a labels 0 = nth b labels 0 /\ snd e = (row x a, row x b) /\ fst e = (w / fn (count_occ Nat.eq_dec labels (nth a labels 0%nat)))%of.
  Proof.
    intros labels w x e L He. unfold class_edges in He. apply in_flat_map in He. destruct He as (a & Ha & He). apply in_map_iff in He. destruct He as (b & <- & Hb). apply filter_In in Hb. destruct Hb as [Hb Q]. apply in_seq in Ha, Hb. apply Nat.eqb_eq in Q. exists a, b. cbn [fst snd]. repeat split; try lia. unfold lab in Q. congruence.
  Qed.
  (** ** C271: graphs given by the caller *)
  Theorem C271_dict : forall w nw (x : list vec) l c N E, (forall v, nw = Some v -> length v = length x) -> valid x l -> measures c N E ->
    exists c', up_graph w nw (Some (EDict l)) x c = (c', GOk tt) /\ up_graph_old w nw (Some (EDict l)) x c = (c', GOk tt) /\ measures c' (N ++ graph_nodes w (node_weights nw x) x) (E ++ graph_edges w x l).
  Proof. exact graph_dict_ok. Qed.
  Theorem C271_array_partial : forall w nw (x : list vec) W c N E, (forall v, nw = Some v -> length v = length x) -> balanced (length x) (node_weights nw x) W -> measures c N E ->
    exists c1 c2, up_graph w nw (Some (EArr (length x) (length x) W)) x c = (c1, GOk tt) /\ up_graph_old w nw (Some (EArr (length x) (length x) W)) x c = (c2, GOk tt) /\
    measures c1 (N ++ graph_nodes w (node_weights nw x) x) (E ++ array_edges w x W) /\ measures c2 (N ++ graph_nodes w (node_weights nw x) x) (E ++ array_edges w x W).
  Proof.
    intros w nw x W c N E H B M. destruct (graph_array_ok w nw x W c N E H B M) as (c1 & E1 & M1). destruct (graph_old_ok w nw x W c N E H M) as (c2 & E2 & M2). now exists c1, c2.
  Qed.
  Theorem C271_old : forall w nw (x : list vec) W c N E, (forall v, nw = Some v -> length v = length x) -> measures c N E ->
    exists c', up_graph_old w nw (Some (EArr (length x) (length x) W)) x c = (c', GOk tt) /\ measures c' (N ++ graph_nodes w (node_weights nw x) x) (E ++ array_edges w x W).
  Proof. exact graph_old_ok. Qed.
  (** ** C272: the dual graph of DualSerial has weight zero *)
  Definition same_sums (c c' : cdc) : Prop := c_n c' = c_n c /\ c_nd c' = c_nd c /\ (forall i, sx c' i = sx c i) /\ (forall i j, sp c' i j = sp c i j) /\ (forall i j, sd c' i j = sd c i j).
  Lemma serial_zero bs (x : list vec) (c c' : cdc) : up_serial f0 bs x c = (c', GOk tt) -> same_sums c c'.
  Proof.
    unfold up_serial. destruct (serial_size bs) as [[|b]|e]; try discriminate. destruct (negb _); [discriminate|]. intros E. injection E as <-. unfold same_sums, add_diffs, add_samples, sx, sp, sd. cbn [c_n c_nd c_x c_d].
    repeat split; intros; try ring; destruct (c_x c) as [[s p]|]; cbn [fst snd]; destruct (c_d c) as [d|]; unfold vadd, vscale, madd, mscale, vzero; try ring.
  Qed.
  Theorem C272_refuted : forall b k nw ew (x : list vec) c c', b <> 0 -> k <> 0 ->
    mode1 (MDual k) (BInt b) nw ew x c = (c', GOk tt) -> exists c1, mode1 MSerial (BInt b) nw ew x c = (c1, GOk tt) /\ same_sums c1 c'.
  Proof.
    intros b k nw ew x c c' Hb Hk. cbn [up_mode]. destruct b as [|b]; [contradiction|]. destruct (Nat.eqb_spec k 0); [contradiction|]. destruct (up_serial f1 (BInt (S b)) x c) as [c1 [[]|e]]; cbn [bind]; [|discriminate]. intros E. exists c1. split; [reflexivity|]. now apply serial_zero in E.
  Qed.
  (** ** C275: verbose *)
  Theorem C275_refuted : forall s c cm avg dm debug, g_training s = true -> g_started s = true -> g_c s = Some c -> cdc_fix c = GOk (cm, avg, dm) ->
    stop s debug (Some true) = (g_mid s (Some c) (Some avg) (g_out s) true, GErr GAttribute) /\ (g_verbose s = true -> stop s debug None = (g_mid s (Some c) (Some avg) (g_out s) true, GErr GAttribute)).
  Proof. intros s c cm avg dm debug H1 H2 H3 H4. unfold g_stop. rewrite H1, H2, H3, H4. cbn [andb negb]. split; [reflexivity|]. cbn [g_mid g_verbose]. intros ->. reflexivity. Qed.
  Theorem C275_quiet : forall s debug c cm avg dm d u fc rng k, g_training s = true -> g_started s = true -> g_c s = Some c -> cdc_fix c = GOk (cm, avg, dm) ->
    (g_out s = Some k /\ k <= dim /\ rng = Some (1, Z.of_nat k)%Z \/ g_out s = None /\ k = dim /\ rng = None) -> solver rng dm cm = SolOk fc d u -> d <> [] -> (forall a, In a d -> fle f0 a) -> exists s', stop s debug (Some false) = (s', GOk tt).
  Proof.
    intros s debug c cm avg dm d u fc rng k H1 H2 H3 H4 H5 H6 H7 H8. unfold g_stop. rewrite H1, H2, H3, H4. cbn [andb negb g_mid g_out g_c]. assert (L : length d =? 0 = false) by (destruct d; [contradiction|reflexivity]).
    assert (X : existsb (fun a : K => fltb a f0) d = false) by (apply Bool.not_true_iff_false; intros X; apply existsb_exists in X; destruct X as (a & Ha & Q); specialize (H8 a Ha); unfold fle in H8; congruence).
    destruct H5 as [(-> & Hk & ->) | (-> & -> & ->)]; [rewrite (proj2 (Nat.leb_le _ _) Hk)|]; rewrite H6, L, X; eexists; reflexivity.
  Qed.
  (** ** C276: smart_unlabeled2 *)
  Theorem C276_graph : forall (x : list vec) c N E, x <> [] -> c_x c <> None -> c_d c <> None -> nmass N <> f0 -> emass E <> f0 -> measures c N E ->
    let q := nmass N in let nw2 := (q * (f1 / fn 5) / fn (length x))%of in
    exists c', mode1 MSmart2 BNone None None x c = (c', GOk tt) /\
    measures c' ((N ++ wn nw2 x) ++ wn (- (f1 / fn 40))%of x) ((escale (q / emass E * (f1 - f1 / fn 5))%of E ++ cross (nw2 / q)%of N x) ++ clique (- (f1 / fn 40))%of x).
  Proof. intros x c N E. exact (smart2_ok x c N E). Qed.
  (** ** C277: smart_unlabeled3 *)
  Lemma sx_samples p v n w (c : cdc) i : sx (add_samples p v n w c) i = (sx c i + w * v i)%of.
  Proof. unfold add_samples, sx. cbn [c_x]. destruct (c_x c) as [[s q]|]; cbn [fst]; unfold vadd, vscale, vzero; ring. Qed.
  Lemma sx_diffs p n w (c : cdc) i : sx (add_diffs p n w c) i = sx c i. Proof. reflexivity. Qed.
  Theorem C277_sums : forall (x : list vec) c c', mode1 MSmart3 BNone None None x c = (c', GOk tt) ->
    let n1 := c_n c in let n2 := (fn (length x) : K) in let adj := ((n1 / fn 10 - f1) / (n1 / fn 10 - f1 + vunl / fn 10 * n2))%of in
    (forall i, sx c' i = adj * (two - adj) * sx c i + vunl * sumv x i)%of /\ c_n c' = (n1 + vunl * n2)%of.
  Proof.
    intros x c c'. cbn [up_mode]. unfold up_smart3. destruct (c_x c) as [[sl pl]|] eqn:CX; [|discriminate]. destruct (feqb _ f0); [discriminate|]. destruct (c_d c) as [d|]; [|discriminate]. destruct (feqb _ f0); [discriminate|].
    set (ten := fn 10 : K). clearbody ten. remember (fn (length x) : K) as n2 eqn:L2. unfold up_homog. destruct (length x) as [|n] eqn:LX; [intros E; cbv beta iota zeta delta [bind] in E; discriminate E|]. rewrite Nat.mod_same by discriminate. cbn [Nat.eqb negb bind]. intros E. cbv zeta in E. injection E as <-. split.
    - intros i. unfold up_unlabeled. rewrite !sx_samples, !sx_diffs, !sx_samples. unfold sx at 1. cbn [c_x fst]. unfold vscale. unfold sx. rewrite CX. cbn [fst]. ring.
    - cbn [add_samples add_diffs c_n up_unlabeled]. rewrite LX, <- L2. ring.
  Qed.
  (** constant data: the average is not that constant *)
  Theorem C277_refuted : forall (v : vec) n c c' cm avg dm i, n <> 0 -> vunl <> f0 -> v i <> f0 -> c_n c <> f0 -> sx c i = (c_n c * v i)%of ->
    mode1 MSmart3 BNone None None (repeat v n) c = (c', GOk tt) -> cdc_fix c' = GOk (cm, avg, dm) -> avg i <> v i.
  Proof.
    intros v n c c' cm avg dm i Hn HU HV H1 HS E FX EA. destruct (C277_sums _ _ _ E) as [SX CN]. specialize (SX i). rewrite repeat_length in *. set (n1 := c_n c) in *. set (n2 := (fn n : K)) in *. set (ten := (fn 10 : K)) in *.
    assert (N2 : n2 <> f0) by now apply fn_ne. assert (T : ten <> f0) by now apply fn_ne.
    assert (D1 : (n1 / ten - f1 + vunl / ten * n2)%of <> f0).
    { intros Z. revert E. cbn [up_mode]. unfold up_smart3. destruct (c_x c) as [[sl pl]|]; [|discriminate]. rewrite repeat_length. fold n1 n2 ten. assert (Q : feqb (n1 / ten - f1 + vunl / ten * n2)%of f0 = true) by now apply feqb_eq. rewrite Q. discriminate. }
    set (adj := ((n1 / ten - f1) / (n1 / ten - f1 + vunl / ten * n2))%of) in *.
    assert (SR : sumv (repeat v n) i = (n2 * v i)%of) by (unfold sumv, n2; clear; induction n as [|n IH]; cbn [repeat map fsum fn]; [ring|rewrite IH; ring]). rewrite SR, HS in SX.
    unfold cdc_fix in FX. destruct (feqb (c_n c') f0) eqn:FZ; [discriminate|]. assert (NZ : c_n c' <> f0) by (intros Z; apply feqb_eq in Z; congruence). destruct (c_x c') as [[sx0 p]|] eqn:CX; [|discriminate]. destruct (c_d c') as [d|]; [|discriminate]. destruct (feqb (c_nd c') f0); [discriminate|]. injection FX as _ <- _.
    unfold sx in SX. rewrite CX in SX. cbn [fst] in SX. unfold vscale in EA. assert (X : sx0 i = (v i * c_n c')%of) by (rewrite <- EA; field; exact NZ). rewrite X, CN in SX.
    assert (Y : (v i * n1 * ((f1 - adj) * (f1 - adj)) = f0)%of). { transitivity (v i * (n1 + vunl * n2) - (adj * (two - adj) * (n1 * v i) + vunl * (n2 * v i)))%of; [ring|]. rewrite SX. ring. }
    assert (A : ((f1 - adj) * (n1 / ten - f1 + vunl / ten * n2) = vunl / ten * n2)%of) by (set (q := (n1 / ten - f1)%of) in *; set (r := (vunl / ten * n2)%of) in *; unfold adj; field; exact D1).
    assert (B : f1 = adj). { destruct (fmul_eq0 _ _ Y) as [Q|Q]; [destruct (fmul_eq0 _ _ Q); contradiction|]. apply fsq0 in Q. transitivity (f1 - adj + adj)%of; [ring|rewrite Q; ring]. }
    rewrite <- B in A. assert (Z : (vunl * n2 = f0)%of) by (transitivity (vunl / ten * n2 * ten)%of; [field; exact T|]; rewrite <- A; ring). destruct (fmul_eq0 _ _ Z); contradiction.
  Qed.
  (** ** C278: a failed stop_training loses nothing *)
  Theorem C278_retry : forall s debug verbose s' e, stop s debug verbose = (s', GErr e) ->
    g_c s' = g_c s /\ g_training s' = g_training s /\ g_started s' = g_started s /\ g_bs s' = g_bs s /\ g_modes s' = g_modes s /\ (forall a, fst (g_train argsort vunl s' a) = g_mid s' (g_c (fst (g_train argsort vunl s a))) (g_avg s') (g_out s') (g_started (fst (g_train argsort vunl s a))) /\ snd (g_train argsort vunl s' a) = snd (g_train argsort vunl s a)).
  Proof.
    intros s debug verbose s' e E. assert (P : g_c s' = g_c s /\ g_training s' = g_training s /\ g_started s' = g_started s /\ g_bs s' = g_bs s /\ g_modes s' = g_modes s).
    { revert E. unfold g_stop. destruct (g_training s && negb (g_started s)); [intros E; now injection E as <- _|]. destruct (negb (g_training s)); [intros E; now injection E as <- _|]. destruct (g_c s) as [c|] eqn:C; [|intros E; injection E as <- _; now rewrite C].
      destruct (cdc_fix c) as [[[cm avg] dm]|e0]; [|intros E; injection E as <- _; now rewrite C]. destruct (match verbose with Some _ => _ | None => _ end); [intros E; injection E as <- _; now cbn|]. cbn [g_mid g_out]. destruct (match g_out s with Some _ => _ | None => _ end) as [[out rng]|]; [|intros E; injection E as <- _; now cbn].
      destruct (solver rng dm cm) as [fc d u| |]; [|intros E; injection E as <- _; now cbn|intros E; injection E as <- _; now cbn]. destruct (length d =? 0); [intros E; injection E as <- _; now cbn|]. destruct (existsb _ d); [intros E; injection E as <- _; now cbn|]. discriminate. }
    destruct P as (P1 & P2 & P3 & P4 & P5). do 5 (split; [assumption|]). intros a. unfold g_train. rewrite P1, P2, P4, P5. destruct (negb (g_training s)); [cbn [fst snd]; rewrite <- P1, <- P3; split; [now destruct s'|reflexivity]|].
    destruct (length (t_x a) =? 0); [cbn [fst snd]; rewrite <- P1, <- P3; split; [now destruct s'|reflexivity]|]. destruct (g_c s) as [c|]; [|now split]. destruct (up_modes _ _ _ _ _ _ _ _) as [c1 r]. now split.
  Qed.
  (** unlabeled samples alone have no edges *)
  Theorem C278_unlabeled : forall xs out bs verbose s, xs <> [] -> Forall (fun x => x <> []) xs -> trains (gsfa_new out bs [MUnlabeled] verbose) (map (fun x => mkT x BNone None None None) xs) = (s, GOk tt) -> forall debug vb, stop s debug vb = (s, GErr GType).
  Proof.
    intros xs out bs verbose s Hxs F E debug vb. assert (P : g_training s = true /\ g_started s = true /\ exists c, g_c s = Some c /\ c_d c = None /\ c_n c = fn (length (concat xs))).
    { assert (G : forall l s0 n, g_modes s0 = [MUnlabeled] -> g_training s0 = true -> (l = [] -> g_started s0 = true) -> Forall (fun x : list vec => x <> []) l -> (exists c, g_c s0 = Some c /\ c_d c = None /\ c_n c = (fn n : K)) -> forall s1, trains s0 (map (fun x => mkT x BNone None None None) l) = (s1, GOk tt) ->
        g_training s1 = true /\ g_started s1 = true /\ exists c, g_c s1 = Some c /\ c_d c = None /\ c_n c = fn (n + length (concat l))).
      { induction l as [|x l IH]; intros s0 n M T ST FL (c & C & D & N) s1 E1; cbn [map g_trains] in E1.
        - injection E1 as <-. cbn [concat length]. rewrite Nat.add_0_r. split; [exact T|]. split; [now apply ST|]. now exists c.
        - inversion FL as [|? ? HX FL']; subst. unfold g_train in E1. rewrite T, C, M in E1. cbn [negb t_x t_modes t_bs t_nw t_ew] in E1. destruct (Nat.eqb_spec (length x) 0) as [Z|Z]; [destruct x; [contradiction|discriminate]|]. cbn [up_modes up_mode bind] in E1.
          destruct (IH (g_mid s0 (Some (up_unlabeled f1 x c)) (g_avg s0) (g_out s0) true) (n + length x) M T (fun _ => eq_refl) FL' ltac:(exists (up_unlabeled f1 x c); split; [reflexivity|]; split; [exact D|]; cbn [up_unlabeled add_samples c_n]; rewrite N, fn_add; ring) s1 E1) as (R1 & R2 & c1 & R3 & R4 & R5).
          split; [exact R1|]. split; [exact R2|]. exists c1. cbn [concat]. rewrite app_length, Nat.add_assoc. now repeat split. }
      destruct (G xs (gsfa_new out bs [MUnlabeled] verbose) 0 eq_refl eq_refl ltac:(intros Z; contradiction) F ltac:(exists cdc_new; repeat split) s E) as (R1 & R2 & c & R3). repeat split; try assumption. exists c. exact R3. }
    destruct P as (P1 & P2 & c & P3 & P4 & P5). unfold g_stop. rewrite P1, P2, P3. cbn [negb andb]. unfold cdc_fix. rewrite P5, P4. rewrite feqb_ne; [|apply fn_ne; destruct xs as [|x xs]; [contradiction|]; inversion F as [|? ? HX _]; subst; destruct x; [contradiction|discriminate]].
    destruct (c_x c) as [[s0 p]|]; reflexivity.
  Qed.
  (** ** C279: serial_regression changes the block size of the modes after it *)
  Theorem C279_refuted : forall k labels w ms bs bs' nw ew (x : list vec) c, modes (MRegress k labels w :: ms) bs nw ew x c = modes (MRegress k labels w :: ms) bs' nw ew x c.
  Proof. reflexivity. Qed.
  Theorem C279_kept : forall m ms bs nw ew (x : list vec) c c', (forall k labels w, m <> MRegress k labels w) -> mode1 m bs nw ew x c = (c', GOk tt) -> modes (m :: ms) bs nw ew x c = modes ms bs nw ew x c'.
  Proof. intros m ms bs nw ew x c c' H E. cbn [up_modes]. rewrite E. cbn [bind]. destruct m; try reflexivity. now exfalso; apply (H b labels w). Qed.
  (** ** C280: block sizes that do not fit *)
  Theorem C280_refuted : forall w l loops (x : list vec) c, length x <> list_sum l -> up_clustered w (BList l) loops x c = (c, GErr GType).
  Proof. intros w l loops x c H. cbn [up_clustered]. destruct (Nat.eqb_spec (length x) (list_sum l)); [contradiction|reflexivity]. Qed.
  Theorem C280_int : forall w b loops (x : list vec) c, b <> 0 -> length x mod b <> 0 -> up_clustered w (BInt b) loops x c = (c, GErr GValue) /\ up_serial w (BInt b) x c = (c, GErr GValue).
  Proof. intros w b loops x c Hb H. destruct b as [|b]; [contradiction|]. cbn [up_clustered up_homog]. unfold up_serial. cbn [serial_size]. destruct (Nat.eqb_spec (length x mod S b) 0); [contradiction|]. now split. Qed.
End Props.

(** * Examples over the rationals *)
Section Examples.
  Local Open Scope Q_scope.
  Definition vQ : Qc := Q2Qc (1 # 724).                                  (* about 2.0 ** (-9.5) *)
  Definition argsortQ (l : list nat) : list nat := flat_map (fun v => filter (fun k => (nth k l 0%nat =? v)%nat) (seq 0 (length l))) (seq 0 (S (list_max l))).
  Definition SG : option (Z * Z) -> @mtx Qc_of -> @mtx Qc_of -> solres Qc_of (@vec Qc_of) := fun rng A B => S2 MNone rng 0%nat A B.
  Notation tr := (@g_trains Qc_of argsortQ vQ). Notation st := (@g_stop Qc_of 2 SG).
  Notation md := (@up_mode Qc_of argsortQ vQ). Notation mds := (@up_modes Qc_of argsortQ vQ).
  Notation MT x := (@mkT Qc_of x BNone None None None).
  Definition sq4 : list (@vec Qc_of) := [p2 1 1; p2 1 (-1); p2 (-1) (-1); p2 (-1) 1].
  Definition one (a : Q) : @vec Qc_of := p2 a 0.
  Definition d2 (M : @mtx Qc_of) : list Q := map this [M 0%nat 0%nat; M 0%nat 1%nat; M 1%nat 1%nat].
  Definition sums (c : @cdc Qc_of) : list Q := map this [sx c 0%nat; sx c 1%nat] ++ d2 (sp c) ++ [this (c_n c)] ++ d2 (sd c) ++ [this (c_nd c)].
  Definition mats (r : gres (@mtx Qc_of * @vec Qc_of * @mtx Qc_of)) : list Q := match r with GOk (cm, avg, dm) => map this [avg 0%nat; avg 1%nat] ++ d2 cm ++ d2 dm | _ => [] end.
  Definition fixed (s : @gsfa Qc_of) : list Q := match g_c s with Some c => mats (cdc_fix c) | None => [] end.
  Definition gshow (r : @gsfa Qc_of * gres unit) : option (list Q * list (list Q)) := match r with (s, GOk _) => Some (map this (g_d s), map (fun v : @vec Qc_of => map this [v 0; v 1]%nat) (g_sf s)) | _ => None end.
  Notation node := (Qc_of * @vec Qc_of)%type. Notation edge := (Qc_of * (@vec Qc_of * @vec Qc_of))%type.
  (** C262: a time series, then two groups: the union of a path of four samples and of two cliques *)
  Definition calls2 : list (@targs Qc_of) := [MT sq4; mkT sq4 (BInt 2) (Some [MClustered]) None None].
  Definition graphs2 : list (list node * list edge) := [(wn f1 sq4, we f1 (combine (removelast sq4) (tl sq4))); (wn f1 sq4, cliques f1 [firstn 2 sq4; skipn 2 sq4])].
  Lemma calls2_graph : Forall2 (call_graph argsortQ BNone [MRegular]) calls2 graphs2.
  Proof.
    constructor; [|constructor; [|constructor]]; (split; [discriminate|]).
    - change (modes_graph argsortQ [MRegular] BNone None None sq4 (wn f1 sq4) (we f1 (combine (removelast sq4) (tl sq4)))). rewrite <- (app_nil_r (wn _ _)), <- (app_nil_r (we _ _)). constructor; [constructor; now right|constructor].
    - change (modes_graph argsortQ [MClustered] (BInt 2) None None sq4 (wn f1 sq4) (cliques f1 [firstn 2 sq4; skipn 2 sq4])). rewrite <- (app_nil_r (wn _ _)), <- (app_nil_r (cliques _ _)). constructor; [|constructor].
      apply (G_clustered argsortQ 2 None None [firstn 2 sq4; skipn 2 sq4]); [discriminate|repeat constructor].
  Qed.
  Example ex_C262 : fixed (fst (tr (gsfa_new None BNone [MRegular] false) calls2)) = [0; 0; 1; 0; 1; 4 # 7; 0; 16 # 7] /\ d2 (gder (alledges graphs2)) ++ d2 (gcov (allnodes graphs2)) ++ map this [nmass (allnodes graphs2); emass (alledges graphs2)] = [4 # 7; 0; 16 # 7; 1; 0; 1; 8; 7].
  Proof. split; vm_compute; reflexivity. Qed.
  (** C263: two groups of two samples: the first feature tells the groups *)
  Example ex_C263 : gshow (st (fst (tr (gsfa_new None (BInt 2) [MClustered] false) [MT sq4])) false None) = Some ([0; 2], [[1; 0]; [0; 1]]) /\
    gshow (st (fst (tr (gsfa_new None (BList [2; 2]%nat) [MClustered] false) [MT sq4])) false None) = Some ([0; 2], [[1; 0]; [0; 1]]) /\
    sums (fst (up_clustered f1 (BInt 2) false sq4 cdc_new)) = [0; 0; 4; 0; 4; 4; 0; 0; 16; 4] /\ sums (fst (up_clustered f1 (BList [1; 3]%nat) true sq4 cdc_new)) = [0; 0; 4; 0; 4; 4; 16 # 3; -8 # 3; 16 # 3; 4].
  Proof. repeat split; vm_compute; reflexivity. Qed.
  (** C264 *)
  Example ex_C264 : sums (fst (up_serial f1 (BInt 2) sq4 cdc_new)) = [0; 0; 4; 0; 4; 4; 16; 0; 8; 4] /\ snd (up_serial f1 (BInt 2) sq4 cdc_new) = GOk tt /\
    snd (tr (gsfa_new None (BInt 4) [MSerial] false) [MT sq4]) = GOk tt /\ snd (st (fst (tr (gsfa_new None (BInt 4) [MSerial] false) [MT sq4])) false None) = GErr GZero.
  Proof. repeat split; vm_compute; reflexivity. Qed.
  (** C265 *)
  Example ex_C265 : sums (fst (md MMixed (BInt 1) None None [one 1; one 2; one 4] cdc_new)) = [21; 0; 63; 0; 0; 9; 10; 0; 0; 9] /\ snd (md MMixed (BInt 1) None None [one 1; one 2; one 4] cdc_new) = GOk tt.
  Proof. split; vm_compute; reflexivity. Qed.
  (** C266: the matrices of SFANode are 4/3 and 3/2 times as large *)
  Example ex_C266 : gshow (st (fst (tr (gsfa_new None BNone [MRegular] false) [MT sq4])) false None) = Some ([4 # 3; 8 # 3], [[1; 0]; [0; 1]]) /\
    d2 (covm true (plain [sq4])) ++ d2 (derm (plain [sq4])) ++ d2 (gcov (regular_nodes [sq4])) ++ d2 (gder (regular_edges [sq4])) = [4 # 3; 0; 4 # 3; 2; 0; 4; 1; 0; 1; 4 # 3; 0; 8 # 3].
  Proof. split; vm_compute; reflexivity. Qed.
  (** C267 *)
  Definition five : list (@vec Qc_of) := [one 1; one 2; one 4; one 8; one 16].
  Example ex_C267 : sums (fst (up_mirror f1 1 five cdc_new)) = [31; 0; 341; 0; 0; 5; 170; 0; 0; 10] /\ sums (fst (up_smirror f1 1 five cdc_new)) = [31; 0; 341; 0; 0; 5; 170; 0; 0; 10] /\ sums (fst (up_truncating f1 1 five cdc_new)) = [31; 0; 341; 0; 0; 5; 170; 0; 0; 8].
  Proof. repeat split; vm_compute; reflexivity. Qed.
  (** C268 *)
  Example ex_C268 : sums (fst (up_fwindow f1 1 five cdc_new)) = [45 # 2; 0; 425 # 2; 0; 0; 5; 170; 0; 0; 8] /\ sums (fst (up_window f1 1 five cdc_new)) = [45 # 2; 0; 425 # 2; 0; 0; 5; 85; 0; 0; 4].
  Proof. split; vm_compute; reflexivity. Qed.
  (** the fast one is wrong for short inputs: 2h < n < 4h *)
  Theorem C268_refuted : exists h (x : list (@vec Qc_of)), (0 < h)%nat /\ (2 * h < length x)%nat /\ snd (up_fwindow f1 h x cdc_new) = GOk tt /\ snd (up_window f1 h x cdc_new) = GOk tt /\
    this (sd (fst (up_fwindow f1 h x cdc_new)) 0%nat 0%nat) = 22 /\ this (sd (fst (up_window f1 h x cdc_new)) 0%nat 0%nat) = 5 /\
    this (c_nd (fst (up_fwindow f1 h x cdc_new))) = 4 /\ this (c_nd (fst (up_window f1 h x cdc_new))) = 2.
  Proof. exists 1%nat, [one 1; one 2; one 4]. split; [lia|]. split; [cbn; lia|]. repeat split; vm_compute; reflexivity. Qed.
  (** C269: five times the sample 1: the average is 4/5 *)
  Example ex_C269 : mats (cdc_fix (fst (up_window f1 1 (repeat (one 1) 5) cdc_new))) = [4 # 5; 0; 4 # 25; 0; 0; 0; 0; 0] /\ mats (cdc_fix (fst (up_fwindow f1 1 (repeat (one 1) 5) cdc_new))) = [4 # 5; 0; 4 # 25; 0; 0; 0; 0; 0].
  Proof. split; vm_compute; reflexivity. Qed.
  (** C270: labels 1, 0, 0, 1: the second coordinate tells the classes *)
  Definition labs : list nat := [1; 0; 0; 1]%nat.
  Lemma labs_sorted : sorts labs (argsortQ labs).
  Proof. split; [change (argsortQ labs) with [1; 2; 0; 3]%nat; change (seq 0 (length labs)) with [0; 1; 2; 3]%nat; apply (Permutation_trans (l' := [1; 0; 2; 3]%nat)); [apply perm_skip, perm_swap|apply perm_swap]|change (argsortQ labs) with [1; 2; 0; 3]%nat; repeat constructor]. Qed.
  Example ex_C270 : gshow (st (fst (tr (gsfa_new None BNone [MClass labs f1] false) [MT sq4])) false None) = Some ([0; 2], [[0; 1]; [1; 0]]) /\ d2 (gder (class_edges f1 labs sq4)) = [2; 0; 0] /\ sorts labs (argsortQ labs).
  Proof. split; [vm_compute; reflexivity|]. split; [vm_compute; reflexivity|]. apply labs_sorted. Qed.
  (** C271: the edges of a path, as a dictionary and as an array *)
  Definition Wpath : @mtx Qc_of := fun a b => if ((a + 1 =? b) || (b + 1 =? a))%nat%bool then f1 else f0.
  Definition dpath : list ((nat * nat) * Qc_of) := [((0, 1)%nat, f1); ((1, 0)%nat, f1); ((1, 2)%nat, f1); ((2, 1)%nat, f1); ((2, 3)%nat, f1); ((3, 2)%nat, f1)].
  Definition deg4 : list Qc_of := [f1; f1 + f1; f1 + f1; f1]%of.
  Example ex_C271 : sums (fst (up_graph f1 (Some deg4) (Some (EDict dpath)) sq4 cdc_new)) = [0; -2; 6; 0; 6; 6; 8; 0; 16; 6] /\ sums (fst (up_graph f1 (Some deg4) (Some (EArr 4 4 Wpath)) sq4 cdc_new)) = [0; -2; 6; 0; 6; 6; 8; 0; 16; 6] /\
    sums (fst (up_graph_old f1 (Some deg4) (Some (EArr 4 4 Wpath)) sq4 cdc_new)) = [0; -2; 6; 0; 6; 6; 8; 0; 16; 6].
  Proof. repeat split; vm_compute; reflexivity. Qed.
  (** with node weights that are not the degrees, the array gives another matrix than the dictionary of the same edges; its diagonal can be negative *)
  Theorem C271_refuted : exists (x : list (@vec Qc_of)) W l, (forall a b, W a b = fsum (map (fun e : (nat * nat) * Qc_of => if ((fst (fst e) =? a) && (snd (fst e) =? b))%nat%bool then snd e else f0) l)) /\
    snd (up_graph f1 None (Some (EArr (length x) (length x) W)) x cdc_new) = GOk tt /\ snd (up_graph f1 None (Some (EDict l)) x cdc_new) = GOk tt /\
    sums (fst (up_graph f1 None (Some (EDict l)) x cdc_new)) <> sums (fst (up_graph f1 None (Some (EArr (length x) (length x) W)) x cdc_new)) /\ this (sd (fst (up_graph f1 None (Some (EArr (length x) (length x) W)) x cdc_new)) 0%nat 0%nat) = -4 /\
    this (sd (fst (up_graph f1 None (Some (EDict l)) x cdc_new)) 0%nat 0%nat) = 0.
  Proof.
    set (l := [((0, 1)%nat, f1 + f1)%of; ((1, 0)%nat, f1 + f1)%of] : list ((nat * nat) * Qc_of)).
    exists [one 1; one 1], (fun a b => fsum (map (fun e : (nat * nat) * Qc_of => if ((fst (fst e) =? a) && (snd (fst e) =? b))%nat%bool then snd e else f0) l)), l. split; [reflexivity|]. split; [reflexivity|]. split; [reflexivity|]. split; [vm_compute; discriminate|]. split; vm_compute; reflexivity.
  Qed.
  (** C272 *)
  Example ex_C272 : sums (fst (md (MDual 2) (BInt 2) None None sq4 cdc_new)) = sums (fst (md MSerial (BInt 2) None None sq4 cdc_new)) /\ snd (md (MDual 2) (BInt 2) None None sq4 cdc_new) = GOk tt /\
    sums (fst (up_serial f1 (BInt 2) (dual 2 2 sq4) cdc_new)) = [0; 0; 4; 0; 4; 4; 8; 0; 8; 4].
  Proof. repeat split; vm_compute; reflexivity. Qed.
  (** C273: whitened, with the delta values 0 and 2; every other direction is faster *)
  Example ex_C273 : exists s, trained (K := Qc_of) argsortQ vQ 2 SG None (BInt 2) [MClustered] [MT sq4] s /\ map this (g_d s) = [0; 2] /\ map (fun x => map this (g_execute 2 s None x)) sq4 = [[1; 1]; [1; -1]; [-1; -1]; [-1; 1]].
  Proof. exists (fst (st (fst (tr (gsfa_new None (BInt 2) [MClustered] false) [MT sq4])) false None)). split; [|split; vm_compute; reflexivity]. eexists. split; [reflexivity|]. rewrite (surjective_pairing (g_stop _ _ _ _ _)). f_equal. Qed.
  (** C274 *)
  Definition path_node : @gsfa Qc_of := fst (st (fst (tr (gsfa_new None BNone [MGraph] false) [mkT sq4 BNone None None (Some (EDict dpath))])) false None).
  Example ex_C274 : map this (g_d path_node) = [4 # 3; 8 # 3] /\ map this (map (graph_delta_values (map (g_execute 2 path_node None) sq4) dpath) [0; 1]%nat) = [4 # 3; 8 # 3].
  Proof. split; vm_compute; reflexivity. Qed.
  (** C275 *)
  Example ex_C275 : snd (st (fst (tr (gsfa_new None (BInt 2) [MClustered] false) [MT sq4])) false (Some true)) = GErr GAttribute /\ snd (st (fst (tr (gsfa_new None (BInt 2) [MClustered] true) [MT sq4])) false None) = GErr GAttribute /\
    snd (st (fst (tr (gsfa_new None (BInt 2) [MClustered] true) [MT sq4])) false (Some false)) = GOk tt.
  Proof. repeat split; vm_compute; reflexivity. Qed.
  (** C276: four labelled samples, then four unlabeled ones *)
  Example ex_C276 : fixed (fst (tr (gsfa_new None (BInt 2) [MClustered] false) [MT sq4; mkT [one 2; one (-2)] BNone (Some [MSmart2]) None None])) = [0; 0; 28 # 19; 0; 16 # 19; 8 # 5; 0; 32 # 19] /\
    snd (tr (gsfa_new None (BInt 2) [MClustered] false) [MT sq4; mkT [one 2; one (-2)] BNone (Some [MSmart2]) None None]) = GOk tt.
  Proof. split; vm_compute; reflexivity. Qed.
  (** two labelled samples and 20 unlabeled ones: a negative variance *)
  Theorem C276_refuted : exists x y : list (@vec Qc_of), let s := tr (gsfa_new None (BInt 2) [MClustered] false) [MT x; mkT y BNone (Some [MSmart2]) None None] in snd s = GOk tt /\
    match g_c (fst s) with Some c => match cdc_fix c with GOk (cm, _, _) => this (cm 0%nat 0%nat) = -1 # 19 | _ => False end | None => False end.
  Proof. exists [one 0; one 0], (repeat (one 1) 10 ++ repeat (one (-1)) 10). vm_compute. repeat split. Qed.
  (** C277: constant data *)
  Example ex_C277 : let s := tr (gsfa_new None (BInt 2) [MClustered] false) [MT (repeat (one 1) 20); mkT (repeat (one 1) 5) BNone (Some [MSmart3]) None None] in snd s = GOk tt /\ hd 1 (fixed (fst s)) = 6082541201 # 6082544097 /\ (hd 1 (fixed (fst s)) ?= 1) = Lt.
  Proof. repeat split; vm_compute; reflexivity. Qed.
  (** C278: unlabeled samples alone, then a time series *)
  Example ex_C278 : let s0 := fst (tr (gsfa_new None BNone [MUnlabeled] false) [MT sq4]) in snd (st s0 false None) = GErr GType /\ gshow (st (fst (tr (fst (st s0 false None)) [mkT sq4 BNone (Some [MRegular]) None None])) false None) = Some ([4 # 3; 8 # 3], [[1; 0]; [0; 1]]).
  Proof. split; vm_compute; reflexivity. Qed.
  (** C279: serial_regression with blocks of one sample, then groups of two samples, which become groups of one *)
  Example ex_C279 : sums (fst (mds [MRegress 1 [0; 1; 2; 3]%nat f1; MClustered] (BInt 2) None None sq4 cdc_new)) = sums (fst (mds [MRegress 1 [0; 1; 2; 3]%nat f1; MClustered] (BInt 1) None None sq4 cdc_new)) /\
    sums (fst (mds [MRegress 1 [0; 1; 2; 3]%nat f1; MClustered] (BInt 2) None None sq4 cdc_new)) <> sums (fst (mds [MClustered; MRegress 1 [0; 1; 2; 3]%nat f1] (BInt 2) None None sq4 cdc_new)).
  Proof. split; vm_compute; [reflexivity|discriminate]. Qed.
  (** C280 *)
  Example ex_C280 : snd (tr (gsfa_new None (BList [2; 3]%nat) [MClustered] false) [MT sq4]) = GErr GType /\ snd (tr (gsfa_new None (BInt 3) [MClustered] false) [MT sq4]) = GErr GValue /\ snd (tr (gsfa_new None (BList [2; 3]%nat) [MSerial] false) [MT sq4]) = GErr GValue.
  Proof. repeat split; vm_compute; reflexivity. Qed.
End Examples.
