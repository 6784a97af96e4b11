(** Properties C308-C311: MCANode. *)
From Coq Require Import List Arith QArith Qcanon Bool Lia Field.
From Verif Require Import OField LinAlg IncModel IncProofs IncProps.
Import ListNotations.
Open Scope nat_scope.

Section Mca.
  Context {K : ofield}.
  Add Field Kim1 : (fth K).
  Notation vec := (vec (K := K)). Notation mtx := (mtx (K := K)). Notation mca := (mca (K := K)).
  Variable sq : K -> K.
  Hypothesis SQ : is_sqrt sq.
  Definition mvecs (s : mca) : list vec := match m_live s with Some l => fst l | None => [] end.
  Definition mvals (s : mca) : list K := match m_live s with Some l => snd l | None => [] end.
  (** a node with its vectors: n inputs, o components *)
  Definition mready (n o : nat) (s : mca) : Prop :=
    m_in s = Some n /\ m_out s = Some o /\ m_init s <> None /\ exists vs ds, m_live s = Some (vs, ds) /\ length vs = o /\ length ds = o.
  (** the step size of component k and the factor of its old vector *)
  Definition rate (eps : K) (k : nat) : K := (eps / (f1 + fn k * (fn 6 / fn 5)))%of.
  Definition keep (nrm : bool) (h d : K) : K := (if nrm then fn 3 / fn 2 - h else fn 3 / fn 2 - h * (d * d))%of.
  (** the part of v in the directions already found *)
  Definition found (n : nat) (ws : list vec) (v : vec) : vec := fun i => fsum (map (fun w => dot n w v / dot n w w * w i)%of ws).
  (** the new vector of component k before the normalization *)
  Definition updated n eps gamma nrm (c : mtx) k (before : list vec) (v : vec) (d : K) : vec :=
    fun i => (keep nrm (rate eps k) d * v i - rate eps k * (mulv n c v i + gamma * found n before v i))%of.

  Lemma mulv_plus n (c : mtx) g (w v : vec) l i : mulv n (fun i k => (c i k + g * (w i * w k) / l)%of) v i = (mulv n c v i + g * (dot n w v / l * w i))%of.
  Proof.
    unfold mulv, dot. rewrite (fsumn_ext n (fun j => (c i j + g * (w i * w j) / l) * v j)%of (fun j => c i j * v j + (g * w i / l) * (w j * v j))%of).
    - rewrite fsumn_add, fsumn_mul. rewrite !(Fdiv_def (fth K)). ring.
    - intros j Hj. rewrite !(Fdiv_def (fth K)). ring.
  Qed.
  Lemma mcols_spec n eps gamma nrm : forall vs ds (c : mtx) j ws es, length vs = length ds -> mcols sq n eps gamma nrm c j vs ds = Some (ws, es) ->
    length ws = length vs /\ length es = length vs /\ forall k, k < length vs -> exists u : vec, (forall i, i < n -> u i = updated n eps gamma nrm c (j + k) (firstn k ws) (nthv k vs) (nth k ds f0) i) /\
      dot n u u <> f0 /\ nth k es f0 = sq (dot n u u) /\ forall i, i < n -> nthv k ws i = if nrm then (u i / sq (dot n u u))%of else u i.
  Proof.
    induction vs as [|v vs IH]; intros ds c j ws es LE E; destruct ds as [|d ds]; try discriminate; cbn [mcols] in E.
    { injection E as <- <-. split; [reflexivity|]. split; [reflexivity|]. intros k Hk. cbn in Hk. lia. }
    set (h := (eps / (f1 + fn j * six_fifths))%of) in E. set (f := (if nrm then three_halves - h else three_halves - h * (d * d))%of) in E.
    set (u := tab n (fun i => f * v i - h * mulv n c v i)%of) in E. destruct (iszero (dot n u u)) eqn:Z; [discriminate|]. set (c' := (fun i k => c i k + gamma * (u i * u k) / dot n u u)%of) in E.
    destruct (mcols sq n eps gamma nrm c' (S j) vs ds) as [[ws' es']|] eqn:EM; [|discriminate]. injection E as <- <-. injection LE as LE. destruct (IH ds c' (S j) ws' es' LE EM) as (L1 & L2 & SP). cbn [length]. split; [now rewrite L1|]. split; [now rewrite L2|].
    assert (NZ : dot n u u <> f0) by (intros X; rewrite (proj2 (iszero_spec _) X) in Z; discriminate).
    assert (SP2 := SQ (dot n u u) (dot_sq n u)). destruct SP2 as (SP2 & SP3). assert (NS : sq (dot n u u) <> f0) by (intros X; rewrite X in SP3; apply NZ; rewrite <- SP3; ring).
    intros [|k] Hk.
    - exists u. split; [|split; [exact NZ|split; [reflexivity|]]].
      + intros i Hi. unfold u. rewrite tab_in by exact Hi. unfold updated, found, nthv. cbn [firstn map fsum nth]. rewrite Nat.add_0_r. change (rate eps j) with h. change (keep nrm h d) with f. ring.
      + intros i Hi. unfold nthv. cbn [nth]. destruct nrm; [|reflexivity]. unfold over. now rewrite tab_in by exact Hi.
    - destruct (SP k ltac:(cbn in Hk; lia)) as (u' & U1 & U2 & U3 & U4). exists u'. split; [|split; [exact U2|split; [exact U3|exact U4]]]. intros i Hi. rewrite (U1 i Hi). change (nthv (S k) (v :: vs)) with (nthv k vs). change (nth (S k) (d :: ds) f0) with (nth k ds f0). cbn [firstn].
      replace (j + S k) with (S j + k) by lia. unfold updated, found. cbn [map fsum]. unfold c'. rewrite mulv_plus. set (vk := nthv k vs). set (w := if nrm then over n u (sq (dot n u u)) else u).
      assert (W : (dot n w vk / dot n w w * w i)%of = (dot n u vk / dot n u u * u i)%of).
      { unfold w. destruct nrm; [|reflexivity]. set (q := sq (dot n u u)) in *. assert (EO : forall i, i < n -> over n u q i = (f1 / q * u i)%of) by (intros i0 Hi0; unfold over; rewrite tab_in by exact Hi0; field; exact NS).
        rewrite (dot_ext n _ _ vk vk EO (fun _ _ => eq_refl)), (dot_ext n _ _ _ _ EO EO), (EO i Hi), !dot_scale, !dot_scale_l. field. split; exact NS || exact NZ. }
      rewrite W. ring.
  Qed.

  (** ** C308: one update *)
  Theorem C308_update : forall rnd n o s x s', mready n o s -> m_batch s = true \/ length x = 1 -> m_train sq rnd n x s = (s', None) ->
    mready n o s' /\ m_iter s' = m_iter s + length x /\ m_eps s' = m_eps s /\ m_gamma s' = m_gamma s /\ m_norm s' = m_norm s /\ m_batch s' = m_batch s /\
    forall k, k < o -> exists u : vec, (forall i, i < n -> u i = updated n (m_eps s) (m_gamma s) (m_norm s) (gram x) k (firstn k (mvecs s')) (nthv k (mvecs s)) (nth k (mvals s) f0) i) /\ flt f0 (nth k (mvals s') f0) /\
      (nth k (mvals s') f0 * nth k (mvals s') f0)%of = dot n u u /\ if m_norm s then dot n (nthv k (mvecs s')) (nthv k (mvecs s')) = f1 /\ (forall i, i < n -> u i = (nth k (mvals s') f0 * nthv k (mvecs s') i)%of) else forall i, i < n -> nthv k (mvecs s') i = u i.
  Proof.
    intros rnd n o s x s' (A & B & C & vs & ds & L & LV & LD) BX E.
    assert (E1 : bnd (m_train_ sq x (mkM (m_eps s) (m_gamma s) (m_norm s) (m_in s) (m_out s) (m_init s) (m_live s) (m_iter s) true (m_batch s))) (fun s => (m_count (length x) s, None)) = (s', None)).
    { unfold m_train, m_checks, m_check_input in E. rewrite A in E. cbn [agree] in E. rewrite Nat.eqb_refl in E. cbn [andb] in E. destruct (length x =? 0) eqn:X0; cbn [negb bnd] in E; [discriminate|]. unfold m_check_params in E. cbn [m_init] in E. destruct (m_init s) eqn:MI; [|easy]. cbn [bnd m_batch m_eps m_gamma m_norm m_in m_out m_init m_live m_iter] in E.
      rewrite A. destruct (m_batch s) eqn:MB; [exact E|]. destruct BX as [?|LX]; [discriminate|]. destruct x as [|r [|? ?]]; try discriminate. cbn [each] in E. destruct (bnd (m_train_ sq [r] _) _) as [s1 [e|]]; cbn [bnd] in E; [discriminate|]. injection E as ->. reflexivity. }
    unfold m_train_ in E1. cbn [m_out m_live m_in m_eps m_gamma m_norm] in E1. rewrite B, L, A in E1. destruct (mcols sq n (m_eps s) (m_gamma s) (m_norm s) (gram x) 0 vs ds) as [[ws es]|] eqn:EM; cbn [bnd] in E1; [|discriminate]. injection E1 as <-.
    destruct (mcols_spec n (m_eps s) (m_gamma s) (m_norm s) vs ds (gram x) 0 ws es ltac:(lia) EM) as (L1 & L2 & SP). unfold mready, mvecs, mvals. cbn [m_count m_in m_out m_init m_live m_iter m_eps m_gamma m_norm m_batch fst snd]. rewrite L. cbn [fst snd].
    split; [split; [reflexivity|split; [reflexivity|split; [exact C|exists ws, es; split; [reflexivity|lia]]]]|]. do 5 (split; [reflexivity|]). intros k Hk. destruct (SP k ltac:(lia)) as (u & U1 & U2 & U3 & U4). exists u. split; [exact U1|]. rewrite U3.
    assert (P : flt f0 (dot n u u)) by (apply fle_ne_lt; [apply dot_sq|congruence]). split; [now apply sq_pos|]. split; [apply SQ, dot_sq|]. pose proof (flt_ne0 _ (sq_pos sq SQ _ P)) as NS. destruct (m_norm s); [|exact U4]. split; [apply (unit_norm sq SQ n u); assumption|]. intros i Hi. rewrite (U4 i Hi). field. exact NS.
  Qed.
  Lemma rate0 (eps : K) : rate eps 0 = eps.
  Proof. unfold rate. change (fn 0 : K) with (f0 : K). set (q := (fn 6 / fn 5 : K)%of). replace (f1 + f0 * q)%of with (f1 : K) by ring. field. apply f10. Qed.
  Lemma fourteen : (fn 3 / fn 2 - f1 / fn 10 - f1 / fn 10 * fn 14)%of = (f0 : K).
  Proof.
    pose proof (fn_ne (K := K) 2 ltac:(lia)) as N2. pose proof (fn_ne (K := K) 5 ltac:(lia)) as N5. replace (fn 10 : K) with (fn 2 * fn 5 : K)%of by (cbn [fn]; ring).
    replace (fn 3 / fn 2 - f1 / (fn 2 * fn 5) - f1 / (fn 2 * fn 5) * fn 14)%of with ((fn 3 * fn 5 - f1 - fn 14) / (fn 2 * fn 5) : K)%of by (field; now split). replace (fn 3 * fn 5 - f1 - fn 14 : K)%of with (f0 : K) by (cbn [fn]; ring). field. now split.
  Qed.
  Lemma fsub_zero (a b : K) : (a - b)%of = f0 -> a = b. Proof. intros H. replace a with (a - b + b)%of by ring. rewrite H. ring. Qed.
  (** the default step size, a sample in the direction of the vector with squared norm 14: the new vector is zero *)
  Theorem C308_refuted : exists s x, mready 3 1 s /\ m_eps s = (f1 / fn 10)%of /\ m_norm s = true /\ dot 3 (nthv 0 (mvecs s)) (nthv 0 (mvecs s)) <> f0 /\ forall rnd, snd (m_train sq rnd 3 [x] s) = Some XNan.
  Proof.
    set (v := (fun i => fn (i + 1)) : vec). exists (mkM (f1 / fn 10)%of f1 true (Some 3) (Some 1) (Some (3, [v])) (Some ([v], [norm sq 3 v])) 0 false false), v.
    pose proof (fn_ne (K := K) 10 ltac:(lia)) as N10. pose proof (fn_ne (K := K) 2 ltac:(lia)) as N2.
    split; [split; [reflexivity|split; [reflexivity|split; [discriminate|exists [v], [norm sq 3 v]; auto]]]|]. split; [reflexivity|]. split; [reflexivity|]. assert (D : dot 3 v v = fn 14) by (unfold dot, fsumn, v; cbn; ring).
    split; [unfold mvecs; cbn [m_live fst nthv nth]; rewrite D; now apply fn_ne|]. intros rnd. unfold m_train, m_checks, m_check_input. cbn [m_in m_eps m_gamma m_norm m_out m_init m_live m_iter m_batch agree Nat.eqb length negb andb bnd m_check_params each m_train_ mcols].
    set (u := tab 3 _). assert (Z : iszero (dot 3 u u) = true).
    { apply iszero_spec. rewrite (dot_ext 3 u (fun _ => f0) u (fun _ => f0)); [unfold dot, fsumn; cbn; ring| |].
      all: intros i Hi; unfold u; rewrite tab_in by exact Hi; assert (M : mulv 3 (gram [v]) v i = (fn 14 * v i)%of) by (rewrite <- D; unfold mulv, gram, dot, fsumn; cbn [map seq fsum]; ring);
        rewrite M; change (f1 / fn 10 / (f1 + fn 0 * six_fifths))%of with (rate (f1 / fn 10)%of 0); rewrite rate0; change three_halves with (fn 3 / fn 2 : K)%of;
        transitivity ((fn 3 / fn 2 - f1 / fn 10 - f1 / fn 10 * fn 14) * v i)%of; [ring|]; rewrite fourteen; ring. }
    rewrite Z. reflexivity.
  Qed.

  (** ** C309: orthogonal eigenvectors of the data keep their directions *)
  Lemma found_zero n (ws : list vec) (v : vec) i : (forall w, In w ws -> dot n w v = f0) -> found n ws v i = f0.
  Proof. intros H. unfold found. induction ws as [|w ws IH]; [reflexivity|]. cbn [map fsum]. rewrite IH by (intros; apply H; now right). rewrite (H w (or_introl eq_refl)). rewrite (Fdiv_def (fth K)). ring. Qed.
  Lemma in_firstn_nthv k (ws : list vec) w : In w (firstn k ws) -> exists p, p < k /\ p < length ws /\ w = nthv p ws.
  Proof. revert k. induction ws as [|a ws IH]; intros [|k] H; cbn in H; try easy. destruct H as [<-|H]; [exists 0; cbn; repeat split; lia|]. destruct (IH k H) as (p & P1 & P2 & ->). exists (S p). cbn. repeat split; lia. Qed.
  Theorem C309_fixed : forall rnd n o s x s' (lam : nat -> K), mready n o s -> m_batch s = true \/ length x = 1 -> m_train sq rnd n x s = (s', None) ->
    (forall k, k < o -> forall i, i < n -> mulv n (gram x) (nthv k (mvecs s)) i = (lam k * nthv k (mvecs s) i)%of) -> (forall k l, k < o -> l < o -> k <> l -> dot n (nthv k (mvecs s)) (nthv l (mvecs s)) = f0) ->
    forall k, k < o -> forall i, i < n -> let h := rate (m_eps s) k in
      if m_norm s then (nth k (mvals s') f0 * nthv k (mvecs s') i)%of = ((fn 3 / fn 2 - h - h * lam k) * nthv k (mvecs s) i)%of
      else nthv k (mvecs s') i = ((fn 3 / fn 2 - h * (nth k (mvals s) f0 * nth k (mvals s) f0) - h * lam k) * nthv k (mvecs s) i)%of.
  Proof.
    intros rnd n o s x s' lam R BX E EV OR k Hk. destruct (C308_update rnd n o s x s' R BX E) as ((_ & _ & _ & vs' & ds' & L' & LV' & _) & _ & _ & _ & _ & _ & U).
    assert (LM : length (mvecs s') = o) by (unfold mvecs; now rewrite L').
    assert (G : forall k, k < o -> exists a, forall i, i < n -> nthv k (mvecs s') i = (a * nthv k (mvecs s) i)%of).
    { clear k Hk. intros k. induction k as [k IH] using lt_wf_ind. intros Hk. destruct (U k Hk) as (u & U1 & U2 & _ & U4).
      assert (EU : forall i, i < n -> u i = ((keep (m_norm s) (rate (m_eps s) k) (nth k (mvals s) f0) - rate (m_eps s) k * lam k) * nthv k (mvecs s) i)%of).
      { intros i Hi. rewrite (U1 i Hi). unfold updated. rewrite (EV k Hk i Hi), found_zero; [ring|]. intros w Hw. apply in_firstn_nthv in Hw. destruct Hw as (p & P1 & P2 & ->). destruct (IH p P1 ltac:(lia)) as (a & Ha). rewrite (dot_ext n _ _ _ _ Ha (fun _ _ => eq_refl)), dot_scale_l, OR by lia. ring. }
      destruct (m_norm s).
      - exists ((keep true (rate (m_eps s) k) (nth k (mvals s) f0) - rate (m_eps s) k * lam k) / nth k (mvals s') f0)%of. intros i Hi. destruct U4 as (_ & U4). pose proof (flt_ne0 _ U2) as NZ. replace (nthv k (mvecs s') i) with (u i / nth k (mvals s') f0)%of by (rewrite (U4 i Hi); field; exact NZ). rewrite (EU i Hi). field. exact NZ.
      - eexists. intros i Hi. rewrite (U4 i Hi). apply EU. exact Hi. }
    destruct (U k Hk) as (u & U1 & U2 & _ & U4). intros i Hi h.
    assert (EU : u i = ((keep (m_norm s) h (nth k (mvals s) f0) - h * lam k) * nthv k (mvecs s) i)%of).
    { rewrite (U1 i Hi). unfold updated. rewrite (EV k Hk i Hi), found_zero; [unfold h; ring|]. intros w Hw. apply in_firstn_nthv in Hw. destruct Hw as (p & P1 & P2 & ->). destruct (G p ltac:(lia)) as (a & Ha). rewrite (dot_ext n _ _ _ _ Ha (fun _ _ => eq_refl)), dot_scale_l, OR by lia. ring. }
    unfold keep in EU. destruct (m_norm s); [destruct U4 as (_ & U4); rewrite <- (U4 i Hi); exact EU|rewrite (U4 i Hi); exact EU].
  Qed.

  (** ** C310: the same data again and again: a power iteration of 3/2 - h - h C *)
  Fixpoint pw (a : K) (t : nat) : K := match t with 0 => f1 | S t => (a * pw a t)%of end.
  Lemma gram_sym (x : list vec) n : symmetric n (gram x).
  Proof. intros i j _ _. unfold gram. apply f_equal. apply map_ext. intros r. ring. Qed.
  Lemma self_adjoint n (c : mtx) (v e : vec) lam : symmetric n c -> (forall i, i < n -> mulv n c e i = (lam * e i)%of) -> dot n (mulv n c v) e = (lam * dot n v e)%of.
  Proof.
    intros SY EE. rewrite <- dot_scale. rewrite <- (dot_ext n v v _ _ (fun _ _ => eq_refl) EE). unfold dot, mulv.
    rewrite (fsumn_ext n (fun i => fsumn n (fun j => c i j * v j) * e i)%of (fun i => fsumn n (fun j => c i j * v j * e i)%of)) by (intros; now rewrite fsumn_mulr).
    rewrite (fsumn_ext n (fun i => v i * fsumn n (fun j => c i j * e j))%of (fun i => fsumn n (fun j => v i * (c i j * e j))%of)) by (intros; now rewrite fsumn_mul). rewrite fsumn_swap. apply fsumn_ext. intros i Hi. apply fsumn_ext. intros j Hj. rewrite (SY j i Hj Hi). ring.
  Qed.
  Lemma first_step rnd n o s x s' : mready n o s -> 0 < o -> m_batch s = true \/ length x = 1 -> m_norm s = true -> m_train sq rnd n x s = (s', None) ->
    mready n o s' /\ m_batch s' = m_batch s /\ m_norm s' = true /\ m_eps s' = m_eps s /\ exists D, flt f0 D /\ forall (e : vec) lam, (forall i, i < n -> mulv n (gram x) e i = (lam * e i)%of) ->
      (D * dot n (nthv 0 (mvecs s')) e)%of = ((fn 3 / fn 2 - m_eps s - m_eps s * lam) * dot n (nthv 0 (mvecs s)) e)%of.
  Proof.
    intros R O BX NR E. destruct (C308_update rnd n o s x s' R BX E) as (R' & _ & EE & _ & EN & EB & U). split; [exact R'|]. split; [exact EB|]. split; [congruence|]. split; [exact EE|]. destruct (U 0 O) as (u & U1 & U2 & _ & U4). rewrite NR in *. destruct U4 as (_ & U4). exists (nth 0 (mvals s') f0). split; [exact U2|].
    intros e lam EV. rewrite <- dot_scale_l. rewrite <- (dot_ext n _ _ e e U4 (fun _ _ => eq_refl)). rewrite (dot_ext n _ _ e e U1 (fun _ _ => eq_refl)).
    rewrite (dot_ext n _ (fun i => ((fn 3 / fn 2 - m_eps s) * nthv 0 (mvecs s) i - m_eps s * mulv n (gram x) (nthv 0 (mvecs s)) i)%of) e e); [|intros i Hi; unfold updated, keep, found; cbn [firstn map fsum]; rewrite rate0; ring|reflexivity].
    rewrite (dot_sub_l n (fun i => (fn 3 / fn 2 - m_eps s) * nthv 0 (mvecs s) i)%of (fun i => m_eps s * mulv n (gram x) (nthv 0 (mvecs s)) i)%of), !dot_scale_l, (self_adjoint n _ _ e lam (gram_sym x n) EV). ring.
  Qed.
  Theorem C310_power : forall rnd n o s x t s', mready n o s -> 0 < o -> m_batch s = true \/ length x = 1 -> m_norm s = true -> each (m_train sq rnd n) (repeat x t) s = (s', None) ->
    exists D, flt f0 D /\ forall (e : vec) lam, (forall i, i < n -> mulv n (gram x) e i = (lam * e i)%of) -> (D * dot n (nthv 0 (mvecs s')) e)%of = (pw (fn 3 / fn 2 - m_eps s - m_eps s * lam)%of t * dot n (nthv 0 (mvecs s)) e)%of.
  Proof.
    intros rnd n o s x t. revert s. induction t as [|t IH]; intros s s' R O BX NR E; cbn [repeat each] in E.
    - injection E as <-. exists f1. split; [apply f01|]. intros. cbn [pw]. ring.
    - destruct (m_train sq rnd n x s) as [s1 [e|]] eqn:E1; cbn [bnd] in E; [discriminate|]. destruct (first_step rnd n o s x s1 R O BX NR E1) as (R1 & B1 & N1 & P1 & D1 & DP1 & H1). rewrite <- B1 in BX. destruct (IH s1 s' R1 O BX N1 E) as (D2 & DP2 & H2). exists (D2 * D1)%of. split; [now apply flt_mul|].
      intros e lam EV. specialize (H1 e lam EV). specialize (H2 e lam EV). rewrite P1 in H2. cbn [pw]. replace (D2 * D1 * dot n (nthv 0 (mvecs s')) e)%of with (D1 * (D2 * dot n (nthv 0 (mvecs s')) e))%of by ring. rewrite H2. replace (D1 * (pw (fn 3 / fn 2 - m_eps s - m_eps s * lam)%of t * dot n (nthv 0 (mvecs s1)) e))%of with (pw (fn 3 / fn 2 - m_eps s - m_eps s * lam)%of t * (D1 * dot n (nthv 0 (mvecs s1)) e))%of by ring. rewrite H1. ring.
  Qed.
  (** the share of the larger of two eigenvalues shrinks, if the step size is small enough *)
  Theorem C310_minor : forall rnd n o s x s' (e1 e2 : vec) l1 l2, mready n o s -> 0 < o -> m_batch s = true \/ length x = 1 -> m_norm s = true -> m_train sq rnd n x s = (s', None) ->
    (forall i, i < n -> mulv n (gram x) e1 i = (l1 * e1 i)%of) -> (forall i, i < n -> mulv n (gram x) e2 i = (l2 * e2 i)%of) -> flt l1 l2 -> flt (m_eps s * (f1 + f1 + l1 + l2))%of (fn 3) ->
    let a1 := dot n (nthv 0 (mvecs s)) e1 in let a2 := dot n (nthv 0 (mvecs s)) e2 in let b1 := dot n (nthv 0 (mvecs s')) e1 in let b2 := dot n (nthv 0 (mvecs s')) e2 in
    flt f0 (m_eps s) -> a1 <> f0 -> a2 <> f0 -> flt ((b2 * b2) * (a1 * a1))%of ((b1 * b1) * (a2 * a2))%of.
  Proof.
    intros rnd n o s x s' e1 e2 l1 l2 R O BX NR E EV1 EV2 L12 HS a1 a2 b1 b2 EP A1 A2. destruct (first_step rnd n o s x s' R O BX NR E) as (_ & _ & _ & _ & D & DP & H). pose proof (H e1 l1 EV1) as H1. pose proof (H e2 l2 EV2) as H2. fold a1 b1 in H1. fold a2 b2 in H2. set (h := m_eps s) in *.
    pose proof (flt_ne0 _ DP) as ND. pose proof (fn_ne (K := K) 2 ltac:(lia)) as N2.
    assert (B1 : b1 = ((fn 3 / fn 2 - h - h * l1) * a1 / D)%of) by (rewrite <- H1; field; exact ND). assert (B2 : b2 = ((fn 3 / fn 2 - h - h * l2) * a2 / D)%of) by (rewrite <- H2; field; exact ND).
    apply flt_sub. rewrite B1, B2. match goal with |- flt f0 ?z => replace z with ((h * (l2 - l1)) * (fn 3 - h * (f1 + f1 + l1 + l2)) * ((a1 * a2 / D) * (a1 * a2 / D)))%of end.
    - apply flt_mul; [apply flt_mul; [apply flt_mul; [exact EP|now apply (proj1 (flt_sub _ _))]|now apply (proj1 (flt_sub _ _))]|]. apply fsq_pos. intros Z. assert (X : (a1 * a2)%of = f0) by (replace (a1 * a2)%of with (a1 * a2 / D * D)%of by (field; exact ND); rewrite Z; ring). destruct (fmul_eq0 _ _ X); auto.
    - assert (W : fn 3 = (fn 3 / fn 2 * (f1 + f1) : K)%of) by (replace (f1 + f1 : K)%of with (fn 2 : K) by (cbn [fn]; ring); field; exact N2). set (w := (fn 3 / fn 2 : K)%of) in *. rewrite W. field. exact ND.
  Qed.
  (** with the default step size 0.1 and data of variance 100 along the vector (1, 0): that part grows *)
  Theorem C310_refuted : exists s x s', mready 2 1 s /\ m_norm s = true /\ m_eps s = (f1 / fn 10)%of /\ (forall rnd, m_train sq rnd 2 [x] s = (s', None)) /\
    exists (e1 e2 : vec) l1 l2, (forall i, i < 2 -> mulv 2 (gram [x]) e1 i = (l1 * e1 i)%of) /\ (forall i, i < 2 -> mulv 2 (gram [x]) e2 i = (l2 * e2 i)%of) /\ flt l1 l2 /\
    let a1 := dot 2 (nthv 0 (mvecs s)) e1 in let a2 := dot 2 (nthv 0 (mvecs s)) e2 in let b1 := dot 2 (nthv 0 (mvecs s')) e1 in let b2 := dot 2 (nthv 0 (mvecs s')) e2 in
    a1 <> f0 /\ a2 <> f0 /\ flt ((b1 * b1) * (a2 * a2))%of ((b2 * b2) * (a1 * a1))%of.
  Proof.
    pose proof (fn_ne (K := K) 10 ltac:(lia)) as N10. pose proof (fn_ne (K := K) 2 ltac:(lia)) as N2.
    set (v := (fun _ => f1) : vec). set (e1 := (fun i => match i with 0 => f0 | _ => f1 end) : vec). set (e2 := (fun i => match i with 0 => f1 | _ => f0 end) : vec). set (x := (fun i => fn 10 * e2 i)%of : vec).
    set (s := mkM (f1 / fn 10)%of f1 true (Some 2) (Some 1) (Some (2, [v])) (Some ([v], [norm sq 2 v])) 0 false false). exists s, x.
    assert (R : mready 2 1 s) by (split; [reflexivity|split; [reflexivity|split; [discriminate|exists [v], [norm sq 2 v]; auto]]]).
    assert (EV1 : forall i, i < 2 -> mulv 2 (gram [x]) e1 i = (f0 * e1 i)%of) by (intros i Hi; unfold mulv, gram, fsumn, x, e1, e2; cbn [map seq fsum]; ring).
    assert (EV2 : forall i, i < 2 -> mulv 2 (gram [x]) e2 i = (fn 10 * fn 10 * e2 i)%of) by (intros i Hi; unfold mulv, gram, fsumn, x, e2; cbn [map seq fsum]; ring).
    assert (T : exists s', forall rnd, m_train sq rnd 2 [x] s = (s', None)).
    { unfold m_train, m_checks, m_check_input, s. cbn [m_in m_eps m_gamma m_norm m_out m_init m_live m_iter m_batch agree Nat.eqb length negb andb bnd m_check_params each m_train_ mcols]. set (u := tab 2 _).
      destruct (iszero (dot 2 u u)) eqn:Z; [|eexists; intros; reflexivity]. exfalso. apply (proj1 (iszero_spec _)) in Z. assert (U1 : u 1 = (fn 3 / fn 2 - f1 / fn 10)%of). { unfold u. rewrite tab_in by lia. change (f1 / fn 10 / (f1 + fn 0 * six_fifths))%of with (rate (f1 / fn 10)%of 0). rewrite rate0. unfold mulv, gram, fsumn, x, e2, v, three_halves. cbn [map seq fsum]. ring. }
      assert (P : flt f0 (u 1)). { rewrite U1. replace (fn 3 / fn 2 - f1 / fn 10 : K)%of with (f1 / fn 10 * fn 14 : K)%of; [apply flt_mul; [apply fdiv_lt; [apply f01|apply fn_pos]|apply fn_pos]|]. pose proof fourteen as F. symmetry. apply fsub_zero. exact F. }
      apply (flt_not_le f0 (dot 2 u u)); [|rewrite Z; apply fle_refl]. unfold dot, fsumn. cbn [map seq fsum]. replace (u 0%nat * u 0%nat + (u 1%nat * u 1%nat + f0))%of with (u 1%nat * u 1%nat + u 0%nat * u 0%nat)%of by ring. apply fadd_pos; [now apply flt_mul|apply fsq]. }
    destruct T as (s' & T). exists s'. split; [exact R|]. split; [reflexivity|]. split; [reflexivity|]. split; [exact T|]. exists e1, e2, f0, (fn 10 * fn 10)%of. split; [exact EV1|]. split; [exact EV2|]. split; [apply flt_mul; apply fn_pos|].
    destruct (first_step (fun _ _ => []) 2 1 s [x] s' R ltac:(lia) (or_intror eq_refl) eq_refl (T _)) as (_ & _ & _ & _ & D & DP & H). specialize (H e1 _ EV1) as H1. specialize (H e2 _ EV2) as H2. change (m_eps s) with (f1 / fn 10 : K)%of in *. change (nthv 0 (mvecs s)) with v in *.
    assert (A1 : dot 2 v e1 = f1) by (unfold dot, fsumn, v, e1; cbn [map seq fsum]; ring). assert (A2 : dot 2 v e2 = f1) by (unfold dot, fsumn, v, e2; cbn [map seq fsum]; ring). cbv zeta. rewrite A1, A2 in *. set (b1 := dot 2 (nthv 0 (mvecs s')) e1) in *. set (b2 := dot 2 (nthv 0 (mvecs s')) e2) in *.
    split; [apply f10|]. split; [apply f10|]. pose proof (flt_ne0 _ DP) as ND.
    (* D b1 = 14/10, D b2 = 14/10 - 10 *)
    assert (F : (fn 3 / fn 2 - f1 / fn 10)%of = (f1 / fn 10 * fn 14 : K)%of) by (apply fsub_zero; exact fourteen).
    assert (B1 : b1 = (f1 / fn 10 * fn 14 / D)%of) by (replace b1 with (D * b1 / D)%of by (field; exact ND); rewrite H1, <- F; apply f_equal2; [ring|reflexivity]).
    assert (B2 : b2 = ((f1 / fn 10 * fn 14 - fn 10) / D)%of) by (replace b2 with (D * b2 / D)%of by (field; exact ND); rewrite H2, <- F; apply f_equal2; [field; now split|reflexivity]).
    apply flt_sub. rewrite B1, B2. match goal with |- flt f0 ?z => replace z with ((fn 10 * fn 10 - fn 14 - fn 14) / (D * D))%of by (field; now split) end. apply fdiv_lt; [|now apply flt_mul].
    replace (fn 10 * fn 10 - fn 14 - fn 14 : K)%of with (fn 72 : K) by (cbn [fn]; ring). apply fn_pos.
  Qed.

  (** ** C311: without normalization: the length at which an eigenvector stays what it is gives its eigenvalue *)
  Theorem C311_still : forall rnd n o s x s' lam, mready n o s -> 0 < o -> m_batch s = true \/ length x = 1 -> m_norm s = false -> m_train sq rnd n x s = (s', None) ->
    (forall i, i < n -> mulv n (gram x) (nthv 0 (mvecs s)) i = (lam * nthv 0 (mvecs s) i)%of) -> nth 0 (mvals s) f0 = norm sq n (nthv 0 (mvecs s)) -> dot n (nthv 0 (mvecs s)) (nthv 0 (mvecs s)) <> f0 ->
    let d := nth 0 (mvals s) f0 in ((forall i, i < n -> nthv 0 (mvecs s') i = nthv 0 (mvecs s) i) <-> (m_eps s * (d * d + lam))%of = (f1 / fn 2)%of) /\
      nth 0 (mvals s') f0 = norm sq n (nthv 0 (mvecs s')).
  Proof.
    intros rnd n o s x s' lam R O BX NR E EV DN NZ d. destruct (C308_update rnd n o s x s' R BX E) as (_ & _ & _ & _ & _ & _ & U). destruct (U 0 O) as (u & U1 & U2 & U3 & U4). rewrite NR in *. pose proof (fn_ne (K := K) 2 ltac:(lia)) as N2.
    assert (EU : forall i, i < n -> nthv 0 (mvecs s') i = ((fn 3 / fn 2 - m_eps s * (d * d + lam)) * nthv 0 (mvecs s) i)%of).
    { intros i Hi. rewrite (U4 i Hi), (U1 i Hi). unfold updated, keep, found. cbn [firstn map fsum]. rewrite rate0, (EV i Hi). unfold d. ring. }
    assert (HF : (fn 3 / fn 2 - f1 / fn 2)%of = (f1 : K)) by (replace (fn 3 : K) with (fn 2 + f1 : K)%of by (cbn [fn]; ring); field; exact N2).
    split; [|symmetry; apply (sq_unique sq SQ); [now apply flt_le|]; rewrite U3; symmetry; now apply dot_ext]. split.
    - intros H. set (f := (fn 3 / fn 2 - m_eps s * (d * d + lam))%of) in *. assert (DF : dot n (nthv 0 (mvecs s)) (nthv 0 (mvecs s)) = (f * dot n (nthv 0 (mvecs s)) (nthv 0 (mvecs s)))%of). { rewrite <- dot_scale. apply dot_ext; [reflexivity|]. intros i Hi. rewrite <- (EU i Hi). symmetry. now apply H. }
      assert (F1 : f = f1). { set (q := dot n (nthv 0 (mvecs s)) (nthv 0 (mvecs s))) in *. replace f with (f * q / q)%of by (field; exact NZ). rewrite <- DF. field. exact NZ. }
      replace (m_eps s * (d * d + lam))%of with (fn 3 / fn 2 - f)%of by (unfold f; ring). rewrite F1. rewrite <- HF at 1. ring.
    - intros H i Hi. rewrite (EU i Hi), H, HF. ring.
  Qed.
End Mca.

(** Examples *)
Definition mq := @mca Qc_of.
Definition mshown (r : out mq) : list (Q * Q) * list Q * option exn := (pairs (mvecs (fst r)), map this (mvals (fst r)), snd r).
Definition mstart (eps : Q) (nrm : bool) (cols : list (nat -> Qc)) : mq := fst (m_set_init (K := Qc_of) qsq (2, cols) (mca_new (K := Qc_of) (Q2Qc eps) (Q2Qc 1) nrm None None None)).
Definition mtrain (x : list (nat -> Qc)) (s : mq) : out mq := m_train (K := Qc_of) qsq norand 2 x s.
Example C308_ex : mshown (mtrain [q2 1 (4#3)] (mstart (1#2) true [q2 1 0])) = ([(3#5, -4#5)], [5#6], None)%Q.
Proof. vm_compute. reflexivity. Qed.
Example C308_nan_ex : snd (mtrain [q2 1 1] (mstart (1#2) true [q2 1 1])) = Some XNan.
Proof. vm_compute. reflexivity. Qed.
Example C309_ex : mshown (mtrain [q2 2 0] (mstart (1#2) true [q2 1 0; q2 0 1])) = ([(-1, 0); (0, 1)], [1; 14#11], None)%Q.
Proof. vm_compute. reflexivity. Qed.
Example C310_ex : mshown (mtrain [q2 2 0] (mstart (1#2) true [q2 (3#5) (4#5)])) = ([(-3#5, 4#5)], [1], None)%Q /\ mshown (each mtrain (repeat [q2 2 0] 2) (mstart (1#2) true [q2 (3#5) (4#5)])) = ([(3#5, 4#5)], [1], None)%Q.
Proof. split; vm_compute; reflexivity. Qed.
Example C311_ex : mshown (mtrain [q2 2 0] (mstart (1#10) false [q2 1 0])) = ([(1, 0)], [1], None)%Q /\ mshown (mtrain [q2 2 0] (mstart (1#10) false [q2 2 0])) = ([(7#5, 0)], [7#5], None)%Q.
Proof. split; vm_compute; reflexivity. Qed.
