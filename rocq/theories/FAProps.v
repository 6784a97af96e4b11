(** Properties of FANode (C373-C379). *)
From Coq Require Import QArith Qcanon List Arith Bool Lia Field Sorted.
From Verif Require Import OField LinAlg FAModel.
Import ListNotations.
Local Open Scope of_scope.

Section FA.
  Context {K : ofield}.
  Add Field Kfa : (fth K).
  Notation vec := (vec (K := K)). Notation mtx := (mtx (K := K)).
  Definition rinv (n : nat) (M B : mtx) : Prop := forall i j, (i < n)%nat -> (j < n)%nat -> fsumn n (fun l => M i l * B l j) = delta i j.
  Definition nonzero (n : nat) (v : vec) : Prop := exists i, (i < n)%nat /\ v i <> 0.
  Definition posdef (n : nat) (M : mtx) : Prop := forall v, nonzero n v -> 0 < quad n M v v.
  Lemma zero_or n (v : vec) : (forall i, (i < n)%nat -> v i = 0) \/ nonzero n v.
  Proof.
    induction n as [|n [IH|(i & Hi & Hv)]]; [left; lia| |right; exists i; split; [lia|exact Hv]].
    destruct (feq_dec (v n) 0) as [E|E]; [left; intros i Hi; destruct (Nat.eq_dec i n) as [->|]; [exact E|apply IH; lia]|right; exists n; split; [lia|exact E]].
  Qed.
  (** a symmetric matrix has a symmetric inverse *)
  Lemma rinv_sym n (M B : mtx) : symmetric n M -> rinv n M B -> symmetric n B.
  Proof.
    intros HM HB i j Hi Hj. set (T := fsumn n (fun m => fsumn n (fun l => B l i * M l m) * B m j)).
    assert (T1 : T = B i j).
    { unfold T. rewrite (fsumn_ext n _ (fun m => B m j * delta i m)); [apply (fsumn_delta n (fun m => B m j)); exact Hi|]. intros m Hm.
      rewrite (fsumn_ext n _ (fun l => M m l * B l i)); [rewrite HB, delta_sym by assumption; ring|]. intros l Hl. rewrite (HM l m) by assumption. ring. }
    assert (T2 : T = B j i).
    { unfold T. rewrite (fsumn_ext n _ (fun m => fsumn n (fun l => B l i * (M l m * B m j)))).
      - rewrite fsumn_swap. rewrite (fsumn_ext n _ (fun l => B l i * delta j l)); [apply (fsumn_delta n (fun l => B l i)); exact Hj|].
        intros l Hl. rewrite fsumn_mul, HB, delta_sym by assumption. reflexivity.
      - intros m Hm. rewrite <- fsumn_mulr. apply fsumn_ext. intros. ring. }
    congruence.
  Qed.
  Lemma rinv_left n (M B : mtx) : symmetric n M -> rinv n M B -> rinv n B M.
  Proof.
    intros HM HB i j Hi Hj. assert (HS := rinv_sym n M B HM HB). rewrite <- (delta_sym j i), <- (HB j i) by assumption.
    apply fsumn_ext. intros l Hl. rewrite (HS i l), (HM l j) by assumption. ring.
  Qed.
  Lemma rinv_solve n (M B : mtx) (r : vec) i : rinv n M B -> (i < n)%nat -> mulv n M (mulv n B r) i = r i.
  Proof.
    intros HB Hi. unfold mulv. rewrite (fsumn_ext n _ (fun l => fsumn n (fun j => M i l * B l j * r j))).
    - rewrite fsumn_swap. rewrite (fsumn_ext n _ (fun j => r j * delta i j)); [apply (fsumn_delta n r); exact Hi|]. intros j Hj. rewrite fsumn_mulr, HB by assumption. ring.
    - intros l Hl. rewrite <- fsumn_mul. apply fsumn_ext. intros. ring.
  Qed.
  (** sum s_i v_i^2 with positive weights *)
  Lemma wsq_pos n (s v : vec) : (forall i, (i < n)%nat -> 0 < s i) -> 0 <= fsumn n (fun i => s i * (v i * v i)).
  Proof. intro H. apply fsumn_nonneg. intros i Hi. apply fle_mul0; [apply flt_le; auto|apply fsq]. Qed.
  Lemma wsq_zero n (s v : vec) : (forall i, (i < n)%nat -> 0 < s i) -> fsumn n (fun i => s i * (v i * v i)) = 0 -> forall i, (i < n)%nat -> v i = 0.
  Proof.
    intros H E i Hi. unfold fsumn in E.
    assert (G : s i * (v i * v i) = 0).
    { apply (fsum_map_eq0 (seq 0 n) (fun i => s i * (v i * v i))); [|exact E|apply in_seq; lia]. intros j Hj. apply in_seq in Hj. apply fle_mul0; [apply flt_le, H; lia|apply fsq]. }
    destruct (fmul_eq0 _ _ G) as [Z|Z]; [|now apply fsq0]. exfalso. specialize (H i Hi). rewrite Z in H. apply flt_ne in H. now apply H.
  Qed.
  Lemma pos_of (a : K) : 0 <= a -> a <> 0 -> 0 < a.
  Proof. intros H N. destruct (fle_lt_eq _ _ H) as [L|E]; [exact L|]. now destruct N. Qed.
  Lemma add_pos_l (a b : K) : 0 < a -> 0 <= b -> 0 < a + b.
  Proof. intros Ha Hb. apply flt_le_trans with a; [exact Ha|]. apply fle_sub. replace (a + b - a) with b by ring. exact Hb. Qed.

  Lemma add_cancel (a b : K) : a + b = a -> b = 0.
  Proof. intro E. transitivity (a + b - a); [ring|rewrite E; ring]. Qed.
  Lemma le_addr (a b : K) : 0 <= b -> a <= a + b.
  Proof. intro H. apply fle_sub. replace (a + b - a) with b by ring. exact H. Qed.
  Lemma le_addl (a b : K) : 0 <= a -> b <= a + b.
  Proof. intro H. apply fle_sub. replace (a + b - b) with a by ring. exact H. Qed.
  Lemma add_nonneg (a b : K) : 0 <= a -> 0 <= b -> 0 <= a + b.
  Proof. intros Ha Hb. apply fle_trans with a; [exact Ha|]. now apply le_addr. Qed.

  Lemma quad1 (M : mtx) (w : vec) : quad 1 M w w = M 0%nat 0%nat * (w 0%nat * w 0%nat).
  Proof. unfold quad, dot, mulv, fsumn. cbn [map seq fsum fold_right]. ring. Qed.
  Lemma mul1 (a : K) : 1 * a = a.
  Proof. ring. Qed.
  Lemma inv1_ok (M : mtx) : posdef 1 M -> rinv 1 M (fun i j => finv (M i j)).
  Proof.
    intros HP i j Hi Hj. assert (i = 0%nat) by lia. assert (j = 0%nat) by lia. subst.
    assert (Q : 0 < quad 1 M (fun _ => 1) (fun _ => 1)) by (apply HP; exists 0%nat; split; [lia|apply f10]). rewrite quad1 in Q.
    assert (N : M 0%nat 0%nat <> 0) by (intro Z; rewrite Z in Q; apply (flt_ne _ _ Q); ring).
    unfold fsumn, delta. cbn [map seq fsum fold_right Nat.eqb]. field. exact N.
  Qed.

  Section Fit.
    Variable inv : nat -> mtx -> mtx.
    Variables d k : nat.
    Notation par := (params K).
    (** A^T u, A a, and the quantities of the model with them *)
    Definition At (p : par) (u : vec) : vec := fun l => fsumn d (fun i => pA p i l * u i).
    Definition Ap (p : par) (a : vec) : vec := fun i => fsumn k (fun l => pA p i l * a l).
    Lemma At_Ap (p : params K) (u a : vec) : dot d u (Ap p a) = dot k (At p u) a.
    Proof.
      unfold dot, Ap, At. rewrite (fsumn_ext d _ (fun i => fsumn k (fun l => pA p i l * u i * a l))).
      - rewrite fsumn_swap. apply fsumn_ext. intros l Hl. now rewrite fsumn_mulr.
      - intros i Hi. rewrite <- fsumn_mul. apply fsumn_ext. intros. ring.
    Qed.
    Lemma big_mulv (p : params K) (u : vec) i : (i < d)%nat -> mulv d (big k p) u i = Ap p (At p u) i + pS p i * u i.
    Proof.
      intro Hi. unfold mulv, big, Ap, At. rewrite (fsumn_ext d _ (fun j => fsumn k (fun l => pA p i l * (pA p j l * u j)) + pS p i * u j * delta i j)).
      - rewrite fsumn_add, (fsumn_delta d (fun j => pS p i * u j)) by exact Hi. f_equal. rewrite fsumn_swap. apply fsumn_ext. intros l Hl. now rewrite fsumn_mul.
      - intros j Hj. rewrite (fsumn_ext k (fun l => pA p i l * (pA p j l * u j)) (fun l => pA p i l * pA p j l * u j)) by (intros; ring).
        rewrite fsumn_mulr. unfold delta. destruct (i =? j)%nat; ring.
    Qed.
    Lemma big_sym (p : params K) : symmetric d (big k p).
    Proof.
      intros i j Hi Hj. unfold big. f_equal; [apply fsumn_ext; intros; ring|]. rewrite (Nat.eqb_sym j i). destruct (Nat.eqb_spec i j) as [->|]; reflexivity.
    Qed.
    Lemma big_quad (p : params K) (v : vec) : quad d (big k p) v v = dot k (At p v) (At p v) + fsumn d (fun i => pS p i * (v i * v i)).
    Proof.
      unfold quad. rewrite (dot_ext d v v _ (fun i => Ap p (At p v) i + pS p i * v i)); [|reflexivity|intros i Hi; apply big_mulv; exact Hi].
      unfold dot at 1. rewrite (fsumn_ext d _ (fun i => v i * Ap p (At p v) i + pS p i * (v i * v i))) by (intros; ring).
      rewrite fsumn_add. f_equal. apply At_Ap.
    Qed.
    Lemma big_posdef (p : params K) : (forall i, (i < d)%nat -> 0 < pS p i) -> posdef d (big k p).
    Proof.
      intros HS v (i & Hi & Hv). rewrite big_quad. replace (dot k (At p v) (At p v) + fsumn d (fun i => pS p i * (v i * v i))) with (fsumn d (fun i => pS p i * (v i * v i)) + dot k (At p v) (At p v)) by ring.
      apply add_pos_l; [|apply dot_sq]. apply pos_of; [now apply wsq_pos|]. intro E. apply Hv. now apply (wsq_zero d (pS p) v HS E).
    Qed.
    (** trAB a = A^T (B a) *)
    Lemma trAB_mulv (p : params K) (r : vec) j : fsumn d (fun i => trAB inv d k p j i * r i) = At p (mulv d (inv d (big k p)) r) j.
    Proof.
      unfold trAB, At, mulv. rewrite (fsumn_ext d _ (fun i => fsumn d (fun l => pA p l j * (inv d (big k p) l i * r i)))).
      - rewrite fsumn_swap. apply fsumn_ext. intros l Hl. now rewrite fsumn_mul.
      - intros i Hi. rewrite <- fsumn_mulr. apply fsumn_ext. intros. ring.
    Qed.
    Lemma exec_trAB (p : params K) (mu x : vec) j : fa_exec inv d k p mu x j = fsumn d (fun i => trAB inv d k p j i * (x i - mu i)).
    Proof. unfold fa_exec, Ey, trAB. apply fsumn_ext. intros i Hi. rewrite <- fsumn_mulr, <- fsumn_mul. apply fsumn_ext. intros. ring. Qed.

    (** ** C373: execute returns the maximum a posteriori estimate of the latent variables *)
    (** - 2 log of the joint density of y (standard normal) and x = A y + mu + noise (of variances sigma), without constants *)
    Definition neglog (p : par) (mu x y : vec) : K :=
      fsumn d (fun i => (x i - mu i - Ap p y i) * (x i - mu i - Ap p y i) / pS p i) + dot k y y.
    Theorem C373_excess : forall (p : par) (mu x y : vec), (forall i, (i < d)%nat -> 0 < pS p i) -> rinv d (big k p) (inv d (big k p)) ->
      let h := fun j => y j - fa_exec inv d k p mu x j in
      neglog p mu x y = neglog p mu x (fa_exec inv d k p mu x) + (fsumn d (fun i => Ap p h i * Ap p h i / pS p i) + dot k h h).
    Proof.
      intros p mu x y HS HB h. set (r := fun i => x i - mu i). set (u := mulv d (inv d (big k p)) r). set (e := fa_exec inv d k p mu x).
      assert (He : forall j, e j = At p u j) by (intro j; unfold e; rewrite exec_trAB; apply trAB_mulv).
      assert (Hne : forall i, (i < d)%nat -> pS p i <> 0) by (intros i Hi E; specialize (HS i Hi); rewrite E in HS; now apply flt_ne in HS).
      assert (Hr : forall i, (i < d)%nat -> r i = Ap p e i + pS p i * u i).
      { intros i Hi. rewrite <- (rinv_solve d (big k p) (inv d (big k p)) r i HB Hi). fold u. rewrite big_mulv by exact Hi. f_equal.
        unfold Ap. apply fsumn_ext. intros l Hl. now rewrite He. }
      assert (Hy : forall i, Ap p y i = Ap p e i + Ap p h i).
      { intro i. unfold Ap. rewrite <- fsumn_add. apply fsumn_ext. intros l Hl. unfold h. fold e. ring. }
      assert (Hcross : fsumn d (fun i => u i * Ap p h i) = fsumn k (fun j => e j * h j)).
      { transitivity (dot k (At p u) h); [apply At_Ap|]. unfold dot. apply fsumn_ext. intros j Hj. now rewrite He. }
      unfold neglog. fold (r : vec).
      rewrite (fsumn_ext d (fun i => (x i - mu i - Ap p y i) * (x i - mu i - Ap p y i) / pS p i)
        (fun i => (x i - mu i - Ap p e i) * (x i - mu i - Ap p e i) / pS p i + (Ap p h i * Ap p h i / pS p i - (1 + 1) * (u i * Ap p h i)))).
      2:{ intros i Hi. assert (E := Hr i Hi). unfold r in E. rewrite Hy, E. field. now apply Hne. }
      rewrite fsumn_add, fsumn_sub, fsumn_mul, Hcross.
      assert (Hd : dot k y y = dot k e e + (1 + 1) * fsumn k (fun j => e j * h j) + dot k h h).
      { unfold dot. rewrite <- fsumn_mul, <- !fsumn_add. apply fsumn_ext. intros j Hj. unfold h. fold e. ring. }
      rewrite Hd. ring.
    Qed.
    Theorem C373_map : forall (p : par) (mu x y : vec), (forall i, (i < d)%nat -> 0 < pS p i) -> rinv d (big k p) (inv d (big k p)) ->
      neglog p mu x (fa_exec inv d k p mu x) <= neglog p mu x y /\
      (neglog p mu x y = neglog p mu x (fa_exec inv d k p mu x) -> forall j, (j < k)%nat -> y j = fa_exec inv d k p mu x j).
    Proof.
      intros p mu x y HS HB. rewrite (C373_excess p mu x y HS HB). set (h := fun j => y j - fa_exec inv d k p mu x j).
      assert (H1 : 0 <= fsumn d (fun i => Ap p h i * Ap p h i / pS p i)) by (apply fsumn_nonneg; intros i Hi; apply fdiv_pos; [apply fsq|auto]).
      assert (H2 := dot_sq k h). split.
      - apply le_addr. now apply add_nonneg.
      - intros E j Hj. assert (E0 : fsumn d (fun i => Ap p h i * Ap p h i / pS p i) + dot k h h = 0).
        { exact (add_cancel _ _ E). }
        assert (Z : dot k h h = 0).
        { apply fle_antisym; [|exact H2]. rewrite <- E0. now apply le_addl. }
        unfold dot, fsumn in Z. assert (Q : h j * h j = 0) by (apply (fsum_map_eq0 (seq 0 k) (fun j => h j * h j)); [intros; apply fsq|exact Z|apply in_seq; lia]).
        apply fsq0 in Q. unfold h in Q. transitivity (y j - fa_exec inv d k p mu x j + fa_exec inv d k p mu x j); [ring|rewrite Q; ring].
    Qed.

    (** ** C379: latent variables which are generated from and executed again are shrunk *)
    (** a^T (1 - A^T B A) a: the posterior covariance *)
    Definition post (p : par) : mtx := fun j l => delta j l - fsumn d (fun i => trAB inv d k p j i * pA p i l).
    Lemma post_quad (p : params K) (a : vec) : quad k (post p) a a = dot k a a - dot d (mulv d (inv d (big k p)) (Ap p a)) (Ap p a).
    Proof.
      assert (E : forall j, (j < k)%nat -> mulv k (post p) a j = a j - At p (mulv d (inv d (big k p)) (Ap p a)) j).
      { intros j Hj. rewrite <- trAB_mulv. unfold mulv, post. rewrite (fsumn_ext k _ (fun l => a l * delta j l - fsumn d (fun i => trAB inv d k p j i * (pA p i l * a l)))).
        - rewrite fsumn_sub, fsumn_delta by exact Hj. f_equal. rewrite fsumn_swap. apply fsumn_ext. intros i Hi. unfold Ap. now rewrite fsumn_mul.
        - intros l Hl. rewrite (fsumn_ext d (fun i => trAB inv d k p j i * (pA p i l * a l)) (fun i => trAB inv d k p j i * pA p i l * a l)) by (intros; ring).
          rewrite fsumn_mulr. ring. }
      unfold quad. rewrite (dot_ext k a a _ _ (fun _ _ => eq_refl) E), dot_sub_r. f_equal. rewrite dot_sym. symmetry. apply At_Ap.
    Qed.
    Lemma post_posdef (p : params K) : (forall i, (i < d)%nat -> 0 < pS p i) -> rinv d (big k p) (inv d (big k p)) -> posdef k (post p).
    Proof.
      intros HS HB a (j0 & Hj0 & Hne). rewrite post_quad. set (u := mulv d (inv d (big k p)) (Ap p a)).
      assert (Hu : forall i, (i < d)%nat -> Ap p a i = Ap p (At p u) i + pS p i * u i).
      { intros i Hi. rewrite <- (rinv_solve d (big k p) (inv d (big k p)) (Ap p a) i HB Hi). fold u. now apply big_mulv. }
      set (g := fun j => a j - At p u j).
      assert (E : dot k a a - dot d u (Ap p a) = dot k g g + fsumn d (fun i => pS p i * (u i * u i))).
      { assert (E1 : dot d u (Ap p a) = dot k (At p u) (At p u) + fsumn d (fun i => pS p i * (u i * u i))).
        { rewrite (dot_ext d u u _ (fun i => Ap p (At p u) i + pS p i * u i) (fun _ _ => eq_refl) Hu). unfold dot at 1.
          rewrite (fsumn_ext d _ (fun i => u i * Ap p (At p u) i + pS p i * (u i * u i))) by (intros; ring). rewrite fsumn_add. f_equal. apply At_Ap. }
        assert (E2 : dot k g g = dot k a a - (1 + 1) * dot k (At p u) a + dot k (At p u) (At p u)).
        { unfold dot. rewrite <- fsumn_mul, <- fsumn_sub, <- fsumn_add. apply fsumn_ext. intros. unfold g. ring. }
        assert (E3 := At_Ap p u a). rewrite E2, <- E3. rewrite E1. ring. }
      rewrite E. assert (H1 := dot_sq k g). assert (H2 := wsq_pos d (pS p) u HS). apply pos_of; [now apply add_nonneg|].
      intro Z. assert (Z2 : fsumn d (fun i => pS p i * (u i * u i)) = 0).
      { apply fle_antisym; [|exact H2]. rewrite <- Z. now apply le_addl. }
      assert (Z1 : dot k g g = 0) by (rewrite Z2 in Z; transitivity (dot k g g + 0); [ring|exact Z]).
      assert (U := wsq_zero d (pS p) u HS Z2).
      assert (A0 : At p u j0 = 0) by (unfold At; apply fsumn_zero; intros i Hi; rewrite (U i Hi); ring).
      unfold dot, fsumn in Z1. assert (Q : g j0 * g j0 = 0) by (apply (fsum_map_eq0 (seq 0 k) (fun j => g j * g j)); [intros; apply fsq|exact Z1|apply in_seq; lia]).
      apply fsq0 in Q. unfold g in Q. rewrite A0 in Q. apply Hne. transitivity (a j0 - 0); [ring|exact Q].
    Qed.
    Theorem C379_shrunk : forall (p : par) (mu y : vec), (forall i, (i < d)%nat -> 0 < pS p i) -> rinv d (big k p) (inv d (big k p)) -> nonzero k y ->
      let y' := fa_exec inv d k p mu (fa_gen k p mu y) in 0 <= dot k y y' /\ dot k y y' < dot k y y.
    Proof.
      intros p mu y HS HB Hy y'. set (u := mulv d (inv d (big k p)) (Ap p y)).
      assert (E : dot k y y' = dot d u (Ap p y)).
      { rewrite At_Ap, dot_sym. apply dot_ext; [|reflexivity]. intros j Hj. unfold y'. rewrite exec_trAB. unfold u. rewrite <- trAB_mulv. apply fsumn_ext. intros i Hi.
        f_equal. unfold fa_gen, Ap. rewrite (fsumn_ext k (fun j => y j * pA p i j) (fun l => pA p i l * y l)) by (intros; ring). ring. }
      rewrite E. split.
      - assert (Hu : forall i, (i < d)%nat -> Ap p y i = mulv d (big k p) u i) by (intros i Hi; symmetry; now apply rinv_solve).
        rewrite (dot_ext d u u _ _ (fun _ _ => eq_refl) Hu). change (0 <= quad d (big k p) u u). rewrite big_quad.
        apply add_nonneg; [apply dot_sq|now apply wsq_pos].
      - apply flt_sub. unfold u. rewrite <- post_quad. now apply post_posdef.
    Qed.

    (** ** The M-step *)
    Variable C : mtx.
    Hypothesis C_sym : symmetric d C.
    (** trAB^T a *)
    Definition Mt (p : par) (a : vec) : vec := fun i => fsumn k (fun j => a j * trAB inv d k p j i).
    Lemma trABC_dot (p : params K) (a : vec) i : fsumn k (fun l => a l * trABC inv d k C p l i) = fsumn d (fun l => Mt p a l * C l i).
    Proof.
      unfold trABC, Mt. rewrite (fsumn_ext k _ (fun j => fsumn d (fun l => a j * trAB inv d k p j l * C l i))).
      - rewrite fsumn_swap. apply fsumn_ext. intros l Hl. now rewrite fsumn_mulr.
      - intros j Hj. rewrite <- fsumn_mul. apply fsumn_ext. intros. ring.
    Qed.
    Lemma Eyy_mulv (p : params K) (b : vec) j : (j < k)%nat -> mulv k (Eyy inv d k C p) b j = mulv k (post p) b j + fsumn d (fun i => trABC inv d k C p j i * Mt p b i).
    Proof.
      intro Hj. unfold mulv, Mt. rewrite (fsumn_ext d (fun i => trABC inv d k C p j i * fsumn k (fun j0 => b j0 * trAB inv d k p j0 i)) (fun i => fsumn k (fun l => trABC inv d k C p j i * trAB inv d k p l i * b l))).
      - rewrite fsumn_swap, <- fsumn_add. apply fsumn_ext. intros l Hl. rewrite fsumn_mulr. unfold Eyy, post, delta. destruct (j =? l)%nat; ring.
      - intros i Hi. rewrite <- fsumn_mul. apply fsumn_ext. intros. ring.
    Qed.
    Lemma Eyy_quad (p : params K) (a b : vec) : quad k (Eyy inv d k C p) a b = quad k (post p) a b + quad d C (Mt p a) (Mt p b).
    Proof.
      unfold quad. rewrite (dot_ext k a a _ _ (fun _ _ => eq_refl) (Eyy_mulv p b)). unfold dot at 1.
      rewrite (fsumn_ext k _ (fun j => a j * mulv k (post p) b j + fsumn d (fun i => a j * trABC inv d k C p j i * Mt p b i))).
      - rewrite fsumn_add. f_equal. rewrite fsumn_swap. unfold dot, mulv.
        rewrite (fsumn_ext d _ (fun i => fsumn d (fun l => Mt p a l * C l i * Mt p b i))).
        + rewrite fsumn_swap. apply fsumn_ext. intros l Hl. rewrite <- fsumn_mul. apply fsumn_ext. intros. ring.
        + intros i Hi. rewrite fsumn_mulr, trABC_dot, <- fsumn_mulr. reflexivity.
      - intros j Hj. rewrite (fsumn_ext d (fun i => a j * trABC inv d k C p j i * Mt p b i) (fun i => a j * (trABC inv d k C p j i * Mt p b i))) by (intros; ring).
        rewrite fsumn_mul. ring.
    Qed.
    Lemma post_sym (p : params K) : rinv d (big k p) (inv d (big k p)) -> symmetric k (post p).
    Proof.
      intros HB j l Hj Hl. unfold post. rewrite (delta_sym l j). f_equal. assert (HS := rinv_sym d _ _ (big_sym p) HB). unfold trAB.
      rewrite (fsumn_ext d _ (fun i => fsumn d (fun m => pA p m j * inv d (big k p) m i * pA p i l))) by (intros; now rewrite fsumn_mulr).
      rewrite (fsumn_ext d (fun i => fsumn d (fun l0 => pA p l0 l * inv d (big k p) l0 i) * pA p i j) (fun i => fsumn d (fun m => pA p m l * inv d (big k p) m i * pA p i j))) by (intros; now rewrite fsumn_mulr).
      rewrite fsumn_swap. apply fsumn_ext. intros m Hm. apply fsumn_ext. intros i Hi. rewrite (HS m i) by assumption. ring.
    Qed.
    Lemma Eyy_sym (p : params K) : rinv d (big k p) (inv d (big k p)) -> symmetric k (Eyy inv d k C p).
    Proof.
      intros HB j l Hj Hl. assert (HP := post_sym p HB j l Hj Hl). unfold post in HP. unfold Eyy.
      assert (H : fsumn d (fun i => trABC inv d k C p j i * trAB inv d k p l i) = fsumn d (fun i => trABC inv d k C p l i * trAB inv d k p j i)).
      { unfold trABC. rewrite (fsumn_ext d _ (fun i => fsumn d (fun m => trAB inv d k p j m * C m i * trAB inv d k p l i))) by (intros; now rewrite fsumn_mulr).
        rewrite (fsumn_ext d (fun i => fsumn d (fun l0 => trAB inv d k p l l0 * C l0 i) * trAB inv d k p j i) (fun i => fsumn d (fun m => trAB inv d k p l m * C m i * trAB inv d k p j i))) by (intros; now rewrite fsumn_mulr).
        rewrite fsumn_swap. apply fsumn_ext. intros m Hm. apply fsumn_ext. intros i Hi. rewrite (C_sym m i) by assumption. ring. }
      rewrite H. unfold delta in HP. rewrite (Nat.eqb_sym l j) in *.
      set (x := fsumn d (fun i => trAB inv d k p j i * pA p i l)) in *. set (y := fsumn d (fun i => trAB inv d k p l i * pA p i j)) in *. set (w := fsumn d _). set (o := if (j =? l)%nat then 1 else 0) in *.
      transitivity (o - x + w); [ring|rewrite HP; ring].
    Qed.
    Lemma quad_sym_l n (M : mtx) (a b : vec) : symmetric n M -> quad n M a b = quad n M b a.
    Proof.
      intro HM. unfold quad, dot, mulv. rewrite (fsumn_ext n _ (fun i => fsumn n (fun j => a i * (M i j * b j)))) by (intros; now rewrite fsumn_mul).
      rewrite fsumn_swap. apply fsumn_ext. intros j Hj. rewrite <- fsumn_mul. apply fsumn_ext. intros i Hi. rewrite (HM j i) by assumption. ring.
    Qed.
    (** C_ii - 2 a.(trABC)_i + a E_yyT a *)
    Definition qloss (p : par) (i : nat) (a : vec) : K := C i i - (1 + 1) * fsumn k (fun l => a l * trABC inv d k C p l i) + quad k (Eyy inv d k C p) a a.
    Lemma quad_add n (M : mtx) (a h : vec) : quad n M (fun i => a i + h i) (fun i => a i + h i) = quad n M a a + quad n M a h + quad n M h a + quad n M h h.
    Proof.
      unfold quad, dot, mulv. rewrite <- !fsumn_add. apply fsumn_ext. intros i Hi.
      rewrite (fsumn_ext n (fun j => M i j * (a j + h j)) (fun j => M i j * a j + M i j * h j)) by (intros; ring). rewrite fsumn_add. ring.
    Qed.
    Lemma newA_normal (p : params K) (h : vec) i : rinv d (big k p) (inv d (big k p)) -> rinv k (Eyy inv d k C p) (inv k (Eyy inv d k C p)) ->
      quad k (Eyy inv d k C p) (newA inv d k C p i) h = fsumn k (fun l => h l * trABC inv d k C p l i).
    Proof.
      intros HB HE. rewrite quad_sym_l by (apply Eyy_sym; exact HB). unfold quad, dot. apply fsumn_ext. intros l Hl. f_equal.
      assert (HS := rinv_sym k _ _ (Eyy_sym p HB) HE).
      rewrite <- (rinv_solve k _ _ (fun l => trABC inv d k C p l i) l HE Hl). unfold mulv. apply fsumn_ext. intros m Hm. f_equal. unfold newA. apply fsumn_ext. intros n Hn.
      rewrite (HS m n) by assumption. ring.
    Qed.
    Lemma qloss_excess (p : params K) i (a : vec) : rinv d (big k p) (inv d (big k p)) -> rinv k (Eyy inv d k C p) (inv k (Eyy inv d k C p)) ->
      let h := fun l => a l - newA inv d k C p i l in qloss p i a = qloss p i (newA inv d k C p i) + quad k (Eyy inv d k C p) h h.
    Proof.
      intros HB HE h. set (n := newA inv d k C p i).
      assert (Ea : quad k (Eyy inv d k C p) a a = quad k (Eyy inv d k C p) (fun l => n l + h l) (fun l => n l + h l)).
      { unfold quad, dot, mulv. apply fsumn_ext. intros l Hl. unfold h. fold n. f_equal; [ring|]. apply fsumn_ext. intros. f_equal. ring. }
      assert (El : fsumn k (fun l => a l * trABC inv d k C p l i) = fsumn k (fun l => n l * trABC inv d k C p l i) + fsumn k (fun l => h l * trABC inv d k C p l i)).
      { rewrite <- fsumn_add. apply fsumn_ext. intros l Hl. unfold h. fold n. ring. }
      unfold qloss. rewrite Ea, quad_add, (quad_sym_l k _ h n) by (apply Eyy_sym; exact HB). assert (En := newA_normal p h i HB HE). fold n in En. rewrite En, El. ring.
    Qed.
    Lemma qloss_new (p : params K) i : rinv d (big k p) (inv d (big k p)) -> rinv k (Eyy inv d k C p) (inv k (Eyy inv d k C p)) ->
      qloss p i (newA inv d k C p i) = pS (em_step inv d k C p) i.
    Proof. intros HB HE. unfold qloss. rewrite (newA_normal p _ i HB HE). unfold em_step. cbn [pS]. ring. Qed.
    (** the new variance as a sum of two squares *)
    Lemma qloss_split (p : params K) i (a : vec) : (i < d)%nat -> qloss p i a = quad d C (fun l => delta i l - Mt p a l) (fun l => delta i l - Mt p a l) + quad k (post p) a a.
    Proof.
      intro Hi. unfold qloss. rewrite Eyy_quad, trABC_dot. set (w := Mt p a).
      assert (E : quad d C (fun l => delta i l - w l) (fun l => delta i l - w l) = C i i - (1 + 1) * fsumn d (fun l => w l * C l i) + quad d C w w).
      { assert (G : forall l, (l < d)%nat -> mulv d C (fun l => delta i l - w l) l = C l i - mulv d C w l).
        { intros l Hl. unfold mulv. rewrite (fsumn_ext d _ (fun j => C l j * delta i j - C l j * w j)) by (intros; ring). rewrite fsumn_sub, fsumn_delta by exact Hi. reflexivity. }
        unfold quad. rewrite (dot_ext d _ _ _ _ (fun _ _ => eq_refl) G). unfold dot.
        rewrite (fsumn_ext d _ (fun l => (C l i - mulv d C w l) * delta i l - (w l * C l i - w l * mulv d C w l))) by (intros; ring).
        rewrite !fsumn_sub, (fsumn_delta d (fun l => C l i - mulv d C w l)) by exact Hi.
        assert (E2 : mulv d C w i = fsumn d (fun l => w l * C l i)) by (unfold mulv; apply fsumn_ext; intros l Hl; rewrite (C_sym i l) by assumption; ring).
        rewrite E2. ring. }
      rewrite E. ring.
    Qed.

    (** ** C375: the noise variances stay positive, and the matrices to be inverted positive definite *)
    Hypothesis C_psd : psd d C.
    Hypothesis C_diag : forall i, (i < d)%nat -> 0 < C i i.
    Lemma Eyy_posdef (p : params K) : (forall i, (i < d)%nat -> 0 < pS p i) -> rinv d (big k p) (inv d (big k p)) -> posdef k (Eyy inv d k C p).
    Proof. intros HS HB a Ha. rewrite Eyy_quad. apply add_pos_l; [now apply post_posdef|apply C_psd]. Qed.
    Lemma step_pos (p : params K) : (forall i, (i < d)%nat -> 0 < pS p i) -> rinv d (big k p) (inv d (big k p)) -> rinv k (Eyy inv d k C p) (inv k (Eyy inv d k C p)) ->
      forall i, (i < d)%nat -> 0 < pS (em_step inv d k C p) i.
    Proof.
      intros HS HB HE i Hi. rewrite <- qloss_new by assumption. rewrite qloss_split by exact Hi. destruct (zero_or k (newA inv d k C p i)) as [Z|Z].
      - assert (W : forall l, Mt p (newA inv d k C p i) l = 0) by (intro l; unfold Mt; apply fsumn_zero; intros j Hj; rewrite (Z j Hj); ring).
        assert (E : quad d C (fun l => delta i l - Mt p (newA inv d k C p i) l) (fun l => delta i l - Mt p (newA inv d k C p i) l) = C i i).
        { unfold quad, dot, mulv. rewrite (fsumn_ext d _ (fun l => C l i * delta i l)); [now apply (fsumn_delta d (fun l => C l i))|]. intros l Hl. rewrite W.
          rewrite (fsumn_ext d _ (fun j => C l j * delta i j)) by (intros; rewrite W; ring). rewrite fsumn_delta by exact Hi. ring. }
        rewrite E. apply add_pos_l; [now apply C_diag|]. assert (Q : quad k (post p) (newA inv d k C p i) (newA inv d k C p i) = 0); [|rewrite Q; apply fle_refl].
        unfold quad, dot. apply fsumn_zero. intros j Hj. rewrite (Z j Hj). ring.
      - apply flt_le_trans with (quad k (post p) (newA inv d k C p i) (newA inv d k C p i)); [now apply post_posdef|apply le_addl, C_psd].
    Qed.
    (** utils.inv inverts every positive definite symmetric matrix *)
    Hypothesis inv_ok : forall n M, n = d \/ n = k -> symmetric n M -> posdef n M -> rinv n M (inv n M).
    Definition good (p : par) : Prop := (forall i, (i < d)%nat -> 0 < pS p i) /\ rinv d (big k p) (inv d (big k p)) /\ rinv k (Eyy inv d k C p) (inv k (Eyy inv d k C p)).
    Lemma good_of (p : params K) : (forall i, (i < d)%nat -> 0 < pS p i) -> good p.
    Proof.
      intro HS. assert (HB := inv_ok d _ (or_introl eq_refl) (big_sym p) (big_posdef p HS)). split; [exact HS|]. split; [exact HB|]. apply inv_ok; [now right|now apply Eyy_sym|now apply Eyy_posdef].
    Qed.
    Lemma good_step (p : params K) : good p -> good (em_step inv d k C p).
    Proof. intros (HS & HB & HE). apply good_of. now apply step_pos. Qed.
    Theorem C375_positive : forall lhood tol n A0, let p := e_par (fit inv d k C lhood tol n A0) in
      (forall i, (i < d)%nat -> 0 < pS p i) /\ posdef d (big k p) /\ posdef k (Eyy inv d k C p).
    Proof.
      intros lhood tol n A0 p. assert (G : good p).
      { unfold p, fit. assert (G0 : good (mkPar A0 (fun i => C i i))) by (apply good_of; exact C_diag). revert G0.
        generalize (mkPar A0 (fun i => C i i)) (@None (K * K)) (@nil K) O. induction n as [|n IH]; intros q prev curve warn G; cbn [cycles]; [exact G|].
        destruct prev as [[base old]|]; [|apply IH, good_step, G]. destruct (fltb _ _); [apply good_step, G|apply IH, good_step, G]. }
      destruct G as (HS & HB & HE). split; [exact HS|]. split; [now apply big_posdef|now apply Eyy_posdef].
    Qed.
    (** so that execute is the MAP estimate (C373) with the parameters of every fit *)
    Theorem C375_fitted : forall lhood tol n A0 mu x y, let p := e_par (fit inv d k C lhood tol n A0) in
      neglog p mu x (fa_exec inv d k p mu x) <= neglog p mu x y.
    Proof.
      intros lhood tol n A0 mu x y p. destruct (C375_positive lhood tol n A0) as (HS & HB & HE). apply C373_map; [exact HS|]. apply inv_ok; [now left|apply big_sym|exact HB].
    Qed.
  End Fit.

  (** ** C374: the M-step minimises the expected loss on the training data *)
  Section Data.
    Variable inv : nat -> mtx -> mtx.
    Variables d k : nat.
    Variable rs : list vec.          (* the training data without their mean *)
    Hypothesis rs_ne : rs <> [].
    Definition dcov : mtx := fun i j => fsum (map (fun r : vec => r i * r j) rs) / fn (length rs).
    Lemma fn_rs : fn (length rs) <> (0 : K).
    Proof. apply fn_ne. destruct rs; [congruence|discriminate]. Qed.
    (** the mean over the data and over the posterior distribution (mean execute, covariance 1 - A^T B A) of the latent variables y of (r_i - a.y)^2 *)
    Definition expected (p : params K) (i : nat) (a : vec) : K :=
      fsum (map (fun r : vec => (r i - dot k a (fa_exec inv d k p vzero r)) * (r i - dot k a (fa_exec inv d k p vzero r)) + quad k (post inv d k p) a a) rs) / fn (length rs).
    Lemma dcov_sym : symmetric d dcov.
    Proof. intros i j Hi Hj. unfold dcov. f_equal. apply fsum_map_ext. intros. ring. Qed.
    Lemma dcov_quad (v w : vec) : quad d dcov v w = fsum (map (fun r : vec => dot d v r * dot d r w) rs) / fn (length rs).
    Proof.
      assert (N := fn_rs). set (c := finv (fn (length rs)) : K).
      transitivity (c * fsum (map (fun r : vec => dot d v r * dot d r w) rs)); [|unfold c; field; exact N].
      transitivity (fsumn d (fun i => fsumn d (fun j => c * fsum (map (fun r : vec => v i * r i * (r j * w j)) rs)))).
      - unfold quad, dot at 1, mulv. apply fsumn_ext. intros i Hi. rewrite <- fsumn_mul. apply fsumn_ext. intros j Hj. unfold dcov.
        rewrite (fsum_map_ext rs (fun r : vec => v i * r i * (r j * w j)) (fun r : vec => (v i * w j) * (r i * r j))) by (intros; ring).
        rewrite fsum_map_mul. unfold c. field. exact N.
      - rewrite (fsumn_ext d _ (fun i => c * fsum (map (fun r : vec => fsumn d (fun j => v i * r i * (r j * w j))) rs))).
        + rewrite fsumn_mul, fsumn_fsum. f_equal. apply fsum_map_ext. intros r Hr. unfold dot. rewrite <- fsumn_mulr. apply fsumn_ext. intros i Hi. now rewrite fsumn_mul.
        + intros i Hi. now rewrite fsumn_mul, fsumn_fsum.
    Qed.
    Lemma dcov_psd : psd d dcov.
    Proof.
      intro w. rewrite dcov_quad. apply fdiv_pos.
      - apply fsum_map_nonneg. intros r Hr. rewrite (dot_sym d w r). apply fsq.
      - destruct rs; [congruence|]. apply fn_pos.
    Qed.
    Lemma exec_Mt (p : params K) (a r : vec) : dot k a (fa_exec inv d k p vzero r) = dot d (Mt inv d k p a) r.
    Proof.
      unfold dot, Mt. rewrite (fsumn_ext k _ (fun j => fsumn d (fun i => a j * trAB inv d k p j i * r i))).
      - rewrite fsumn_swap. apply fsumn_ext. intros i Hi. now rewrite fsumn_mulr.
      - intros j Hj. rewrite exec_trAB, <- fsumn_mul. apply fsumn_ext. intros i Hi. unfold vzero. ring.
    Qed.
    Lemma expected_qloss (p : params K) i (a : vec) : (i < d)%nat -> expected p i a = qloss inv d k dcov p i a.
    Proof.
      intro Hi. assert (N := fn_rs). rewrite (qloss_split inv d k dcov dcov_sym) by exact Hi. rewrite dcov_quad. unfold expected. rewrite fsum_map_add, fsum_map_const.
      rewrite (fsum_map_ext rs (fun r : vec => dot d (fun l => delta i l - Mt inv d k p a l) r * dot d r (fun l => delta i l - Mt inv d k p a l))
        (fun r : vec => (r i - dot k a (fa_exec inv d k p vzero r)) * (r i - dot k a (fa_exec inv d k p vzero r)))).
      - field. exact N.
      - intros r Hr. assert (E : dot d (fun l => delta i l - Mt inv d k p a l) r = r i - dot k a (fa_exec inv d k p vzero r)); [|now rewrite (dot_sym d r), E].
        rewrite exec_Mt. unfold dot. rewrite (fsumn_ext d _ (fun l => r l * delta i l - Mt inv d k p a l * r l)) by (intros; ring).
        rewrite fsumn_sub, (fsumn_delta d r) by exact Hi. reflexivity.
    Qed.
    (** the new loading factors of component i have the least expected loss, they are the only such ones, and the new noise variance is this loss *)
    Theorem C374_mstep : forall (p : params K) i a, (i < d)%nat -> (forall i, (i < d)%nat -> 0 < pS p i) ->
      rinv d (big k p) (inv d (big k p)) -> rinv k (Eyy inv d k dcov p) (inv k (Eyy inv d k dcov p)) ->
      let q := em_step inv d k dcov p in
      pS q i = expected p i (pA q i) /\ expected p i (pA q i) <= expected p i a /\
      (expected p i a = expected p i (pA q i) -> forall j, (j < k)%nat -> a j = pA q i j).
    Proof.
      intros p i a Hi HS HB HE q. rewrite !expected_qloss by exact Hi. change (pA q i) with (newA inv d k dcov p i).
      split; [symmetry; apply qloss_new; auto using dcov_sym|]. rewrite (qloss_excess inv d k dcov dcov_sym p i a HB HE). set (h := fun l => a l - newA inv d k dcov p i l).
      destruct (zero_or k h) as [Z|Z].
      - assert (Q : quad k (Eyy inv d k dcov p) h h = 0) by (unfold quad, dot; apply fsumn_zero; intros j Hj; rewrite (Z j Hj); ring).
        rewrite Q. split; [apply le_addr, fle_refl|].
        intros _ j Hj. transitivity (h j + newA inv d k dcov p i j); [unfold h; ring|rewrite (Z j Hj); ring].
      - assert (P : 0 < quad k (Eyy inv d k dcov p) h h) by (apply Eyy_posdef; auto using dcov_psd, dcov_sym). split.
        + apply le_addr. now apply flt_le.
        + intro E. exfalso. apply (flt_ne _ _ P). symmetry. exact (add_cancel _ _ E).
    Qed.
    (** fitting these data, as in C375 *)
    Theorem C375_data : (forall n M, n = d \/ n = k -> symmetric n M -> posdef n M -> rinv n M (inv n M)) -> (forall i, (i < d)%nat -> exists r, In r rs /\ r i <> 0) ->
      forall lhood tol n A0, let p := e_par (fit inv d k dcov lhood tol n A0) in forall i, (i < d)%nat -> 0 < pS p i.
    Proof.
      intros Hinv Hr lhood tol n A0 p i Hi. apply (C375_positive inv d k dcov dcov_sym dcov_psd); [|exact Hinv|exact Hi]. intros j Hj. unfold dcov.
      assert (P : 0 < (fn (length rs) : K)) by (destruct rs; [congruence|apply fn_pos]).
      apply pos_of; [apply fdiv_pos; [apply fsum_map_nonneg; intros; apply fsq|exact P]|]. intro Z.
      assert (Z' : fsum (map (fun r : vec => r j * r j) rs) = 0).
      { transitivity (fsum (map (fun r : vec => r j * r j) rs) / fn (length rs) * fn (length rs)); [field; apply fn_rs|rewrite Z; ring]. }
      destruct (Hr j Hj) as (r & Hin & Hn). apply Hn, fsq0. apply (fsum_map_eq0 rs (fun r : vec => r j * r j)); [intros; apply fsq|exact Z'|exact Hin].
    Qed.
  End Data.

  (** ** The cycles *)
  Section Cycles.
    Variable inv : nat -> mtx -> mtx.
    Variables d k : nat.
    Variable C : mtx.
    Variables (lhood : params K -> K) (tol : K).
    Notation step := (em_step inv d k C).
    Notation cyc := (cycles inv d k C lhood tol).
    Fixpoint iter (n : nat) (p : params K) : params K := match n with O => p | S n => iter n (step p) end.
    Lemma iter_S n (p : params K) : iter (S n) p = step (iter n p).
    Proof. revert p. induction n as [|n IH]; intro p; [reflexivity|]. cbn [iter] in *. apply IH. Qed.
    Lemma sorted_snoc (l : list K) a : StronglySorted fle l -> Forall (fun b => b <= a) l -> StronglySorted fle (l ++ [a]).
    Proof.
      induction 1 as [|b l Hl IH Hb]; intro H; cbn; [repeat constructor|]. inversion H; subst. constructor; [now apply IH|]. apply Forall_app. split; [exact Hb|]. constructor; auto.
    Qed.
    Lemma go_on (l base old : K) : 0 <= tol -> base <= old -> fltb (l - base) ((1 + tol) * (old - base)) = false -> old <= l.
    Proof.
      intros Ht Hb H. change (fle ((1 + tol) * (old - base)) (l - base)) in H. apply fle_sub in H. apply fle_sub.
      replace (l - old) with (l - base - (1 + tol) * (old - base) + tol * (old - base)) by ring. apply add_nonneg; [exact H|]. apply fle_mul0; [exact Ht|]. exact (proj1 (fle_sub _ _) Hb).
    Qed.
    (** C376: with a tolerance that is not negative the curve never decreases and no warning is given, whatever the likelihood does *)
    Lemma cycles_curve n : forall base old p curve warn, 0 <= tol -> base <= old -> StronglySorted fle curve -> Forall (fun b => b <= old) curve ->
      StronglySorted fle (e_curve (cyc n (Some (base, old)) p curve warn)) /\ e_warn (cyc n (Some (base, old)) p curve warn) = warn.
    Proof.
      induction n as [|n IH]; intros base old p curve warn Ht Hb Hs Hf; cbn [cycles]; [now split|].
      destruct (fltb (lhood p - base) ((1 + tol) * (old - base))) eqn:E; [now split|]. assert (G := go_on _ _ _ Ht Hb E).
      assert (G' : fltb (lhood p) old = false) by exact G. rewrite G'.
      assert (F : Forall (fun b => b <= lhood p) curve) by (eapply Forall_impl; [|exact Hf]; intros b Hbb; exact (fle_trans _ _ _ Hbb G)).
      apply IH; [exact Ht|now apply fle_trans with old|now apply sorted_snoc|apply Forall_app; split; [exact F|repeat constructor; apply fle_refl]].
    Qed.
    Theorem C376_curve : forall n A0, 0 <= tol -> let e := fit inv d k C lhood tol n A0 in StronglySorted fle (e_curve e) /\ e_warn e = 0%nat.
    Proof.
      intros n A0 Ht e. unfold e, fit. destruct n as [|n]; cbn [cycles e_curve e_warn app]; [split; [constructor|reflexivity]|].
      apply cycles_curve; [exact Ht|apply fle_refl|repeat constructor|repeat constructor; apply fle_refl].
    Qed.
    (** C377: the curve has the likelihoods of the parameters before the cycles; a cycle which ended by convergence changed the parameters too, but is not in the curve *)
    Lemma cycles_iter n : forall prev p curve warn, exists m, (m <= n)%nat /\ let e := cyc n prev p curve warn in
      e_curve e = curve ++ map (fun i => lhood (iter i p)) (seq 0 m) /\ e_par e = iter (if e_break e then S m else m) p /\ (e_break e = false -> m = n) /\ (e_break e = true -> (m < n)%nat).
    Proof.
      induction n as [|n IH]; intros prev p curve warn; [exists O; cbn; rewrite app_nil_r; repeat split; auto; discriminate|].
      assert (G : forall prev' warn', exists m, (m <= S n)%nat /\ let e := cyc n prev' (step p) (curve ++ [lhood p]) warn' in
        e_curve e = curve ++ map (fun i => lhood (iter i p)) (seq 0 m) /\ e_par e = iter (if e_break e then S m else m) p /\ (e_break e = false -> m = S n) /\ (e_break e = true -> (m < S n)%nat)).
      { intros prev' warn'. destruct (IH prev' (step p) (curve ++ [lhood p]) warn') as (m & Hm & H1 & H2 & H3 & H4). exists (S m). split; [lia|]. cbv zeta. rewrite H1, H2. split; [|split; [|split]].
        - rewrite <- app_assoc. cbn [app seq map iter]. do 2 f_equal. rewrite <- seq_shift, map_map. reflexivity.
        - destruct (e_break _); reflexivity.
        - intro E. now rewrite (H3 E).
        - intro E. specialize (H4 E). lia. }
      cbn [cycles]. destruct prev as [[base old]|]; [|apply G]. destruct (fltb _ _); [|apply G].
      exists O. cbn. rewrite app_nil_r. repeat split; auto; try lia; discriminate.
    Qed.
    Theorem C377_cycles : forall n A0, let e := fit inv d k C lhood tol n A0 in let p0 := mkPar A0 (fun i => C i i) in let m := length (e_curve e) in
      e_curve e = map (fun i => lhood (iter i p0)) (seq 0 m) /\ e_par e = iter (if e_break e then S m else m) p0 /\ (m <= n)%nat /\ (e_break e = false -> m = n) /\ (e_break e = true -> (m < n)%nat).
    Proof.
      intros n A0 e p0 m. unfold m, e, fit. fold p0. destruct (cycles_iter n None p0 [] O) as (c & Hc & H1 & H2 & H3 & H4). cbn [app] in H1.
      rewrite H1, map_length, seq_length. repeat split; auto.
    Qed.
    (** so lhood[-1] is the likelihood of parameters one or two cycles older *)
    Theorem C377_last : forall n A0, let e := fit inv d k C lhood tol n A0 in let p0 := mkPar A0 (fun i => C i i) in (1 <= n)%nat ->
      exists j, last (e_curve e) 0 = lhood (iter j p0) /\ e_par e = iter (if e_break e then 2 + j else 1 + j) p0.
    Proof.
      intros n A0 e p0 Hn. destruct (C377_cycles n A0) as (H1 & H2 & H3 & H4 & H5). fold e in H1, H2, H3, H4, H5. fold p0 in H1, H2. set (m := length (e_curve e)) in *.
      assert (Hm : (1 <= m)%nat).
      { unfold m, e, fit. destruct n as [|n]; [lia|]. cbn [cycles]. destruct (cycles_iter n (Some (lhood (mkPar A0 (fun i => C i i)), lhood (mkPar A0 (fun i => C i i)))) (step (mkPar A0 (fun i => C i i))) ([] ++ [lhood (mkPar A0 (fun i => C i i))]) 0) as (c & _ & E & _).
        rewrite E. rewrite !app_length. cbn. lia. }
      exists (m - 1)%nat. split.
      - rewrite H1. replace m with (S (m - 1)) at 1 by lia. rewrite seq_S, map_app. cbn [map Nat.add]. apply last_last.
      - rewrite H2. destruct (e_break e); f_equal; lia.
    Qed.
  End Cycles.
End FA.

(** ** One component, one latent variable, rationals: variance 1, factor 1 *)
Definition inv1 : nat -> mtx (K := Qc_of) -> mtx (K := Qc_of) := fun _ M i j => finv (M i j).
Definition one1 : mtx (K := Qc_of) := fun _ _ => 1.
(** the likelihood -(log b + 1/b)/2 of this one component is ordered as -b, b = A^2 + sigma >= 1 *)
Definition lh1 (p : params Qc_of) : Qc_of := - big (K := Qc_of) 1 p 0%nat 0%nat.
Definition fit1 (n : nat) (tol : Qc_of) := fit (K := Qc_of) inv1 1 1 one1 lh1 tol n one1.
(** lhood[-1] is not the likelihood of the parameters which are kept *)
Theorem C377_last_refuted : exists n, let e := fit1 n (Q2Qc (1 # 10000)) in fltb (last (e_curve e) 0) (lh1 (e_par e)) = true.
Proof. exists 1%nat. vm_compute. reflexivity. Qed.
(** two cycles: -2, -10/9 *)
Example C376_ex : map (fun q : Qc => this q) (e_curve (fit1 2 (Q2Qc (1 # 10000)))) = [-2; -10 # 9]%Q /\ e_warn (fit1 2 (Q2Qc (1 # 10000))) = 0%nat.
Proof. split; vm_compute; reflexivity. Qed.
Example C374_ex : this (pA (e_par (fit1 1 0)) 0%nat 0%nat) = (2 # 3)%Q /\ this (pS (e_par (fit1 1 0)) 0%nat) = (2 # 3)%Q.
Proof. split; vm_compute; reflexivity. Qed.
(** x = 5: y = A x / (A^2 + sigma) *)
Example C373_ex : this (fa_exec (K := Qc_of) inv1 1 1 (e_par (fit1 1 0)) (fun _ => 0) (fun _ => Q2Qc 5) 0%nat) = 3%Q.
Proof. vm_compute. reflexivity. Qed.
(** utils.inv of 1 x 1 matrices is what C375 asks for *)
Example C375_ex : forall n tol, 0 < pS (e_par (fit1 n tol)) 0%nat.
Proof.
  assert (H1 : symmetric (K := Qc_of) 1 one1) by (intros i j _ _; unfold one1; exact eq_refl).
  assert (H2 : psd (K := Qc_of) 1 one1) by (intro w; rewrite quad1; unfold one1; rewrite mul1; apply fsq).
  assert (H3 : forall i, (i < 1)%nat -> flt (K := Qc_of) 0 (one1 i i)) by (intros i _; unfold one1; apply f01).
  assert (H4 : forall m M, m = 1%nat \/ m = 1%nat -> symmetric (K := Qc_of) m M -> posdef m M -> rinv m M (inv1 m M)).
  { intros m M Hm _. assert (E : m = 1%nat) by (destruct Hm; assumption). rewrite E. unfold inv1. apply inv1_ok. }
  intros n tol. unfold fit1. exact (proj1 (C375_positive inv1 1 1 one1 H1 H2 H3 H4 lh1 tol n one1) 0%nat (Nat.lt_0_succ 0)).
Qed.
(** A^2 / (A^2 + sigma) = 2/5 of the latent variable comes back *)
Example C379_ex : this (fa_exec (K := Qc_of) inv1 1 1 (e_par (fit1 1 0)) (fun _ => 0) (fa_gen (K := Qc_of) 1 (e_par (fit1 1 0)) (fun _ => 0) (fun _ => 1)) 0%nat) = (2 # 5)%Q.
Proof. vm_compute. reflexivity. Qed.
(** with a negative tolerance the warning is possible *)
Example C376_negative : exists lh, e_warn (fit (K := Qc_of) inv1 1 1 one1 lh (Q2Qc (-1 # 1)) 3 one1) = 1%nat.
Proof. exists (fun p : params Qc_of => if fltb (pS p 0%nat) 1 then if fltb (pA p 0%nat 0%nat) (Q2Qc (2 # 3) : Qc_of) then (Q2Qc 1 : Qc_of) else (Q2Qc 2 : Qc_of) else (0 : Qc_of)). vm_compute. reflexivity. Qed.

(** ** C378: after stop_training raised because of a singular covariance *)
Section Life.
  Variables (X : Type) (singular : list X -> bool).
  Notation node := (fanode X).
  Inductive op := OTrain (x : X) | OStop | OReady.
  Definition run (s : node) (o : op) : node * fares := match o with OTrain x => fa_train X s x | OStop => fa_stop X singular s | OReady => fa_ready X singular s end.
  Fixpoint runs (s : node) (l : list op) : node * list fares := match l with [] => (s, []) | o :: l => let (s, r) := run s o in let (s, rs) := runs s l in (s, r :: rs) end.
  (** nothing can be done with the node any more *)
  Theorem C378_dead : forall s l xs, fa_acc X s = Some xs -> fa_training X s = true -> fa_started X s = true -> singular xs = true ->
    exists s', fa_stop X singular s = (s', FNode) /\ snd (runs s' l) = repeat FAttribute (length l).
  Proof.
    intros s l xs H1 H2 H3 H4. unfold fa_stop. rewrite H1, H2, H3, H4. cbn [negb andb]. eexists. split; [reflexivity|]. clear.
    induction l as [|o l IH]; [reflexivity|]. cbn [runs length repeat]. assert (E : run (mkFA X None true true) o = (mkFA X None true true, FAttribute)) by (destruct o; reflexivity).
    rewrite E. destruct (runs _ l) as [s rs]. cbn in *. now rewrite IH.
  Qed.
  (** otherwise training ends *)
  Theorem C378_done : forall s xs, fa_acc X s = Some xs -> fa_training X s = true -> fa_started X s = true -> singular xs = false ->
    exists s', fa_stop X singular s = (s', FOk) /\ fa_training X s' = false /\ fa_ready X singular s' = (s', FOk).
  Proof. intros s xs H1 H2 H3 H4. unfold fa_stop. rewrite H1, H2, H3, H4. cbn. eexists. repeat split. Qed.
End Life.
(** chunks of numbers, the data are singular as long as they are constant: training on with other data is not possible *)
Definition const (l : list nat) : bool := match l with [] => true | a :: l => forallb (Nat.eqb a) l end.
Theorem C378_retry_refuted : exists xs y, let s := fst (runs nat const (fa_init nat) (map (OTrain nat) xs)) in
  snd (fa_stop nat const s) = FNode /\ const (xs ++ [y]) = false /\ snd (fa_train nat (fst (fa_stop nat const s)) y) = FAttribute.
Proof. exists [1; 1]%nat, 2%nat. repeat split. Qed.
Example C378_ex : snd (runs nat const (fa_init nat) [OTrain nat 1; OTrain nat 2; OStop nat; OTrain nat 3])%nat = [FOk; FOk; FOk; FFinished] /\
  snd (runs nat const (fa_init nat) [OTrain nat 1; OTrain nat 1; OStop nat; OTrain nat 3; OReady nat])%nat = [FOk; FOk; FNode; FAttribute; FAttribute].
Proof. split; reflexivity. Qed.
