(** Properties C424-C431: FastICANode *)
From Coq Require Import Reals List Arith ZArith Bool Lia Lra FunctionalExtensionality.
From Verif Require Import CovModel ICAModel ICAProofs FastModel.
Import ListNotations.
Open Scope R_scope.

(** ** vectors *)
Lemma dot_ext d a b a' b' : (forall k, (k < d)%nat -> a k = a' k) -> (forall k, (k < d)%nat -> b k = b' k) -> dot d a b = dot d a' b'.
Proof. intros H1 H2. apply rsum_ext. intros k Hk. now rewrite H1, H2. Qed.
Lemma dot_comm d a b : dot d a b = dot d b a. Proof. apply rsum_ext. intros. ring. Qed.
Lemma dot_scale d a b c : dot d a (fun k => c * b k) = c * dot d a b. Proof. unfold dot. rewrite <- rsum_mul. apply rsum_ext. intros. ring. Qed.
Lemma dot_minus d a b c : dot d a (fun k => b k - c k) = dot d a b - dot d a c. Proof. unfold dot. rewrite <- rsum_sub. apply rsum_ext. intros. ring. Qed.
Lemma rsum_S n f : rsum (S n) f = rsum n f + f n.
Proof. unfold rsum. rewrite seq_S, map_app. cbn [map Nat.add]. generalize (map f (seq 0 n)). intros l. unfold fsum. induction l as [|x l IH]; cbn [app fold_right]; [ring|]. rewrite IH. ring. Qed.
Lemma rsum_nonneg n f : (forall k, (k < n)%nat -> 0 <= f k) -> 0 <= rsum n f.
Proof. intros H. apply (lsum_nonneg f (seq 0 n)). intros k Hk. apply in_seq in Hk. apply H. lia. Qed.
Lemma dot_pos d a : 0 <= dot d a a. Proof. apply rsum_nonneg. intros. nra. Qed.
Lemma norm2_sq d a : norm2 d a * norm2 d a = dot d a a. Proof. apply sqrt_sqrt, dot_pos. Qed.
Lemma unit_spec d w v : unit_ d w = Some v -> norm2 d w <> 0 /\ v = fun k => w k / norm2 d w.
Proof. unfold unit_. destruct (Req_EM_T (norm2 d w) 0); [discriminate|]. intros E. injection E as <-. auto. Qed.
Lemma unit_one d w v : unit_ d w = Some v -> dot d v v = 1.
Proof.
  intros H. apply unit_spec in H as [N ->]. unfold dot. rewrite (rsum_ext d _ (fun k => / (norm2 d w * norm2 d w) * (w k * w k))) by (intros; field; exact N).
  rewrite rsum_mul. fold (dot d w w). rewrite <- norm2_sq. field. exact N.
Qed.
Lemma unit_dot d w v a : unit_ d w = Some v -> dot d a w = 0 -> dot d a v = 0.
Proof.
  intros H E. apply unit_spec in H as [N ->]. unfold dot. rewrite (rsum_ext d _ (fun k => / norm2 d w * (a k * w k))) by (intros; field; exact N). rewrite rsum_mul. fold (dot d a w). rewrite E. ring.
Qed.

(** ** C424: the nonlinearity is always found *)
Lemma known_in g : known g = true <-> In g [10; 11; 12; 13; 20; 21; 22; 23; 30; 31; 32; 33; 40; 41; 42; 43]%nat.
Proof. unfold known. rewrite existsb_exists. split; [intros (x & H & E); apply Nat.eqb_eq in E; now subst|]. intros H. exists g. split; [exact H|apply Nat.eqb_refl]. Qed.
Lemma known_up g : known g = true -> known (up g) = true.
Proof. intros H. apply known_in in H. cbn [In] in H. repeat (destruct H as [<-|H]; [reflexivity|]). destruct H. Qed.
Lemma known_down g : known g = true -> Nat.even g = false -> known (g - 1) = true.
Proof. intros H. apply known_in in H. cbn [In] in H. repeat (destruct H as [<-|H]; [intros; solve [reflexivity|discriminate]|]). destruct H. Qed.
Lemma known_stab a b mu st l g mu' st' l' g' : stabilise a b (mu, st, l, g) = (mu', st', l', g') -> known g = true -> known g' = true.
Proof.
  unfold stabilise. intros E H. destruct (Reqb st 0 && a); [injection E as <- <- <- <-; now apply known_up|]. destruct (negb (Reqb st 0)).
  - injection E as <- <- <- <-. destruct (Reqb st 1 && negb (Nat.even g)) eqn:B; [|exact H]. apply andb_prop in B as [_ B]. apply known_down; [exact H|]. now destruct (Nat.even g).
  - destruct (negb l && b); injection E as <- <- <- <-; [now apply known_up|exact H].
Qed.
Lemma known_orig c : known (g_orig c) = true.
Proof. unfold g_orig. destruct (c_g c), (c_all c), (Reqb (c_mu c) 1); reflexivity. Qed.
Lemma known_fine c : known (g_fine c) = true.
Proof. unfold g_fine, g_orig. destruct (c_fine c) as [g|]; [now destruct g|]. destruct (Reqb (c_mu c) 1), (c_g c), (c_all c); reflexivity. Qed.

Section Symm.
  Variables (d : nat) (c : fcfg) (isqrt : rmat -> option rmat) (upd : nat -> R -> nat -> rmat -> rmat).
  Lemma control_known round q s s' : s_control d c round q s = inl s' -> known (s_g s) = true -> known (s_g s') = true.
  Proof.
    unfold s_control. intros E H. set (co := g_differs c && _ && _) in E. assert (G : known (if co then g_fine c else s_g s) = true) by (destruct co; [apply known_fine|exact H]).
    destruct (Rltb (conv_s d q (s_qo s)) (c_limit c)); cbn [andb] in E.
    - destruct (negb (fine_tuning c && negb (s_fine s))); [discriminate|].
      destruct (stabilization c); [destruct (stabilise _ _ _) as [[[mu st] l] g] eqn:S; injection E as <-; cbn; eapply known_stab; [exact S|apply known_fine]|injection E as <-; apply known_fine].
    - destruct (stabilization c); [destruct (stabilise _ _ _) as [[[mu st] l] g] eqn:S; injection E as <-; cbn; eapply known_stab; [exact S|exact G]|injection E as <-; exact G].
  Qed.
  Lemma symm_found todo round s : known (s_g s) = true -> symm d c isqrt upd todo round s <> inr FNotFound.
  Proof.
    revert round s. induction todo as [|todo IH]; intros round s H; cbn [symm]; [discriminate|]. destruct (isqrt _) as [m|]; [|discriminate].
    destruct (s_control d c round (mult d (s_q s) m) s) as [s'|v] eqn:E; [|discriminate]. apply control_known in E; [|exact H]. rewrite E. apply IH. exact E.
  Qed.
  (** C424: whatever the arguments, the symmetric approach finds the nonlinearity *)
  Theorem C424_symm guess : symm_core d c isqrt upd guess <> inr FNotFound.
  Proof. apply symm_found. apply known_orig. Qed.

  (** C427: the filters are orthonormal and nearly those of the step before *)
  Definition is_isqrt : Prop := forall q s, isqrt (mult d (transp q) q) = Some s -> exists inv,
    (forall i j, (i < d)%nat -> (j < d)%nat -> s i j = s j i) /\ (forall i j, (i < d)%nat -> (j < d)%nat -> mult d s s i j = inv i j) /\
    (forall i j, (i < d)%nat -> (j < d)%nat -> mult d inv (mult d (transp q) q) i j = eye i j) /\ (forall i j, (i < d)%nat -> (j < d)%nat -> mult d (mult d (transp q) q) inv i j = eye i j).
  Lemma orthonormalized q s : is_isqrt -> isqrt (mult d (transp q) q) = Some s -> forall i j, (i < d)%nat -> (j < d)%nat -> mult d (transp (mult d q s)) (mult d q s) i j = eye i j.
  Proof.
    intros C E. destruct (C q s E) as (n & Ss & SS & NM & MN). set (m := mult d (transp q) q) in *. intros i j Hi Hj.
    (* s m s *)
    transitivity (mult d s (mult d m s) i j).
    { transitivity (mult d (mult d (transp s) (transp q)) (mult d q s) i j); [apply mult_ext; [|reflexivity]; intros; apply transp_mult|].
      rewrite mult_assoc. transitivity (mult d (transp s) (mult d m s) i j); [apply mult_ext; [reflexivity|]; intros; unfold m; symmetry; apply mult_assoc|].
      apply mult_ext; [|reflexivity]. intros k Hk. unfold transp, ftrans. apply Ss; assumption. }
    (* = s m s (n m) = s m n s m = s s m = n m *)
    assert (sn : forall a b, (a < d)%nat -> (b < d)%nat -> mult d s n a b = mult d n s a b).
    { intros a b Ha Hb. transitivity (mult d s (mult d s s) a b); [apply mult_ext; [reflexivity|]; intros; symmetry; apply SS; assumption|]. rewrite <- mult_assoc. apply mult_ext; [intros; apply SS; assumption|reflexivity]. }
    transitivity (mult d (mult d s (mult d m s)) (mult d n m) i j).
    { symmetry. transitivity (mult d (mult d s (mult d m s)) eye i j); [apply mult_ext; [reflexivity|]; intros; apply NM; assumption|]. now apply mult_eye_r. }
    transitivity (mult d s (mult d (mult d m n) (mult d s m)) i j).
    { rewrite mult_assoc. apply mult_ext; [reflexivity|]. intros k Hk. rewrite mult_assoc. transitivity (mult d m (mult d (mult d s n) m) k j); [apply mult_ext; [reflexivity|]; intros; symmetry; apply mult_assoc|].
      transitivity (mult d m (mult d (mult d n s) m) k j). { apply mult_ext; [reflexivity|]. intros l Hl. apply mult_ext; [|reflexivity]. intros l' Hl'. now apply sn. }
      rewrite (mult_assoc d d m n). apply mult_ext; [reflexivity|]. intros l Hl. apply mult_assoc. }
    transitivity (mult d s (mult d s m) i j).
    { apply mult_ext; [reflexivity|]. intros k Hk. transitivity (mult d eye (mult d s m) k j); [apply mult_ext; [|reflexivity]; intros; apply MN; assumption|]. now apply mult_eye_l. }
    rewrite <- mult_assoc. transitivity (mult d n m i j); [apply mult_ext; [intros; apply SS; assumption|reflexivity]|]. now apply NM.
  Qed.
  Theorem C427_orthonormal guess q v : is_isqrt -> symm_core d c isqrt upd guess = inl (q, v) ->
    (forall i j, (i < d)%nat -> (j < d)%nat -> dot d (col q i) (col q j) = if (i =? j)%nat then 1 else 0) /\ v < c_limit c /\
    exists before, v = conv_s d q before.
  Proof.
    intros C. unfold symm_core. generalize 0%nat, (s_start c guess). intros round s E. revert round s E. generalize (c_max_it c) as todo. induction todo as [|todo IH]; intros round s E; cbn [symm] in E; [discriminate|].
    destruct (isqrt _) as [m|] eqn:Em; [|discriminate]. destruct (s_control d c round (mult d (s_q s) m) s) as [s'|v'] eqn:Ec.
    - destruct (known (s_g s')); [|discriminate]. now apply IH in E.
    - injection E as <- <-. unfold s_control in Ec. destruct (Rltb (conv_s d (mult d (s_q s) m) (s_qo s)) (c_limit c)) eqn:L; cbn [andb] in Ec.
      + destruct (negb _); [|destruct (stabilization c); [destruct (stabilise _ _ _) as [[[? ?] ?] ?]|]; discriminate]. injection Ec as <-. split; [|split].
        * intros i j Hi Hj. pose proof (orthonormalized _ _ C Em i j Hi Hj) as O. unfold eye in O. exact O.
        * unfold Rltb in L. destruct (Rlt_dec _ _); [assumption|discriminate].
        * eauto.
      + destruct (stabilization c); [destruct (stabilise _ _ _) as [[[? ?] ?] ?]|]; discriminate.
  Qed.
  (** C427: at most max_it rounds; NodeException otherwise *)
  Theorem C427_ends guess : (exists q v, symm_core d c isqrt upd guess = inl (q, v)) \/ symm_core d c isqrt upd guess = inr FNoConv \/ symm_core d c isqrt upd guess = inr FLinAlg.
  Proof.
    pose proof (C424_symm guess) as N. destruct (symm_core d c isqrt upd guess) as [[q v]|e] eqn:E; [eauto|]. right. unfold symm_core in E. revert E. generalize 0%nat, (s_start c guess).
    generalize (c_max_it c) as todo. induction todo as [|todo IH]; intros round s E; cbn [symm] in E; [injection E as <-; auto|].
    destruct (isqrt _); [|injection E as <-; auto]. destruct (s_control _ _ _ _ _) as [s'|v']; [|discriminate]. destruct (known _); [now apply IH in E|]. injection E as <-. congruence.
  Qed.
End Symm.

Section Defl.
  Variables (d : nat) (c : fcfg) (upd : nat -> R -> nat -> rvec -> rvec).
  Lemma conv_self w : conv_d d w w = 0.
  Proof.
    unfold conv_d. assert (Z : norm2 d (vminus w w) = 0). { unfold norm2. replace (dot d (vminus w w) (vminus w w)) with 0; [apply sqrt_0|]. symmetry. apply rsum_zero. intros. unfold vminus. ring. }
    rewrite Z. apply Rmin_left. apply sqrt_pos.
  Qed.
  (** the result of an iteration: it ends, or goes on with a new state *)
  Lemma inner_step fuel q s : inner d c upd (S fuel) q s =
    if (d_i s <=? c_max_it c + d_gabba s)%nat then
      match unit_ d (deflate d q (d_w s)) with
      | None => Some DNan
      | Some w =>
          if negb (d_fine s) && (d_i s =? c_max_it c + 1)%nat then Some (DFail (d_k s))
          else
            let wo := if d_fine s && (d_end s <=? d_i s)%nat then w else d_wo s in
            let lim := Rltb (conv_d d w wo) (c_limit c) in
            if lim && negb (fine_tuning c && negb (d_fine s)) then Some (DConv w (d_k s))
            else
              let '(fine, gabba, wo, wof, g, mu, en) :=
                if lim then (true, c_max_it_fine c, vzero, vzero, g_fine c, muK * c_mu c, (c_max_it_fine c + d_i s)%nat)
                else (d_fine s, d_gabba s, wo, d_wof s, d_g s, d_mu s, d_end s) in
              let '(mu, stroke, lng, g) :=
                if negb lim && stabilization c
                then stabilise (Rltb (conv_d d w wof) (c_limit c)) (c_max_it c / 2 <? d_i s)%nat (mu, d_stroke s, d_lng s, g) else (mu, d_stroke s, d_lng s, g) in
              if known g then
                match unit_ d (upd g mu (d_k s) w) with
                | None => Some DNan
                | Some w' => inner d c upd fuel q (mkDS w' w wo mu g stroke fine lng en gabba (S (d_i s)) (S (d_k s)))
                end
              else Some DNotFound
      end
    else Some (DOver (d_k s)).
  Proof. reflexivity. Qed.
  (** the invariant of the loop: before fine tuning, and during fine tuning *)
  Definition good_state (s : dst) : Prop := known (d_g s) = true /\
    ((d_fine s = false /\ d_gabba s = 1 /\ d_i s <= c_max_it c + 1) \/
     (d_fine s = true /\ d_gabba s = c_max_it_fine c /\ d_end s <= c_max_it c + c_max_it_fine c /\ d_i s <= d_end s))%nat.
  (** with a positive limit and at least one iteration of fine tuning the loop ends by convergence or by failure, and w is orthogonal to the columns of Q *)
  Lemma inner_ends fuel q s : 0 < c_limit c -> (1 <= c_max_it_fine c)%nat -> good_state s -> (c_max_it c + c_max_it_fine c + 2 <= fuel + d_i s)%nat ->
    inner d c upd fuel q s = Some DNan \/ (exists k, inner d c upd fuel q s = Some (DFail k)) \/
    exists w k w0, inner d c upd fuel q s = Some (DConv w k) /\ unit_ d (deflate d q w0) = Some w.
  Proof.
    intros Hl Hf. revert s. induction fuel as [|fuel IH]; intros s [Kn G] Hfuel; [exfalso; destruct G as [(_ & _ & H)|(_ & _ & H1 & H2)]; lia|]. rewrite inner_step.
    assert (Lc : (d_i s <= c_max_it c + d_gabba s)%nat) by (destruct G as [(_ & -> & H)|(_ & -> & H1 & H2)]; lia). rewrite (proj2 (Nat.leb_le _ _) Lc).
    destruct (unit_ d (deflate d q (d_w s))) as [w|] eqn:Ew; [|auto].
    destruct (negb (d_fine s) && (d_i s =? c_max_it c + 1)%nat) eqn:Fa; [right; left; eauto|].
    set (wo := if d_fine s && (d_end s <=? d_i s)%nat then w else d_wo s). cbv zeta.
    destruct (Rltb (conv_d d w wo) (c_limit c)) eqn:L; cbn [andb negb].
    - destruct (negb (fine_tuning c && negb (d_fine s))) eqn:Ft; [right; right; exists w, (d_k s), (d_w s); auto|].
      assert (F0 : d_fine s = false) by (destruct (d_fine s), (fine_tuning c); cbn in Ft; congruence).
      rewrite known_fine. destruct (unit_ d (upd (g_fine c) (muK * c_mu c) (d_k s) w)) as [w'|]; [|auto].
      apply IH; [|cbn; lia]. split; [apply known_fine|]. right. cbn. destruct G as [(_ & _ & H)|(H & _)]; [|congruence].
      rewrite F0 in Fa. cbn in Fa. apply Nat.eqb_neq in Fa. repeat split; lia.
    - assert (A : d_fine s = true -> (d_i s < d_end s)%nat).
      { intros F. apply Nat.nle_gt. intros H. unfold wo in L. rewrite F in L. cbn [andb] in L. rewrite (proj2 (Nat.leb_le _ _) H) in L. rewrite conv_self in L.
        unfold Rltb in L. destruct (Rlt_dec 0 (c_limit c)); [discriminate|contradiction]. }
      assert (G' : forall g mu st lng w', known g = true -> good_state (mkDS w' w wo mu g st (d_fine s) lng (d_end s) (d_gabba s) (S (d_i s)) (S (d_k s)))).
      { intros g mu st lng w' Kg. split; [exact Kg|]. cbn. destruct G as [(F & B & H)|(F & B & H1 & H2)]; [left|right]; repeat split; auto; [|specialize (A F); lia].
        rewrite F in Fa. cbn in Fa. apply Nat.eqb_neq in Fa. lia. }
      destruct (stabilization c).
      + destruct (stabilise _ _ _) as [[[mu st] lng] g] eqn:St. pose proof (known_stab _ _ _ _ _ _ _ _ _ _ St Kn) as Kg. rewrite Kg.
        destruct (unit_ d (upd g mu (d_k s) w)) as [w'|]; [|auto]. apply IH; [apply G'; exact Kg|cbn; lia].
      + rewrite Kn. destruct (unit_ d (upd (d_g s) (d_mu s) (d_k s) w)) as [w'|]; [|auto]. apply IH; [apply G'; exact Kn|cbn; lia].
  Qed.

  (** the columns of Q: converged ones are orthonormal, the others zero *)
  Definition basis (q : rmat) (flags : list bool) : Prop :=
    (forall i j, (i < d)%nat -> (j < d)%nat -> dot d (col q i) (col q j) = if ((i =? j)%nat && nth i flags false)%bool then 1 else 0) /\
    (forall i a, nth i flags false = false -> q a i = 0).
  Lemma deflate_orth q flags w j : basis q flags -> (j < d)%nat -> dot d (col q j) (deflate d q w) = 0.
  Proof.
    intros [B Z] Hj. destruct (nth j flags false) eqn:F.
    2:{ apply rsum_zero. intros a _. unfold col. rewrite Z by exact F. ring. }
    unfold deflate. rewrite dot_minus.
    transitivity (dot d (col q j) w - rsum d (fun k => dot d (col q j) (col q k) * dot d (col q k) w)).
    - f_equal. unfold dot, col. rewrite (rsum_ext d _ (fun a => rsum d (fun b => rsum d (fun k => q a j * (q a k * q b k) * w b)))).
      2:{ intros a _. rewrite <- rsum_mul. apply rsum_ext. intros b _. rewrite <- rsum_mulr, <- rsum_mul. apply rsum_ext. intros. ring. }
      rewrite (rsum_ext d (fun k => rsum d (fun k0 => q k0 j * q k0 k) * rsum d (fun k0 => q k0 k * w k0)) (fun k => rsum d (fun a => rsum d (fun b => q a j * (q a k * q b k) * w b)))).
      2:{ intros k _. rewrite <- rsum_mulr. apply rsum_ext. intros a _. rewrite <- rsum_mul. apply rsum_ext. intros. ring. }
      rewrite (rsum_swap d d (fun k a => rsum d (fun b => q a j * (q a k * q b k) * w b))). apply rsum_ext. intros a _. apply rsum_swap.
    - rewrite (rsum_ext d _ (fun k => if (k =? j)%nat then dot d (col q k) w else 0)).
      + rewrite rsum_pick by exact Hj. ring.
      + intros k Hk. rewrite B by assumption. rewrite F, andb_true_r. rewrite Nat.eqb_sym. destruct (k =? j)%nat; ring.
  Qed.
  Lemma basis_set q flags w : basis q flags -> (forall j, (j < d)%nat -> dot d (col q j) w = 0) -> dot d w w = 1 -> (length flags < d)%nat -> basis (set_col q (length flags) w) (flags ++ [true]).
  Proof.
    intros [B Z] O U L. set (r := length flags) in *.
    assert (N : forall i, nth i (flags ++ [true]) false = if (i =? r)%nat then true else nth i flags false).
    { intros i. destruct (Nat.eqb_spec i r) as [->|Ne]; [unfold r; now rewrite app_nth2, Nat.sub_diag by lia|]. destruct (Nat.lt_ge_cases i r); [now rewrite app_nth1 by assumption|].
      rewrite app_nth2 by assumption. rewrite (nth_overflow flags) by (fold r; lia). destruct (i - length flags)%nat as [|[|m]] eqn:E; [unfold r in *; lia|reflexivity|reflexivity]. }
    split.
    - intros i j Hi Hj. rewrite N. unfold col, set_col. destruct (Nat.eqb_spec i r) as [->|Ni], (Nat.eqb_spec j r) as [->|Nj].
      + rewrite Nat.eqb_refl. exact U.
      + rewrite dot_comm. etransitivity; [exact (O j Hj)|]. destruct (Nat.eqb_spec r j); [congruence|reflexivity].
      + etransitivity; [exact (O i Hi)|]. destruct (Nat.eqb_spec i r); [congruence|reflexivity].
      + apply B; assumption.
    - intros i a H. rewrite N in H. unfold set_col. destruct (i =? r)%nat; [discriminate|]. now apply Z.
  Qed.
  Lemma basis_skip q flags : basis q flags -> basis q (flags ++ [false]).
  Proof.
    intros [B Z]. assert (N : forall i, nth i (flags ++ [false]) false = nth i flags false).
    { intros i. destruct (Nat.lt_ge_cases i (length flags)); [now rewrite app_nth1 by assumption|]. rewrite app_nth2 by assumption. rewrite (nth_overflow flags) by assumption. destruct (i - length flags)%nat as [|[|m]]; reflexivity. }
    split; intros; [rewrite N; apply B; assumption|]. apply Z. now rewrite <- N.
  Qed.

  Definition start_state w k : dst := mkDS w vzero vzero (c_mu c) (g_orig c) 0 false false 0 1 1 k.
  Lemma start_good w k : good_state (start_state w k).
  Proof. split; [apply known_orig|]. left. cbn. repeat split; lia. Qed.
  Lemma component_cases q guess r k : 0 < c_limit c -> (1 <= c_max_it_fine c)%nat -> exists g' o, component d c upd q guess r k = (g', Some o) /\
    (o = DNan \/ (exists k', o = DFail k') \/ exists w k' w0, o = DConv w k' /\ unit_ d (deflate d q w0) = Some w).
  Proof.
    intros Hl Hf. unfold component. destruct (unit_ d (deflate d q (col guess r))) as [w|]; [|eauto]. eexists.
    destruct (inner_ends (d_fuel c) q (start_state w k) Hl Hf (start_good w k)) as [E|[(k' & E)|(w1 & k' & w0 & E & U)]]; [unfold d_fuel; cbn; lia| | |]; unfold start_state in E; rewrite E; eexists; (split; [reflexivity|]); eauto 8.
  Qed.

  Lemma defl_ends : 0 < c_limit c -> (1 <= c_max_it_fine c)%nat -> forall todo r q guess nfail k flags g' o,
    basis q flags -> length flags = r -> (r + todo = d)%nat -> (r = 0%nat \/ nth 0 flags false = true) -> (nfail <= c_failures c)%nat -> (c_failures c = 0%nat -> forallb (fun b => b) flags = true) ->
    defl d c upd todo r q guess nfail k flags = (o, g') ->
    match o with
    | DDone q' flags' => basis q' flags' /\ length flags' = d /\ (d = 0%nat \/ nth 0 flags' false = true) /\ (c_failures c = 0%nat -> forallb (fun b => b) flags' = true)
    | DExn e => e = FNoConv \/ e = FTooMany
    | DOut => True
    end.
  Proof.
    intros Hl Hf. induction todo as [|todo IH]; intros r q guess nfail k flags g' o B Lr Rd N0 Nf All E; cbn [defl] in E.
    - injection E as <- <-. split; [exact B|]. split; [lia|]. split; [|exact All]. destruct N0 as [->|N0]; [left; lia|right; exact N0].
    - destruct (component_cases q guess r k Hl Hf) as (gu & oo & Ec & [->|[(k' & ->)|(w & k' & w0 & -> & U)]]); rewrite Ec in E; cbn iota beta in E.
      + injection E as <- <-. exact I.
      + destruct (Nat.eqb_spec r 0) as [->|Nr]; [injection E as <- <-; auto|]. destruct (Nat.ltb_spec (c_failures c) (S nfail)) as [L|L]; [injection E as <- <-; auto|].
        eapply IH; [| | | | | |exact E]; [now apply basis_skip|rewrite app_length; cbn; lia|lia| |lia|intros Z; lia].
        right. rewrite app_nth1 by lia. destruct N0 as [->|N0]; [lia|exact N0].
      + eapply IH; [| | | | | |exact E]; [|rewrite app_length; cbn; lia|lia| |lia|].
        * rewrite <- Lr. apply basis_set; [exact B| |eapply unit_one; exact U|lia]. intros j Hj. eapply unit_dot; [exact U|]. now apply deflate_orth with flags.
        * right. destruct flags as [|b l]; [reflexivity|]. cbn in *. destruct N0 as [N0|N0]; [lia|exact N0].
        * intros Z. rewrite forallb_app. now rewrite (All Z).
  Qed.
  Lemma basis_start : basis zmat [].
  Proof. split; [intros i j _ _|reflexivity]. destruct i; cbn [nth]; rewrite andb_false_r; apply rsum_zero; intros; unfold col, zmat; ring. Qed.
  (** C424: the deflation approach finds the nonlinearity *)
  Theorem C424_defl guess : 0 < c_limit c -> (1 <= c_max_it_fine c)%nat -> fst (defl_core d c upd guess) <> DExn FNotFound.
  Proof.
    intros Hl Hf E. unfold defl_core in E. destruct (defl d c upd d 0 zmat guess 0 0 []) as [o g'] eqn:D. cbn in E. subst o. eapply defl_ends in D; [|exact Hl|exact Hf|apply basis_start|reflexivity|reflexivity|auto|lia|reflexivity].
    destruct D; discriminate.
  Qed.
  (** C425: if the deflation approach ends without exception, the columns of the components which converged are orthonormal, the other columns are zero; the first component
      always converged; with failures=0 all of them, so that the filters are orthonormal.  (Division by zero is excluded.) *)
  Theorem C425_filters guess q flags : 0 < c_limit c -> (1 <= c_max_it_fine c)%nat -> fst (defl_core d c upd guess) = DDone q flags ->
    length flags = d /\ (d = 0%nat \/ nth 0 flags false = true) /\
    (forall i a, nth i flags false = false -> q a i = 0) /\
    (forall i j, (i < d)%nat -> (j < d)%nat -> nth i flags false = true -> nth j flags false = true -> dot d (col q i) (col q j) = if (i =? j)%nat then 1 else 0) /\
    (c_failures c = 0%nat \/ forallb (fun b => b) flags = true -> forall i j, (i < d)%nat -> (j < d)%nat -> dot d (col q i) (col q j) = if (i =? j)%nat then 1 else 0).
  Proof.
    intros Hl Hf E. unfold defl_core in E. destruct (defl d c upd d 0 zmat guess 0 0 []) as [o g'] eqn:D. cbn in E. subst o. eapply defl_ends in D; [|exact Hl|exact Hf|apply basis_start|reflexivity|reflexivity|auto|lia|reflexivity].
    destruct D as ([B Z] & L & N0 & A). split; [exact L|]. split; [exact N0|]. split; [exact Z|]. split.
    - intros i j Hi Hj F _. rewrite B by assumption. now rewrite F, andb_true_r.
    - intros H i j Hi Hj. assert (F : nth i flags false = true). { assert (FA : forallb (fun b => b) flags = true) by (destruct H; auto). rewrite forallb_forall in FA. apply FA. apply nth_In. lia. }
      rewrite B by assumption. now rewrite F, andb_true_r.
  Qed.
End Defl.

(** ** C428: the step size *)
Section Step.
  Variables (d n : nat) (x : rmat) (ft fg : R).
  Hypothesis Hn : (0 < n)%nat.
  Let N : R := INR n.
  Lemma N_pos : N <> 0. Proof. unfold N. apply not_0_INR. lia. Qed.
  (** X g(u) and u . g(u) *)
  Definition xg (g : nonlin) (w : rvec) : rvec := xm n x (s_fun ft fg g (u_ d x w)).
  Definition bet (g : nonlin) (w : rvec) : R := dot n (u_ d x w) (s_fun ft fg g (u_ d x w)).
  Definition den (g : nonlin) (w : rvec) : R := s_den n ft fg g (u_ d x w).
  Lemma bet_dot g w : bet g w = dot d w (xg g w).
  Proof.
    unfold bet, dot, xg, xm. generalize (s_fun ft fg g (u_ d x w)). intros G. unfold u_.
    transitivity (rsum n (fun k => rsum d (fun a => x k a * w a * G k))); [apply rsum_ext; intros; symmetry; apply rsum_mulr|].
    rewrite rsum_swap. apply rsum_ext. intros a _. rewrite <- rsum_mul. apply rsum_ext. intros. ring.
  Qed.
  Lemma plain_eq g w a : d_plain d n x ft fg g w a = (xg g w a - den g w * w a) / N.
  Proof. pose proof N_pos. unfold xg, den, d_plain, s_den. destruct g; cbv beta iota zeta; cbn [s_fun]; fold N; field; assumption. Qed.
  Lemma stab_eq g mu w a : den g w <> bet g w -> d_stab d n x ft fg g mu w a = w a - mu * ((xg g w a - bet g w * w a) / (den g w - bet g w)).
  Proof.
    intros H. pose proof N_pos as HN. unfold d_stab. cbv zeta. destruct g.
    - assert (E : dot d w (fun a => xm n x (fun t => u_ d x w t * u_ d x w t * u_ d x w t) a / INR n) = bet Pow3 w / N).
      { rewrite bet_dot. unfold Rdiv. rewrite Rmult_comm, <- dot_scale. apply dot_ext; [reflexivity|]. intros. apply Rmult_comm. }
      rewrite E. unfold xg, den in H |- *. cbn [s_fun s_den] in H |- *. fold N in H |- *. field. repeat split; try assumption; intros Z; apply H; lra.
    - unfold xg, den, bet in *. cbn [s_fun s_den] in *. reflexivity.
    - unfold xg, den, bet in *. cbn [s_fun s_den] in *. reflexivity.
    - assert (E : dot d w (fun a => xm n x (fun t => u_ d x w t * u_ d x w t) a / INR n) = bet Skew w / N).
      { rewrite bet_dot. unfold Rdiv. rewrite Rmult_comm, <- dot_scale. apply dot_ext; [reflexivity|]. intros. apply Rmult_comm. }
      rewrite E. unfold xg, den in H |- *. cbn [s_fun s_den] in H |- *. fold N in H |- *. field. repeat split; try assumption; intros Z; apply H; lra.
  Qed.
  (** C428: with mu = 1 the odd codes give the direction which the even ones give *)
  Theorem C428_direction g w : den g w <> bet g w -> exists s, s <> 0 /\ forall a, d_stab d n x ft fg g 1 w a = s * d_plain d n x ft fg g w a.
  Proof.
    intros H. pose proof N_pos as HN. exists (N / (bet g w - den g w)). split.
    - intros Z. assert (D : bet g w - den g w <> 0) by lra. assert (E : N = N / (bet g w - den g w) * (bet g w - den g w)) by (field; exact D). rewrite Z in E. lra.
    - intros a. rewrite stab_eq, plain_eq by exact H. field. repeat split; try assumption; lra.
  Qed.
  (** C428: a vector is left alone by a step with any mu if and only if the plain step leaves its direction alone *)
  Theorem C428_fixed g w mu : dot d w w = 1 -> den g w <> bet g w -> mu <> 0 ->
    ((exists s, forall a, (a < d)%nat -> d_plain d n x ft fg g w a = s * w a) <-> (forall a, (a < d)%nat -> d_stab d n x ft fg g mu w a = w a)) /\
    ((forall a, (a < d)%nat -> d_stab d n x ft fg g mu w a = w a) <-> (exists s, forall a, (a < d)%nat -> d_stab d n x ft fg g mu w a = s * w a)).
  Proof.
    intros U H M. pose proof N_pos as HN.
    assert (K : forall s, (forall a, (a < d)%nat -> xg g w a = s * w a) -> s = bet g w).
    { intros s Hs. rewrite bet_dot. rewrite (dot_ext d w (xg g w) w (fun k => s * w k)) by auto. rewrite dot_scale, U. ring. }
    assert (A1 : (exists s, forall a, (a < d)%nat -> d_plain d n x ft fg g w a = s * w a) -> forall a, (a < d)%nat -> d_stab d n x ft fg g mu w a = w a).
    { intros (s & Hs) a Ha. assert (E : forall a, (a < d)%nat -> xg g w a = (N * s + den g w) * w a).
      { intros b Hb. specialize (Hs b Hb). rewrite plain_eq in Hs. assert (X : xg g w b - den g w * w b = N * (s * w b)) by (rewrite <- Hs; field; exact HN). lra. }
      pose proof (K _ E) as B. rewrite stab_eq by exact H. rewrite (E a Ha), B. field. lra. }
    assert (A2 : (exists s, forall a, (a < d)%nat -> d_stab d n x ft fg g mu w a = s * w a) -> exists s, forall a, (a < d)%nat -> d_plain d n x ft fg g w a = s * w a).
    { intros (s & Hs). assert (E : forall a, (a < d)%nat -> xg g w a = (bet g w + (1 - s) / mu * (den g w - bet g w)) * w a).
      { intros b Hb. specialize (Hs b Hb). rewrite stab_eq in Hs by exact H.
        assert (X : mu * ((xg g w b - bet g w * w b) / (den g w - bet g w)) = (1 - s) * w b) by lra.
        assert (Y : xg g w b - bet g w * w b = (den g w - bet g w) / mu * (mu * ((xg g w b - bet g w * w b) / (den g w - bet g w)))) by (field; split; first [exact M|lra]).
        rewrite X in Y. replace (xg g w b) with (bet g w * w b + (xg g w b - bet g w * w b)) by ring. rewrite Y. field. exact M. }
      exists ((bet g w + (1 - s) / mu * (den g w - bet g w) - den g w) / N). intros a Ha. rewrite plain_eq, E by exact Ha. field. split; assumption. }
    assert (A3 : (forall a, (a < d)%nat -> d_stab d n x ft fg g mu w a = w a) -> exists s, forall a, (a < d)%nat -> d_stab d n x ft fg g mu w a = s * w a).
    { intros E. exists 1. intros a Ha. rewrite E by exact Ha. ring. }
    split; split; auto.
  Qed.
  (** C428: the symmetric approach makes the step of the deflation approach in each column *)
  Theorem C428_symm g mu q a j : orthogonal d q -> (a < d)%nat -> (j < d)%nat -> den g (col q j) <> bet g (col q j) ->
    s_plain d n x ft fg g q a j = d_plain d n x ft fg g (col q j) a /\ s_stab d n x ft fg g mu q a j = d_stab d n x ft fg g mu (col q j) a.
  Proof.
    intros O Ha Hj H. pose proof N_pos as HN. split.
    - rewrite plain_eq. unfold s_plain, us, xg, den, col. destruct g; cbv beta iota zeta; cbn [s_fun s_den]; fold N; field; assumption.
    - rewrite stab_eq by exact H. unfold s_stab. cbv zeta. change (s_den n ft fg g (us d x q j)) with (den g (col q j)). change (dot n (us d x q j) (s_fun ft fg g (us d x q j))) with (bet g (col q j)).
      set (D := den g (col q j)) in *. set (B := bet g (col q j)) in *.
      assert (E : rsum d (fun k => q a k * dot n (us d x q k) (s_fun ft fg g (us d x q j))) = xg g (col q j) a).
      { unfold xg, xm, dot. change (u_ d x (col q j)) with (us d x q j). rewrite (rsum_ext d _ (fun k => rsum n (fun t => q a k * us d x q k t * s_fun ft fg g (us d x q j) t))).
        2:{ intros k _. rewrite <- rsum_mul. apply rsum_ext. intros. ring. }
        rewrite rsum_swap. apply rsum_ext. intros t _. rewrite rsum_mulr. f_equal. unfold us, u_, col.
        rewrite (rsum_ext d _ (fun k => rsum d (fun b => q a k * q b k * x t b))) by (intros; rewrite <- rsum_mul; apply rsum_ext; intros; ring).
        rewrite rsum_swap. rewrite (rsum_ext d _ (fun b => eye a b * x t b)).
        - now apply rsum_eye_l.
        - intros b Hb. rewrite rsum_mulr. f_equal. exact (proj2 (O a b Ha Hb)). }
      rewrite (rsum_ext d _ (fun k => (q a k * dot n (us d x q k) (s_fun ft fg g (us d x q j)) - (if (k =? j)%nat then q a k * B else 0)) * (1 / (B - D)))) by (intros; destruct (_ =? j)%nat; ring).
      rewrite rsum_mulr, rsum_sub, E, rsum_pick by exact Hj. unfold col. field. split; lra.
  Qed.
End Step.

(** ** C429: a solution given as guess is returned *)
Lemma nl_up g : known g = true -> nl_of (up g) = nl_of g.
Proof. intros H. apply known_in in H. cbn [In] in H. repeat (destruct H as [<-|H]; [reflexivity|]). destruct H. Qed.
Lemma nl_down g : known g = true -> Nat.even g = false -> nl_of (g - 1) = nl_of g.
Proof. intros H. apply known_in in H. cbn [In] in H. repeat (destruct H as [<-|H]; [intros; solve [reflexivity|discriminate]|]). destruct H. Qed.
Lemma nl_stab a b mu st l g mu' st' l' g' : stabilise a b (mu, st, l, g) = (mu', st', l', g') -> known g = true -> nl_of g' = nl_of g.
Proof.
  unfold stabilise. intros E H. destruct (Reqb st 0 && a); [injection E as <- <- <- <-; now apply nl_up|]. destruct (negb (Reqb st 0)).
  - injection E as <- <- <- <-. destruct (Reqb st 1 && negb (Nat.even g)) eqn:B; [|reflexivity]. apply andb_prop in B as [_ B]. apply nl_down; [exact H|]. now destruct (Nat.even g).
  - destruct (negb l && b); injection E as <- <- <- <-; [now apply nl_up|reflexivity].
Qed.
(** the nonlinearities asked for *)
Definition asked (c : fcfg) (g : nonlin) : Prop := g = c_g c \/ c_fine c = Some g.
Lemma asked_orig c : asked c (nl_of (g_orig c)).
Proof. left. unfold g_orig. destruct (c_g c), (c_all c), (Reqb (c_mu c) 1); reflexivity. Qed.
Lemma asked_fine c : asked c (nl_of (g_fine c)).
Proof. unfold asked, g_fine, g_orig. destruct (c_fine c) as [g|]; [right; now destruct g|]. left. destruct (Reqb (c_mu c) 1), (c_g c), (c_all c); reflexivity. Qed.

Section Stay.
  Variables (d : nat) (c : fcfg) (upd : nat -> R -> nat -> rvec -> rvec) (v : rmat).
  (** w is plus or minus column j *)
  Definition same (j : nat) (w : rvec) : Prop := exists s, s * s = 1 /\ forall a, (a < d)%nat -> w a = s * v a j.
  Hypothesis orth : forall i j, (i < d)%nat -> (j < d)%nat -> dot d (col v i) (col v j) = if (i =? j)%nat then 1 else 0.
  Hypothesis fixed : forall g mu k j w, known g = true -> asked c (nl_of g) -> (j < d)%nat -> same j w -> exists s, s <> 0 /\ forall a, (a < d)%nat -> upd g mu k w a = s * v a j.
  Hypotheses (lim0 : 0 < c_limit c) (lim1 : c_limit c <= 1) (it : (2 <= c_max_it c)%nat) (itf : (1 <= c_max_it_fine c)%nat).
  Lemma dot_same j w s : (j < d)%nat -> (forall a, (a < d)%nat -> w a = s * v a j) -> dot d w w = s * s.
  Proof.
    intros Hj H. rewrite (dot_ext d w w (fun k => s * v k j) (fun k => s * v k j)) by auto. rewrite dot_scale, dot_comm, dot_scale. pose proof (orth j j Hj Hj) as O. rewrite Nat.eqb_refl in O. unfold col in O. rewrite O. ring.
  Qed.
  Lemma unit_same j w s : (j < d)%nat -> s <> 0 -> (forall a, (a < d)%nat -> w a = s * v a j) -> exists w', unit_ d w = Some w' /\ same j w'.
  Proof.
    intros Hj Hs H. assert (E : norm2 d w = Rabs s) by (unfold norm2; rewrite (dot_same j w s Hj H); apply sqrt_Rsqr_abs).
    assert (N : Rabs s <> 0) by (now apply Rabs_no_R0). unfold unit_. rewrite E. destruct (Req_EM_T (Rabs s) 0); [contradiction|]. eexists. split; [reflexivity|].
    exists (s / Rabs s). split.
    - replace (s / Rabs s * (s / Rabs s)) with (s * s / (Rabs s * Rabs s)) by (field; exact N). assert (Q : Rabs s * Rabs s = s * s) by (unfold Rabs; destruct (Rcase_abs s); ring). rewrite Q. field. exact Hs.
    - intros a Ha. rewrite H by exact Ha. field. exact N.
  Qed.
  (** the columns of Q found so far *)
  Definition partial (r : nat) (q : rmat) : Prop := forall i, (i < d)%nat -> if (i <? r)%nat then same i (col q i) else forall a, q a i = 0.
  Lemma deflate_same r q w : partial r q -> (r < d)%nat -> same r w -> forall a, (a < d)%nat -> deflate d q w a = w a.
  Proof.
    intros P Hr (s & Hs & H) a Ha. unfold deflate. enough (Z : rsum d (fun b => rsum d (fun k => q a k * q b k) * w b) = 0) by (rewrite Z; ring).
    rewrite (rsum_ext d _ (fun b => rsum d (fun k => q a k * (q b k * w b)))) by (intros; rewrite <- rsum_mulr; apply rsum_ext; intros; ring).
    rewrite rsum_swap. apply rsum_zero. intros k Hk. rewrite rsum_mul. specialize (P k Hk). destruct (Nat.ltb_spec k r) as [L|L]; [|rewrite P; ring].
    destruct P as (t & _ & P). replace (rsum d (fun j => q j k * w j)) with 0; [ring|]. symmetry.
    rewrite (rsum_ext d _ (fun j => (t * s) * (v j k * v j r))) by (intros j Hj; change (q j k) with (col q k j); rewrite P, H by assumption; ring).
    rewrite rsum_mul. change (rsum d (fun j => v j k * v j r)) with (dot d (col v k) (col v r)). rewrite orth by assumption. destruct (Nat.eqb_spec k r); [lia|ring].
  Qed.
  Lemma unit_deflate r q w : partial r q -> (r < d)%nat -> same r w -> exists w', unit_ d (deflate d q w) = Some w' /\ same r w'.
  Proof.
    intros P Hr S. pose proof (deflate_same r q w P Hr S) as D. destruct S as (s & Hs & H). apply unit_same with s; [exact Hr|nra|]. intros a Ha. rewrite D by exact Ha. now apply H.
  Qed.
  Lemma conv_zero r w : (r < d)%nat -> same r w -> conv_d d w vzero = 1.
  Proof.
    intros Hr (s & Hs & H). unfold conv_d. assert (A : norm2 d (vminus w vzero) = 1 /\ norm2 d (vplus w vzero) = 1).
    { unfold norm2. rewrite (dot_same r (vminus w vzero) s), (dot_same r (vplus w vzero) s), Hs, sqrt_1; auto; intros a Ha; unfold vminus, vplus, vzero; rewrite H by exact Ha; ring. }
    destruct A as [-> ->]. apply Rmin_left. lra.
  Qed.
  Lemma conv_same r w wo : (r < d)%nat -> same r w -> same r wo -> conv_d d w wo = 0.
  Proof.
    intros Hr (s & Hs & H) (t & Ht & T). unfold conv_d. assert (A : norm2 d (vminus w wo) = Rabs (s - t) /\ norm2 d (vplus w wo) = Rabs (s + t)).
    { unfold norm2. rewrite (dot_same r (vminus w wo) (s - t)), (dot_same r (vplus w wo) (s + t)); auto; [|intros a Ha; unfold vplus; rewrite H, T by exact Ha; ring|intros a Ha; unfold vminus; rewrite H, T by exact Ha; ring].
      split; apply sqrt_Rsqr_abs. }
    destruct A as [-> ->]. assert (Z : (s - t) * (s + t) = 0) by (ring_simplify; nra). apply Rmult_integral in Z as [-> | ->]; rewrite Rabs_R0; [apply Rmin_left|apply Rmin_right]; apply Rabs_pos.
  Qed.
  Lemma lim_true : Rltb 0 (c_limit c) = true. Proof. unfold Rltb. destruct (Rlt_dec 0 (c_limit c)); [reflexivity|contradiction]. Qed.
  Lemma lim_false : Rltb 1 (c_limit c) = false. Proof. unfold Rltb. destruct (Rlt_dec 1 (c_limit c)); [lra|reflexivity]. Qed.
  (** an iteration after w and wOld are both the solution *)
  Lemma inner_hit f q r s : partial r q -> (r < d)%nat -> same r (d_w s) -> same r (d_wo s) -> (d_i s <= c_max_it c + d_gabba s)%nat -> d_fine s = true \/ (d_fine s = false /\ d_i s = 2%nat) ->
    d_fine s = true \/ fine_tuning c = false -> exists w k, inner d c upd (S f) q s = Some (DConv w k) /\ same r w.
  Proof.
    intros P Hr S1 S2 Li Hf Ft. rewrite inner_step. rewrite (proj2 (Nat.leb_le _ _) Li). destruct (unit_deflate r q (d_w s) P Hr S1) as (w & -> & S3).
    assert (E : negb (d_fine s) && (d_i s =? c_max_it c + 1)%nat = false). { destruct Hf as [-> |[-> ->]]; [reflexivity|]. cbn [negb andb]. apply Nat.eqb_neq. lia. }
    rewrite E. assert (Cv : conv_d d w (if d_fine s && (d_end s <=? d_i s)%nat then w else d_wo s) = 0) by (destruct (d_fine s && (d_end s <=? d_i s)%nat); [apply conv_self|now apply conv_same with r]).
    cbv zeta. rewrite Cv, lim_true. assert (E2 : negb (fine_tuning c && negb (d_fine s)) = true) by (destruct Ft as [-> | ->]; [now rewrite andb_false_r|reflexivity]). rewrite E2. cbn [andb]. eauto.
  Qed.
  Lemma component_stays r q guess k : partial r q -> (r < d)%nat -> (forall a, guess a r = v a r) -> exists w k' g', component d c upd q guess r k = (g', Some (DConv w k')) /\ same r w /\ forall b a, b <> r -> g' a b = guess a b.
  Proof.
    intros P Hr G. unfold component. assert (S0 : same r (col guess r)) by (exists 1; split; [ring|]; intros a _; unfold col; rewrite G; ring).
    destruct (unit_deflate r q (col guess r) P Hr S0) as (w0 & -> & S1).
    enough (I : exists w k', inner d c upd (d_fuel c) q (start_state c w0 k) = Some (DConv w k') /\ same r w).
    { destruct I as (w & k' & E & S). unfold start_state in E. rewrite E. exists w, k'. eexists. split; [reflexivity|]. split; [exact S|]. intros b a Hb. unfold set_col. destruct (Nat.eqb_spec b r); [contradiction|reflexivity]. }
    unfold d_fuel. replace (c_max_it c + c_max_it_fine c + 3)%nat with (S (S (S (c_max_it c + c_max_it_fine c)))) by lia. set (f := (c_max_it c + c_max_it_fine c)%nat).
    rewrite inner_step. cbn [start_state d_i d_gabba d_w d_fine d_k d_wo d_wof d_g d_mu d_end d_stroke d_lng negb andb]. rewrite (proj2 (Nat.leb_le _ _)) by lia.
    destruct (unit_deflate r q w0 P Hr S1) as (w1 & -> & S2). destruct (Nat.eqb_spec 1 (c_max_it c + 1)) as [X|_]; [lia|]. cbv zeta. rewrite (conv_zero r w1 Hr S2), lim_false. cbn [andb negb].
    (* second iteration, from any step size *)
    enough (J : forall mu st lng g, known g = true -> asked c (nl_of g) -> exists w k', (if known g then match unit_ d (upd g mu k w1) with None => Some DNan
      | Some w' => inner d c upd (S (S f)) q (mkDS w' w1 vzero mu g st false lng 0 1 2 (S k)) end else Some DNotFound) = Some (DConv w k') /\ same r w).
    { destruct (stabilization c); [|apply J; [apply known_orig|apply asked_orig]]. destruct (stabilise _ _ _) as [[[mu st] lng] g] eqn:St.
      apply J; [eapply known_stab; [exact St|apply known_orig]|]. rewrite (nl_stab _ _ _ _ _ _ _ _ _ _ St (known_orig c)). apply asked_orig. }
    intros mu st lng g Kg Ag. rewrite Kg. destruct (fixed g mu k r w1 Kg Ag Hr S2) as (t & Ht & U). destruct (unit_same r _ t Hr Ht U) as (w2 & -> & S3).
    destruct (fine_tuning c) eqn:Ft.
    - rewrite inner_step. cbn [d_i d_gabba d_w d_fine d_k d_wo d_wof d_g d_mu d_end d_stroke d_lng negb andb]. rewrite (proj2 (Nat.leb_le _ _)) by lia.
      destruct (unit_deflate r q w2 P Hr S3) as (w3 & -> & S4). destruct (Nat.eqb_spec 2 (c_max_it c + 1)) as [X|_]; [lia|]. cbv zeta. rewrite (conv_same r w3 w1 Hr S4 S2), lim_true, Ft. cbn [andb negb].
      rewrite known_fine. destruct (fixed (g_fine c) (muK * c_mu c) (S k) r w3 (known_fine c) (asked_fine c) Hr S4) as (t' & Ht' & U'). destruct (unit_same r _ t' Hr Ht' U') as (w4 & -> & S5).
      apply (inner_hit f q r _ P Hr); cbn; auto; lia.
    - apply (inner_hit (S f) q r _ P Hr); cbn; auto; lia.
  Qed.
  Lemma defl_stays : forall todo r q guess nfail k flags, partial r q -> (r + todo = d)%nat -> (forall b a, (r <= b)%nat -> guess a b = v a b) -> forallb (fun b => b) flags = true ->
    exists q' flags' g', defl d c upd todo r q guess nfail k flags = (DDone q' flags', g') /\ partial d q' /\ forallb (fun b => b) flags' = true.
  Proof.
    induction todo as [|todo IH]; intros r q guess nfail k flags P Hr G A; cbn [defl].
    - assert (r = d) by lia. subst r. eauto 8.
    - destruct (component_stays r q guess k P ltac:(lia)) as (w & k' & g' & -> & Sm & Hg); [intros a; apply G; lia|].
      apply IH; [|lia| |rewrite forallb_app, A; reflexivity].
      + intros i Hi. specialize (P i Hi). unfold col, set_col. destruct (Nat.eqb_spec i r) as [->|Ne].
        * rewrite (proj2 (Nat.ltb_lt r (S r))) by lia. destruct Sm as (s & Hs & Sm). exists s. split; [exact Hs|]. intros a Ha. now apply Sm.
        * destruct (Nat.ltb_spec i r), (Nat.ltb_spec i (S r)); try lia; exact P.
      + intros b a Hb. rewrite Hg by lia. apply G. lia.
  Qed.
  (** C429: guess orthonormal and left alone by the steps with the nonlinearities asked for: every component converges, to plus or minus the column of guess *)
  Theorem C429_stays : exists q flags g', defl_core d c upd v = (DDone q flags, g') /\ forallb (fun b => b) flags = true /\
    forall j, (j < d)%nat -> exists s, s * s = 1 /\ forall a, (a < d)%nat -> q a j = s * v a j.
  Proof.
    destruct (defl_stays d 0 zmat v 0 0 [] ltac:(intros i Hi a; reflexivity) ltac:(lia) ltac:(reflexivity) eq_refl) as (q & flags & g' & E & P & A).
    exists q, flags, g'. split; [exact E|]. split; [exact A|]. intros j Hj. specialize (P j Hj). rewrite (proj2 (Nat.ltb_lt j d)) in P by exact Hj. exact P.
  Qed.
End Stay.

(** C429: so is a guess whose components y_j satisfy sum_t y_i(t) g(y_j(t)) = 0 for different i and j, as independent components do *)
Section Independent.
  Variables (d n : nat) (x : rmat) (ft fg : R) (c : fcfg) (v : rmat).
  Hypothesis Hn : (0 < n)%nat.
  Hypothesis orth : orthogonal d v.
  Hypothesis indep : forall g i j, asked c g -> (i < d)%nat -> (j < d)%nat -> i <> j -> dot n (u_ d x (col v i)) (s_fun ft fg g (u_ d x (col v j))) = 0.
  Hypothesis curved : forall g j, asked c g -> (j < d)%nat -> bet d n x ft fg g (col v j) <> den d n x ft fg g (col v j).
  Hypotheses (lim0 : 0 < c_limit c) (lim1 : c_limit c <= 1) (it : (2 <= c_max_it c)%nat) (itf : (1 <= c_max_it_fine c)%nat).
  Lemma u_same j w s : (forall a, (a < d)%nat -> w a = s * v a j) -> u_ d x w = fun t => s * u_ d x (col v j) t.
  Proof using. intros H. apply functional_extensionality. intros t. unfold u_. rewrite <- rsum_mul. apply rsum_ext. intros a Ha. rewrite H by exact Ha. unfold col. ring. Qed.
  (** g is odd or even, the number subtracted from Beta does not depend on the sign *)
  Lemma fun_sign g u s : s * s = 1 -> (forall t, s_fun ft fg g (fun t => s * u t) t = (match g with Skew => 1 | _ => s end) * s_fun ft fg g u t) /\ s_den n ft fg g (fun t => s * u t) = s_den n ft fg g u.
  Proof using.
    intros Hs. assert (Q : forall z, s * z * (s * z) = z * z) by (intros; replace (s * z * (s * z)) with (s * s * (z * z)) by ring; rewrite Hs; ring).
    assert (T : forall z, tanh (ft * (s * z)) = s * tanh (ft * z)).
    { intros z. assert (C : s = 1 \/ s = -1). { assert (Z : (s - 1) * (s + 1) = 0) by (ring_simplify; lra). apply Rmult_integral in Z as [Z|Z]; [left|right]; lra. }
      destruct C as [-> | ->]; [replace (ft * (1 * z)) with (ft * z) by ring; ring|]. replace (ft * (-1 * z)) with (- (ft * z)) by ring. unfold tanh, sinh, cosh. rewrite Ropp_involutive.
      replace (exp (- (ft * z)) + exp (ft * z)) with (exp (ft * z) + exp (- (ft * z))) by ring. pose proof (exp_pos (ft * z)). pose proof (exp_pos (- (ft * z))). field. lra. }
    destruct g; cbn [s_fun s_den]; split.
    - intros t. rewrite Q. ring.
    - reflexivity.
    - intros t. unfold tang_. apply T.
    - f_equal. apply rsum_ext. intros t _. unfold tang_. rewrite T, Q. reflexivity.
    - intros t. unfold gaus_. rewrite Q. ring.
    - apply rsum_ext. intros t _. unfold dgaus_. now rewrite Q.
    - intros t. rewrite Q. ring.
    - reflexivity.
  Qed.
  Lemma xg_indep g j a : asked c g -> (j < d)%nat -> (a < d)%nat -> xg d n x ft fg g (col v j) a = bet d n x ft fg g (col v j) * v a j.
  Proof using orth indep.
    intros Ag Hj Ha. transitivity (rsum d (fun k => v a k * dot n (u_ d x (col v k)) (s_fun ft fg g (u_ d x (col v j))))).
    - symmetry. unfold xg, xm, dot. generalize (s_fun ft fg g (u_ d x (col v j))). intros G. rewrite (rsum_ext d _ (fun k => rsum n (fun t => v a k * u_ d x (col v k) t * G t))).
      2:{ intros k _. rewrite <- rsum_mul. apply rsum_ext. intros. ring. }
      rewrite rsum_swap. apply rsum_ext. intros t _. rewrite rsum_mulr. f_equal. unfold u_, col.
      rewrite (rsum_ext d _ (fun k => rsum d (fun b => v a k * v b k * x t b))) by (intros; rewrite <- rsum_mul; apply rsum_ext; intros; ring).
      rewrite rsum_swap. rewrite (rsum_ext d _ (fun b => eye a b * x t b)); [now apply rsum_eye_l|]. intros b Hb. rewrite rsum_mulr. f_equal. exact (proj2 (orth a b Ha Hb)).
    - rewrite (rsum_ext d _ (fun k => if (k =? j)%nat then v a k * bet d n x ft fg g (col v j) else 0)).
      + rewrite rsum_pick by exact Hj. ring.
      + intros k Hk. destruct (Nat.eqb_spec k j) as [->|Ne]; [reflexivity|]. rewrite indep by assumption. ring.
  Qed.
  Lemma indep_fixed : forall g mu j w, known g = true -> asked c (nl_of g) -> (j < d)%nat -> same d v j w -> exists s, s <> 0 /\ forall a, (a < d)%nat -> d_upd d n x ft fg g mu w a = s * v a j.
  Proof using Hn orth indep curved.
    clear lim0 lim1 it itf. assert (HN : INR n <> 0) by (apply not_0_INR; lia). intros g mu j w Kg Ag Hj (s & Hs & Hw). set (gn := nl_of g) in *.
      assert (B : bet d n x ft fg gn (col v j) <> den d n x ft fg gn (col v j)) by (now apply curved).
      set (sg := match gn with Skew => 1 | _ => s end).
      assert (Hsg : sg * sg = 1) by (unfold sg; destruct gn; lra).
      destruct (fun_sign gn (u_ d x (col v j)) s Hs) as [F1 F2]. rewrite <- (u_same j w s Hw) in F1, F2.
      assert (X : forall a, (a < d)%nat -> xg d n x ft fg gn w a = sg * bet d n x ft fg gn (col v j) * v a j).
      { intros a Ha. unfold xg, xm. rewrite (rsum_ext n _ (fun t => sg * (x t a * s_fun ft fg gn (u_ d x (col v j)) t))) by (intros t _; rewrite F1; fold sg; ring). rewrite rsum_mul.
        pose proof (xg_indep gn j a Ag Hj Ha) as X. unfold xg, xm in X. rewrite X. ring. }
      assert (Dw : den d n x ft fg gn w = den d n x ft fg gn (col v j)) by exact F2.
      assert (Bw : bet d n x ft fg gn w = s * sg * bet d n x ft fg gn (col v j)).
      { unfold bet at 1, dot. rewrite (rsum_ext n _ (fun t => (s * sg) * (u_ d x (col v j) t * s_fun ft fg gn (u_ d x (col v j)) t))).
        - rewrite rsum_mul. reflexivity.
        - intros t _. rewrite F1. fold sg. rewrite (u_same j w s Hw). ring. }
      unfold d_upd. destruct (Nat.even g).
      + fold gn. exists ((sg * bet d n x ft fg gn (col v j) - den d n x ft fg gn (col v j) * s) / INR n). split.
        * intros Z. apply B. assert (Z' : sg * bet d n x ft fg gn (col v j) - den d n x ft fg gn (col v j) * s = 0).
          { transitivity ((sg * bet d n x ft fg gn (col v j) - den d n x ft fg gn (col v j) * s) / INR n * INR n); [field; exact HN|]. rewrite Z. ring. }
          destruct gn eqn:Eg; unfold sg in Z'; try (assert (Z2 : s * (bet d n x ft fg gn (col v j) - den d n x ft fg gn (col v j)) = 0) by (rewrite Eg; lra);
            apply Rmult_integral in Z2 as [Z2|Z2]; [rewrite Z2 in Hs; lra|rewrite Eg in Z2; lra]).
          unfold den in *. cbn [s_den] in *. lra.
        * intros a Ha. rewrite plain_eq by exact Hn. rewrite X by exact Ha. rewrite Dw, Hw by exact Ha. field. exact HN.
      + fold gn. assert (Nd : den d n x ft fg gn w <> bet d n x ft fg gn w).
        { rewrite Dw, Bw. destruct gn eqn:Eg; unfold sg; try (rewrite Hs; lra). unfold den in *. cbn [s_den] in *. intros Z. apply B. assert (Z2 : s * bet d n x ft fg Skew (col v j) = 0) by lra.
          apply Rmult_integral in Z2 as [Z2|Z2]; [rewrite Z2 in Hs; lra|exact Z2]. }
        exists s. split; [intros ->; lra|]. intros a Ha. rewrite stab_eq by (try exact Hn; exact Nd). rewrite X by exact Ha. rewrite Hw by exact Ha.
        replace (bet d n x ft fg gn w * (s * v a j)) with (s * s * (sg * bet d n x ft fg gn (col v j) * v a j)) by (rewrite Bw; ring). rewrite Hs. field. lra.
  Qed.
  Theorem C429_independent : exists q flags g', defl_core d c (fun g mu _ w => d_upd d n x ft fg g mu w) v = (DDone q flags, g') /\ forallb (fun b => b) flags = true /\
    forall j, (j < d)%nat -> exists s, s * s = 1 /\ forall a, (a < d)%nat -> q a j = s * v a j.
  Proof.
    apply C429_stays; auto.
    - intros i j Hi Hj. exact (proj1 (orth i j Hi Hj)).
    - intros g mu _ j w. apply indep_fixed.
  Qed.
End Independent.

(** ** C425 (refuted): the eight corners of a cube (three independent binary components), an orthonormal guess, at most two iterations: the filters of the second and third
    component are zero, and no exception is raised *)
Definition cube : rmat := fun t a => nth a (nth t [[1;1;1]; [1;1;-1]; [1;-1;1]; [1;-1;-1]; [-1;1;1]; [-1;1;-1]; [-1;-1;1]; [-1;-1;-1]] []) 0.
Definition cube_upd (g : nat) (mu : R) (k : nat) (w : rvec) : rvec := d_upd 3 8 cube 1 1 g mu w.
Definition cfg2 : fcfg := mkFC Pow3 None true 1 2 100 5 (1/1000) None.
Definition guess2 : rmat := fun a j => nth j (nth a [[1; 0; 0]; [0; 4/5; -3/5]; [0; 3/5; 4/5]] []) 0.
Lemma cube_white a b : (a < 3)%nat -> (b < 3)%nat -> rsum 8 (fun t => cube t a * cube t b) / 8 = eye a b.
Proof. intros Ha Hb. unfold rsum, fsum. destruct a as [|[|[|a]]], b as [|[|[|b]]]; try lia; unfold cube, eye; cbn [seq map fold_right nth Nat.eqb]; field. Qed.
Lemma orig2 : g_orig cfg2 = 10%nat /\ stabilization cfg2 = false /\ fine_tuning cfg2 = false.
Proof. unfold g_orig, stabilization, fine_tuning, Reqb. cbn. destruct (Req_EM_T 1 1); [auto|lra]. Qed.
Lemma cube_step k w a : (a < 3)%nat -> cube_upd 10 1 k w a = 3 * w a * dot 3 w w - 2 * (w a * w a * w a) - 3 * w a.
Proof.
  intros Ha. unfold cube_upd, d_upd. change (Nat.even 10) with true. change (nl_of 10) with Pow3. unfold d_plain, xm, u_, dot, rsum, fsum.
  change (INR 8) with (1+1+1+1+1+1+1+1). cbn [seq map fold_right].
  destruct a as [|[|[|a]]]; [| | |lia]; generalize (w 0%nat) (w 1%nat) (w 2%nat); intros w0 w1 w2; unfold cube; cbn [nth]; field.
Qed.

Definition v2 (p r : R) (w : rvec) : Prop := w 0%nat = 0 /\ w 1%nat = p /\ w 2%nat = r.
Lemma v2_dot p r w : v2 p r w -> dot 3 w w = p * p + r * r.
Proof. intros (H0 & H1 & H2). unfold dot, rsum, fsum. cbn [seq map fold_right]. rewrite H0, H1, H2. ring. Qed.
Lemma v2_unit p r w : v2 p r w -> 0 < p * p + r * r -> exists w', unit_ 3 w = Some w' /\ v2 (p / sqrt (p * p + r * r)) (r / sqrt (p * p + r * r)) w'.
Proof.
  intros H Hp. unfold unit_, norm2. rewrite (v2_dot _ _ _ H). pose proof (sqrt_lt_R0 _ Hp) as P. destruct (Req_EM_T (sqrt (p * p + r * r)) 0) as [E|_]; [lra|]. eexists. split; [reflexivity|].
  destruct H as (H0 & H1 & H2). unfold v2. rewrite H0, H1, H2. split; [field; lra|]. auto.
Qed.
(** only the first component was found *)
Definition first_only (q : rmat) : Prop := q 1%nat 0%nat = 0 /\ q 2%nat 0%nat = 0 /\ forall a, q a 1%nat = 0 /\ q a 2%nat = 0.
Lemma v2_deflate q p r w : first_only q -> v2 p r w -> v2 p r (deflate 3 q w).
Proof.
  intros (Q1 & Q2 & Q) (H0 & H1 & H2). unfold v2, deflate, rsum, fsum. cbn [seq map fold_right]. pose proof (Q 0%nat) as [A0 B0]. pose proof (Q 1%nat) as [A1 B1]. pose proof (Q 2%nat) as [A2 B2].
  rewrite H0, H1, H2, Q1, Q2, A0, B0, A1, B1, A2, B2. repeat split; ring.
Qed.
Lemma v2_unit1 p r w : v2 p r w -> p * p + r * r = 1 -> exists w', unit_ 3 w = Some w' /\ v2 p r w'.
Proof.
  intros H E. destruct (v2_unit p r w H ltac:(lra)) as (w' & U & V). exists w'. split; [exact U|]. rewrite E, sqrt_1 in V. replace (p / 1) with p in V by field. replace (r / 1) with r in V by field. exact V.
Qed.
Lemma v2_step p r w k : v2 p r w -> p * p + r * r = 1 -> v2 (-2 * (p * p * p)) (-2 * (r * r * r)) (cube_upd 10 1 k w).
Proof.
  intros H E. pose proof (v2_dot _ _ _ H) as D. destruct H as (H0 & H1 & H2). unfold v2. rewrite !cube_step by lia. rewrite D, E, H0, H1, H2. repeat split; ring.
Qed.
(** a component which does not converge in two iterations *)
Lemma v2_fails p r w0 q k : first_only q -> p * p + r * r = 1 -> (p = 4/5 /\ r = 3/5) \/ (p = -3/5 /\ r = 4/5) -> v2 p r w0 ->
  inner 3 cfg2 cube_upd (d_fuel cfg2) q (start_state cfg2 w0 k) = Some (DFail (S (S k))).
Proof.
  intros Q E PR H. destruct orig2 as (O1 & O2 & O3). change (d_fuel cfg2) with (S (S (S 102))).
  rewrite inner_step. unfold start_state. rewrite O1. cbn [d_i d_gabba d_w d_fine d_k d_wo d_wof d_g d_mu d_end d_stroke d_lng negb andb].
  change (1 <=? c_max_it cfg2 + 1)%nat with true. change (1 =? c_max_it cfg2 + 1)%nat with false. cbv iota.
  destruct (v2_unit1 p r _ (v2_deflate q p r w0 Q H) E) as (w1 & -> & H1). cbv zeta.
  assert (C1 : conv_d 3 w1 vzero = 1).
  { unfold conv_d. assert (A : v2 p r (vminus w1 vzero) /\ v2 p r (vplus w1 vzero)). { destruct H1 as (X0 & X1 & X2). unfold v2, vminus, vplus, vzero. rewrite X0, X1, X2. repeat split; ring. }
    destruct A as [A B]. unfold norm2. rewrite (v2_dot _ _ _ A), (v2_dot _ _ _ B), E, sqrt_1. apply Rmin_left. lra. }
  rewrite C1. assert (L1 : Rltb 1 (c_limit cfg2) = false) by (unfold Rltb, cfg2; cbn; destruct (Rlt_dec 1 (1 / 1000)); [lra|reflexivity]). rewrite L1. cbn [andb negb]. rewrite O2. change (known 10) with true. cbv iota.
  assert (S6 : p * p * p * (p * p * p) + r * r * r * (r * r * r) = 193/625) by (destruct PR as [[-> ->]|[-> ->]]; field).
  pose proof (v2_step p r w1 k H1 E) as H2. destruct (v2_unit _ _ _ H2) as (w2 & U2 & H2'); [nra|]. change (c_mu cfg2) with 1. rewrite U2. clear U2.
  set (rho := sqrt (193/625)). assert (Rp : 0 < rho) by (apply sqrt_lt_R0; lra). assert (Rr : rho * rho = 193/625) by (apply sqrt_sqrt; lra).
  assert (H3 : v2 (- (p * p * p) / rho) (- (r * r * r) / rho) w2).
  { assert (Q2 : sqrt (-2 * (p * p * p) * (-2 * (p * p * p)) + -2 * (r * r * r) * (-2 * (r * r * r))) = 2 * rho).
    { replace (-2 * (p * p * p) * (-2 * (p * p * p)) + -2 * (r * r * r) * (-2 * (r * r * r))) with ((2 * rho) * (2 * rho)) by (replace (2 * rho * (2 * rho)) with (4 * (rho * rho)) by ring; rewrite Rr, <- S6; ring). apply sqrt_square. lra. }
    rewrite Q2 in H2'. destruct H2' as (X0 & X1 & X2). repeat split; [exact X0|rewrite X1|rewrite X2]; field; lra. }
  clear H2'. set (p3 := - (p * p * p) / rho) in *. set (r3 := - (r * r * r) / rho) in *.
  assert (E3 : p3 * p3 + r3 * r3 = 1).
  { unfold p3, r3. replace (- (p * p * p) / rho * (- (p * p * p) / rho) + - (r * r * r) / rho * (- (r * r * r) / rho)) with ((p * p * p * (p * p * p) + r * r * r * (r * r * r)) / (rho * rho)) by (field; lra). rewrite S6, Rr. field. }
  rewrite inner_step. cbn [d_i d_gabba d_w d_fine d_k d_wo d_wof d_g d_mu d_end d_stroke d_lng negb andb]. change (2 <=? c_max_it cfg2 + 1)%nat with true. change (2 =? c_max_it cfg2 + 1)%nat with false. cbv iota.
  destruct (v2_unit1 p3 r3 _ (v2_deflate q p3 r3 w2 Q H3) E3) as (w3 & -> & H4). cbv zeta.
  assert (L2 : Rltb (conv_d 3 w3 w1) (c_limit cfg2) = false).
  { unfold Rltb. destruct (Rlt_dec _ _) as [L|]; [exfalso|reflexivity]. change (c_limit cfg2) with (1/1000) in L. unfold conv_d in L.
    assert (A : v2 (p3 - p) (r3 - r) (vminus w3 w1) /\ v2 (p3 + p) (r3 + r) (vplus w3 w1)). { destruct H1 as (X0 & X1 & X2), H4 as (Y0 & Y1 & Y2). unfold v2, vminus, vplus. rewrite X0, X1, X2, Y0, Y1, Y2. repeat split; ring. }
    destruct A as [A B]. unfold norm2 in L. rewrite (v2_dot _ _ _ A), (v2_dot _ _ _ B) in L.
    assert (I : p3 * p + r3 * r = - (337/625) / rho). { unfold p3, r3. replace (- (p * p * p) / rho * p + - (r * r * r) / rho * r) with (- (p * p * p * p + r * r * r * r) / rho) by (field; lra). f_equal. f_equal. destruct PR as [[-> ->]|[-> ->]]; field. }
    assert (Bd : 0 < 337/625 / rho < 98/100).
    { assert (R0 : 555/1000 < rho) by (apply Rnot_le_lt; intros X; nra). split; [apply Rdiv_lt_0_compat; lra|]. apply Rmult_lt_reg_r with rho; [exact Rp|]. replace (337 / 625 / rho * rho) with (337/625) by (field; lra). lra. }
    replace (- (337 / 625) / rho) with (- (337 / 625 / rho)) in I by (field; lra). set (z := 337/625/rho) in *.
    assert (A1 : (1/1000) * (1/1000) <= (p3 - p) * (p3 - p) + (r3 - r) * (r3 - r)) by nra. assert (A2 : (1/1000) * (1/1000) <= (p3 + p) * (p3 + p) + (r3 + r) * (r3 + r)) by nra.
    apply sqrt_le_1_alt in A1, A2. rewrite sqrt_square in A1, A2 by lra. unfold Rmin in L. destruct (Rle_dec _ _) in L; lra. }
  rewrite L2. cbn [andb negb]. rewrite O2. change (known 10) with true. cbv iota.
  pose proof (v2_step p3 r3 w3 (S k) H4 E3) as H5. assert (P5 : 0 < -2 * (p3 * p3 * p3) * (-2 * (p3 * p3 * p3)) + -2 * (r3 * r3 * r3) * (-2 * (r3 * r3 * r3))).
  { assert (A : 0 <= p3 * p3) by nra. assert (B : 0 <= r3 * r3) by nra. assert (C : 1/2 <= p3 * p3 \/ 1/2 <= r3 * r3) by (destruct (Rle_dec (1/2) (p3 * p3)); [auto|right; lra]).
    replace (-2 * (p3 * p3 * p3) * (-2 * (p3 * p3 * p3)) + -2 * (r3 * r3 * r3) * (-2 * (r3 * r3 * r3))) with (4 * (p3 * p3 * (p3 * p3) * (p3 * p3) + r3 * r3 * (r3 * r3) * (r3 * r3))) by ring.
    assert (K : forall z, 0 <= z -> 0 <= z * z * z) by (intros z Hz; apply Rmult_le_pos; [apply Rmult_le_pos|]; assumption).
    assert (K2 : forall z, 1/2 <= z -> 1/8 <= z * z * z) by (intros z Hz; assert (1/4 <= z * z) by nra; nra). pose proof (K _ A). pose proof (K _ B). destruct C as [C|C]; apply K2 in C; lra. }
  destruct (v2_unit _ _ _ H5 P5) as (w4 & U4 & H6). rewrite U4. clear U4.
  set (p4 := -2 * (p3 * p3 * p3) / _) in H6. set (r4 := -2 * (r3 * r3 * r3) / _) in H6.
  assert (E4 : p4 * p4 + r4 * r4 = 1).
  { unfold p4, r4. pose proof (sqrt_lt_R0 _ P5) as Sp. pose proof (sqrt_sqrt _ (Rlt_le _ _ P5)) as Sq. revert Sp Sq. generalize (sqrt (-2 * (p3 * p3 * p3) * (-2 * (p3 * p3 * p3)) + -2 * (r3 * r3 * r3) * (-2 * (r3 * r3 * r3)))). intros t Sp Sq.
    replace (-2 * (p3 * p3 * p3) / t * (-2 * (p3 * p3 * p3) / t) + -2 * (r3 * r3 * r3) / t * (-2 * (r3 * r3 * r3) / t)) with ((-2 * (p3 * p3 * p3) * (-2 * (p3 * p3 * p3)) + -2 * (r3 * r3 * r3) * (-2 * (r3 * r3 * r3))) / (t * t)) by (field; lra).
    rewrite <- Sq. field. lra. }
  rewrite inner_step. cbn [d_i d_gabba d_w d_fine d_k d_wo d_wof d_g d_mu d_end d_stroke d_lng negb andb]. change (3 <=? c_max_it cfg2 + 1)%nat with true. change (3 =? c_max_it cfg2 + 1)%nat with true. cbv iota.
  destruct (v2_unit1 p4 r4 _ (v2_deflate q p4 r4 w4 Q H6) E4) as (w5 & -> & _). reflexivity.
Qed.

Lemma cube_u j t : (j < 3)%nat -> (t < 8)%nat -> u_ 3 cube (col eye j) t = cube t j.
Proof. intros Hj Ht. unfold u_, rsum, fsum, col, eye. destruct j as [|[|[|j]]]; try lia; cbn [seq map fold_right Nat.eqb]; ring. Qed.
Lemma eye_orth d : orthogonal d eye.
Proof. intros a b Ha Hb. split; [rewrite mult_eye_r by assumption; unfold transp, ftrans, eye; now rewrite Nat.eqb_sym|]. rewrite mult_eye_l by assumption. unfold transp, ftrans, eye. now rewrite Nat.eqb_sym. Qed.
Lemma cube_indep i j : (i < 3)%nat -> (j < 3)%nat -> i <> j -> dot 8 (u_ 3 cube (col eye i)) (s_fun 1 1 Pow3 (u_ 3 cube (col eye j))) = 0.
Proof.
  intros Hi Hj N. unfold dot. rewrite (rsum_ext 8 _ (fun t => cube t i * (cube t j * cube t j * cube t j))) by (intros t Ht; cbn [s_fun]; rewrite !cube_u by assumption; reflexivity).
  unfold rsum, fsum. destruct i as [|[|[|i]]], j as [|[|[|j]]]; try lia; unfold cube; cbn [seq map fold_right nth]; ring.
Qed.
Lemma cube_bet j : (j < 3)%nat -> bet 3 8 cube 1 1 Pow3 (col eye j) = 8.
Proof.
  intros Hj. unfold bet, dot. rewrite (rsum_ext 8 _ (fun t => cube t j * (cube t j * cube t j * cube t j))) by (intros t Ht; cbn [s_fun]; rewrite !cube_u by assumption; reflexivity).
  unfold rsum, fsum. destruct j as [|[|[|j]]]; try lia; unfold cube; cbn [seq map fold_right nth]; ring.
Qed.
Lemma cube_fixed c : c_g c = Pow3 -> (c_fine c = None \/ c_fine c = Some Pow3) ->
  forall g mu (k j : nat) w, known g = true -> asked c (nl_of g) -> (j < 3)%nat -> same 3 eye j w -> exists s, s <> 0 /\ forall a, (a < 3)%nat -> cube_upd g mu k w a = s * eye a j.
Proof.
  intros Hc Hf g mu k j w. assert (As : forall g, asked c g -> g = Pow3) by (intros g' [->|E]; [exact Hc|destruct Hf; congruence]). refine (indep_fixed 3 8 cube 1 1 c eye _ _ _ _ g mu j w); [lia|apply eye_orth| |].
  - intros g0 i j0 A. rewrite (As _ A). apply cube_indep.
  - intros g0 j0 A. rewrite (As _ A). intros Hj. rewrite cube_bet by exact Hj. unfold den. cbn [s_den]. change (INR 8) with (1+1+1+1+1+1+1+1). lra.
Qed.
Theorem C425_refuted : exists c (x guess : rmat), 0 < c_limit c /\ (1 <= c_max_it c)%nat /\ (forall a b, (a < 3)%nat -> (b < 3)%nat -> rsum 8 (fun t => x t a * x t b) / 8 = eye a b) /\ orthogonal 3 guess /\
  exists q guess', defl_core 3 c (fun g mu _ w => d_upd 3 8 x 1 1 g mu w) guess = (DDone q [true; false; false], guess') /\ forall a, q a 1%nat = 0 /\ q a 2%nat = 0.
Proof.
  exists cfg2, cube, guess2. split; [cbn; lra|]. split; [cbn; lia|]. split; [exact cube_white|]. split.
  { intros a b Ha Hb. unfold mult, fmult, transp, ftrans, fsum, eye. destruct a as [|[|[|a]]], b as [|[|[|b]]]; try lia; unfold guess2; cbn [seq map fold_right nth Nat.eqb]; split; field. }
  change (fun g mu (_ : nat) w => d_upd 3 8 cube 1 1 g mu w) with cube_upd. unfold defl_core. cbn [defl].
  destruct (component_stays 3 cfg2 cube_upd eye) with (r := 0%nat) (q := zmat) (guess := guess2) (k := 0%nat) as (w & k' & g' & -> & Sm & Hg).
  { intros i j Hi Hj. pose proof (proj1 (eye_orth 3 i j Hi Hj)) as O. exact O. }
  { apply cube_fixed; [reflexivity|left; reflexivity]. }
  1-6: cbn; try lra; try lia.
  { intros i Hi a. reflexivity. }
  { intros a. unfold guess2, eye. destruct a as [|[|[|a]]]; try reflexivity. cbn [nth]. now destruct a. }
  cbn [app]. set (q := set_col zmat 0 w). assert (Q : first_only q).
  { destruct Sm as (s & _ & Sm). unfold q, first_only, set_col. cbn [Nat.eqb]. rewrite !Sm by lia. unfold eye, zmat. cbn [Nat.eqb]. repeat split; ring. }
  assert (G1 : v2 (4/5) (3/5) (col g' 1)) by (unfold v2, col; rewrite !Hg by lia; unfold guess2; cbn [nth]; auto).
  assert (C1 : exists g1, component 3 cfg2 cube_upd q g' 1 k' = (g1, Some (DFail (S (S k')))) /\ forall a, g1 a 2%nat = g' a 2%nat).
  { unfold component. destruct (v2_unit1 _ _ _ (v2_deflate q _ _ _ Q G1)) as (w1 & -> & V); [field|]. eexists. split; [f_equal; apply (v2_fails (4/5) (3/5)); auto; field|]. reflexivity. }
  destruct C1 as (g1 & -> & Hg1). change (1 =? 0)%nat with false. change (c_failures cfg2 <? 1)%nat with false. cbv iota.
  assert (G2 : v2 (-3/5) (4/5) (col g1 2)) by (unfold v2, col; rewrite !Hg1, !Hg by lia; unfold guess2; cbn [nth]; auto).
  assert (C2 : exists g2, component 3 cfg2 cube_upd q g1 2 (S (S k')) = (g2, Some (DFail (S (S (S (S k'))))))).
  { unfold component. destruct (v2_unit1 _ _ _ (v2_deflate q _ _ _ Q G2)) as (w1 & -> & V); [field|]. eexists. f_equal. apply (v2_fails (-3/5) (4/5)); auto; field. }
  destruct C2 as (g2 & ->). change (2 =? 0)%nat with false. change (c_failures cfg2 <? 2)%nat with false. cbv iota. exists q, g2. split; [reflexivity|]. apply Q.
Qed.

(** C429: the components of the cube *)
Example C429_example : exists q flags g', defl_core 3 (mkFC Pow3 (Some Pow3) true 1 5000 100 5 (1/1000) None) cube_upd eye = (DDone q flags, g') /\ forallb (fun b => b) flags = true /\
  forall j, (j < 3)%nat -> exists s, s * s = 1 /\ forall a, (a < 3)%nat -> q a j = s * eye a j.
Proof.
  apply C429_stays; cbn -[Nat.leb]; try lra; try apply Nat.leb_le; try reflexivity.
  - intros i j Hi Hj. exact (proj1 (eye_orth 3 i j Hi Hj)).
  - apply cube_fixed; [reflexivity|right; reflexivity].
Qed.

(** ** C430: the array given as guess.  With whitened=True it is the array whose columns are orthogonalized in place *)
Lemma defl_guess d c upd todo : forall r q guess nfail k flags b, (b < r)%nat -> forall a, snd (defl d c upd todo r q guess nfail k flags) a b = guess a b.
Proof.
  induction todo as [|todo IH]; intros r q guess nfail k flags b Hb a; cbn [defl]; [reflexivity|].
  assert (G : forall a, fst (component d c upd q guess r k) a b = guess a b).
  { intros a'. unfold component. destruct (unit_ d _); [|reflexivity]. cbn [fst]. unfold set_col. destruct (Nat.eqb_spec b r); [lia|reflexivity]. }
  destruct (component d c upd q guess r k) as [g o]. cbn [fst] in G. rewrite <- G.
  destruct o as [[w k'|k'|k'| |]|]; try reflexivity; [apply IH; lia| |apply IH; lia].
  destruct (r =? 0)%nat; [reflexivity|]. destruct (_ <? _)%nat; [reflexivity|]. apply IH. lia.
Qed.
Theorem C430_overwritten d c upd guess a : (0 < d)%nat -> norm2 d (col guess 0) <> 0 -> snd (defl_core d c upd guess) a 0%nat = guess a 0%nat / norm2 d (col guess 0).
Proof.
  intros Hd Hn. unfold defl_core. destruct d as [|d]; [lia|]. cbn [defl].
  assert (D : deflate (S d) zmat (col guess 0) = col guess 0).
  { apply functional_extensionality. intros b. unfold deflate. rewrite rsum_zero; [ring|]. intros i _. rewrite rsum_zero; [ring|]. intros j _. unfold zmat. ring. }
  assert (G : fst (component (S d) c upd zmat guess 0 0) a 0%nat = guess a 0%nat / norm2 (S d) (col guess 0)).
  { unfold component. rewrite D. unfold unit_. destruct (Req_EM_T (norm2 (S d) (col guess 0)) 0); [contradiction|]. reflexivity. }
  destruct (component (S d) c upd zmat guess 0 0) as [g o]. cbn [fst] in G. rewrite <- G.
  destruct o as [[w k'|k'|k'| |]|]; try reflexivity; apply defl_guess; lia.
Qed.
Theorem C430_refuted : exists (guess : rmat), forall c upd, snd (defl_core 2 c upd guess) 0%nat 0%nat <> guess 0%nat 0%nat.
Proof.
  exists (fun a b => nth b (nth a [[3; 1]; [4; 2]] []) 0). intros c upd.
  assert (E : norm2 2 (col (fun a b => nth b (nth a [[3; 1]; [4; 2]] []) 0) 0) = 5).
  { unfold norm2, dot, rsum, fsum, col. cbn [seq map fold_right nth]. replace (3 * 3 + (4 * 4 + 0)) with (5 * 5) by ring. apply sqrt_square. lra. }
  rewrite C430_overwritten; rewrite ?E; [|lia|lra]. cbn [nth]. lra.
Qed.

(** ** C431: guess is the mixing matrix.  x = s A^T with the sources s; the whitened data are z = x P, x = z R.  The columns B with z B = s are A^T P B = 1 *)
(** without whitening, if the mixing is orthogonal, the starting vectors extract the sources *)
Theorem C431_whitened d a : orthogonal d a -> forall i j, (i < d)%nat -> (j < d)%nat -> mult d (transp a) (start_guess d a None) i j = eye i j.
Proof. intros O i j Hi Hj. exact (proj1 (O i j Hi Hj)). Qed.
(** P^T A would be right, if the sources are white (A^T P is then orthogonal) *)
Theorem C431_right d a p : orthogonal d (mult d (transp a) p) -> forall i j, (i < d)%nat -> (j < d)%nat -> mult d (mult d (transp a) p) (mult d (transp p) a) i j = eye i j.
Proof.
  intros O i j Hi Hj. rewrite <- (proj2 (O i j Hi Hj)). apply mult_ext; [reflexivity|]. intros k Hk. rewrite transp_mult. reflexivity.
Qed.
(** what the code starts from: guess times the transposed reconstruction matrix *)
Theorem C431_start d a r s i j : (i < d)%nat -> mult d s (start_guess d a (Some r)) i j = mult d (mult d s a) r i j.
Proof. intros Hi. cbn [start_guess]. now rewrite mult_assoc. Qed.
(** C431 (refuted): two sources, every starting vector extracts a mixture of both *)
Theorem C431_refuted : exists a p r : rmat, (forall i j, (i < 2)%nat -> (j < 2)%nat -> mult 2 p r i j = eye i j /\ mult 2 r p i j = eye i j) /\ orthogonal 2 (mult 2 (transp a) p) /\
  forall j i, (i < 2)%nat -> (j < 2)%nat -> mult 2 (mult 2 (transp a) p) (start_guess 2 a (Some r)) i j <> 0.
Proof.
  exists (fun i j => nth j (nth i [[8/5; -6/5]; [3/5; 4/5]] []) 0), (fun i j => nth j (nth i [[1/2; 0]; [0; 1]] []) 0), (fun i j => nth j (nth i [[2; 0]; [0; 1]] []) 0).
  unfold orthogonal, start_guess, mult, fmult, transp, ftrans, fsum, eye. split; [|split].
  - intros [|[|i]] [|[|j]] Hi Hj; try lia; cbn [seq map fold_right nth Nat.eqb]; split; field.
  - intros [|[|i]] [|[|j]] Hi Hj; try lia; cbn [seq map fold_right nth Nat.eqb]; split; field.
  - intros [|[|j]] [|[|i]] Hi Hj; try lia; cbn [seq map fold_right nth Nat.eqb]; lra.
Qed.

(** Examples *)
Example C424_example : g_orig (mkFC Skew (Some Tanh) false (1/2) 10 10 5 (1/1000) None) = 43%nat /\ g_fine (mkFC Skew None true 1 10 10 5 (1/1000) None) = 41%nat.
Proof. unfold g_orig, g_fine, g_orig, Reqb. cbn. destruct (Req_EM_T (1 / 2) 1); [lra|]. destruct (Req_EM_T 1 1); [|lra]. auto. Qed.
(** one component: the square root of the inverse *)
Definition isqrt1 (m : rmat) : option rmat := if Req_EM_T (m 0%nat 0%nat) 0 then None else Some (fun _ _ => / sqrt (m 0%nat 0%nat)).
Lemma m1 a b i j : mult 1 a b i j = a i 0%nat * b 0%nat j. Proof. unfold mult, fmult, fsum. cbn. ring. Qed.
Lemma conv1 q r : conv_s 1 q r = 1 - Rabs (q 0%nat 0%nat * r 0%nat 0%nat). Proof. unfold conv_s, dot, rsum, fsum, col. cbn. rewrite Rplus_0_r. reflexivity. Qed.
Example C427_example : is_isqrt 1 isqrt1 /\ exists q v, symm_core 1 cfg2 isqrt1 (fun _ _ _ q a b => 3 * q a b) (fun _ _ => 2) = inl (q, v) /\ q 0%nat 0%nat = 1 /\ v = 0.
Proof.
  split.
  - intros q s E. unfold isqrt1 in E. rewrite m1 in E. unfold transp, ftrans in E. set (z := q 0%nat 0%nat) in *. destruct (Req_EM_T (z * z) 0) as [|N]; [discriminate|]. injection E as <-.
    assert (P : 0 < z * z) by nra. pose proof (sqrt_lt_R0 _ P) as Sp. pose proof (sqrt_sqrt _ (Rlt_le _ _ P)) as Sq. exists (fun _ _ => / (z * z)). split; [reflexivity|].
    assert (Z : z <> 0) by nra.
    split; [|split]; intros [|i] [|j] Hi Hj; try lia; rewrite !m1; unfold eye, transp, ftrans; cbn [Nat.eqb]; fold z; [rewrite <- Sq at 3; field; lra|field; exact Z|field; exact Z].
  - assert (K : forall m : rmat, 0 < m 0%nat 0%nat -> isqrt1 (mult 1 (transp m) m) = Some (fun _ _ => / m 0%nat 0%nat)).
    { intros m P. unfold isqrt1. rewrite m1. unfold transp, ftrans. destruct (Req_EM_T (m 0%nat 0%nat * m 0%nat 0%nat) 0); [nra|]. rewrite sqrt_square by lra. reflexivity. }
    assert (L1 : Rltb 1 (1/1000) = false) by (unfold Rltb; destruct (Rlt_dec 1 (1/1000)); [lra|reflexivity]). assert (L0 : Rltb 0 (1/1000) = true) by (unfold Rltb; destruct (Rlt_dec 0 (1/1000)); [reflexivity|lra]).
    destruct orig2 as (O1 & O2 & O3). unfold symm_core. change (c_max_it cfg2) with 2%nat. cbn [symm]. unfold s_start at 1. cbn [s_q]. rewrite K by lra.
    set (q1 := mult 1 (s_q (s_start cfg2 (fun _ _ => 2))) (fun _ _ => / 2)). assert (Q1 : q1 0%nat 0%nat = 1) by (unfold q1; rewrite m1; cbn; field).
    assert (V1 : forall s, s_qo s = zmat -> s_cr s = false -> s_fine s = false -> s_stroke s = 0 -> s_control 1 cfg2 0 q1 s = inl (mkSS q1 q1 zmat (s_mu s) (s_g s) 0 false false (s_lng s))).
    { intros s A B C D. unfold s_control. rewrite O2, O3, A, B, C, D. change (c_coarse cfg2) with (@None R). change (c_limit cfg2) with (1/1000). rewrite andb_false_r. cbn [andb orb negb].
      assert (E : conv_s 1 q1 zmat = 1) by (unfold conv_s, dot, rsum, fsum, col, zmat; cbn; rewrite Rmult_0_r, Rplus_0_r, Rabs_R0; ring). rewrite E, L1. reflexivity. }
    rewrite V1 by reflexivity. cbn [s_g s_mu s_qo s_qof s_stroke s_fine s_cr s_lng s_start s_q]. rewrite O1. change (known 10) with true. cbv iota. rewrite (K (fun a b => 3 * q1 a b)) by (cbv beta; rewrite Q1; lra). cbv beta.
    set (q2 := mult 1 (fun a b => 3 * q1 a b) (fun _ _ => / (3 * q1 0%nat 0%nat))). assert (Q2 : q2 0%nat 0%nat = 1) by (unfold q2; rewrite m1, Q1; field).
    unfold s_control. cbn [s_qo s_fine s_cr]. rewrite O3. change (c_limit cfg2) with (1/1000).
    assert (E : conv_s 1 q2 q1 = 0) by (rewrite conv1, Q1, Q2, Rmult_1_l, Rabs_R1; ring). rewrite E, L0. cbn [andb negb]. eexists _, _. split; [reflexivity|]. auto.
Qed.

(** ** C426: coarse_limit *)
Definition with_coarse (c : fcfg) (l : option R) : fcfg := mkFC (c_g c) (c_fine c) (c_all c) (c_mu c) (c_max_it c) (c_max_it_fine c) (c_failures c) (c_limit c) l.
Theorem C426_ignored d c l upd guess : defl_core d (with_coarse c l) upd guess = defl_core d c upd guess.
Proof. destruct c. reflexivity. Qed.
(** in the symmetric approach the nonlinearity is the fine one after the first convergence below coarse_limit *)
Theorem C426_switch d c l round q s : g_differs c = true -> stabilization c = false -> s_cr s = false -> c_coarse c = Some l ->
  c_limit c <= conv_s d q (s_qo s) < l -> exists s', s_control d c round q s = inl s' /\ s_g s' = g_fine c /\ s_cr s' = true /\ s_mu s' = s_mu s /\ s_q s' = q.
Proof.
  intros D St Cr Co (A & B). unfold s_control. rewrite D, St, Cr, Co. assert (L1 : Rltb (conv_s d q (s_qo s)) l = true) by (unfold Rltb; destruct (Rlt_dec _ _); [reflexivity|lra]).
  assert (L2 : Rltb (conv_s d q (s_qo s)) (c_limit c) = false) by (unfold Rltb; destruct (Rlt_dec _ _); [lra|reflexivity]). rewrite L1, L2. cbn. eexists. split; [reflexivity|]. auto.
Qed.
Theorem C426_kept d c round q s : stabilization c = false -> c_coarse c = None -> c_limit c <= conv_s d q (s_qo s) -> exists s', s_control d c round q s = inl s' /\ s_g s' = s_g s /\ s_mu s' = s_mu s.
Proof.
  intros St Co A. unfold s_control. rewrite St, Co. assert (L2 : Rltb (conv_s d q (s_qo s)) (c_limit c) = false) by (unfold Rltb; destruct (Rlt_dec _ _); [lra|reflexivity]). rewrite L2, andb_false_r. cbn. eexists. split; [reflexivity|]. auto.
Qed.
(** with the same arguments the symmetric approach uses coarse_limit and the deflation approach does not *)
Theorem C426_refuted : exists c l, g_differs c = true /\ c_limit c < l /\
  (forall d upd guess, defl_core d (with_coarse c (Some l)) upd guess = defl_core d (with_coarse c None) upd guess) /\
  (exists isqrt upd guess, is_isqrt 1 isqrt /\ symm_core 1 (with_coarse c (Some l)) isqrt upd guess <> symm_core 1 (with_coarse c None) isqrt upd guess).
Proof.
  exists cfg2, 2. split; [reflexivity|]. split; [cbn; lra|]. split; [intros; rewrite !C426_ignored; reflexivity|].
  exists isqrt1, (fun g _ _ _ _ _ => if (g =? 10)%nat then 0 else 1), (fun _ _ => 2). split; [apply C427_example|].
  assert (K : forall m : rmat, 0 < m 0%nat 0%nat -> isqrt1 (mult 1 (transp m) m) = Some (fun _ _ => / m 0%nat 0%nat)).
  { intros m P. unfold isqrt1. rewrite m1. unfold transp, ftrans. destruct (Req_EM_T (m 0%nat 0%nat * m 0%nat 0%nat) 0); [nra|]. rewrite sqrt_square by lra. reflexivity. }
  assert (Z : isqrt1 (mult 1 (transp (fun _ _ => 0)) (fun _ _ => 0)) = None).
  { unfold isqrt1. rewrite m1. unfold transp, ftrans. destruct (Req_EM_T (0 * 0) 0); [reflexivity|lra]. }
  assert (KQ : forall cc, c_max_it cc = 2%nat -> c_mu cc = 1 -> symm_core 1 cc isqrt1 (fun g _ _ _ _ _ => if (g =? 10)%nat then 0 else 1) (fun _ _ => 2) =
     let q1 := mult 1 (fun _ _ => 2) (fun _ _ => / 2) in
     match s_control 1 cc 0 q1 (s_start cc (fun _ _ => 2)) with
     | inr v => inl (q1, v)
     | inl s' => if known (s_g s') then symm 1 cc isqrt1 (fun g _ _ _ _ _ => if (g =? 10)%nat then 0 else 1) 1 1 (mkSS (fun _ _ => if (s_g s' =? 10)%nat then 0 else 1) (s_qo s') (s_qof s') (s_mu s') (s_g s') (s_stroke s') (s_fine s') (s_cr s') (s_lng s')) else inr FNotFound
     end).
  { intros cc M _. unfold symm_core. rewrite M. cbn [symm]. unfold s_start at 1. cbn [s_q]. rewrite K by lra. reflexivity. }
  rewrite !KQ by reflexivity. cbv zeta. set (q1 := mult 1 (fun _ _ => 2) (fun _ _ => / 2)).
  assert (CV : conv_s 1 q1 zmat = 1) by (rewrite conv1; unfold zmat; rewrite Rmult_0_r, Rabs_R0; ring).
  destruct orig2 as (O1 & O2 & O3).
  destruct (C426_switch 1 (with_coarse cfg2 (Some 2)) 2 0 q1 (s_start (with_coarse cfg2 (Some 2)) (fun _ _ => 2))) as (s' & E & G & _); try reflexivity; [exact O2|cbn [s_start s_qo]; rewrite CV; cbn; lra|]. rewrite E, G.
  destruct (C426_kept 1 (with_coarse cfg2 None) 0 q1 (s_start (with_coarse cfg2 None) (fun _ _ => 2))) as (s2 & E2 & G2 & _); try reflexivity; [exact O2|cbn [s_start s_qo]; rewrite CV; cbn; lra|]. rewrite E2, G2.
  assert (F : g_fine (with_coarse cfg2 (Some 2)) = 11%nat) by (unfold g_fine; cbn [with_coarse cfg2 c_fine c_mu]; change (g_orig (with_coarse cfg2 (Some 2))) with (g_orig cfg2); rewrite O1; unfold Reqb; destruct (Req_EM_T 1 1); [reflexivity|lra]).
  rewrite F. cbn [s_start s_g]. change (g_orig (with_coarse cfg2 None)) with (g_orig cfg2). rewrite O1. change (known 11) with true. change (known 10) with true. change (11 =? 10)%nat with false. change (10 =? 10)%nat with true. cbv iota.
  cbn [symm s_q]. rewrite Z. rewrite K by lra. intros H. destruct (s_control _ _ _ _ _) as [s3|] in H; [|discriminate]. destruct (known _); discriminate.
Qed.

(** ** An example for C428: the two points 1 and -1, one component, w = 1 *)
Example C428_example : exists w s, dot 1 w w = 1 /\ s <> 0 /\ forall a, (a < 1)%nat -> d_stab 1 2 (fun t _ => if (t =? 0)%nat then 1 else -1) 1 1 Pow3 1 w a = s * d_plain 1 2 (fun t _ => if (t =? 0)%nat then 1 else -1) 1 1 Pow3 w a.
Proof.
  exists (fun _ => 1), (-1/2). split; [unfold dot, rsum, fsum; cbn; ring|]. split; [lra|]. intros a Ha. unfold d_stab, d_plain, xm, u_, dot, rsum, fsum. cbn. field.
Qed.
