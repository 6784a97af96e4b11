(** Properties C380-C387 of Convolution2DNode. *)
From Coq Require Import List Arith Bool ZArith Lia QArith Qcanon.
From Verif Require Import OField ConvModel.
Import ListNotations.
Local Open Scope of_scope.

Section Props.
  Context {K : ofield}.
  Add Field Kcv : (fth K).
  Notation cnode := (cnode K). Notation vdata := (vdata K). Notation filt := (filt K).

  (** ** lists *)
  Lemma nth_block (L : list (list K)) m k i : Forall (fun l => length l = m) L -> (i < m)%nat -> nth (k * m + i) (concat L) 0 = nth i (nth k L []) 0.
  Proof.
    revert k. induction L as [|l L IH]; intros k HF Hi; cbn [concat].
    - destruct k; cbn; rewrite ?nth_overflow by (cbn; lia); [now destruct i|]. destruct (m + k * m + i)%nat; now destruct i.
    - inversion HF as [|? ? E HF']; subst. destruct k as [|k]; cbn [nth].
      + cbn. now rewrite app_nth1.
      + rewrite app_nth2 by lia. replace (S k * length l + i - length l)%nat with (k * length l + i)%nat by lia. now apply IH.
  Qed.
  Lemma flat_length h w (g : nat -> nat -> K) : length (flat h w g) = (h * w)%nat.
  Proof.
    unfold flat. rewrite flat_map_concat_map. enough (H : forall s, length (concat (map (fun i => map (g i) (seq 0 w)) (seq s h))) = (h * w)%nat) by apply H.
    induction h as [|h IH]; intros s; cbn [seq map concat]; [reflexivity|]. rewrite app_length, map_length, seq_length, IH. lia.
  Qed.
  Lemma flat_nth h w (g : nat -> nat -> K) i j : (i < h)%nat -> (j < w)%nat -> nth (i * w + j) (flat h w g) 0 = g i j.
  Proof.
    intros Hi Hj. unfold flat. rewrite flat_map_concat_map, nth_block; [| |exact Hj].
    - rewrite (nth_indep _ [] (map (g 0%nat) (seq 0 w))) by (now rewrite map_length, seq_length).
      rewrite (map_nth (fun i => map (g i) (seq 0 w))), seq_nth by exact Hi.
      rewrite (nth_indep _ 0 (g (0 + i)%nat 0%nat)) by (now rewrite map_length, seq_length). rewrite (map_nth (g (0 + i)%nat)), seq_nth by exact Hj. reflexivity.
    - apply Forall_forall. intros l Hl. apply in_map_iff in Hl as (x & <- & _). now rewrite map_length, seq_length.
  Qed.
  Lemma collect_all {A} (f : A -> vexn + list K) (g : A -> list K) l : (forall x, In x l -> f x = inr (g x)) -> collect (map f l) = inr (concat (map g l)).
  Proof. induction l as [|x l IH]; intros H; cbn; [reflexivity|]. rewrite (H x) by (now left). rewrite IH; [reflexivity|]. intros; apply H. now right. Qed.
  Lemma collect_rows_all {A} (f : A -> vexn + list K) (g : A -> list K) l : (forall x, In x l -> f x = inr (g x)) -> collect_rows (map f l) = inr (map g l).
  Proof. induction l as [|x l IH]; intros H; cbn; [reflexivity|]. rewrite (H x) by (now left). rewrite IH; [reflexivity|]. intros; apply H. now right. Qed.
  Lemma cut_rows_concat (L : list (list K)) m r : Forall (fun l => length l = m) L -> cut_rows (length L) m (concat L ++ r) = L.
  Proof.
    induction L as [|l L IH]; intros HF; cbn; [reflexivity|]. inversion HF; subst. rewrite <- app_assoc, firstn_app, Nat.sub_diag, firstn_all, app_nil_r.
    rewrite skipn_app, Nat.sub_diag, skipn_all. cbn. now rewrite IH.
  Qed.

  (** ** the values *)
  Definition goodf (f : filt) : Prop := length (f_v f) = f_n f /\ (0 < f_h f)%nat /\ (0 < f_w f)%nat.
  (** what is put around the image: zeros with approach 'fft' *)
  Definition surround (s : cnode) (h w : nat) (im : list K) : Z -> Z -> K :=
    match c_app s with Fft => ext Fill 0 h w im | Linear => ext (c_bnd s) (c_fv s) h w im end.
  (** where the first entry of the result lies in the full convolution *)
  Definition offset (m : cmode) (n : nat) : nat := match m with Full => 0 | Same => (n - 1) / 2 | Valid => n - 1 end.
  Definition out_len (m : cmode) (n k : nat) : nat := match m with Full => n + k - 1 | Same => n | Valid => n - k + 1 end.
  Definition entry (s : cnode) (h w : nat) (im flt : list K) (i j : nat) : K :=
    let f := c_flt s in
    fsumn (f_h f) (fun a => fsumn (f_w f) (fun c =>
      pix (f_w f) flt a c * surround s h w im (Z.of_nat (i + offset (c_mode s) (f_h f)) - Z.of_nat a) (Z.of_nat (j + offset (c_mode s) (f_w f)) - Z.of_nat c))).
  Definition fits (s : cnode) (h w : nat) : Prop := c_mode s = Valid -> (f_h (c_flt s) <= h)%nat /\ (f_w (c_flt s) <= w)%nat.
  (** the node and the data point shape agree: nothing fixed yet, or fixed for this shape *)
  Definition agrees (s : cnode) (h w : nat) : Prop :=
    (c_in s = None \/ c_in s = Some (h * w)%nat) /\
    (c_out s = None \/ (c_osh s = Some (out_shape (c_mode s) (h, w) (c_flt s)) /\
       c_out s = Some (Z.of_nat (f_n (c_flt s)) * (fst (out_shape (c_mode s) (h, w) (c_flt s)) * snd (out_shape (c_mode s) (h, w) (c_flt s))))%Z)).
  Definition done (s : cnode) (h w : nat) : cnode :=
    let o := out_shape (c_mode s) (h, w) (c_flt s) in
    mkC (c_flt s) (Some (h, w)) (Some (h * w)%nat) (Some (Z.of_nat (f_n (c_flt s)) * (fst o * snd o))%Z) (Some o) (c_mode s) (c_app s) (c_bnd s) (c_fv s) (c_2d s).

  Lemma checks_ok (s : cnode) h w (x : vdata) : agrees s h w -> x_rows x <> [] ->
    (c_ish s = Some (h, w) /\ x_shape x = D2 (h * w)) \/ (c_ish s = Some (h, w) \/ c_ish s = None) /\ x_shape x = D3 h w ->
    checks s x = (done s h w, None).
  Proof.
    intros (Hi & Ho) Hr Hs. unfold checks. destruct s as [f ish i o osh m a b fv o2], x as [sh rows]; cbn in *.
    destruct rows as [|r rows]; [easy|].
    destruct Hs as [(-> & ->)|([-> | ->] & ->)], Hi as [-> | ->], Ho as [-> |(-> & ->)]; cbn; rewrite Nat.eqb_refl; cbn; reflexivity.
  Qed.

  Lemma conv_spec (s : cnode) h w im flt : fits s h w -> (0 < f_h (c_flt s))%nat -> (0 < f_w (c_flt s))%nat -> exists g,
    convolve s h w im flt = inr ((out_len (c_mode s) h (f_h (c_flt s)), out_len (c_mode s) w (f_w (c_flt s))), g) /\ forall i j, g i j = entry s h w im flt i j.
  Proof.
    intros Hf H1 H2. unfold convolve, conv, entry, surround, full_at, offset, out_len, fits in *.
    destruct (c_mode s) eqn:Em.
    - destruct (Hf eq_refl) as (F1 & F2).
      rewrite (proj2 (Nat.leb_le _ _) F1), (proj2 (Nat.leb_le _ _) F2). cbn [andb].
      destruct (c_app s); eexists; split; [reflexivity|reflexivity|reflexivity|reflexivity].
    - destruct (c_app s); eexists; split; [reflexivity|reflexivity|reflexivity|reflexivity].
    - destruct (c_app s); (eexists; split; [reflexivity|]); intros i j; now rewrite !Nat.add_0_r.
  Qed.

  Definition spec_row (s : cnode) h w (im : list K) : list K :=
    concat (map (fun flt => flat (out_len (c_mode s) h (f_h (c_flt s))) (out_len (c_mode s) w (f_w (c_flt s))) (entry s h w im flt)) (f_v (c_flt s))).
  Lemma flat_ext h w (f g : nat -> nat -> K) : (forall i j, (i < h)%nat -> (j < w)%nat -> f i j = g i j) -> flat h w f = flat h w g.
  Proof.
    intros H. unfold flat. rewrite !flat_map_concat_map. f_equal. apply map_ext_in. intros i Hi. apply in_seq in Hi. apply map_ext_in. intros j Hj. apply in_seq in Hj. apply H; lia.
  Qed.
  Lemma image_spec (s : cnode) h w im : fits s h w -> (0 < f_h (c_flt s))%nat -> (0 < f_w (c_flt s))%nat ->
    image s (out_len (c_mode s) h (f_h (c_flt s))) (out_len (c_mode s) w (f_w (c_flt s))) h w im = inr (spec_row s h w im).
  Proof.
    intros Hf H1 H2. unfold image, spec_row. apply collect_all. intros flt _. destruct (conv_spec s h w im flt Hf H1 H2) as (g & -> & Hg).
    unfold assign. rewrite !Nat.eqb_refl. cbn. f_equal. apply flat_ext. intros i j Hi Hj. rewrite Hg.
    destruct (Nat.eqb_spec (out_len (c_mode s) h (f_h (c_flt s))) 1); destruct (Nat.eqb_spec (out_len (c_mode s) w (f_w (c_flt s))) 1); f_equal; lia.
  Qed.
  Lemma out_shape_len (s : cnode) h w : fits s h w -> (0 < h)%nat -> (0 < w)%nat -> (0 < f_h (c_flt s))%nat -> (0 < f_w (c_flt s))%nat ->
    out_shape (c_mode s) (h, w) (c_flt s) = (Z.of_nat (out_len (c_mode s) h (f_h (c_flt s))), Z.of_nat (out_len (c_mode s) w (f_w (c_flt s)))).
  Proof. intros Hf. unfold fits, out_shape, out_len in *. cbn. destruct (c_mode s); intros; [destruct (Hf eq_refl)|..]; f_equal; lia. Qed.
  Lemma spec_row_length (s : cnode) h w im : length (f_v (c_flt s)) = f_n (c_flt s) ->
    length (spec_row s h w im) = (f_n (c_flt s) * (out_len (c_mode s) h (f_h (c_flt s)) * out_len (c_mode s) w (f_w (c_flt s))))%nat.
  Proof.
    intros <-. unfold spec_row. induction (f_v (c_flt s)) as [|v l IH]; cbn; [reflexivity|]. rewrite app_length, flat_length, IH. lia.
  Qed.

  Definition fresult (s : cnode) h w (rows : list (list K)) : vres K :=
    let oh := out_len (c_mode s) h (f_h (c_flt s)) in let ow := out_len (c_mode s) w (f_w (c_flt s)) in
    if c_2d s then R2 (f_n (c_flt s) * (oh * ow)) rows else R4 (f_n (c_flt s)) oh ow rows.
  Lemma exec_spec (s : cnode) h w (x : vdata) : fits s h w -> goodf (c_flt s) -> (0 < h)%nat -> (0 < w)%nat ->
    x_shape x = D2 (h * w) \/ x_shape x = D3 h w ->
    exec (done s h w) x = inr (fresult s h w (map (spec_row s h w) (x_rows x))).
  Proof.
    intros Hf (G1 & G2 & G3) Hh Hw Hs. unfold exec. cbn [done c_osh c_ish c_out c_2d c_flt].
    rewrite (out_shape_len s h w Hf Hh Hw G2 G3). cbn [fst snd].
    rewrite (proj2 (Z.ltb_ge _ _)) by lia. rewrite (proj2 (Z.ltb_ge _ _)) by lia. cbn [orb]. rewrite !Nat2Z.id.
    replace (match x_shape x with D2 c => if (c =? h * w)%nat then inr (h, w) else inl VValue | D3 h0 w0 => inr (h0, w0) | DN => inl VValue end) with (@inr vexn (nat * nat) (h, w)).
    2:{ destruct Hs as [-> | ->]; [now rewrite Nat.eqb_refl|reflexivity]. }
    cbn beta iota.
    rewrite (collect_rows_all _ (spec_row s h w)) by (intros im _; exact (image_spec s h w im Hf G2 G3)).
    unfold fresult. destruct (c_2d s); [|reflexivity].
    rewrite (proj2 (Z.ltb_ge _ _)) by lia. rewrite <- !Nat2Z.inj_mul, Nat2Z.id. f_equal. f_equal. unfold resize.
    apply cut_rows_concat. apply Forall_forall. intros l Hl. apply in_map_iff in Hl as (im & <- & _). now apply spec_row_length.
  Qed.

  (** C380: execute returns, for each data point and filter, the flattened convolution of the two in the chosen mode, and the node then agrees with the same shape *)
  Theorem C380_execute (s : cnode) h w (x : vdata) : goodf (c_flt s) -> (0 < h)%nat -> (0 < w)%nat -> fits s h w -> agrees s h w -> x_rows x <> [] ->
    (c_ish s = Some (h, w) /\ x_shape x = D2 (h * w)) \/ (c_ish s = Some (h, w) \/ c_ish s = None) /\ x_shape x = D3 h w ->
    let oh := out_len (c_mode s) h (f_h (c_flt s)) in let ow := out_len (c_mode s) w (f_w (c_flt s)) in
    exists s' rows, execute s x = (s', inr (if c_2d s then R2 (f_n (c_flt s) * (oh * ow)) rows else R4 (f_n (c_flt s)) oh ow rows)) /\
      length rows = length (x_rows x) /\ Forall (fun r => length r = (f_n (c_flt s) * (oh * ow))%nat) rows /\
      (forall n f i j, (n < length rows)%nat -> (f < f_n (c_flt s))%nat -> (i < oh)%nat -> (j < ow)%nat ->
        nth (f * (oh * ow) + (i * ow + j)) (nth n rows []) 0 = entry s h w (nth n (x_rows x) []) (nth f (f_v (c_flt s)) []) i j) /\
      c_out s' = Some (Z.of_nat (f_n (c_flt s) * (oh * ow))) /\ c_ish s' = Some (h, w) /\ agrees s' h w /\ c_flt s' = c_flt s /\ c_mode s' = c_mode s.
  Proof.
    intros G Hh Hw Hf Ha Hr Hs oh ow. exists (done s h w), (map (spec_row s h w) (x_rows x)).
    assert (G' := G). destruct G as (G1 & G2 & G3).
    split; [|split; [apply map_length|split; [|split; [|split; [|split; [reflexivity|split; [|split; reflexivity]]]]]]].
    - unfold execute. rewrite (checks_ok s h w x Ha Hr Hs). rewrite (exec_spec s h w x Hf G' Hh Hw); [reflexivity|]. destruct Hs as [(_ & ->)|(_ & ->)]; auto.
    - apply Forall_forall. intros l Hl. apply in_map_iff in Hl as (im & <- & _). now apply spec_row_length.
    - intros n f i j Hn Hfl Hi Hj. rewrite map_length in Hn.
      rewrite (nth_indep _ [] (spec_row s h w [])) by (now rewrite map_length). rewrite (map_nth (spec_row s h w)). unfold spec_row.
      rewrite nth_block.
      + rewrite (nth_indep _ [] ((fun flt => flat (out_len (c_mode s) h (f_h (c_flt s))) (out_len (c_mode s) w (f_w (c_flt s))) (entry s h w (nth n (x_rows x) []) flt)) [])) by (rewrite map_length; lia).
        rewrite (map_nth (fun flt => flat (out_len (c_mode s) h (f_h (c_flt s))) (out_len (c_mode s) w (f_w (c_flt s))) (entry s h w (nth n (x_rows x) []) flt))).
        now apply flat_nth.
      + apply Forall_forall. intros l Hl. apply in_map_iff in Hl as (im & <- & _). apply flat_length.
      + fold oh ow. nia.
    - cbn [done c_out]. rewrite (out_shape_len s h w Hf Hh Hw G2 G3). cbn [fst snd]. fold oh ow. f_equal. lia.
    - split; right; [reflexivity|]. split; reflexivity.
  Qed.

  (** C381: data points given flattened and as images give the same node and the same result *)
  Theorem C381_flat_or_image (s : cnode) h w rows : c_ish s = Some (h, w) ->
    execute s (mkX (D2 (h * w)) rows) = execute s (mkX (D3 h w) rows).
  Proof.
    intros E. unfold execute, checks. cbn [x_shape x_rows numel]. rewrite E. rewrite E. cbn [fst snd].
    set (s2 := match c_in s with None => _ | Some _ => s end).
    assert (E2 : c_ish s2 = Some (h, w)) by (unfold s2; destruct (c_in s); assumption).
    destruct (match c_in s2 with Some n => (h * w =? n)%nat | None => false end); [|reflexivity].
    set (s3 := match c_out s2 with None => _ | Some _ => s2 end).
    assert (E3 : c_ish s3 = Some (h, w)) by (unfold s3; destruct (c_out s2); assumption).
    destruct rows as [|r rows]; [reflexivity|]. f_equal. unfold exec. cbn [x_shape x_rows]. rewrite E3. rewrite Nat.eqb_refl. reflexivity.
  Qed.

  (** C382: images of another shape are rejected, although only the number of pixels is compared *)
  Theorem C382_other_shape (s : cnode) h w h' w' rows : goodf (c_flt s) -> (0 < f_n (c_flt s))%nat -> (0 < h)%nat -> (0 < w)%nat -> (0 < h')%nat -> (0 < w')%nat ->
    c_ish s = Some (h, w) -> agrees s h w -> fits s h w -> (h', w') <> (h, w) -> exists s' e, execute s (mkX (D3 h' w') rows) = (s', inl e).
  Proof.
    intros (G1 & G2 & G3) Gn Hh Hw Hh' Hw' Ei (Hi & Ho) Hfit Hne. unfold execute, checks. cbn [x_shape x_rows numel]. rewrite Ei. rewrite Ei. cbn [fst snd].
    set (s2 := match c_in s with None => _ | Some _ => s end).
    assert (Ein : c_in s2 = Some (h * w)%nat) by (unfold s2; destruct Hi as [E|E]; rewrite E; [reflexivity|exact E]).
    assert (E2 : c_flt s2 = c_flt s /\ c_mode s2 = c_mode s /\ c_ish s2 = c_ish s /\ c_out s2 = c_out s /\ c_osh s2 = c_osh s) by (unfold s2; destruct (c_in s); easy).
    destruct E2 as (E2f & E2m & E2i & E2o & E2s).
    rewrite Ein. destruct (Nat.eqb_spec (h' * w') (h * w)) as [Ep|]; [|eauto].
    set (s3 := match c_out s2 with None => _ | Some _ => s2 end).
    assert (E3 : c_flt s3 = c_flt s /\ c_mode s3 = c_mode s /\ c_ish s3 = Some (h, w) /\ c_osh s3 = Some (out_shape (c_mode s) (h, w) (c_flt s)) /\ exists z, c_out s3 = Some z).
    { unfold s3. destruct (c_out s2) as [z|] eqn:Eo.
      - rewrite E2o in Eo. destruct Ho as [Ho|(Ho1 & Ho2)]; [congruence|]. rewrite E2i, E2s. repeat split; [exact E2f|exact E2m|exact Ei|exact Ho1|exists z; congruence].
      - rewrite E2f, E2m. cbn. rewrite E2f, E2m, E2i. repeat split; eauto. }
    destruct E3 as (E3f & E3m & E3i & E3s & z & E3o).
    destruct rows as [|r rows]; [eauto|]. exists s3. unfold exec. cbn [x_shape x_rows]. rewrite E3s, E3i, E3o.
    destruct (out_shape (c_mode s) (h, w) (c_flt s)) as (oh, ow) eqn:Eos.
    destruct ((oh <? 0) || (ow <? 0))%Z eqn:Eneg; [eauto|]. apply orb_false_iff in Eneg as (N1 & N2). apply Z.ltb_ge in N1, N2.
    cbn [map collect_rows]. unfold image. rewrite E3f. destruct (f_v (c_flt s)) as [|flt fl]; [cbn in G1; lia|]. cbn [map collect].
    assert (Ebad : exists e, match convolve s3 h' w' r flt with inl e => inl e | inr r0 => assign (Z.to_nat oh) (Z.to_nat ow) r0 end = inl e).
    { assert (Hbad : forall a b (g : nat -> nat -> K), ~ ((a = Z.to_nat oh \/ a = 1%nat) /\ (b = Z.to_nat ow \/ b = 1%nat)) -> exists e, assign (Z.to_nat oh) (Z.to_nat ow) (a, b, g) = inl e).
      { intros a b g Hab. unfold assign. destruct (Nat.eqb_spec a (Z.to_nat oh)), (Nat.eqb_spec a 1), (Nat.eqb_spec b (Z.to_nat ow)), (Nat.eqb_spec b 1); cbn; eauto; exfalso; apply Hab; auto. }
      assert (H1 : h' = h -> False) by (intros ->; apply Hne; f_equal; nia).
      assert (H2 : w' = w -> False) by (intros ->; apply Hne; f_equal; nia).
      assert (H3 : (h' <= h -> w' <= w -> False)%nat).
      { intros L1 L2. apply H1. assert (h' * w' <= h' * w)%nat by (apply Nat.mul_le_mono_l; exact L2). assert (h' * w = h * w)%nat by nia. apply (Nat.mul_cancel_r _ _ w); lia. }
      unfold out_shape in Eos. cbn [fst snd] in Eos. unfold convolve, conv. rewrite E3f, E3m. unfold fits in Hfit.
      destruct (c_mode s); injection Eos as <- <-.
      - destruct (Hfit eq_refl) as (F1 & F2).
        destruct (c_app s3); (destruct ((f_h (c_flt s) <=? h') && (f_w (c_flt s) <=? w'))%nat eqn:C1;
          [apply andb_true_iff in C1 as (C1 & C1'); apply Nat.leb_le in C1, C1'|destruct ((h' <=? f_h (c_flt s)) && (w' <=? f_w (c_flt s)))%nat eqn:C2;
            [apply andb_true_iff in C2 as (C2 & C2'); apply Nat.leb_le in C2, C2'; exfalso; apply H3; lia|eauto]]);
          apply Hbad; intros ([A|A] & [B|B]); solve [apply H1; lia|apply H2; lia|apply H3; lia].
      - destruct (c_app s3); apply Hbad; intros ([A|A] & [B|B]); solve [apply H1; lia|apply H2; lia|apply H3; lia].
      - destruct (c_app s3); apply Hbad; intros ([A|A] & [B|B]); solve [apply H1; lia|apply H2; lia|apply H3; lia]. }
    destruct Ebad as (e & ->). exists e. reflexivity.
  Qed.

  (** ** the full convolution is a product of polynomials *)
  Fixpoint pw (s : K) (n : nat) : K := match n with O => 1 | S n => s * pw s n end.
  Lemma pw_add s n m : pw s (n + m) = pw s n * pw s m. Proof. induction n; cbn; [ring|]. rewrite IHn. ring. Qed.
  (** the value at (s, t) of the polynomial with the entries as coefficients *)
  Definition poly (h w : nat) (g : nat -> nat -> K) (s t : K) : K := fsumn h (fun i => fsumn w (fun j => pw s i * pw t j * g i j)).
  Lemma swap3 n m k (f : nat -> nat -> nat -> K) : fsumn n (fun i => fsumn m (fun j => fsumn k (fun a => f i j a))) = fsumn k (fun a => fsumn n (fun i => fsumn m (fun j => f i j a))).
  Proof. rewrite fsumn_swap with (n := k). apply fsumn_ext. intros i _. apply fsumn_swap. Qed.
  Lemma shift h p a (s : K) (U : Z -> K) : (a < p)%nat -> (forall z, (z < 0 \/ Z.of_nat h <= z)%Z -> U z = 0) ->
    fsumn (h + p - 1) (fun i => pw s i * U (Z.of_nat i - Z.of_nat a)%Z) = pw s a * fsumn h (fun i => pw s i * U (Z.of_nat i)).
  Proof.
    intros Ha HU. replace (h + p - 1)%nat with (a + (h + (p - 1 - a)))%nat by lia. rewrite fsumn_split, fsumn_split.
    rewrite (fsumn_zero a) by (intros i Hi; rewrite HU by lia; ring).
    rewrite (fsumn_zero (p - 1 - a)) by (intros i Hi; rewrite HU by lia; ring).
    rewrite <- fsumn_mul. rewrite (fsumn_ext h (fun i => pw s (a + i) * U (Z.of_nat (a + i) - Z.of_nat a)%Z) (fun i => pw s a * (pw s i * U (Z.of_nat i)))); [ring|].
    intros i _. rewrite pw_add. replace (Z.of_nat (a + i) - Z.of_nat a)%Z with (Z.of_nat i) by lia. ring.
  Qed.
  Lemma ext_zero h w im i j : (i < 0 \/ Z.of_nat h <= i \/ j < 0 \/ Z.of_nat w <= j)%Z -> ext Fill (0 : K) h w im i j = 0.
  Proof.
    intros H. cbn. unfold inside. destruct (Z.leb_spec 0 i), (Z.ltb_spec i (Z.of_nat h)), (Z.leb_spec 0 j), (Z.ltb_spec j (Z.of_nat w)); cbn; try reflexivity. lia.
  Qed.
  Lemma ext_in h w im i j : (i < h)%nat -> (j < w)%nat -> ext Fill (0 : K) h w im (Z.of_nat i) (Z.of_nat j) = pix w im i j.
  Proof.
    intros. cbn. unfold inside. rewrite !(proj2 (Z.leb_le _ _)) by lia. rewrite !(proj2 (Z.ltb_lt _ _)) by lia. cbn. now rewrite !Nat2Z.id.
  Qed.
  Lemma full_poly h w im p q flt s t : (0 < p)%nat -> (0 < q)%nat ->
    poly (h + p - 1) (w + q - 1) (full_at Fill 0 h w im p q flt) s t = poly h w (pix w im) s t * poly p q (pix q flt) s t.
  Proof.
    intros Hp Hq. unfold poly, full_at.
    transitivity (fsumn p (fun a => fsumn q (fun c => fsumn (h + p - 1) (fun i => fsumn (w + q - 1) (fun j =>
      pw s i * pw t j * (pix q flt a c * ext Fill 0 h w im (Z.of_nat i - Z.of_nat a) (Z.of_nat j - Z.of_nat c))))))).
    { rewrite (fsumn_ext p _ (fun a => fsumn (h + p - 1) (fun i => fsumn (w + q - 1) (fun j => fsumn q (fun c =>
        pw s i * pw t j * (pix q flt a c * ext Fill 0 h w im (Z.of_nat i - Z.of_nat a) (Z.of_nat j - Z.of_nat c))))))) by (intros a _; symmetry; apply swap3).
      rewrite <- swap3. apply fsumn_ext. intros i _. apply fsumn_ext. intros j _. rewrite <- fsumn_mul. apply fsumn_ext. intros a _. now rewrite <- fsumn_mul. }
    rewrite <- fsumn_mul. apply fsumn_ext. intros a Ha. rewrite <- fsumn_mul. apply fsumn_ext. intros c Hc.
    rewrite (fsumn_ext (h + p - 1) _ (fun i => pw s i * (fun z => pix q flt a c * (pw t c * fsumn w (fun j => pw t j * ext Fill 0 h w im z (Z.of_nat j)))) (Z.of_nat i - Z.of_nat a)%Z)).
    - rewrite (shift h p a s (fun z => pix q flt a c * (pw t c * fsumn w (fun j => pw t j * ext Fill 0 h w im z (Z.of_nat j))))); [|exact Ha|].
      + rewrite (fsumn_ext h _ (fun i => pix q flt a c * pw t c * fsumn w (fun j => pw s i * pw t j * pix w im i j))).
        * rewrite fsumn_mul. ring.
        * intros i Hi. rewrite (fsumn_ext w (fun j => pw t j * ext Fill 0 h w im (Z.of_nat i) (Z.of_nat j)) (fun j => pw t j * pix w im i j)) by (intros j Hj; now rewrite ext_in).
          rewrite (fsumn_ext w (fun j => pw s i * pw t j * pix w im i j) (fun j => pw s i * (pw t j * pix w im i j))) by (intros; ring). rewrite fsumn_mul. ring.
      + intros z Hz. rewrite (fsumn_zero w) by (intros j _; rewrite ext_zero by lia; ring). ring.
    - intros i _. rewrite <- (shift w q c t (fun z => ext Fill 0 h w im (Z.of_nat i - Z.of_nat a) z)); [|exact Hc|intros; apply ext_zero; lia].
      rewrite <- fsumn_mul, <- fsumn_mul. apply fsumn_ext. intros j _. ring.
  Qed.

  (** C383: in mode 'full' with zeros around, the output of a filter, read as the coefficients of a polynomial in two variables, is the product of the image and the filter *)
  Theorem C383_product (s : cnode) h w (x : vdata) : goodf (c_flt s) -> (0 < h)%nat -> (0 < w)%nat -> c_mode s = Full -> c_app s = Fft \/ c_bnd s = Fill /\ c_fv s = 0 ->
    agrees s h w -> x_rows x <> [] ->
    (c_ish s = Some (h, w) /\ x_shape x = D2 (h * w)) \/ (c_ish s = Some (h, w) \/ c_ish s = None) /\ x_shape x = D3 h w ->
    let p := f_h (c_flt s) in let q := f_w (c_flt s) in let oh := (h + p - 1)%nat in let ow := (w + q - 1)%nat in
    exists s' rows, execute s x = (s', inr (if c_2d s then R2 (f_n (c_flt s) * (oh * ow)) rows else R4 (f_n (c_flt s)) oh ow rows)) /\ length rows = length (x_rows x) /\
      forall n f a b, (n < length rows)%nat -> (f < f_n (c_flt s))%nat ->
        poly oh ow (fun i j => nth (f * (oh * ow) + (i * ow + j)) (nth n rows []) 0) a b =
        poly h w (fun i j => nth (i * w + j) (nth n (x_rows x) []) 0) a b * poly p q (fun i j => nth (i * q + j) (nth f (f_v (c_flt s)) []) 0) a b.
  Proof.
    intros G Hh Hw Hm Hz Ha Hr Hs p q oh ow.
    assert (Hf : fits s h w) by (unfold fits; rewrite Hm; discriminate).
    destruct (C380_execute s h w x G Hh Hw Hf Ha Hr Hs) as (s' & rows & E & El & _ & Hv & _). rewrite Hm in E, Hv. cbn [out_len] in E, Hv. fold p q oh ow in E, Hv.
    exists s', rows. split; [exact E|]. split; [exact El|]. intros n f a b Hn Hfl. destruct G as (_ & G2 & G3).
    etransitivity; [|exact (full_poly h w (nth n (x_rows x) []) p q (nth f (f_v (c_flt s)) []) a b G2 G3)]. unfold poly. apply fsumn_ext. intros i Hi. apply fsumn_ext. intros j Hj. f_equal.
    rewrite Hv by assumption. unfold entry, full_at, surround. rewrite Hm. cbn [offset]. rewrite !Nat.add_0_r. fold p q.
    apply fsumn_ext. intros a0 _. apply fsumn_ext. intros c _. f_equal. destruct Hz as [-> |(-> & ->)]; [reflexivity|]. destruct (c_app s); reflexivity.
  Qed.

  (** ** linearity *)
  Definition lin (a b : K) (u v : list K) : list K := map (fun p => a * fst p + b * snd p) (List.combine u v).
  Definition lins (a b : K) (u v : list (list K)) : list (list K) := map (fun p => lin a b (fst p) (snd p)) (List.combine u v).
  Lemma lin_nth a b u v k : length u = length v -> nth k (lin a b u v) 0 = a * nth k u 0 + b * nth k v 0.
  Proof.
    revert v k. induction u as [|x u IH]; intros [|y v] [|k] E; cbn in *; try discriminate; try ring. apply IH. now injection E.
  Qed.
  Lemma lin_app a b u v u' v' : length u = length v -> lin a b (u ++ u') (v ++ v') = lin a b u v ++ lin a b u' v'.
  Proof. revert v. induction u as [|x u IH]; intros [|y v] E; cbn in *; try discriminate; [reflexivity|]. unfold lin in *. cbn. f_equal. apply IH. now injection E. Qed.
  Lemma lin_map {A} a b (f g : A -> K) l : map (fun x => a * f x + b * g x) l = lin a b (map f l) (map g l).
  Proof. induction l; cbn; [reflexivity|]. unfold lin in *. cbn. now f_equal. Qed.
  Lemma flat_lin a b h w (f g : nat -> nat -> K) : flat h w (fun i j => a * f i j + b * g i j) = lin a b (flat h w f) (flat h w g).
  Proof.
    unfold flat. generalize (seq 0 h) as l. induction l as [|i l IH]; cbn [flat_map]; [reflexivity|]. rewrite IH, lin_map, lin_app by (now rewrite !map_length). reflexivity.
  Qed.
  Lemma surround_lin (s : cnode) h w a b u v : c_app s = Fft \/ c_bnd s <> Fill \/ c_fv s = 0 -> length u = length v -> forall i j,
    surround s h w (lin a b u v) i j = a * surround s h w u i j + b * surround s h w v i j.
  Proof.
    intros H E i j. assert (Hp : forall x y, pix w (lin a b u v) x y = a * pix w u x y + b * pix w v x y) by (intros; unfold pix; now apply lin_nth).
    unfold surround. destruct (c_app s).
    - unfold ext. destruct (c_bnd s); [|apply Hp|apply Hp]. destruct (inside h i && inside w j); [apply Hp|]. destruct H as [H|[H|H]]; [discriminate|congruence|]. rewrite H. ring.
    - unfold ext. destruct (inside h i && inside w j); [apply Hp|ring].
  Qed.
  Lemma entry_lin (s : cnode) h w a b u v flt i j : c_app s = Fft \/ c_bnd s <> Fill \/ c_fv s = 0 -> length u = length v ->
    entry s h w (lin a b u v) flt i j = a * entry s h w u flt i j + b * entry s h w v flt i j.
  Proof.
    intros H E. unfold entry. rewrite <- !fsumn_mul, <- fsumn_add. apply fsumn_ext. intros c _. rewrite <- !fsumn_mul, <- fsumn_add. apply fsumn_ext. intros d _.
    rewrite surround_lin by assumption. ring.
  Qed.
  Lemma spec_row_lin (s : cnode) h w a b u v : c_app s = Fft \/ c_bnd s <> Fill \/ c_fv s = 0 -> length u = length v ->
    spec_row s h w (lin a b u v) = lin a b (spec_row s h w u) (spec_row s h w v).
  Proof.
    intros H E. unfold spec_row. induction (f_v (c_flt s)) as [|flt l IH]; cbn [map concat]; [reflexivity|]. rewrite IH, lin_app by (now rewrite !flat_length). f_equal.
    rewrite <- flat_lin. apply flat_ext. intros. now apply entry_lin.
  Qed.
  Lemma spec_rows_lin (s : cnode) h w a b U V : c_app s = Fft \/ c_bnd s <> Fill \/ c_fv s = 0 -> Forall2 (fun u v : list K => length u = length v) U V ->
    map (spec_row s h w) (lins a b U V) = lins a b (map (spec_row s h w) U) (map (spec_row s h w) V).
  Proof. intros H HF. induction HF as [|u v U V E HF IH]; [reflexivity|]. unfold lins in *. cbn [map List.combine fst snd]. rewrite spec_row_lin by assumption. f_equal. exact IH. Qed.

  (** C384: execute is linear in the data, unless a fill value other than zero is used *)
  Theorem C384_linear (s : cnode) h w sh U V a b : goodf (c_flt s) -> (0 < h)%nat -> (0 < w)%nat -> fits s h w -> c_app s = Fft \/ c_bnd s <> Fill \/ c_fv s = 0 -> agrees s h w ->
    U <> [] -> Forall2 (fun u v : list K => length u = length v) U V ->
    (c_ish s = Some (h, w) /\ sh = D2 (h * w)) \/ (c_ish s = Some (h, w) \/ c_ish s = None) /\ sh = D3 h w ->
    exists s' (res : list (list K) -> vres K) U' V', (res = R2 (f_n (c_flt s) * (out_len (c_mode s) h (f_h (c_flt s)) * out_len (c_mode s) w (f_w (c_flt s))))
        \/ res = R4 (f_n (c_flt s)) (out_len (c_mode s) h (f_h (c_flt s))) (out_len (c_mode s) w (f_w (c_flt s)))) /\
      execute s (mkX sh U) = (s', inr (res U')) /\ execute s (mkX sh V) = (s', inr (res V')) /\
      execute s (mkX sh (lins a b U V)) = (s', inr (res (lins a b U' V'))).
  Proof.
    intros G Hh Hw Hf Hl Ha HU HF Hs.
    assert (Hne : forall W, W <> [] -> execute s (mkX sh W) = (done s h w, inr (fresult s h w (map (spec_row s h w) W)))).
    { intros W HW. unfold execute. rewrite (checks_ok s h w (mkX sh W) Ha HW Hs). rewrite (exec_spec s h w (mkX sh W) Hf G Hh Hw); [reflexivity|]. cbn. destruct Hs as [(_ & ->)|(_ & ->)]; auto. }
    exists (done s h w), (fresult s h w), (map (spec_row s h w) U), (map (spec_row s h w) V).
    assert (HV : V <> [] /\ lins a b U V <> []) by (destruct HF; [easy|split; easy]). destruct HV as (HV & HW).
    split; [unfold fresult; destruct (c_2d s); auto|]. split; [now apply Hne|]. split; [now apply Hne|]. rewrite <- spec_rows_lin by assumption. now apply Hne.
  Qed.

  (** C385, guarded: filters can be replaced by filters of the same number and size *)
  Theorem C385_same_size (s : cnode) h w (f : filt) : f_n f = f_n (c_flt s) -> f_h f = f_h (c_flt s) -> f_w f = f_w (c_flt s) -> agrees s h w -> agrees (set_filters s f) h w.
  Proof. intros E1 E2 E3. unfold agrees, out_shape. cbn. now rewrite E1, E2, E3. Qed.

  Lemma checks_sets (s : cnode) (x : vdata) s' : checks s x = (s', None) -> c_ish s' <> None /\ c_in s' <> None /\ c_out s' <> None.
  Proof.
    unfold checks. destruct s as [f ish i o osh m ap b fv o2], x as [sh rows]; cbn. intros E.
    assert (sh <> DN) by (intros ->; discriminate).
    destruct sh as [c|h w|]; [| |congruence]; destruct ish as [(ih, iw)|], i as [i|], o as [o|]; cbn in E; try discriminate;
      repeat match type of E with (if ?b then _ else _) = _ => destruct b; [|discriminate] end; injection E as <- _; cbn; easy.
  Qed.
  Lemma checks_keep (s : cnode) (x : vdata) : c_ish s <> None /\ c_in s <> None /\ c_out s <> None -> fst (checks s x) = s.
  Proof.
    unfold checks. destruct s as [f ish i o osh m ap b fv o2], x as [sh rows]; cbn. intros (H1 & H2 & H3).
    destruct ish as [(ih, iw)|], i as [i|], o as [o|]; try congruence. destruct sh; cbn; [destruct (_ =? i)%nat|destruct (_ =? i)%nat|]; reflexivity.
  Qed.
  (** C386, guarded: once an execution succeeded, no batch, accepted or rejected, changes the node *)
  Theorem C386_after_success (s : cnode) (x x' : vdata) s' r : execute s x = (s', inr r) -> fst (execute s' x') = s'.
  Proof.
    unfold execute. intros E. destruct (checks s x) as (s0, [e0|]) eqn:Ec; [discriminate|]. injection E as <- _. apply checks_sets in Ec.
    pose proof (checks_keep s0 x' Ec) as Hk. destruct (checks s0 x') as (s1, [e1|]); exact Hk.
  Qed.

  (** C387, guarded: flattened data points are rejected if input_dim is not the number of pixels of input_shape *)
  Theorem C387_flattened (s : cnode) h w n c rows : c_ish s = Some (h, w) -> c_in s = Some n -> n <> (h * w)%nat -> exists s' e, execute s (mkX (D2 c) rows) = (s', inl e).
  Proof.
    intros E1 E2 Hn. unfold execute, checks. cbn [x_shape x_rows numel]. rewrite E1. rewrite E1, E2. rewrite E2. destruct (Nat.eqb_spec c n) as [-> |]; [|eauto].
    set (s3 := match c_out s with None => _ | Some _ => s end). assert (E3 : c_ish s3 = Some (h, w)) by (unfold s3; destruct (c_out s); assumption).
    destruct rows; [eauto|]. exists s3. unfold exec. cbn [x_shape]. rewrite E3. destruct (c_osh s3) as [(oh, ow)|]; [|eauto]. destruct (c_out s3); [|eauto].
    destruct ((oh <? 0) || (ow <? 0))%Z; [eauto|]. destruct (Nat.eqb_spec n (h * w)); [contradiction|]. eauto.
  Qed.

  (** C388, first part: in mode 'valid' images on which some filter does not fit are rejected *)
  Theorem C388_too_large (s : cnode) h w x : goodf (c_flt s) -> (0 < f_n (c_flt s))%nat -> (0 < h)%nat -> (0 < w)%nat -> agrees s h w ->
    c_mode s = Valid -> (h < f_h (c_flt s) \/ w < f_w (c_flt s))%nat ->
    (c_ish s = Some (h, w) /\ x_shape x = D2 (h * w)) \/ (c_ish s = Some (h, w) \/ c_ish s = None) /\ x_shape x = D3 h w ->
    exists s' e, execute s x = (s', inl e).
  Proof.
    intros (G1 & G2 & G3) Gn Hh Hw Ha Hm Hl Hs. unfold execute.
    destruct (x_rows x) as [|im rows] eqn:Er.
    { destruct (checks s x) as (s', [e|]) eqn:Ec; [eauto|]. exfalso. unfold checks in Ec. rewrite Er in Ec.
      destruct (x_shape x); [| |discriminate]; (match type of Ec with (match ?o with _ => _ end) = _ => destruct o; [|discriminate] end);
        cbv zeta in Ec; (match type of Ec with (if ?o then _ else _) = _ => destruct o; discriminate end). }
    assert (Hr : x_rows x <> []) by (rewrite Er; discriminate). rewrite (checks_ok s h w x Ha Hr Hs). exists (done s h w). unfold exec. cbn [done c_osh c_ish c_out].
    destruct (out_shape (c_mode s) (h, w) (c_flt s)) as (oh, ow) eqn:Eo. rewrite Hm in Eo. cbn in Eo. injection Eo as <- <-.
    destruct ((_ <? 0) || (_ <? 0))%Z eqn:En; [eauto|]. apply orb_false_iff in En as (N1 & N2). apply Z.ltb_ge in N1, N2.
    replace (match x_shape x with D2 c => if (c =? h * w)%nat then inr (h, w) else inl VValue | D3 h0 w0 => inr (h0, w0) | DN => inl VValue end) with (@inr vexn (nat * nat) (h, w)).
    2:{ destruct Hs as [(_ & ->)|(_ & ->)]; [now rewrite Nat.eqb_refl|reflexivity]. }
    rewrite Er. cbn [map collect_rows]. unfold image at 1. cbn [done c_flt].
    destruct (f_v (c_flt s)) as [|flt fl]; [cbn in G1; lia|]. cbn [map collect]. unfold convolve at 1. cbn [done c_app c_mode c_flt c_bnd c_fv]. rewrite Hm.
    assert (Hbad : forall b fv, exists e, match conv Valid b fv h w im (f_h (c_flt s)) (f_w (c_flt s)) flt with inl e => inl e
      | inr r => assign (Z.to_nat (Z.of_nat h - Z.of_nat (f_h (c_flt s)) + 1)) (Z.to_nat (Z.of_nat w - Z.of_nat (f_w (c_flt s)) + 1)) r end = inl e).
    { intros b fv. unfold conv. destruct ((f_h (c_flt s) <=? h) && (f_w (c_flt s) <=? w))%nat eqn:C1.
      - apply andb_true_iff in C1 as (C1 & C1'). apply Nat.leb_le in C1, C1'. lia.
      - destruct ((h <=? f_h (c_flt s)) && (w <=? f_w (c_flt s)))%nat eqn:C2; [|eauto]. apply andb_true_iff in C2 as (C2 & C2'). apply Nat.leb_le in C2, C2'.
        unfold assign.
        destruct (Nat.eqb_spec (f_h (c_flt s) - h + 1) (Z.to_nat (Z.of_nat h - Z.of_nat (f_h (c_flt s)) + 1)));
        destruct (Nat.eqb_spec (f_h (c_flt s) - h + 1) 1);
        destruct (Nat.eqb_spec (f_w (c_flt s) - w + 1) (Z.to_nat (Z.of_nat w - Z.of_nat (f_w (c_flt s)) + 1)));
        destruct (Nat.eqb_spec (f_w (c_flt s) - w + 1) 1); cbn [andb orb]; eauto; exfalso; lia. }
    destruct (c_app s); [destruct (Hbad (c_bnd s) (c_fv s)) as (e & ->)|destruct (Hbad Fill 0) as (e & ->)]; eauto.
  Qed.

  (** ** what fails *)
  Definition ones (n : nat) : filt := mkF n 1 1 (repeat [1] n).
  Definition two : K := 1 + 1.
  (** C385: after more filters were assigned, the output of a data point is partly that of the data point before it, and the rest is lost *)
  Theorem C385_replaced_refuted : exists (s0 s : cnode) (f : filt), s0 = new (ones 1) (Some (1, 1)%nat) Fft Full Fill 0 true None /\
    (forall u, exists r, execute s0 (mkX (D2 1) [[u]]) = (s, inr r)) /\ goodf f /\ f_n f = 2%nat /\ f_h f = 1%nat /\ f_w f = 1%nat /\
    forall u v, exists s' a b, execute (set_filters s f) (mkX (D2 1) [[u]; [v]]) = (s', inr (R2 1 [[a]; [b]])) /\ a = u /\ b = two * u.
  Proof.
    exists (new (ones 1) (Some (1, 1)%nat) Fft Full Fill 0 true None), (done (new (ones 1) (Some (1, 1)%nat) Fft Full Fill 0 true None) 1 1), (mkF 2 1 1 [[1]; [two]]).
    split; [reflexivity|]. split; [intros u; eexists; reflexivity|]. split; [repeat split; cbn; lia|]. repeat (split; [reflexivity|]).
    intros u v. eexists _, _, _. split; [reflexivity|]. cbn. unfold pix. cbn. split; ring.
  Qed.
  (** C386: a batch that is rejected because of its dimension fixes the image shape; after it the right data are rejected too *)
  Theorem C386_rejected_refuted : exists (s s' : cnode), s = new (ones 1) None Fft Full Fill 0 true (Some 6%nat) /\
    (forall rows, execute s (mkX (D3 2 2) rows) = (s', inl VNode)) /\
    (forall im, exists s2 r, execute s (mkX (D3 2 3) [im]) = (s2, inr r)) /\ forall im, exists s2, execute s' (mkX (D3 2 3) [im]) = (s2, inl VValue).
  Proof.
    exists (new (ones 1) None Fft Full Fill 0 true (Some 6%nat)), (mkC (ones 1) (Some (2, 2)%nat) (Some 6%nat) None None Full Fft Fill 0 true).
    split; [reflexivity|]. split; [reflexivity|]. split; [intros im; eexists _, _; reflexivity|]. intros im. eexists. reflexivity.
  Qed.
  (** C387: input_dim and input_shape need not agree; images are then copied to fill the declared shape *)
  Theorem C387_inconsistent_refuted : exists s : cnode, s = new (ones 1) (Some (2, 2)%nat) Fft Full Fill 0 true (Some 2%nat) /\
    forall u v, exists s' a b c d, execute s (mkX (D3 2 1) [[u; v]]) = (s', inr (R2 4 [[a; b; c; d]])) /\ a = u /\ b = u /\ c = v /\ d = v.
  Proof.
    eexists. split; [reflexivity|]. intros u v. eexists _, _, _, _, _. split; [reflexivity|]. cbn. unfold pix. cbn. change (Pos.to_nat 1) with 1%nat. cbn. repeat split; ring.
  Qed.
  (** C388: output_dim is fixed at a positive number although nothing can be executed *)
  Theorem C388_output_dim_refuted : exists s : cnode, s = new (mkF 1 3 3 [repeat 1 9]) (Some (1, 1)%nat) Fft Valid Fill 0 true None /\
    forall im, exists s', execute s (mkX (D2 1) [im]) = (s', inl VValue) /\ c_out s' = Some 1%Z.
  Proof. eexists. split; [reflexivity|]. intros im. eexists. split; reflexivity. Qed.

  (** C380: the values around the image: the fill value; the image repeated; or the image mirrored at its borders with the border pixels repeated *)
  Theorem C380_around b fv h w (im : list K) i j : (0 < h)%nat -> (0 < w)%nat ->
    ((0 <= i < Z.of_nat h)%Z -> (0 <= j < Z.of_nat w)%Z -> ext b fv h w im i j = nth (Z.to_nat i * w + Z.to_nat j) im 0) /\
    (b = Fill -> ~ ((0 <= i < Z.of_nat h)%Z /\ (0 <= j < Z.of_nat w)%Z) -> ext b fv h w im i j = fv) /\
    (b = Wrap -> ext b fv h w im (i + Z.of_nat h) j = ext b fv h w im i j /\ ext b fv h w im i (j + Z.of_nat w) = ext b fv h w im i j) /\
    (b = Symm -> ext b fv h w im (-1 - i) j = ext b fv h w im i j /\ ext b fv h w im i (-1 - j) = ext b fv h w im i j /\
                 ext b fv h w im (2 * Z.of_nat h - 1 - i) j = ext b fv h w im i j /\ ext b fv h w im i (2 * Z.of_nat w - 1 - j) = ext b fv h w im i j).
  Proof.
    intros Hh Hw. assert (M : forall n a, (0 < n)%Z -> reflect n (-1 - a) = reflect n a /\ reflect n (2 * n - 1 - a) = reflect n a).
    { intros n a Hn. assert (A : forall c, reflect n (c + 2 * n) = reflect n c).
      { intros c. unfold reflect. replace (c + 2 * n)%Z with (c + 1 * (2 * n))%Z by ring. now rewrite Z_mod_plus_full. }
      assert (B : reflect n (-1 - a) = reflect n a).
      { unfold reflect. pose proof (Z.mod_pos_bound a (2 * n) ltac:(lia)) as P.
        assert (E : ((-1 - a) mod (2 * n) = 2 * n - 1 - a mod (2 * n))%Z).
        { symmetry. apply Z.mod_unique with (q := (- (a / (2 * n)) - 1)%Z); [lia|]. pose proof (Z.div_mod a (2 * n) ltac:(lia)). lia. }
        rewrite E. cbv zeta. destruct (Z.ltb_spec (2 * n - 1 - a mod (2 * n)) n), (Z.ltb_spec (a mod (2 * n)) n); lia. }
      split; [exact B|]. rewrite <- B, <- (A (-1 - a)%Z). f_equal. lia. }
    assert (I : forall n a, (0 <= a < n)%Z -> reflect n a = a). { intros n a P. unfold reflect. rewrite Z.mod_small by lia. cbv zeta. destruct (Z.ltb_spec a n); lia. }
    split; [|split; [|split]].
    - intros Hi Hj. unfold ext. destruct b.
      + unfold inside. rewrite (proj2 (Z.leb_le 0 i)), (proj2 (Z.ltb_lt i _)), (proj2 (Z.leb_le 0 j)), (proj2 (Z.ltb_lt j _)) by lia. reflexivity.
      + rewrite !Z.mod_small by lia. reflexivity.
      + rewrite !I by lia. reflexivity.
    - intros -> N. unfold ext, inside. destruct (Z.leb_spec 0 i), (Z.ltb_spec i (Z.of_nat h)), (Z.leb_spec 0 j), (Z.ltb_spec j (Z.of_nat w)); cbn; try reflexivity. exfalso. apply N. lia.
    - intros ->. unfold ext. replace (i + Z.of_nat h)%Z with (i + 1 * Z.of_nat h)%Z by ring. replace (j + Z.of_nat w)%Z with (j + 1 * Z.of_nat w)%Z by ring. now rewrite !Z_mod_plus_full.
    - intros ->. unfold ext. pose proof (M (Z.of_nat h) i ltac:(lia)) as [-> ->]. pose proof (M (Z.of_nat w) j ltac:(lia)) as [-> ->]. auto.
  Qed.
End Props.

(** Examples *)
Definition q (z : Z) : Qc_of := Q2Qc (inject_Z z).
Definition exf : filt Qc_of := mkF 2 1 2 [[q 1; q 2]; [q 3; q (-1)]].
Definition exn m b fv a := @new Qc_of exf (Some (2, 2)%nat) a m b fv true None.
Definition vals (r : cnode Qc_of * (vexn + vres Qc_of)) : option (list (list Q)) :=
  match snd r with inr (R2 _ rows) => Some (map (map (fun a : Qc_of => this a)) rows) | _ => None end.
Definition exx : vdata Qc_of := mkX (D2 4) [[q 1; q 2; q 3; q 4]].
Example C380_ex_full : vals (execute (exn Full Fill (q 0) Fft) exx) = Some [[1; 4; 4; 3; 10; 8; 3; 5; -2; 9; 9; -4]]%Q. Proof. vm_compute. reflexivity. Qed.
Example C380_ex_same : vals (execute (exn Same Fill (q 0) Fft) exx) = Some [[1; 4; 3; 10; 3; 5; 9; 9]]%Q. Proof. vm_compute. reflexivity. Qed.
Example C380_ex_valid : vals (execute (exn Valid Fill (q 0) Linear) exx) = Some [[4; 10; 5; 9]]%Q. Proof. vm_compute. reflexivity. Qed.
Example C380_ex_wrap : vals (execute (exn Full Wrap (q 0) Linear) exx) = Some [[5; 4; 5; 11; 10; 11; 1; 5; 1; 5; 9; 5]]%Q. Proof. vm_compute. reflexivity. Qed.
Example C384_ex_fill : vals (execute (exn Full Fill (q 5) Linear) exx) = Some [[11; 4; 9; 13; 10; 13; -2; 5; 13; 4; 9; 11]]%Q. Proof. vm_compute. reflexivity. Qed.
Example C382_ex : snd (execute (exn Full Fill (q 0) Fft) (mkX (D3 4 1) [[q 1; q 2; q 3; q 4]])) = inl VValue. Proof. vm_compute. reflexivity. Qed.
Example C380_ex_symm : vals (execute (exn Full Symm (q 0) Linear) exx) = Some [[3; 4; 6; 9; 10; 12; 2; 5; 4; 6; 9; 8]]%Q. Proof. vm_compute. reflexivity. Qed.
