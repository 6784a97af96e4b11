(** Properties of CloneBiModel.v: CloneBiLayer *)
From Coq Require Import List Arith ZArith Bool String Lia.
From Verif Require Import BiModel CloneBiModel.
Import ListNotations.
Open Scope nat_scope.

Lemma firstn_plus {A} (a b : nat) (l : list A) : firstn (a + b) l = firstn a l ++ firstn b (skipn a l).
Proof. revert l. induction a as [|a IH]; intros l; [reflexivity|]. destruct l as [|x l]; [now destruct b|]. cbn. now rewrite IH. Qed.
Lemma skipn_plus {A} (a b : nat) (l : list A) : skipn (a + b) l = skipn b (skipn a l).
Proof. revert l. induction a as [|a IH]; intros l; [reflexivity|]. destruct l as [|x l]; [cbn; now destruct b|]. apply IH. Qed.
Lemma combine_map2 {A B C} (f : A -> B) (g : A -> C) l : List.combine (map f l) (map g l) = map (fun x => (f x, g x)) l.
Proof. induction l as [|a l IH]; [reflexivity|]. cbn. now rewrite IH. Qed.

Section Props.
  Context {E O St : Type}.
  Notation arr := (arr E). Notation cval := (cval E O). Notation cmsg := (cmsg E O). Notation cres := (cres E O). Notation nodes := (nodes St). Notation layer := (layer St). Notation call := (call E O St).
  Variable copy : nat -> St -> St.
  Definition wfa (a : arr) : Prop := Forall (fun r => List.length r = a_cols _ a) (a_rows _ a).
  (** the contents of two arrays *)
  Definition alike (a b : arr) : Prop := a_cols _ a = a_cols _ b /\ a_rows _ a = a_rows _ b.
  Definition vlike (v w : cval) : Prop := match v, w with VArr _ _ a, VArr _ _ b => alike a b | _, _ => v = w end.
  Definition mlike (m m' : cmsg) : Prop := Forall2 (fun p q => fst p = fst q /\ vlike (snd p) (snd q)) m m'.

  (** ** The parts of an array *)
  Lemma stack_parts w (rows : list (list E)) : forall m i,
    stack_rows _ (map (fun i => map (fun r => firstn w (skipn (w * i) r)) rows) (seq i (S m))) = map (fun r => firstn (w * S m) (skipn (w * i) r)) rows.
  Proof.
    induction m as [|m IH]; intros i.
    - cbn. now rewrite Nat.mul_1_r.
    - change (seq i (S (S m))) with (i :: seq (S i) (S m)). cbn [map]. specialize (IH (S i)). remember (seq (S i) (S m)) as q. destruct q as [|j q]; [discriminate|]. cbn [map stack_rows] in *. rewrite IH.
      rewrite combine_map2, map_map. apply map_ext. intros r. cbn [fst snd]. rewrite (Nat.mul_succ_r w (S m)), (Nat.add_comm (w * S m) w), firstn_plus, <- skipn_plus. now rewrite (Nat.mul_succ_r w i).
  Qed.
  Lemma sum_parts (a : arr) n : forall l, fold_right (fun b s => a_cols E b + s) 0 (map (fun i => part E n i a) l) = List.length l * (a_cols _ a / n).
  Proof. induction l as [|i l IH]; [reflexivity|]. cbn [map fold_right List.length]. rewrite IH. cbn. lia. Qed.
  Lemma hstack_parts new n (a : arr) : n <> 0 -> hstack _ new (map (fun i => part _ n i a) (seq 0 n)) = inr (mkA _ new (n * (a_cols _ a / n)) (map (firstn (n * (a_cols _ a / n))) (a_rows _ a))).
  Proof.
    intros Hn. destruct n as [|n]; [easy|]. unfold hstack. change (seq 0 (S n)) with (0 :: seq 1 n). cbn [map].
    replace (forallb _ _) with true.
    - f_equal. f_equal; [change (part E (S n) 0 a :: map (fun i => part E (S n) i a) (seq 1 n)) with (map (fun i => part E (S n) i a) (seq 0 (S n))); rewrite sum_parts, seq_length; reflexivity|].
      change (part E (S n) 0 a :: map (fun i => part E (S n) i a) (seq 1 n)) with (map (fun i => part E (S n) i a) (seq 0 (S n))). rewrite map_map. etransitivity; [exact (stack_parts (a_cols _ a / S n) (a_rows _ a) n 0)|]. rewrite Nat.mul_0_r. cbn [skipn]. rewrite (Nat.mul_comm (S n)). reflexivity.
    - symmetry. apply forallb_forall. intros b Hb. apply in_map_iff in Hb. destruct Hb as (i & <- & _). cbn. rewrite !map_length. apply Nat.eqb_refl.
  Qed.
  (** ** C353: the parts are all the data *)
  Theorem C353_complete : forall new n (a : arr), n <> 0 -> wfa a -> a_cols _ a mod n = 0 -> hstack _ new (map (fun i => part _ n i a) (seq 0 n)) = inr (mkA _ new (a_cols _ a) (a_rows _ a)).
  Proof.
    intros new n a Hn Wf Hm. rewrite hstack_parts by exact Hn. assert (n * (a_cols _ a / n) = a_cols _ a) as -> by (pose proof (Nat.div_mod (a_cols _ a) n Hn); lia).
    f_equal. f_equal. rewrite <- (map_id (a_rows _ a)) at 2. apply map_ext_in. intros r Hr. unfold wfa in Wf. rewrite Forall_forall in Wf. rewrite <- (Wf r Hr). apply firstn_all.
  Qed.
  Lemma firstn_skip_cut {A} (r : list A) : forall w i k, i < k -> firstn w (skipn (w * i) (firstn (k * w) r)) = firstn w (skipn (w * i) r).
  Proof.
    intros w i k H. assert (forall a b (l : list A), skipn a (firstn (a + b) l) = firstn b (skipn a l)) as G.
    { clear. induction a as [|a IH]; intros b l; [reflexivity|]. destruct l as [|x l]; [cbn; now destruct b|]. apply IH. }
    replace (k * w) with (w * i + (w + w * (k - i - 1))) by nia. rewrite G, firstn_plus, firstn_app. rewrite firstn_length, firstn_firstn.
    rewrite Nat.min_id. destruct (Nat.le_ge_cases w (List.length (skipn (w * i) r))) as [L|L].
    - rewrite Nat.min_l by lia. rewrite Nat.sub_diag. cbn. apply app_nil_r.
    - rewrite (skipn_all2 (n := w)) by lia. rewrite firstn_nil. destruct (w - _); apply app_nil_r.
  Qed.
  Definition kept (n : nat) (a : arr) : arr := mkA _ (a_obj _ a) (n * (a_cols _ a / n)) (map (firstn (n * (a_cols _ a / n))) (a_rows _ a)).
  Lemma part_kept n i (a : arr) : i < n -> part _ n i (kept n a) = part _ n i a.
  Proof.
    intros H. unfold part, kept. cbn [a_cols a_rows a_obj]. rewrite (Nat.mul_comm n), Nat.div_mul by lia. f_equal. rewrite map_map. apply map_ext. intros r. rewrite (Nat.mul_comm _ n). now apply firstn_skip_cut.
  Qed.
  Lemma data_kept n (a : arr) : data _ n (Some (kept n a)) = data _ n (Some a).
  Proof.
    unfold data. destruct (Nat.eqb_spec n 0) as [->|Hn]; [reflexivity|]. unfold kept at 1. cbn [a_cols]. rewrite (Nat.mul_comm n), Nat.div_mul by exact Hn.
    destruct (a_cols _ a / n =? 0); [reflexivity|]. f_equal. apply map_ext_in. intros i Hi. apply in_seq in Hi. now rewrite part_kept by lia.
  Qed.
  Lemma set_count b (L : layer) : count _ (l_nodes _ (fst (set_copies _ copy b L))) = count _ (l_nodes _ L).
  Proof. unfold set_copies. destruct b, (l_nodes _ L) as [s k|l] eqn:En; cbn; rewrite ?En, ?map_length, ?seq_length; reflexivity. Qed.
  Lemma flag_count (L : layer) m : count _ (l_nodes _ (fst (flag_opt E O _ copy L m))) = count _ (l_nodes _ L).
  Proof.
    destruct m as [m|]; [|reflexivity]. cbn [flag_opt]. unfold copy_flag. destruct (own_key _ _ _) as [e|o]; [reflexivity|].
    destruct (match o with Some f => (dget f m, ddel f m) | None => (dget "use_copies"%string m, m) end) as [v m'].
    destruct v as [[|b|x|x]|]; try reflexivity. pose proof (set_count b L) as H. destruct (set_copies St copy b L) as [L' [e|]]; exact H.
  Qed.
  (** columns beyond a multiple of the number of nodes have no effect *)
  Theorem C353_dropped : forall (f : call) (L : layer) a m, process E O _ copy f L (Some (kept (count _ (l_nodes _ L)) a)) m = process _ _ _ copy f L (Some a) m.
  Proof.
    intros f L a m. unfold process. pose proof (flag_count L m) as Hc. destruct (flag_opt E O St copy L m) as [L1 [e|m1]]; [reflexivity|]. cbn [fst] in Hc. rewrite Hc, data_kept. reflexivity.
  Qed.

  (** ** C352: data and messages which the nodes hand on come out unchanged *)
  Definition hands_on (f : call) : Prop := forall s x m, f s x m = (s, inr (match m with None => RPlain _ _ x | Some _ => RPair _ _ x m end)).
  Lemma loop_one_on f (s : St) l : hands_on f -> loop_one E O St f s l = (s, inr (map (fun p => match snd p with None => RPlain _ _ (fst p) | Some _ => RPair _ _ (fst p) (snd p) end) l)).
  Proof. intros H. induction l as [|[x m] l IH]; [reflexivity|]. cbn [loop_one map]. rewrite H, IH. destruct m; reflexivity. Qed.
  Lemma loop_copies_on f : hands_on f -> forall (ss : list St) l, List.length ss = List.length l ->
    loop_copies E O St f ss l = (ss, inr (map (fun p => match snd p with None => RPlain _ _ (fst p) | Some _ => RPair _ _ (fst p) (snd p) end) l)).
  Proof.
    intros H. induction ss as [|s ss IH]; intros [|[x m] l] Hl; try discriminate; [reflexivity|]. cbn [loop_copies map]. rewrite H, IH by (cbn in Hl; lia). destruct m; reflexivity.
  Qed.
  Lemma loop_on f (ns : nodes) l : hands_on f -> List.length l = count _ ns ->
    loop E O St f ns l = (ns, inr (map (fun p => match snd p with None => RPlain _ _ (fst p) | Some _ => RPair _ _ (fst p) (snd p) end) l)).
  Proof. intros H Hl. destruct ns as [s k|ss]; cbn [loop]; [now rewrite loop_one_on|]. cbn in Hl. now rewrite loop_copies_on. Qed.
  Lemma given_some {A} (g : A -> arr) l : given _ (map (fun i => Some (g i)) l) = Some (map g l).
  Proof. induction l as [|i l IH]; [reflexivity|]. cbn. now rewrite IH. Qed.
  Lemma last_map {A B} (g : A -> B) d d' l : l <> [] -> last (map g l) d' = g (last l d).
  Proof. induction l as [|a [|b l] IH]; intros H; [easy|reflexivity|]. change (last (map g (b :: l)) d' = g (last (b :: l) d)). now apply IH. Qed.
  Lemma join_parts n (a : arr) : n <> 0 -> wfa a -> a_cols _ a mod n = 0 -> exists y, join_y _ (map (fun i => Some (part _ n i a)) (seq 0 n)) = inr (Some y) /\ alike y a.
  Proof.
    intros Hn Wf Hm. unfold join_y. rewrite (last_map _ 0) by (destruct n; easy). rewrite given_some. rewrite C353_complete by assumption. eexists. split; [reflexivity|]. now split.
  Qed.

  Definition smsg (n i : nat) (m : cmsg) : cmsg := map (fun p => (fst p, split_val _ _ n i (snd p))) m.
  Lemma dget_smsg n i key m : dget key (smsg n i m) = option_map (split_val _ _ n i) (dget key m).
  Proof. induction m as [|[k v] m IH]; [reflexivity|]. cbn. destruct (String.eqb key k); [reflexivity|exact IH]. Qed.
  Lemma look_smsg n key m v : dget key m = Some v -> forall l, look E O key (map (fun i => Some (smsg n i m)) l) = inr (map (fun i => split_val _ _ n i v) l).
  Proof. intros H. induction l as [|i l IH]; [reflexivity|]. cbn [map look]. now rewrite dget_smsg, H, IH. Qed.
  Lemma arrays_map {A} (g : A -> arr) l : all_arrays E O (map (fun i => VArr _ _ (g i)) l) = Some (map g l).
  Proof. induction l as [|i l IH]; [reflexivity|]. cbn. now rewrite IH. Qed.
  Definition wfm (m : cmsg) : Prop := NoDup (map fst m) /\ Forall (fun p => match snd p with VArr _ _ a => wfa a | _ => True end) m.
  Lemma vlike_refl v : vlike v v. Proof. destruct v; cbn; try reflexivity. now split. Qed.
  Lemma dget_in key v (m : cmsg) : NoDup (map fst m) -> In (key, v) m -> dget key m = Some v.
  Proof.
    induction m as [|[k w] m IH]; [easy|]. intros N [H|H]; cbn; [injection H as -> ->; now rewrite String.eqb_refl|]. cbn in N. inversion_clear N.
    destruct (String.eqb_spec key k) as [->|_]; [|now apply IH]. exfalso. apply H0. change k with (fst (k, v)). now apply in_map.
  Qed.
  Lemma join_smsg n (m : cmsg) : 2 <= n -> wfm m -> forall m', incl m' m -> exists r, join_keys E O (map (fun i => Some (smsg n i m)) (seq 0 n)) (Some (smsg n 0 m)) (smsg n (n - 1) m') = inr r /\ mlike m' r.
  Proof.
    intros Hn [N W]. induction m' as [|[key v] m' IH]; intros I; [exists []; split; [reflexivity|constructor]|].
    destruct IH as (r & Er & Hr); [now apply incl_cons_inv in I|]. apply incl_cons_inv in I. destruct I as [Hi I].
    pose proof (dget_in key v m N Hi) as Hg. cbn [smsg map join_keys]. fold (smsg n (n - 1) m'). cbn [look fst snd]. rewrite dget_smsg, Hg. cbn [option_map]. rewrite Er.
    rewrite Forall_forall in W. pose proof (W _ Hi) as Wv. cbn in Wv.
    destruct v as [|b|o|a]; cbn [split_val]; try (eexists; split; [reflexivity|constructor; [split; [reflexivity|apply vlike_refl]|exact Hr]]).
    destruct (a_cols _ a mod n =? 0) eqn:Em.
    - apply Nat.eqb_eq in Em. unfold same_obj. cbn [part a_obj]. destruct (list_eq_dec Nat.eq_dec (n - 1 :: a_obj _ a) (0 :: a_obj _ a)) as [e|_]; [injection e; lia|].
      rewrite (look_smsg n key m (VArr _ _ a) Hg). cbn [split_val]. rewrite (proj2 (Nat.eqb_eq _ _) Em). rewrite arrays_map. rewrite C353_complete by (try assumption; lia).
      eexists. split; [reflexivity|]. constructor; [|exact Hr]. split; [reflexivity|]. now split.
    - unfold same_obj. destruct (list_eq_dec Nat.eq_dec (a_obj _ a) (a_obj _ a)) as [_|H]; [|easy]. eexists. split; [reflexivity|]. constructor; [split; [reflexivity|apply vlike_refl]|exact Hr].
  Qed.
  Lemma combined_smsg n (m : cmsg) : n <> 0 -> wfm m -> exists r, combined E O (map (fun i => Some (smsg n i m)) (seq 0 n)) = inr (Some r) /\ mlike m r.
  Proof.
    intros Hn Wm. destruct (Nat.eq_dec n 1) as [->|H1].
    - exists (smsg 1 0 m). split; [reflexivity|]. destruct Wm as [_ W]. induction W as [|[k v] m Hv _ IH]; constructor; [|exact IH]. split; [reflexivity|]. cbn [snd fst] in *. destruct v as [|b|o|a]; cbn [split_val]; try reflexivity.
      rewrite Nat.mod_1_r. cbn [Nat.eqb vlike]. unfold alike, part. cbn [a_cols a_rows]. rewrite Nat.div_1_r. split; [reflexivity|]. rewrite <- (map_id (a_rows _ a)) at 1. apply map_ext_in. intros r Hr. rewrite Nat.mul_0_r. cbn [skipn].
      unfold wfa in Hv. rewrite Forall_forall in Hv. rewrite <- (Hv r Hr). symmetry. apply firstn_all.
    - destruct (join_smsg n m ltac:(lia) Wm m (incl_refl m)) as (r & Er & Hr). exists r. split; [|exact Hr]. destruct n as [|[|n]]; try lia.
      unfold combined. rewrite (last_map _ 0) by easy. replace (last (seq 0 (S (S n))) 0) with (S n) by (symmetry; change (seq 0 (S (S n))) with (seq 0 (S (S n))); rewrite (seq_S (S n) 0), last_last; reflexivity).
      cbn [seq map]. cbn [seq map Nat.sub] in Er. now rewrite Er.
  Qed.
  (** no use_copies in the message, for all nodes or for this layer *)
  Definition no_flag (L : layer) (m : cmsg) : Prop := own_key (l_id _ L) "use_copies"%string (map fst m) = inr None /\ dget "use_copies"%string m = None.
  Lemma no_flag_like (L : layer) m m' : mlike m m' -> no_flag L m -> no_flag L m'.
  Proof.
    intros H [N1 N2]. split.
    - rewrite <- N1. f_equal. clear - H. induction H as [|p q m m' [e _] _ IH]; [reflexivity|]. cbn. now rewrite e, IH.
    - clear - H N2. induction H as [|[k v] [k' v'] m m' [e _] _ IH]; [reflexivity|]. cbn [dget fst snd] in *. subst k'. destruct (String.eqb "use_copies" k); [discriminate|now apply IH].
  Qed.
  Lemma no_flag_opt (L : layer) m : no_flag L m -> flag_opt _ _ _ copy L (Some m) = (L, inr (Some m)).
  Proof. intros [N1 N2]. cbn [flag_opt]. unfold copy_flag. rewrite N1, N2. reflexivity. Qed.
  Lemma no_target (l : list cres) : Forall (fun r => match r with RTriple _ _ _ _ _ => False | _ => True end) l -> fold_right (fun r t => res_t E O r t) None l = None.
  Proof. induction 1 as [|r l H _ IH]; [reflexivity|]. cbn. rewrite IH. now destruct r. Qed.
  Theorem C352_roundtrip : forall (f : call) (L : layer) a (m : cmsg), hands_on f -> count _ (l_nodes _ L) <> 0 -> wfa a -> a_cols _ a mod count _ (l_nodes _ L) = 0 -> a_cols _ a <> 0 ->
    m <> [] -> wfm m -> no_flag L m -> exists y m', process _ _ _ copy f L (Some a) (Some m) = (L, inr (RPair _ _ (Some y) (Some m'))) /\ alike y a /\ mlike m m'.
  Proof.
    intros f L a m Hf Hn Wa Hm Hc Nm Wm Nf. unfold process. rewrite no_flag_opt by exact Nf. set (n := count _ (l_nodes _ L)) in *.
    unfold data. rewrite (proj2 (Nat.eqb_neq n 0) Hn). assert (a_cols _ a / n <> 0) as Hd by (intros H; pose proof (Nat.div_mod (a_cols _ a) n Hn); lia). rewrite (proj2 (Nat.eqb_neq _ 0) Hd).
    assert (split E O n (Some m) = map (fun i => Some (smsg n i m)) (seq 0 n)) as Es by (destruct m; [easy|reflexivity]).
    fold n. rewrite Es.
    rewrite combine_map2, loop_on; [|exact Hf|rewrite map_length, seq_length; reflexivity]. rewrite map_map. cbn [fst snd].
    replace (with_nodes St L (l_nodes St L)) with L by (now destruct L). unfold finish.
    assert (forall l, flat_map (res_m E O) (map (fun i => RPair _ _ (Some (part _ n i a)) (Some (smsg n i m))) l) = map (fun i => Some (smsg n i m)) l) as -> by (induction l as [|i l IH]; [reflexivity|]; cbn; now rewrite IH).
    destruct (combined_smsg n m Hn Wm) as (r & -> & Hr). rewrite map_map. cbn [res_y]. destruct (join_parts n a Hn Wa Hm) as (y & -> & Hy).
    rewrite no_flag_opt by exact (no_flag_like _ _ _ Hr Nf). rewrite no_target by (apply Forall_forall; intros c Hc'; apply in_map_iff in Hc'; destruct Hc' as (i & <- & _); exact I).
    exists y, r. split; [|now split]. destruct r; [inversion Hr; congruence|reflexivity].
  Qed.

  (** ** C354: switching *)
  Theorem C354_never : forall (L : layer) l, l_nodes _ L = Copies _ l -> set_copies _ copy false L = (L, Some (if l_training _ L then XLayer else XAttr)).
  Proof. intros L l H. unfold set_copies. now rewrite H. Qed.
  Theorem C354_copies : forall (L : layer) s k, l_nodes _ L = One _ s k -> set_copies _ copy false L = (L, None) /\
    (let L' := with_nodes _ L (Copies _ (map (fun i => copy i s) (seq 0 k))) in set_copies _ copy true L = (L', None) /\ set_copies _ copy true L' = (L', None) /\ count _ (l_nodes _ L') = k).
  Proof. intros L s k H. unfold set_copies. rewrite H. repeat split. cbn. now rewrite map_length, seq_length. Qed.
  (** the message switches, and the copies get the data of the same message *)
  Theorem C354_message : forall (f : call) (L : layer) x m s k, l_nodes _ L = One _ s k -> own_key (l_id _ L) "use_copies"%string (map fst m) = inr None -> dget "use_copies"%string m = Some (VBool _ _ true) ->
    process _ _ _ copy f L x (Some m) = process _ _ _ copy f (fst (set_copies _ copy true L)) x (Some m).
  Proof.
    intros f L x m s k H N1 N2. unfold process. cbn [flag_opt]. unfold copy_flag. replace (l_id _ (fst (set_copies _ copy true L))) with (l_id _ L) by (unfold set_copies; rewrite H; reflexivity).
    rewrite N1, N2. destruct (C354_copies L s k H) as (_ & E1 & E2 & _). rewrite E1. cbn [fst]. rewrite E2. reflexivity.
  Qed.

  (** ** C355: training with one instance or copies *)
  Lemma train_data n (a : arr) : n <> 0 -> a_cols _ a / n <> 0 -> data _ n (Some a) = inr (map (fun i => Some (part _ n i a)) (seq 0 n)).
  Proof. intros H1 H2. unfold data. now rewrite (proj2 (Nat.eqb_neq n 0) H1), (proj2 (Nat.eqb_neq _ 0) H2). Qed.
  Lemma repeat_map_seq {A} (v : A) n : repeat v n = map (fun _ => v) (seq 0 n).
  Proof. generalize 0. induction n as [|n IH]; intros a; [reflexivity|]. cbn. now rewrite <- IH. Qed.
  Theorem C355_shared : forall (f : call) g (L : layer) s k a, (forall s x, f s x None = (g s x, inr (RPlain _ _ None))) -> l_nodes _ L = One _ s k -> k <> 0 -> a_cols _ a / k <> 0 ->
    process _ _ _ copy f L (Some a) None = (with_nodes _ L (One _ (fold_left g (map (fun i => Some (part _ k i a)) (seq 0 k)) s) k), inr (RPlain _ _ None)).
  Proof.
    intros f g L s k a Hf Hl Hk Hd. unfold process. cbn [flag_opt]. rewrite Hl. cbn [count]. rewrite train_data by assumption. cbn [split]. rewrite repeat_map_seq, combine_map2. cbn [loop].
    assert (forall l s, loop_one _ _ _ f s (map (fun i => (Some (part _ k i a), None)) l) = (fold_left g (map (fun i => Some (part _ k i a)) l) s, inr (map (fun _ => RPlain _ _ None) l))) as ->.
    { induction l as [|i l IH]; intros s0; [reflexivity|]. cbn [map loop_one fold_left]. rewrite Hf, IH. reflexivity. }
    unfold finish. assert (flat_map (res_m E O) (map (fun _ : nat => RPlain E O None) (seq 0 k)) = []) as -> by (induction (seq 0 k); [reflexivity|assumption]). cbn [combined].
    rewrite map_map. cbn [res_y]. unfold join_y. rewrite (last_map _ 0) by (destruct k; easy). cbn [flag_opt]. rewrite no_target; [reflexivity|]. apply Forall_forall. intros c Hc. apply in_map_iff in Hc. destruct Hc as (i & <- & _). exact I.
  Qed.
  Theorem C355_own : forall (f : call) g (L : layer) ss a, (forall s x, f s x None = (g s x, inr (RPlain _ _ None))) -> l_nodes _ L = Copies _ ss -> ss <> [] -> a_cols _ a / List.length ss <> 0 ->
    process _ _ _ copy f L (Some a) None = (with_nodes _ L (Copies _ (map (fun p => g (snd p) (Some (part _ (List.length ss) (fst p) a))) (List.combine (seq 0 (List.length ss)) ss))), inr (RPlain _ _ None)).
  Proof.
    intros f g L ss a Hf Hl Hk Hd. unfold process. cbn [flag_opt]. rewrite Hl. cbn [count]. assert (List.length ss <> 0) as Hn by (destruct ss; easy). rewrite train_data by assumption. cbn [split]. rewrite repeat_map_seq, combine_map2. cbn [loop].
    remember (List.length ss) as n eqn:En.
    assert (forall l ss, List.length ss = List.length l -> loop_copies _ _ _ f ss (map (fun i => (Some (part _ n i a), None)) l) = (map (fun p => g (snd p) (Some (part _ n (fst p) a))) (List.combine l ss), inr (map (fun _ => RPlain _ _ None) l))) as G.
    { induction l as [|i l IH]; intros [|s s0] Hs; try discriminate; [reflexivity|]. cbn [map loop_copies List.combine fst snd]. rewrite Hf, IH by (cbn in Hs; lia). reflexivity. }
    rewrite G by (rewrite seq_length; congruence).
    unfold finish. assert (flat_map (res_m E O) (map (fun _ : nat => RPlain E O None) (seq 0 n)) = []) as -> by (clear; induction (seq 0 n); [reflexivity|assumption]). cbn [combined].
    rewrite map_map. cbn [res_y]. unfold join_y. rewrite (last_map _ 0) by (destruct n; easy). cbn [flag_opt]. rewrite no_target; [reflexivity|]. apply Forall_forall. intros c Hc. apply in_map_iff in Hc. destruct Hc as (i & <- & _). exact I.
  Qed.

  (** a copy that raises: the copies before it have been trained, those after it have not *)
  Theorem C355_raising : forall (f : call) g (L : layer) s1 s s2 a s' e, let n := List.length (s1 ++ s :: s2) in
    (forall t x, In t s1 -> f t x None = (g t x, inr (RPlain _ _ None))) -> l_nodes _ L = Copies _ (s1 ++ s :: s2) -> a_cols _ a / n <> 0 ->
    f s (Some (part _ n (List.length s1) a)) None = (s', inl e) ->
    process _ _ _ copy f L (Some a) None = (with_nodes _ L (Copies _ (map (fun p => g (snd p) (Some (part _ n (fst p) a))) (List.combine (seq 0 (List.length s1)) s1) ++ s' :: s2)), inl e).
  Proof.
    intros f g L s1 s s2 a s' e n Hf Hl Hd He. unfold process. cbn [flag_opt]. rewrite Hl. cbn [count]. fold n. assert (n <> 0) as Hn by (unfold n; rewrite app_length; cbn; lia).
    rewrite train_data by assumption. cbn [split]. rewrite repeat_map_seq, combine_map2. cbn [loop].
    assert (exists k, seq 0 n = seq 0 (List.length s1) ++ List.length s1 :: seq (S (List.length s1)) k) as (k & ->).
    { exists (List.length s2). unfold n. rewrite app_length. cbn [List.length]. now rewrite seq_app. }
    enough (forall l s1, List.length s1 = List.length l -> (forall t x, In t s1 -> f t x None = (g t x, inr (RPlain _ _ None))) -> forall i r, f s (Some (part _ n i a)) None = (s', inl e) ->
      loop_copies _ _ _ f (s1 ++ s :: s2) (map (fun i => (Some (part _ n i a), None)) (l ++ i :: r)) = (map (fun p => g (snd p) (Some (part _ n (fst p) a))) (List.combine l s1) ++ s' :: s2, inl e)) as G.
    { rewrite G; [reflexivity|now rewrite seq_length|exact Hf|exact He]. }
    clearbody n. clear. induction l as [|j l IH]; intros [|t s1] Hs Hf i r He; try discriminate.
    - cbn [app map loop_copies]. rewrite He. reflexivity.
    - cbn [app map loop_copies List.combine fst snd]. rewrite Hf by (now left). rewrite (IH s1 ltac:(cbn in Hs; lia) (fun t x H => Hf t x (or_intror H)) i r He). reflexivity.
  Qed.

  (** ** the target returned by the layer is the last one given by its nodes *)
  Definition target_of (r : cres) : list ctarget := match r with RTriple _ _ _ _ t => [t] | _ => [] end.
  Theorem C352_target : forall (f : call) (L : layer) ss (r : St -> cres) x, l_nodes _ L = Copies _ ss -> ss <> [] ->
    (forall s x, In s ss -> f s x None = (s, inr (r s)) /\ (r s = RPlain _ _ None \/ exists t, r s = RTriple _ _ None None t)) ->
    process _ _ _ copy f L x None = (L, inr (match rev (flat_map target_of (map r ss)) with [] => RPlain _ _ None | t :: _ => RTriple _ _ None None t end)).
  Proof.
    intros f L ss r x Hl Hne Hf. unfold process. cbn [flag_opt]. rewrite Hl. cbn [count].
    assert (exists xs, data E (List.length ss) x = inr xs /\ List.length xs = List.length ss) as (xs & -> & Hxs).
    { unfold data. destruct x as [a|]; [|eexists; split; [reflexivity|apply repeat_length]]. destruct (Nat.eqb_spec (List.length ss) 0) as [H|_]; [destruct ss; easy|].
      destruct (_ =? 0); eexists; (split; [reflexivity|]); [apply repeat_length|now rewrite map_length, seq_length]. }
    cbn [split]. cbn [loop].
    assert (loop_copies _ _ _ f ss (List.combine xs (repeat None (List.length ss))) = (ss, inr (map r ss))) as ->.
    { assert (Hf' : forall s x, In s ss -> f s x None = (s, inr (r s))) by (intros s y Hs; apply (Hf s y Hs)). clear Hf Hl Hne. revert xs Hxs Hf'.
      induction ss as [|s ss IH]; intros [|y xs] Hxs Hf'; try discriminate; [reflexivity|]. cbn [List.length repeat List.combine loop_copies map]. rewrite Hf' by (now left).
      rewrite IH; [reflexivity|cbn in Hxs; lia|]. intros t z Ht. apply Hf'. now right. }
    assert (Hr : Forall (fun c => c = RPlain E O None \/ exists t, c = RTriple E O None None t) (map r ss)).
    { apply Forall_forall. intros c Hc. apply in_map_iff in Hc as (s & <- & Hs). exact (proj2 (Hf s None Hs)). }
    assert (EL : with_nodes _ L (Copies _ ss) = L) by (destruct L; cbn in *; now rewrite Hl). rewrite EL.
    assert (Hne' : map r ss <> []) by (destruct ss; easy). revert Hr Hne'. generalize (map r ss) as rs. clear. intros rs Hr Hne. unfold finish.
    assert (Forall (fun m => m = None) (flat_map (res_m E O) rs)) as Hm by (induction Hr as [|c rs [->|(t & ->)] _ IH]; cbn; [constructor|destruct rs; [constructor|apply IH; easy]|constructor; [reflexivity|destruct rs; [constructor|apply IH; easy]]]).
    assert (combined E O (flat_map (res_m E O) rs) = inr None) as ->.
    { destruct Hm as [|m1 l -> Hm]; [reflexivity|]. destruct l as [|m2 l]; [reflexivity|]. unfold combined. assert (last (None :: m2 :: l) None = None) as ->; [|reflexivity].
      revert Hm. generalize (m2 :: l) as l'. clear. intros l' H. induction H as [|m l -> H IH]; [reflexivity|]. cbn [last] in *. destruct l; [reflexivity|exact IH]. }
    assert (Forall (fun y => y = None) (map (res_y E O) rs)) as Hy by (clear Hm Hne; induction Hr as [|c rs [->|(t & ->)] _ IH]; cbn; constructor; auto).
    unfold join_y. assert (last (map (res_y E O) rs) None = None) as ->.
    { clear -Hy. induction Hy as [|y l -> H IH]; [reflexivity|]. cbn [last]. destruct l; [reflexivity|exact IH]. }
    cbn [flag_opt]. f_equal. f_equal.
    assert (fold_right (fun r t => res_t E O r t) None rs = hd_error (rev (flat_map target_of rs))) as ->.
    { clear -Hr. induction Hr as [|c rs [->|(t & ->)] _ IH]; [reflexivity|cbn; exact IH|]. cbn [fold_right res_t]. rewrite IH. cbn [flat_map target_of app rev]. destruct (rev (flat_map target_of rs)); reflexivity. }
    destruct (rev (flat_map target_of rs)); reflexivity.
  Qed.

  (** ** C356: the message of stop_training *)
  Theorem C356_copies : forall (f : call) g (L : layer) ss (m : cmsg), (forall s y, f s None (Some y) = (g s y, inr (RPlain _ _ None))) -> l_nodes _ L = Copies _ ss -> ss <> [] -> m <> [] -> no_flag L m ->
    stop _ _ _ copy f L (Some m) = (with_nodes _ L (Copies _ (map (fun p => g (snd p) (smsg (List.length ss) (fst p) m)) (List.combine (seq 0 (List.length ss)) ss))), inr (RPlain _ _ None)).
  Proof.
    intros f g L ss m Hf Hl Hk Nm Nf. unfold stop. rewrite no_flag_opt by exact Nf. rewrite Hl. assert (List.length ss <> 0) as Hn by (destruct ss; easy). remember (List.length ss) as n eqn:En.
    assert (split E O n (Some m) = map (fun i => Some (smsg n i m)) (seq 0 n)) as -> by (destruct m; easy). rewrite repeat_map_seq, combine_map2. cbn [loop].
    assert (forall l ss, List.length ss = List.length l -> loop_copies _ _ _ f ss (map (fun i => (None, Some (smsg n i m))) l) = (map (fun p => g (snd p) (smsg n (fst p) m)) (List.combine l ss), inr (map (fun _ => RPlain _ _ None) l))) as G.
    { induction l as [|i l IH]; intros [|s s0] Hs; try discriminate; [reflexivity|]. cbn [map loop_copies List.combine fst snd]. rewrite Hf, IH by (cbn in Hs; lia). reflexivity. }
    rewrite G by (rewrite seq_length; congruence).
    unfold finish. assert (flat_map (res_m E O) (map (fun _ : nat => RPlain E O None) (seq 0 n)) = []) as -> by (clear; induction (seq 0 n); [reflexivity|assumption]). cbn [combined].
    rewrite map_map. cbn [res_y]. unfold join_y. rewrite (last_map _ 0) by (destruct n; easy). cbn [flag_opt]. rewrite no_target; [reflexivity|]. apply Forall_forall. intros c Hc. apply in_map_iff in Hc. destruct Hc as (i & <- & _). exact I.
  Qed.
  Theorem C356_single : forall (f : call) (L : layer) s k m, l_nodes _ L = One _ s k -> no_flag L m -> (exists y, snd (f s None (Some m)) = inr (RPlain _ _ y)) ->
    stop _ _ _ copy f L (Some m) = (with_nodes _ L (One _ (fst (f s None (Some m))) k), snd (f s None (Some m))).
  Proof. intros f L s k m Hl Nf [y Hy]. unfold stop. rewrite no_flag_opt by exact Nf. rewrite Hl. destruct (f s None (Some m)) as [s' r]. cbn in *. now subst r. Qed.

  (** ** C357: copies or one instance *)
  Lemma join_keys_fst msgs first : forall l r, join_keys E O msgs first l = inr r -> map fst r = map fst l.
  Proof.
    induction l as [|[key v] l IH]; intros r H; cbn [join_keys] in H; [injection H as <-; reflexivity|]. destruct (look E O key [first]) as [e|os]; [discriminate|].
    match type of H with (match ?q with _ => _ end = _) => destruct q as [e|w]; [discriminate|] end. destruct (join_keys E O msgs first l) as [e|r'] eqn:Ej; [discriminate|]. injection H as <-. cbn. now rewrite (IH _ eq_refl).
  Qed.
  Lemma combined_fst msgs m' : combined E O msgs = inr (Some m') -> exists lm, In (Some lm) msgs /\ map fst m' = map fst lm.
  Proof.
    destruct msgs as [|m0 [|m1 msgs]]; cbn [combined]; intros H; [discriminate|injection H as ->; exists m'; split; [now left|reflexivity]|].
    destruct (last (m0 :: m1 :: msgs) None) as [lm|] eqn:El; [|discriminate]. destruct (join_keys E O (m0 :: m1 :: msgs) m0 lm) as [e|r] eqn:Ej; [discriminate|]. injection H as ->. exists lm. split; [|now apply join_keys_fst in Ej].
    rewrite <- El. destruct (exists_last (l := m0 :: m1 :: msgs) ltac:(easy)) as (A & z & ->). rewrite last_last. apply in_app_iff. right. now left.
  Qed.
  Lemma no_flag_fst (L : layer) (m m' : cmsg) : map fst m = map fst m' -> no_flag L m -> no_flag L m'.
  Proof.
    intros H [N1 N2]. split; [now rewrite <- H|]. clear N1. revert m' H. induction m as [|[k v] m IH]; intros [|[k' v'] m'] H; try discriminate; [reflexivity|]. cbn [map fst] in H. injection H as <- H.
    cbn [dget] in *. destruct (String.eqb "use_copies" k); [discriminate|now apply IH].
  Qed.
  Theorem C357_same : forall (f : call) (L : layer) s k x (m : option cmsg), l_nodes _ L = One _ s k -> (forall t x m, fst (f t x m) = t) -> (forall i x m, snd (f (copy i s) x m) = snd (f s x m)) ->
    (forall m1, m = Some m1 -> no_flag L m1) -> (forall x m r m1, snd (f s x m) = inr r -> In (Some m1) (res_m _ _ r) -> no_flag L m1) ->
    snd (process _ _ _ copy f (fst (set_copies _ copy true L)) x m) = snd (process _ _ _ copy f L x m).
  Proof.
    intros f L s k x m Hl Hs Hc Nm Nr. destruct (C354_copies L s k Hl) as (_ & Es & _ & Ec). rewrite Es. cbn [fst]. set (L' := with_nodes _ L (Copies _ (map (fun i => copy i s) (seq 0 k)))) in *.
    assert (forall M : cmsg, no_flag L M -> no_flag L' M) as Nl by (intros M; exact (fun H => H)).
    unfold process. assert (flag_opt E O St copy L m = (L, inr m)) as -> by (destruct m as [m|]; [|reflexivity]; rewrite no_flag_opt by (now apply Nm); reflexivity).
    assert (flag_opt E O St copy L' m = (L', inr m)) as -> by (destruct m as [m|]; [|reflexivity]; rewrite no_flag_opt by (apply Nl; now apply Nm); reflexivity).
    rewrite Ec, Hl. cbn [count]. destruct (data E k x) as [e|xs]; [reflexivity|]. cbn [l_nodes with_nodes loop]. change (l_nodes St L') with (Copies St (map (fun i => copy i s) (seq 0 k))). cbn [loop].
    assert (List.length (List.combine xs (split E O k m)) <= k) as Hlen.
    { rewrite combine_length. assert (List.length (split E O k m) = k); [|lia]. destruct m as [[|p m]|]; cbn [split]; rewrite ?repeat_length, ?map_length, ?seq_length; reflexivity. }
    set (l := List.combine xs (split E O k m)) in *. clearbody l.
    assert (forall l is, List.length l <= List.length is -> exists ss, loop_copies E O St f (map (fun i => copy i s) is) l = (ss, snd (loop_one E O St f s l)) /\ fst (loop_one E O St f s l) = s) as G.
    { clear - Hs Hc. induction l as [|[y q] l IH]; intros is Hi; [exists (map (fun i => copy i s) is); split; [destruct is; reflexivity|reflexivity]|]. destruct is as [|i is]; [cbn in Hi; lia|].
      destruct (IH is ltac:(cbn in Hi; lia)) as (ss & E1 & E2). cbn [map loop_copies loop_one]. specialize (Hc i y q). pose proof (Hs s y q) as H1. destruct (f (copy i s) y q) as [t r], (f s y q) as [t' r']. cbn [fst snd] in *. subst t' r'.
      destruct r as [e|r]; [eexists; split; reflexivity|]. rewrite E1. destruct (loop_one E O St f s l) as [t2 [e|rs]]; cbn [fst snd] in *; subst t2; eexists; split; reflexivity. }
    assert (forall rs, snd (loop_one E O St f s l) = inr rs -> forall r, In r rs -> exists y q, snd (f s y q) = inr r) as Gr.
    { clear - Hs. induction l as [|[y q] l IH]; intros rs H r Hr; [cbn in H; injection H as <-; easy|]. cbn [loop_one] in H. pose proof (Hs s y q) as H1. destruct (f s y q) as [t [e|r0]] eqn:Ef; [discriminate|]. cbn in H1. subst t.
      destruct (loop_one E O St f s l) as [t2 [e|rs2]]; [discriminate|]. cbn in H. injection H as <-. destruct Hr as [<-|Hr]; [exists y, q; now rewrite Ef|]. now apply (IH rs2 eq_refl). }
    destruct (G l (seq 0 k) ltac:(now rewrite seq_length)) as (ss & E1 & E2). rewrite E1. destruct (loop_one E O St f s l) as [t [e|rs]]; cbn [fst snd] in *; [reflexivity|]. subst t.
    unfold finish. destruct (combined E O (flat_map (res_m E O) rs)) as [e|mo] eqn:Ecm; [reflexivity|]. destruct (join_y E (map (res_y E O) rs)) as [e|y]; [reflexivity|].
    assert (forall M, mo = Some M -> no_flag L M) as Nmo.
    { intros M ->. destruct (combined_fst _ _ Ecm) as (lm & Hin & Hf). apply in_flat_map in Hin. destruct Hin as (r & Hr & Hin). destruct (Gr rs eq_refl r Hr) as (y0 & q & Hq). apply (no_flag_fst L lm M); [now symmetry|]. now apply (Nr y0 q r). }
    destruct mo as [M|]; [|reflexivity]. rewrite !no_flag_opt; [reflexivity| |]; now apply Nmo.
  Qed.

  (** ** C359: messages of the nodes are joined *)
  Lemma look_ok key : forall l vs, look E O key l = inr vs -> Forall2 (fun (m : option cmsg) v => exists d, m = Some d /\ dget key d = Some v) l vs.
  Proof.
    induction l as [|[m|] l IH]; intros vs H; cbn in H; [injection H as <-; constructor| |discriminate]. destruct (dget key m) as [v|] eqn:Ed; [|discriminate]. destruct (look E O key l) as [e|r]; [discriminate|]. injection H as <-.
    constructor; [now exists m|now apply IH].
  Qed.
  Lemma all_arrays_ok : forall vs l, all_arrays E O vs = Some l -> vs = map (VArr _ _) l.
  Proof. induction vs as [|[|b|o|a] vs IH]; intros l H; cbn in H; try discriminate; [now injection H as <-|]. destruct (all_arrays E O vs) as [r|]; [|discriminate]. injection H as <-. cbn. f_equal. now apply IH. Qed.
  Theorem C359_joined : forall m0 m1 (msgs : list (option cmsg)) lm m', last (m1 :: msgs) None = Some lm -> NoDup (map fst lm) -> combined _ _ (m0 :: m1 :: msgs) = inr (Some m') ->
    map fst m' = map fst lm /\ forall key v, dget key lm = Some v -> exists v0 d0, m0 = Some d0 /\ dget key d0 = Some v0 /\
      match v with
      | VArr _ _ a =>
          (exists b, v0 = VArr _ _ b /\ a_obj _ b = a_obj _ a) /\ dget key m' = Some v \/
          (forall b, v0 = VArr _ _ b -> a_obj _ b <> a_obj _ a) /\
          exists l y, Forall2 (fun (m : option cmsg) a => exists d, m = Some d /\ dget key d = Some (VArr _ _ a)) (m0 :: m1 :: msgs) l /\ dget key m' = Some (VArr _ _ y) /\
            a_cols _ y = fold_right (fun b s => a_cols _ b + s) 0 l /\ a_rows _ y = stack_rows _ (map (a_rows _) l)
      | _ => dget key m' = Some v
      end.
  Proof.
    intros m0 m1 msgs lm m' El Nd H. cbn [combined] in H. change (last (m0 :: m1 :: msgs) None) with (last (m1 :: msgs) None) in H. rewrite El in H.
    destruct (join_keys E O (m0 :: m1 :: msgs) m0 lm) as [e|r] eqn:Ej; [discriminate|]. injection H as ->. split; [now apply join_keys_fst in Ej|].
    clear El. set (ms := m0 :: m1 :: msgs) in *. clearbody ms. revert m' Ej. induction lm as [|[k w] lm IH]; intros m' Ej key v Hv; [discriminate|]. cbn [join_keys] in Ej. destruct (look E O k [m0]) as [e|os] eqn:Eo; [discriminate|].
    match type of Ej with (match ?q with _ => _ end = _) => destruct q as [e|w'] eqn:Ew; [discriminate|] end. destruct (join_keys E O ms m0 lm) as [e|r] eqn:Er; [discriminate|]. injection Ej as <-. cbn [dget] in *.
    cbn [map fst] in Nd. inversion_clear Nd as [|? ? Nk Nd'].
    destruct (String.eqb_spec key k) as [->|Hk].
    - injection Hv as ->. apply look_ok in Eo. inversion Eo as [|? v0 ? l0 (d0 & Hm0 & Hd0) Hr]; subst. inversion Hr; subst. exists v0, d0. split; [reflexivity|]. split; [exact Hd0|]. clear IH Er Hr.
      destruct v as [|b|o|a]; try (injection Ew as <-; reflexivity).
      destruct (match v0 with VArr _ _ b => same_obj E a b | _ => false end) eqn:Es.
      + left. destruct v0 as [|b|o|b]; try discriminate. cbv beta iota in Ew, Es. try rewrite Es in Ew. injection Ew as <-. split; [|reflexivity]. exists b. split; [reflexivity|]. unfold same_obj in Es. destruct (list_eq_dec Nat.eq_dec (a_obj E a) (a_obj E b)); congruence.
      + right. split.
        * intros b -> Hb. unfold same_obj in Es. destruct (list_eq_dec Nat.eq_dec (a_obj E a) (a_obj E b)); congruence.
        * assert (match look E O k ms with inl e => inl e | inr vs => match all_arrays E O vs with None => inl XValue | Some l => match hstack E (a_obj E a) l with inl e => inl e | inr b => inr (VArr E O b) end end end = inr w') as Ew' by (destruct v0; cbv beta iota in Ew, Es; try rewrite Es in Ew; exact Ew).
          destruct (look E O k ms) as [e|vs] eqn:Elk; [discriminate|]. destruct (all_arrays E O vs) as [l|] eqn:Ea; [|discriminate]. destruct (hstack E (a_obj E a) l) as [e|y] eqn:Eh; [discriminate|]. injection Ew' as <-.
          apply all_arrays_ok in Ea. subst vs. apply look_ok in Elk. exists l, y. split; [|split; [reflexivity|]].
          -- remember (map (VArr E O) l) as vs eqn:Ev. clear - Elk Ev. revert l Ev. induction Elk as [|m v ms vs (d & Hd1 & Hd2) _ IH]; intros [|a l] Ev; try discriminate; constructor; [|apply IH; now injection Ev]. injection Ev as -> _. now exists d.
          -- unfold hstack in Eh. destruct l as [|b l]; [discriminate|]. destruct (forallb _ l); [|discriminate]. injection Eh as <-. split; reflexivity.
    - destruct (IH Nd' r eq_refl key v Hv) as (v0 & d0 & H1 & H2 & H3). exists v0, d0. split; [exact H1|]. split; [exact H2|]. destruct (String.eqb_spec key k); [easy|]. exact H3.
  Qed.

  (** ** C358: inverse *)
  Variable nout : St -> nat.
  Variable inv : St -> list E -> list E.
  Lemma chunks_concat w : forall (l : list (list E)), Forall (fun c => List.length c = w) l -> chunks _ w (List.length l) (List.concat l) = l.
  Proof.
    intros l H. unfold chunks. assert (forall A : list (list E), Forall (fun c => List.length c = w) A -> map (fun i => firstn w (skipn (w * i) (List.concat (A ++ l)))) (seq (List.length A) (List.length l)) = l) as G.
    { induction H as [|c l Hc _ IH]; intros A HA; [reflexivity|]. cbn [List.length seq map]. f_equal.
      - rewrite concat_app. cbn [List.concat]. assert (List.length (List.concat A) = w * List.length A) as Hl.
        { clear - HA. induction HA as [|a A Ha _ IHA]; [cbn; lia|]. cbn. rewrite app_length, IHA, Ha. lia. }
        rewrite <- Hl, skipn_app, skipn_all, Nat.sub_diag. cbn [app skipn]. rewrite <- Hc, firstn_app, firstn_all, Nat.sub_diag. cbn. apply app_nil_r.
      - specialize (IH (A ++ [c])). rewrite app_length, Nat.add_1_r, <- app_assoc in IH. apply IH. apply Forall_app. split; [exact HA|]. constructor; [exact Hc|constructor]. }
    exact (G [] (Forall_nil _)).
  Qed.
  Theorem C358_inverse : forall (L : layer) s k rows obj, l_training _ L = false -> l_nodes _ L = One _ s k -> nout s <> 0 -> l_out _ L = Some (k * nout s) ->
    Forall (fun r => List.length r = k /\ Forall (fun c => List.length c = nout s) r) rows ->
    inverse E St nout inv L (mkA _ obj (k * nout s) (map (fun r => List.concat r) rows)) = (L, inr (map (fun r => flat_map (inv s) r) rows)).
  Proof.
    intros L s k rows obj Ht Hl Hn Ho Hr. unfold inverse. rewrite Ht, Hl, Ho. cbn [a_cols a_rows]. rewrite Nat.eqb_refl, Nat.mod_mul, Nat.div_mul by exact Hn. cbn [Nat.eqb].
    f_equal; [destruct L; cbn in *; now subst|]. f_equal. rewrite map_map. apply map_ext_in. intros r Hin. rewrite Forall_forall in Hr. destruct (Hr r Hin) as [H1 H2]. rewrite <- H1. now rewrite chunks_concat.
  Qed.
  (** what the nodes make out of the parts of the data is taken back *)
  Theorem C358_back : forall (L : layer) s k rows obj (ex : list E -> list E), l_training _ L = false -> l_nodes _ L = One _ s k -> nout s <> 0 -> l_out _ L = Some (k * nout s) ->
    (forall c, List.length (ex c) = nout s) -> (forall c, inv s (ex c) = c) -> Forall (fun r => List.length r = k) rows ->
    inverse E St nout inv L (mkA _ obj (k * nout s) (map (fun r => List.concat (map ex r)) rows)) = (L, inr (map (fun r => List.concat r) rows)).
  Proof.
    intros L s k rows obj ex Ht Hl Hn Ho Hx Hi Hr. replace (map (fun r => List.concat (map ex r)) rows) with (map (fun r => List.concat r) (map (map ex) rows)) by (rewrite map_map; reflexivity).
    rewrite C358_inverse with (s := s); try assumption.
    - f_equal. f_equal. rewrite map_map. apply map_ext. intros r. rewrite flat_map_concat_map, map_map. f_equal. erewrite map_ext; [apply map_id|exact Hi].
    - apply Forall_map. eapply Forall_impl; [|exact Hr]. cbn. intros r H. rewrite map_length. split; [exact H|]. apply Forall_map. apply Forall_forall. intros c _. apply Hx.
  Qed.
  (** copies: never; and after stop_training the dimension of the output is taken from the input, for good *)
  Theorem C358_never : forall (L : layer) y, (exists l, l_nodes _ L = Copies _ l) -> exists e L', inverse E St nout inv L y = (L', inl e).
  Proof. intros L y [l Hl]. unfold inverse. rewrite Hl. destruct (l_training _ L); [eauto|]. destruct (a_cols _ y =? _); eauto. Qed.
  Theorem C358_untouched : forall (L : layer) y, l_training _ L = false -> l_out _ L = None -> a_cols _ y <> l_in _ L ->
    exists L', inverse E St nout inv L y = (L', inl XNode) /\ l_out _ L' = Some (l_in _ L) /\ inverse E St nout inv L' y = (L', inl XNode).
  Proof. intros L y Ht Ho Hy. unfold inverse. rewrite Ht, Ho. rewrite (proj2 (Nat.eqb_neq _ _) Hy). eexists. split; [reflexivity|]. split; [reflexivity|]. cbn. now rewrite (proj2 (Nat.eqb_neq _ _) Hy). Qed.
  (** stop_training of the layer leaves output_dim as it is *)
  Lemma set_out b (L : layer) : l_out _ (fst (set_copies _ copy b L)) = l_out _ L.
  Proof. unfold set_copies. destruct b, (l_nodes _ L); reflexivity. Qed.
  Lemma flag_out (L : layer) m : l_out _ (fst (flag_opt E O _ copy L m)) = l_out _ L.
  Proof.
    destruct m as [m|]; [|reflexivity]. cbn [flag_opt]. unfold copy_flag. destruct (own_key _ _ _) as [e|o]; [reflexivity|].
    destruct (match o with Some f => (dget f m, ddel f m) | None => (dget "use_copies"%string m, m) end) as [v m'].
    destruct v as [[|b|x|x]|]; try reflexivity. pose proof (set_out b L) as H. destruct (set_copies St copy b L) as [L' [e|]]; exact H.
  Qed.
  Lemma finish_out (L : layer) rs : l_out _ (fst (finish E O _ copy L rs)) = l_out _ L.
  Proof.
    unfold finish. destruct (combined _ _ _) as [e|m]; [reflexivity|]. destruct (join_y _ _) as [e|y]; [reflexivity|]. pose proof (flag_out L m) as H. destruct (flag_opt E O St copy L m) as [L' [e|m']]; exact H.
  Qed.
  Theorem C358_stop : forall (f : call) (L : layer) m, l_out _ (fst (stop _ _ _ copy f L m)) = l_out _ L.
  Proof.
    intros f L m. unfold stop. pose proof (flag_out L m) as H. destruct (flag_opt E O St copy L m) as [L1 [e|m1]]; [exact H|]. cbn [fst] in H. rewrite <- H. clear H. destruct (l_nodes _ L1) as [s k|ss].
    - destruct (f s None m1) as [s' [e|[y|y m2|y m2 t]]]; try reflexivity.
      all: pose proof (flag_out (with_nodes St L1 (One St s' k)) m2) as H; destruct (flag_opt E O St copy (with_nodes St L1 (One St s' k)) m2) as [L' [e|m']]; exact H.
    - destruct (loop E O St f (Copies St ss) _) as [ns [e|rs]]; [reflexivity|]. exact (finish_out (with_nodes St L1 ns) rs).
  Qed.
End Props.

(** ** Concrete layers *)
Notation "'carr'" := (arr nat).
(** a node with one variable; the state counts the calls *)
Definition one_col (s : nat) (x : option carr) (m : option (cmsg nat unit)) : nat * (cexn + cres nat unit) :=
  match x with Some a => if a_cols _ a =? 1 then (S s, inr (match m with None => RPlain _ _ x | Some _ => RPair _ _ x m end)) else (s, inl XNode) | None => (s, inl XType) end.
Definition two : layer nat := mkL _ None (One _ 0 2) false 2 (Some 2).
Theorem C353_refuted : exists (a b : carr) r, a_cols _ a = 3 /\ a_cols _ b = 3 /\ wfa a /\ wfa b /\ a <> b /\
  process _ _ _ (fun _ s => s) one_col two (Some a) None = r /\ process _ _ _ (fun _ s => s) one_col two (Some b) None = r /\ exists y, snd r = inr (RPlain _ _ (Some y)).
Proof.
  exists (mkA _ [0] 3 [[1; 2; 3]]), (mkA _ [0] 3 [[1; 2; 4]]). eexists. split; [reflexivity|]. split; [reflexivity|]. split; [repeat constructor|]. split; [repeat constructor|]. split; [discriminate|].
  split; [reflexivity|]. split; [reflexivity|]. eexists. reflexivity.
Qed.
(** less columns than nodes: the data do not reach the nodes *)
Definition asks (s : nat) (x : option carr) (m : option (cmsg nat unit)) : nat * (cexn + cres nat unit) := (match x with None => s | Some _ => S s end, inr (RPair _ _ x m)).
Theorem C353_refuted_none : exists (a : carr) m, a_cols _ a = 1 /\ wfa a /\ process _ _ _ (fun _ s => s) asks two (Some a) (Some m) = (two, inr (RPair _ _ None (Some m))).
Proof. exists (mkA _ [0] 1 [[1]]), [("k"%string, VObj _ _ tt)]. split; [reflexivity|]. split; [repeat constructor|reflexivity]. Qed.
Example C352_ex : let a := mkA _ [0] 2 [[1; 2]; [3; 4]] in
  process _ _ _ (fun _ s => s) one_col two (Some a) (Some [("k"%string, VArr _ _ (mkA _ [5] 4 [[1; 2; 3; 4]])); ("o"%string, VArr _ _ (mkA _ [6] 3 [[1; 2; 3]]))])
  = (with_nodes _ two (One _ 2 2), inr (RPair _ _ (Some (mkA _ [1; 0] 2 [[1; 2]; [3; 4]])) (Some [("k"%string, VArr _ _ (mkA _ [1; 5] 4 [[1; 2; 3; 4]])); ("o"%string, VArr _ _ (mkA _ [6] 3 [[1; 2; 3]]))]))).
Proof. reflexivity. Qed.

(** C354: there is no way back *)
Theorem C354_refuted : exists (f : call nat unit nat) L x, (forall s x m, fst (f s x m) = s) /\
  let L' := fst (process _ _ _ (fun _ s => s) f L (Some x) (Some [("use_copies"%string, VBool _ _ true)])) in
  l_nodes _ L' = Copies _ [0; 0] /\ (exists r, snd (process _ _ _ (fun _ s => s) f L (Some x) (Some [("use_copies"%string, VBool _ _ true)])) = inr r) /\
  process _ _ _ (fun _ s => s) f L' (Some x) (Some [("use_copies"%string, VBool _ _ false)]) = (L', inl XAttr).
Proof. exists (fun s x m => (s, inr (RPair _ _ x m))), two, (mkA _ [0] 2 [[1; 2]]). split; [reflexivity|]. cbv zeta. split; [reflexivity|]. split; [eexists; reflexivity|reflexivity]. Qed.

(** C355 *)
Definition adds (s : nat) (x : option carr) (m : option (cmsg nat unit)) : nat * (cexn + cres nat unit) :=
  (match x with Some a => fold_left (fun s r => fold_left Nat.add r s) (a_rows _ a) s | None => s end, inr (RPlain _ _ None)).
Example C355_ex : let a := mkA _ [0] 2 [[1; 10]; [2; 20]] in
  fst (process _ _ _ (fun _ s => s) adds two (Some a) None) = with_nodes _ two (One _ 33 2) /\
  fst (process _ _ _ (fun _ s => s) adds (with_nodes _ two (Copies _ [0; 0])) (Some a) None) = with_nodes _ two (Copies _ [3; 30]).
Proof. split; reflexivity. Qed.

(** C356: one instance gets the array for all nodes, copies get their part *)
Definition width (s : nat) (x : option carr) (m : option (cmsg nat unit)) : nat * (cexn + cres nat unit) :=
  (match m with Some m => match dget "a"%string m with Some (VArr _ _ a) => a_cols _ a | _ => s end | None => s end, inr (RPlain _ _ None)).
Theorem C356_refuted : exists (f : call nat unit nat) L m, fst (stop _ _ _ (fun _ s => s) f L (Some m)) = with_nodes _ L (One _ 2 2) /\
  fst (stop _ _ _ (fun _ s => s) f (fst (set_copies _ (fun _ s => s) true L)) (Some m)) = with_nodes _ L (Copies _ [1; 1]) /\
  fst (process _ _ _ (fun _ s => s) f L None (Some m)) = with_nodes _ L (One _ 1 2).
Proof. exists width, two, [("a"%string, VArr _ _ (mkA _ [0] 2 [[1; 2]]))]. repeat split. Qed.

(** C357: the node gives its array in the message *)
Definition own_array (s : list nat) (x : option carr) (m : option (cmsg nat unit)) : list nat * (cexn + cres nat unit) := (s, inr (RPair _ _ x (Some [("w"%string, VArr _ _ (mkA _ s 1 [[5]]))]))).
Theorem C357_refuted : exists (f : call nat unit (list nat)) L x a b, let cp i (s : list nat) := i :: s in (forall t x m, fst (f t x m) = t) /\
  (exists y, snd (process _ _ _ cp f L (Some x) None) = inr (RPair _ _ y (Some [("w"%string, VArr _ _ a)]))) /\
  (exists y, snd (process _ _ _ cp f (fst (set_copies _ cp true L)) (Some x) None) = inr (RPair _ _ y (Some [("w"%string, VArr _ _ b)]))) /\ a_cols _ a = 1 /\ a_cols _ b = 2.
Proof.
  exists own_array, (mkL _ None (One _ [7] 2) false 2 None), (mkA _ [0] 2 [[1; 2]]), (mkA _ [7] 1 [[5]]), (mkA _ [1; 7] 2 [[5; 5]]). cbv zeta. split; [reflexivity|]. split; [eexists; reflexivity|]. split; [eexists; reflexivity|]. split; reflexivity.
Qed.

(** C358 *)
Theorem C358_refuted : exists (L : layer nat) y, (exists r, inverse nat _ (fun _ => 1) (fun _ r => r) L y = (L, inr r)) /\
  inverse nat _ (fun _ => 1) (fun _ r => r) (fst (set_copies _ (fun _ s => s) true L)) y = (fst (set_copies _ (fun _ s => s) true L), inl XAttr).
Proof. exists two, (mkA _ [0] 2 [[1; 2]]). split; [eexists; reflexivity|reflexivity]. Qed.
(** nodes with two inputs and one output: the right number of outputs is refused, before and after a second attempt *)
Theorem C358_refuted_trained : exists (L : layer nat) y, l_out _ L = None /\ a_cols _ y = 2 * 1 /\ exists L', inverse nat _ (fun _ => 1) (fun _ r => r ++ r) L y = (L', inl XNode) /\
  inverse nat _ (fun _ => 1) (fun _ r => r ++ r) L' y = (L', inl XNode) /\ exists r, inverse nat _ (fun _ => 1) (fun _ r => r ++ r) (mkL _ None (l_nodes _ L) false (l_in _ L) (Some 2)) y = r /\ snd r = inr [[1; 1; 2; 2]].
Proof. exists (mkL _ None (One _ 0 2) false 4 None), (mkA _ [0] 2 [[1; 2]]). split; [reflexivity|]. split; [reflexivity|]. eexists. split; [reflexivity|]. split; [reflexivity|]. eexists. split; reflexivity. Qed.
Example C359_ex : combined nat unit [Some [("a"%string, VArr _ _ (mkA _ [0] 1 [[1]])); ("b"%string, VObj _ _ tt)]; Some [("a"%string, VArr _ _ (mkA _ [1] 2 [[2; 3]])); ("b"%string, VObj _ _ tt)]]
  = inr (Some [("a"%string, VArr _ _ (mkA _ [1] 3 [[1; 2; 3]])); ("b"%string, VObj _ _ tt)]).
Proof. reflexivity. Qed.
