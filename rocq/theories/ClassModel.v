(** Model of mdp/classifier_node.py (rank, ClassifierCumulator) and of SimpleMarkovClassifier, NearestMeanClassifier and KNNClassifier in
    mdp/nodes/classifier_nodes.py.

    Labels are of any type with decidable equality.  Numbers are exact rationals; a data point is the list of its values.  A dict is
    the list of its items in order of insertion.  The order in which python iterates over a set of labels is a parameter. *)
From Coq Require Import List Arith ZArith QArith Qcanon Bool.
From Verif Require Import CovModel.
Import ListNotations.
Local Open Scope nat_scope.

Definition vec := list Qc.
Definition qleb (a b : Qc) : bool := if Qclt_le_dec b a then false else true.

(** ** ClassifierNode.rank :60-78 for one data point; [p] holds the items of its dict.  sorted(..., reverse=True) is stable *)
Section Rank.
  Context {L : Type}.
  Fixpoint insert_desc (a : L * Qc) (l : list (L * Qc)) : list (L * Qc) :=
    match l with [] => [a] | b :: r => if qleb (snd b) (snd a) then a :: l else b :: insert_desc a r end.
  Definition sorted_desc (l : list (L * Qc)) : list (L * Qc) := fold_right insert_desc [] l.
  Definition rank (threshold : option Qc) (p : list (L * Qc)) : list L :=
    map fst (sorted_desc (match threshold with None => p | Some t => filter (fun kv => negb (qleb (snd kv) t)) p end)).
End Rank.

(** ** the argument labels of train: a single label, a list or tuple, or an array *)
Inductive labels_arg (L : Type) := Single (l : L) | Listed (ls : list L) | Arrayed (ls : list L).
Arguments Single {L}. Arguments Listed {L}. Arguments Arrayed {L}.

(** ** ClassifierCumulator :91-133 *)
Section Cumulator.
  Context {L : Type}.
  Record ccum := mkCC { cc_tlen : nat; cc_data : list Qc; cc_labels : list L }.
  Inductive cres := COk | CTrainingExc | CAttrError | CValueError.
  (** _check_train_args :107-113 and _train :115-126: after the branches labels is an array only if an array was given; list has no
      method ravel *)
  Definition ccum_train (s : ccum) (x : list vec) (labels : labels_arg L) : ccum * cres :=
    let mismatch ls := negb (length ls =? length x) in
    match labels with
    | Single _ => (mkCC (cc_tlen s + length x) (cc_data s ++ concat x) (cc_labels s), CAttrError)
    | Listed ls => if mismatch ls then (s, CTrainingExc) else (mkCC (cc_tlen s + length x) (cc_data s ++ concat x) (cc_labels s), CAttrError)
    | Arrayed ls => if mismatch ls then (s, CTrainingExc) else (mkCC (cc_tlen s + length x) (cc_data s ++ concat x) (cc_labels s ++ ls), COk)
    end.
  (** _stop_training :128-133: the rows of the data array and the labels; ValueError if a shape does not fit *)
  Fixpoint rows_of (n d : nat) (l : list Qc) : list vec := match n with O => [] | S n => firstn d l :: rows_of n d (skipn d l) end.
  Definition ccum_stop (d : nat) (s : ccum) : option (list vec * list L) :=
    if (length (cc_data s) =? cc_tlen s * d) && (length (cc_labels s) =? cc_tlen s) then Some (rows_of (cc_tlen s) d (cc_data s), cc_labels s) else None.
End Cumulator.

(** ** dicts *)
Section Dict.
  Context {K V : Type} (eqK : forall a b : K, {a = b} + {a <> b}).
  Fixpoint dget (k : K) (d : list (K * V)) : option V := match d with [] => None | (k', v) :: d => if eqK k k' then Some v else dget k d end.
  (** d[k] = f(d[k]) if k is in d, else d[k] = f(None) *)
  Fixpoint dupd (f : option V -> V) (k : K) (d : list (K * V)) : list (K * V) :=
    match d with [] => [(k, f None)] | (k', v) :: d => if eqK k k' then (k', f (Some v)) :: d else (k', v) :: dupd f k d end.
End Dict.

(** ** SimpleMarkovClassifier :118-239 *)
Section Markov.
  Context {F L : Type} (eqF : forall a b : F, {a = b} + {a <> b}) (eqL : forall a b : L, {a = b} + {a <> b}).
  Definition eqFL (a b : F * L) : {a = b} + {a <> b}.
  Proof. decide equality. Defined.
  Record markov := mkM { m_total : nat; m_features : list (F * nat); m_labels : list (L * nat); m_conns : list ((F * L) * nat) }.
  Definition markov_init : markov := mkM 0 [] [] [].
  Definition incr (n : option nat) : nat := match n with Some n => S n | None => 1 end.
  (** _learn :186-205 *)
  Definition learn (s : markov) (xl : F * L) : markov :=
    mkM (S (m_total s)) (dupd eqF incr (fst xl) (m_features s)) (dupd eqL incr (snd xl) (m_labels s)) (dupd eqFL incr xl (m_conns s)).
  (** izip_stretched(x, labels), utils/routines.py:396-426: a label that is itself iterable (a string) is iterated.  [iter] gives the
      elements of such a label *)
  Definition zip_stretched (iter : L -> option (list L)) (x : list F) (labels : labels_arg L) : list (F * L) :=
    match labels with
    | Single l => match iter l with Some ls => combine x ls | None => map (fun f => (f, l)) x end
    | Listed ls | Arrayed ls => combine x ls
    end.
  (** train; None: TrainingException of _check_train_args :162-170 *)
  Definition markov_train (iter : L -> option (list L)) (s : markov) (x : list F) (labels : labels_arg L) : option markov :=
    match labels with
    | Single _ => Some (fold_left learn (zip_stretched iter x labels) s)
    | Listed ls | Arrayed ls => if length ls =? length x then Some (fold_left learn (zip_stretched iter x labels) s) else None
    end.
  Definition geti (n : option nat) : nat := match n with Some n => n | None => 0 end.
  (** _prob_one :209-239 *)
  Definition prob_one (s : markov) (f : F) : list (L * Qc) :=
    match dget eqF f (m_features s) with
    | None => []
    | Some nf =>
      map (fun e : L * nat =>
        let l := fst e in
        let n_conn := geti (dget eqFL (f, l) (m_conns s)) in
        let n_label := geti (dget eqL l (m_labels s)) in
        let p_feature_given_label := (qn n_conn / qn n_label)%Qc in
        let p_label := (qn n_label / qn (m_total s))%Qc in
        let p_feature := (qn nf / qn (m_total s))%Qc in
        (l, (p_feature_given_label * p_label / p_feature)%Qc)) (m_labels s)
    end.
End Markov.

(** ** training by label: numx.compress for every label of the set :652-667, 755-770 *)
Section ByLabel.
  Context {L : Type} (eqL : forall a b : L, {a = b} + {a <> b}) (enum : list L -> list L).
  Definition compress (l : L) (ls : list L) (x : list vec) : list vec := map snd (filter (fun p : L * vec => if eqL (fst p) l then true else false) (combine ls x)).
  (** the calls (label, data) made by _train; None: TrainingException *)
  Definition label_groups (x : list vec) (labels : labels_arg L) : option (list (L * list vec)) :=
    match labels with
    | Single l => Some [(l, x)]
    | Listed ls | Arrayed ls => if length ls =? length x then Some (map (fun l => (l, compress l ls x)) (enum ls)) else None
    end.

  (** *** NearestMeanClassifier: the dicts label_means and n_label_samples always have the same keys *)
  Definition vadd (a b : vec) : vec := map (fun p => (fst p + snd p)%Qc) (combine a b).
  Definition vsum (d : nat) (x : list vec) : vec := fold_right vadd (repeat 0%Qc d) x.
  Definition nm_state := list (L * (vec * nat)).
  (** _update_mean :669-681 *)
  Definition update_mean (d : nat) (s : nm_state) (g : L * list vec) : nm_state :=
    dupd eqL (fun o => let '(m, n) := match o with Some v => v | None => (repeat 0%Qc d, 0) end in (vadd m (vsum d (snd g)), n + length (snd g))) (fst g) s.
  Definition nm_train (d : nat) (s : nm_state) (x : list vec) (labels : labels_arg L) : option nm_state :=
    option_map (fun gs => fold_left (update_mean d) gs s) (label_groups x labels).
  (** _stop_training :690-697: ordered_labels with ordered_means *)
  Definition nm_stop (s : nm_state) : list (L * vec) := map (fun e : L * (vec * nat) => (fst e, map (fun a => (a / qn (snd (snd e)))%Qc) (fst (snd e)))) s.
  Definition sqdist (a b : vec) : Qc := qsum (map (fun p => ((fst p - snd p) * (fst p - snd p))%Qc) (combine a b)).
  (** argmin: index of the first minimum; None for an empty array (ValueError) *)
  Fixpoint argmin_from (best : nat) (v : Qc) (i : nat) (l : list Qc) : nat :=
    match l with [] => best | a :: l => if qleb v a then argmin_from best v (S i) l else argmin_from i a (S i) l end.
  Definition argmin (l : list Qc) : option nat := match l with [] => None | a :: l => Some (argmin_from 0 a 1 l) end.
  (** _label :699-713 *)
  Definition nm_label (m : list (L * vec)) (x : vec) : option L :=
    match argmin (map (fun e => sqdist x (snd e)) m) with Some i => option_map fst (nth_error m i) | None => None end.

  (** *** KNNClassifier *)
  Definition knn_state := list (L * list (list vec)).
  (** _add_samples :772-776 *)
  Definition add_samples (s : knn_state) (g : L * list vec) : knn_state :=
    dupd eqL (fun o => match o with Some c => c | None => [] end ++ [snd g]) (fst g) s.
  Definition knn_train (s : knn_state) (x : list vec) (labels : labels_arg L) : option knn_state := option_map (fun gs => fold_left add_samples gs s) (label_groups x labels).
  (** _stop_training :785-798: samples, sample_label_indices, ordered_labels *)
  Record knn := mkK { k_samples : list vec; k_indices : list nat; k_labels : list L }.
  Fixpoint indices_from (i : nat) (s : knn_state) : list nat := match s with [] => [] | e :: s => repeat i (length (concat (snd e))) ++ indices_from (S i) s end.
  Definition knn_stop (s : knn_state) : knn := mkK (concat (map (fun e => concat (snd e)) s)) (indices_from 0 s) (map fst s).
  Definition dot (a b : vec) : Qc := qsum (map (fun p => (fst p * snd p)%Qc) (combine a b)).
  (** _label :800-816 for one point; [inds] is the result of argsort *)
  Definition knn_dists (m : knn) (x : vec) : list Qc := map (fun s => (dot x x + dot s s - (1 + 1) * dot x s)%Qc) (k_samples m).
  Definition bincount (l : list nat) : list nat := map (count_occ Nat.eq_dec l) (seq 0 (match l with [] => 0 | _ => S (fold_right Nat.max 0 l) end)).
  Fixpoint argmax_from (best v i : nat) (l : list nat) : nat := match l with [] => best | a :: l => if a <=? v then argmax_from best v (S i) l else argmax_from i a (S i) l end.
  Definition argmax (l : list nat) : option nat := match l with [] => None | a :: l => Some (argmax_from 0 a 1 l) end.
  Definition knn_label (k : nat) (m : knn) (inds : list nat) : option L :=
    match argmax (bincount (map (fun i => nth i (k_indices m) 0) (firstn k inds))) with Some i => nth_error (k_labels m) i | None => None end.
End ByLabel.
