(** Model of GaussianClassifier, mdp/nodes/classifier_nodes.py:455-615, in exact arithmetic.

    Determinants, inverses and the gaussian density are not computed: _sqrt_def_covs and inv_covs hold the covariance matrices they belong to,
    [singular] tells whether the determinant is 0, and [density] is the value of the density with given covariance and mean at a point.
    [sorted] is list.sort for the labels. *)
From Coq Require Import List Arith QArith Qcanon Bool.
From Verif Require Import CovModel ClassModel.
Import ListNotations.
Open Scope Qc_scope.

Section Gauss.
  Context {L : Type} (eqL : forall a b : L, {a = b} + {a <> b}) (enum : list L -> list L) (sorted : list L -> list L) (singular : mat -> bool) (density : mat -> row -> vec -> Qc).
  Record gauss := mkG { g_objs : list (L * cov); g_dets : list mat; g_invs : list mat; g_means : list row; g_p : list Qc; g_labels : list L }.
  Definition gauss_init : gauss := mkG [] [] [] [] [] [].
  Definition to_row (v : vec) : row := fun i => nth i v 0.
  (** _update_covs :506-509 *)
  Definition update_covs (objs : list (L * cov)) (g : L * list vec) : list (L * cov) :=
    dupd eqL (fun o => cov_update (match o with Some c => c | None => cov_init end) (map to_row (snd g))) (fst g) objs.
  (** _train :511-527 *)
  Definition gauss_train (s : gauss) (x : list vec) (labels : labels_arg L) : option gauss :=
    option_map (fun gs => mkG (fold_left update_covs gs (g_objs s)) (g_dets s) (g_invs s) (g_means s) (g_p s) (g_labels s)) (label_groups eqL enum x labels).
  (** the loop of _stop_training :533-544; the number is nitems; false: an exception (NodeException, or TypeError of fix without data) *)
  Fixpoint stop_loop (ls : list L) (s : gauss) (nitems : nat) : gauss * nat * bool :=
    match ls with
    | [] => (s, nitems, true)
    | l :: ls =>
      match dget eqL l (g_objs s) with
      | None => (s, nitems, false)
      | Some c =>
        match cov_fix false true c with
        | (_, None) => (s, nitems, false)
        | (c, Some (m, a, p)) =>
          let objs := dupd eqL (fun _ => c) l (g_objs s) in
          let s := mkG objs (g_dets s ++ [m]) (g_invs s) (g_means s) (g_p s) (g_labels s) in
          if singular m then (s, nitems + p, false)%nat
          else stop_loop ls (mkG objs (g_dets s) (g_invs s ++ [m]) (g_means s ++ [a]) (g_p s ++ [qn p]) (g_labels s)) (nitems + p)%nat
        end
      end
    end.
  (** _stop_training :529-548 *)
  Definition gauss_stop (s : gauss) : gauss * bool :=
    let labels := sorted (map fst (g_objs s)) in
    let '(s, nitems, ok) := stop_loop labels (mkG (g_objs s) (g_dets s) (g_invs s) (g_means s) (g_p s) labels) 0 in
    if ok then (mkG [] (g_dets s) (g_invs s) (g_means s) (map (fun p => p / qn nitems) (g_p s)) (g_labels s), true) else (s, false).
  (** class_probabilities :575-596 for one point; _gaussian_prob :550-573 uses entry i of the lists *)
  Definition class_probabilities (s : gauss) (x : vec) : list Qc :=
    let tmp := map (fun i => density (nth i (g_invs s) zero_mat) (nth i (g_means s) zero_row) x * nth i (g_p s) 0) (seq 0 (length (g_labels s))) in
    map (fun a => a / qsum tmp) tmp.
  (** _prob :598-602, _label :604-615 *)
  Definition gauss_prob (s : gauss) (x : vec) : list (L * Qc) := combine (g_labels s) (class_probabilities s x).
  Definition qargmax (l : list Qc) : option nat := argmin (map (fun a => - a) l).
  Definition gauss_label (s : gauss) (x : vec) : option L := match qargmax (class_probabilities s x) with Some i => nth_error (g_labels s) i | None => None end.
End Gauss.
