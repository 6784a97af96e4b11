(** Model of KMeansClassifier, mdp/nodes/classifier_nodes.py:360-452, in exact arithmetic: comparing norms is comparing squared distances.
    Points are lists of d values.  The choice of random.sample is a parameter. *)
From Coq Require Import List Arith QArith Qcanon Bool.
From Verif Require Import CovModel MiscModel ClassModel.
Import ListNotations.
Local Open Scope nat_scope.

(** _nearest_centroid_idx :439-441; argmin of an empty array raises ValueError, here 0 (the number of clusters is positive) *)
Definition nearest (cs : list vec) (x : vec) : nat := match argmin (map (fun c => sqdist x c) cs) with Some i => i | None => 0 end.
(** the loop over the data :424-429: (sum of positions, count) per cluster *)
Definition km_accumulate (d : nat) (cs data : list vec) : list (vec * nat) :=
  fold_left (fun acc x => let i := nearest cs x in let (s, n) := nth i acc (repeat 0%Qc d, 0) in set i (vadd s x, S n) acc) data (repeat (repeat 0%Qc d, 0) (length cs)).
(** new_centroids :431-433 *)
Definition km_step (d : nat) (data cs : list vec) : list vec :=
  let acc := km_accumulate d cs data in
  map (fun i => let (s, n) := nth i acc (repeat 0%Qc d, 0) in if 0 <? n then map (fun a => (a / qn n)%Qc) s else nth i cs []) (seq 0 (length cs)).
Definition centroids_eqb (a b : list vec) : bool := if list_eq_dec (list_eq_dec Qc_eq_dec) a b then true else false.
(** the loop :420-437; None: max_iter reached, _centroids is still None *)
Fixpoint km_loop (fuel d : nat) (data cs : list vec) : option (list vec) :=
  match fuel with
  | O => None
  | S fuel => let new := km_step d data cs in if centroids_eqb new cs then Some cs else km_loop fuel d data new
  end.
(** _stop_training :406-437 with centr_idx = idx *)
Definition km_stop (max_iter d : nat) (data : list vec) (idx : list nat) : option (list vec) := km_loop max_iter d data (map (fun i => nth i data []) idx).
(** _label :443-452; None: TypeError as None is not iterable *)
Definition km_label (centroids : option (list vec)) (x : list vec) : option (list nat) := option_map (fun cs => map (nearest cs) x) centroids.
