(** Model of SFANode.get_eta_values, mdp/nodes/sfa_nodes.py:344-374, over the reals; SFANode as in SFAModel.v. The type of the result (_refcast) is not modelled. *)
From Coq Require Import List Arith ZArith Reals.
From Verif Require Import OField LinAlg PCAModel SymeigModel SFAModel.
Import ListNotations.

Section Eta.
  Notation vec := (vec (K := R_of)). Notation mtx := (mtx (K := R_of)). Notation sfa := (sfa (K := R_of)).
  Variables (dim : nat) (solver : method -> option (Z * Z) -> nat -> mtx -> mtx -> solres R_of vec).
  (** :372-374 *)
  Definition eta_of (t : R) (s : sfa) : list R := map (fun d : R => t / (2 * PI) * sqrt d)%R (s_d s).
  Definition get_eta_values (s : sfa) (t : R) : sfa * sres (list R) :=
    if s_training s then match sfa_stop dim solver s false with (s, SErr e) => (s, SErr e) | (s, SOk _) => (s, SOk (eta_of t s)) end else (s, SOk (eta_of t s)).
End Eta.
