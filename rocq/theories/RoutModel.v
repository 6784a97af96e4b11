(** Model of functions of mdp/utils/routines.py: comb, cov_maxima, orthogonal_permutations (with itertools.product), izip_stretched,
    weighted_choice, bool_to_sign, sign_to_bool.  Numbers are exact: integers Z for comb, rationals Qc otherwise. *)
From Coq Require Import List Arith ZArith QArith Qcanon Bool.
Import ListNotations.

(** comb, routines.py:259-267: range(N, N-k, -1) and range(1, k+1); // is floor division, as Z.div *)
Definition comb (N k : Z) : Z :=
  let n := Z.to_nat k in
  let ret := fold_left (fun ret i => ret * (N - Z.of_nat i))%Z (seq 0 n) 1%Z in
  fold_left (fun ret i => ret / (Z.of_nat i + 1))%Z (seq 0 n) ret.

(** cov_maxima :224-238 on a square matrix given by its rows.  [argmax]: position of the first largest entry of the flattened array *)
Definition qabs (x : Qc) : Qc := if Qclt_le_dec x 0 then (- x)%Qc else x.
Fixpoint argmax_from (best : Qc) (besti i : nat) (l : list Qc) : nat :=
  match l with [] => besti | a :: r => if Qclt_le_dec best a then argmax_from a i (S i) r else argmax_from best besti (S i) r end.
Definition argmax (l : list Qc) : nat := match l with [] => 0 | a :: r => argmax_from a 0 1 r end.
(** l[arange(dim) != k] *)
Fixpoint drop {A} (k : nat) (l : list A) : list A := match l with [] => [] | a :: r => match k with O => r | S k => a :: drop k r end end.
(** [fuel] is the recursion depth; dim = number of rows suffices *)
Fixpoint cov_maxima_n (fuel : nat) (m : list (list Qc)) : list Qc :=
  match fuel with
  | O => []
  | S fuel =>
      let dim := length m in
      if (1 <=? dim)%nat then
        let cov := map (map qabs) m in
        let k := argmax (concat cov) in
        let r := (k / dim)%nat in let c := (k mod dim)%nat in
        nth c (nth r cov []) 0%Qc :: cov_maxima_n fuel (map (drop c) (drop r cov))
      else []
  end.
Definition cov_maxima (m : list (list Qc)) : list Qc := cov_maxima_n (length m) m.

(** itertools.product *)
Fixpoint product {A} (pools : list (list A)) : list (list A) :=
  match pools with [] => [[]] | p :: r => flat_map (fun a => map (cons a) (product r)) p end.
(** orthogonal_permutations :359-386; a dict is the list of its items (distinct keys); dict(i) of pairs with distinct keys keeps them *)
Definition orthogonal_permutations {K V} (d : list (K * list V)) : list (list (K * V)) :=
  product (map (fun item => map (fun arg => (fst item, arg)) (snd item)) d).

(** izip_stretched :396-426.  An argument is iterable or not; iterators are given by the elements still to come *)
Inductive arg (A : Type) := Iter (l : list A) | Val (a : A).
Arguments Iter {A}. Arguments Val {A}.
(** next(it) for all iterators; None: StopIteration *)
Fixpoint next_all {A} (its : list (arg A)) : option (list A * list (arg A)) :=
  match its with
  | [] => Some ([], [])
  | Iter [] :: _ => None
  | Iter (a :: l) :: r => match next_all r with Some (t, r') => Some (a :: t, Iter l :: r') | None => None end
  | Val a :: r => match next_all r with Some (t, r') => Some (a :: t, Val a :: r') | None => None end
  end.
(** the tuples of at most [fuel] calls of next, and whether the generator is exhausted *)
Fixpoint izip {A} (fuel : nat) (its : list (arg A)) : list (list A) * bool :=
  match its with
  | [] => ([], true)
  | _ => match fuel with
         | O => ([], false)
         | S fuel => match next_all its with None => ([], true) | Some (t, its') => let (l, e) := izip fuel its' in (t :: l, e) end
         end
  end.

(** weighted_choice :429-455; a_dict: items; [r] is random.random() *)
Local Open Scope Qc_scope.
Fixpoint choose {K} (d : list (K * Qc)) (total r : Qc) : option K :=
  match d with
  | [] => None
  | (k, v) :: d => let total := total + v in if Qclt_le_dec r total then Some k else choose d total r
  end.
Definition sumvals {K} (d : list (K * Qc)) : Qc := fold_left (fun s p => s + snd p) d 0.
Definition weighted_choice {K} (normalize : bool) (d : list (K * Qc)) (r : Qc) : option K :=
  choose (if normalize then map (fun p => (fst p, snd p / sumvals d)) d else d) 0 r.

(** bool_to_sign :458-460 (True is 1, False is 0) and sign_to_bool :463-471 *)
Definition sign (x : Qc) : Qc := if Qclt_le_dec x 0 then - (1) else if Qclt_le_dec 0 x then 1 else 0.
Definition bool_to_sign (l : list bool) : list Qc := map (fun b : bool => sign ((if b then 1 else 0) - Q2Qc (1 # 2))) l.
Definition sign_to_bool (l : list Qc) (zero : bool) : list bool :=
  map (fun x => if zero then (if Qclt_le_dec x 0 then false else true) else (if Qclt_le_dec 0 x then true else false)) l.
