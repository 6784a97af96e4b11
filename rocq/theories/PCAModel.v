(** Model of mdp/nodes/pca_nodes.py: PCANode and WhiteningNode, with the range handling of mdp/utils/_symeig.py and nongeneral_svd of mdp/utils/routines.py.

    Exact arithmetic over an ordered field; a row is a function of the column index, a chunk a list of rows.  The input dimension is fixed.  The numerical
    routines (eigh of LAPACK, svd, sqrt) are parameters.  [None] stands for an attribute that was deleted or is None.  The state after an exception is kept.
    The debug argument, dtypes, warnings, the check of the rank of arrays and output_dim given as a float greater than 1 or a negative number are not modelled. *)
From Coq Require Import List Arith ZArith Bool.
From Verif Require Import OField.
Import ListNotations.
Open Scope nat_scope.

(** NodeException, TrainingException, TrainingFinishedException, AttributeError, ValueError, LinAlgError *)
Inductive perr := PNode | PTraining | PFinished | PAttribute | PValue | PLinAlg.
Inductive pres (T : Type) := POk (v : T) | PErr (e : perr).
Arguments POk {T}. Arguments PErr {T}.

Section Cov.
  Context {K : ofield}.
  (** ** CovarianceMatrix (mdp/utils/covariance.py), bias=False: _cov_mtx, _avg and _tlen *)
  Record acc := mkAcc { a_m : mtx (K := K); a_s : vec (K := K); a_n : nat }.
  Definition acc_new : acc := mkAcc (fun _ _ => f0) (fun _ => f0) 0.
  (** update (mdp/utils/covariance.py:84-97) *)
  Definition acc_update (s : acc) (x : list vec) : acc :=
    mkAcc (fun i j => a_m s i j + fsum (map (fun r : vec => r i * r j) x))%of (fun i => a_s s i + fsum (map (fun r : vec => r i) x))%of (a_n s + length x).
  (** fix (mdp/utils/covariance.py:99-140) *)
  Definition acc_fix (center : bool) (s : acc) : mtx * vec :=
    let n := fn (a_n s) in
    let m : mtx := fun i j => (a_m s i j / (n - 1))%of in
    (if center then fun i j => (m i j - a_s s i * a_s s j / (n * (n - 1)))%of else m, fun i => (a_s s i / n)%of).
End Cov.

Section Range.
  Context {A : Type}.
  (** the range of wrap_eigh (mdp/utils/_symeig.py:44-77) and _symeig_fake (mdp/utils/_symeig.py:79-165), n the dimension: eigenvalues lo..hi counted from 1 *)
  Definition clamp (n : nat) (lo hi : Z) : Z * Z :=
    let n := Z.of_nat n in
    let lo := if (lo <? 1)%Z then 1%Z else lo in
    let lo := if (n <? lo)%Z then n else lo in
    let hi := if (n <? hi)%Z then n else hi in
    if (hi <? lo)%Z then (hi, lo) else (lo, hi).
  (** the slice l[a:b] of Python *)
  Definition pyslice (a b : Z) (l : list A) : list A :=
    let n := Z.of_nat (length l) in
    let fix_ z := if (z <? 0)%Z then Z.max 0 (n + z) else Z.min z n in
    firstn (Z.to_nat (fix_ b) - Z.to_nat (fix_ a)) (skipn (Z.to_nat (fix_ a)) l).
  Definition eig_range (n : nat) (rng : option (Z * Z)) (l : list A) : list A :=
    match rng with None => l | Some (lo, hi) => let (lo, hi) := clamp n lo hi in pyslice (lo - 1) hi l end.
  (** nongeneral_svd (mdp/utils/routines.py:299-311) *)
  Definition svd_range (rng : option (Z * Z)) (l : list A) : list A :=
    match rng with None => l | Some (lo, hi) => pyslice (lo - 1) hi l end.
End Range.

Section PCA.
  Context {K : ofield}.
  Notation vec := (vec (K := K)). Notation mtx := (mtx (K := K)).
  (** all eigenvalues in ascending order with their eigenvectors; None: LinAlgError.  The answer may depend on the range asked for *)
  Variable eigh : option (Z * Z) -> nat -> mtx -> option (list K * list vec).
  Variable svd_ : nat -> mtx -> option (list K * list vec).
  Variable sqrt_ : K -> K.
  Variable dim : nat.                     (* input_dim *)
  (** the arguments svd, reduce, var_abs, var_rel, var_part of __init__ :38-114 *)
  Variable svd reduce : bool.
  Variables var_abs var_rel : K.
  Variable var_part : option K.
  Variable whiten : bool.                 (* a WhiteningNode *)

  (** fields: _output_dim, desired_variance, _cov_mtx (deleted by stop_training), tlen, avg, d, v (a list of columns), total_variance, explained_variance (None also
      for nan), _train_phase_started, is_training() *)
  Record pca := mkP { p_out : option nat; p_desired : option K; p_acc : option (@acc K); p_tlen : nat; p_avg : vec; p_d : list K; p_v : list vec;
                      p_vartot : K; p_expl : option K; p_started : bool; p_training : bool }.
  Inductive odim := ONone | OInt (n : nat) | OFrac (q : K).
  (** __init__ :38-114 and _set_output_dim :116-121 *)
  Definition pca_new (o : odim) : pca :=
    mkP (match o with OInt n => Some n | _ => None end) (match o with OFrac q => Some q | _ => None end)
        (Some acc_new) 0 (fun _ => f0) [] [] f0 None false true.
  (** Node.train (mdp/signal_node.py:590-617) and _train :150-156 *)
  Definition pca_train (s : pca) (x : list vec) : pca * pres unit :=
    if negb (p_training s) then (s, PErr PFinished)
    else
      let set a := mkP (p_out s) (p_desired s) a (p_tlen s) (p_avg s) (p_d s) (p_v s) (p_vartot s) (p_expl s) true (p_training s) in
      match p_acc s with
      | None => (set None, PErr PAttribute)
      | Some a => (set (Some (acc_update a x)), POk tt)
      end.
  (** _adjust_output_dim :158-182: the new output_dim and the range of the eigenvalues *)
  Definition adjust (s : pca) : option nat * option (Z * Z) :=
    match p_desired s, p_out s with
    | None, None => (Some dim, None)
    | _, Some k => (Some k, if 1 <=? k then Some (Z.of_nat dim - Z.of_nat k + 1, Z.of_nat dim)%Z else None)
    | Some _, None => (None, None)
    end.
  (** self._symeig :99-102 *)
  Definition solve (rng : option (Z * Z)) (c : mtx) : pres (list K * list vec) :=
    if svd then match svd_ dim c with None => PErr PLinAlg | Some (d, v) => POk (svd_range rng d, svd_range rng v) end
    else match eigh rng dim c with None => PErr PNode | Some (d, v) => POk (eig_range dim rng d, eig_range dim rng v) end.
  (** searchsorted of numpy on an ascending array: the number of entries before the first one which is at least q *)
  Fixpoint searchsorted (l : list K) (q : K) : nat := match l with [] => 0 | a :: l => if fltb a q then 1 + searchsorted l q else 0 end.
  Fixpoint cumsum (c : K) (l : list K) : list K := match l with [] => [] | a :: l => (c + a)%of :: cumsum (c + a)%of l end.
  (** the selection of components in _stop_training :253-281 on the eigenvalues and eigenvectors in descending order *)
  Definition cut (desired : option K) (vartot : K) (out : option nat) (d : list K) (v : list vec) : option nat * list K * list vec :=
    match desired with
    | None => (out, d, v)
    | Some q =>
        let d := filter (fun a => fltb f0 a) d in
        let neigval := searchsorted (cumsum f0 (map (fun a => a / vartot)%of d)) q + 1 in
        (Some neigval, firstn neigval d, firstn neigval v)
    end.
  Definition fmax (l : list K) : K := fold_right (fun a b => if fltb b a then a else b) (hd f0 l) l.
  Definition shrink (vartot : K) (out : option nat) (d : list K) (v : list vec) : pres (option nat * list K * list vec) :=
    if reduce then
      let d := filter (fun a => fltb var_abs a) d in
      match d with
      | [] => PErr PNode
      | _ =>
          let m := fmax d in
          let d := filter (fun a => fltb var_rel (a / m))%of d in
          let d := match var_part with Some q => if fltb f0 q || fltb q f0 then filter (fun a => fltb q (a / vartot))%of d else d | None => d end in
          POk (Some (length d), d, firstn (length d) v)
      end
    else POk (out, d, v).
  (** self.v / sqrt(self.d) in WhiteningNode._stop_training :393-407, with the broadcasting rules of numpy *)
  Definition scale (v : vec) (c : K) : vec := fun i => (v i / c)%of.
  Definition whiten_v (d : list K) (v : list vec) : pres (list vec) :=
    if length d =? length v then POk (map (fun p : vec * K => scale (fst p) (sqrt_ (snd p))) (combine v d))
    else match d, v with
         | [c], _ => POk (map (fun v => scale v (sqrt_ c)) v)
         | _, [v] => POk (map (fun c => scale v (sqrt_ c)) d)
         | _, _ => PErr PValue
         end.
  (** Node.stop_training (mdp/signal_node.py:619-639) and _stop_training :184-292 *)
  Definition pca_stop (s : pca) : pca * pres unit :=
    if p_training s && negb (p_started s) then (s, PErr PTraining)
    else if negb (p_training s) then (s, PErr PFinished)
    else match p_acc s with
         | None => (s, PErr PAttribute)
         | Some a =>
             let (c, avg) := acc_fix true a in
             let (out, rng) := adjust s in
             let vartot := fsumn dim (fun i => c i i) in
             let fail e := (mkP out (p_desired s) None (a_n a) avg (p_d s) (p_v s) (p_vartot s) (p_expl s) (p_started s) (p_training s), PErr e) in
             match solve rng c with
             | PErr e => fail e
             | POk (d, v) =>
                 if negb (reduce || svd || match p_desired s with Some _ => true | None => false end) && existsb (fun a => fltb a f0) d then fail PNode
                 else
                   let '(out1, d1, v1) := cut (p_desired s) vartot out (rev d) (rev v) in
                   match shrink vartot out1 d1 v1 with
                   | PErr e => (mkP out1 (p_desired s) None (a_n a) avg (p_d s) (p_v s) (p_vartot s) (p_expl s) (p_started s) (p_training s), PErr e)
                   | POk (out2, d2, v2) =>
                       let expl := if fltb f0 vartot || fltb vartot f0 then Some (fsum d2 / vartot)%of else None in
                       let done v3 (b : bool) := mkP out2 (p_desired s) None (a_n a) avg d2 v3 vartot expl (if b then p_started s else false) (if b then p_training s else false) in
                       if whiten then match whiten_v d2 v2 with PErr e => (done v2 true, PErr e) | POk v3 => (done v3 false, POk tt) end
                       else (done v2 false, POk tt)
                   end
             end
         end.
  (** calls of train; the first exception ends the sequence *)
  Fixpoint pca_trains (s : pca) (chunks : list (list vec)) : pca * pres unit :=
    match chunks with [] => (s, POk tt) | x :: r => match pca_train s x with (s, POk _) => pca_trains s r | e => e end end.
  (** _execute :327-344 on one row, for a trained node; the result is a list of numbers *)
  Definition sub (x y : vec) : vec := fun i => (x i - y i)%of.
  Definition pca_execute (s : pca) (n : option nat) (x : vec) : list K :=
    let v := match n with None => p_v s | Some n => firstn n (p_v s) end in
    map (fun v => dot dim (sub x (p_avg s)) v) v.
  (** get_recmatrix :310-325, WhiteningNode.get_recmatrix :418-436: the rows of the reconstruction matrix; v * d broadcasts like in whiten_v *)
  Definition recmatrix (s : pca) : pres (list vec) :=
    if whiten then
      if length (p_d s) =? length (p_v s) then POk (map (fun (p : vec * K) (i : nat) => (fst p i * snd p)%of) (combine (p_v s) (p_d s)))
      else match p_d s, p_v s with
           | [c], v => POk (map (fun (v : vec) (i : nat) => (v i * c)%of) v)
           | d, [v] => POk (map (fun (c : K) (i : nat) => (v i * c)%of) d)
           | _, _ => PErr PValue
           end
    else POk (p_v s).
  (** WhiteningNode.get_eigenvectors :409-416 for equal lengths of d and v *)
  Definition eigenvectors (s : pca) : list vec := map (fun (p : vec * K) (i : nat) => (sqrt_ (snd p) * fst p i)%of) (combine (p_v s) (p_d s)).
  (** Node.inverse (mdp/signal_node.py:656-667) with _check_output :123-132, and _inverse :346-372, on one row of a trained node *)
  Definition pca_inverse (s : pca) (y : list K) (n : option nat) : pres vec :=
    let out := match p_out s with Some o => o | None => dim end in
    if (length y =? 0) || (out <? length y) then PErr PNode
    else
      let n := match n with None => length y | Some n => n end in
      if out <? n then PErr PNode
      else match recmatrix s with
           | PErr e => PErr e
           | POk w =>
               let w := firstn n w in
               if length w =? length y then POk (fun i => fsum (map (fun p : K * vec => fst p * snd p i) (combine y w)) + p_avg s i)%of
               else PErr PValue
           end.
End PCA.
