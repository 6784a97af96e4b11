(** Model of mdp/nodes/nipals.py (NIPALSNode), with the parts of Cumulator (mdp/signal_node.py) and PCANode (mdp/nodes/pca_nodes.py) it goes through.

    Numbers are elements of an ordered field, [sq] is the square root.  A matrix X of data is the number n of its columns and the list of its rows, a row is a
    function from indices to numbers.  A component which numpy computes as nan (0/0: no exception, a warning) is [None]; from then on X is nan and so are all
    the components which follow.  Data types are left out, and input_dim is a constructor argument here (it is set by the first call of train). *)
From Coq Require Import List Arith Bool.
From Verif Require Import OField LinAlg IncModel.
Import ListNotations.
Open Scope nat_scope.

Inductive nexn := NNode | NAttribute | NIndex | NValue.
(** the list of chunks of Cumulator; after the first stop_training the concatenated array; the second one makes it an array of rank 1 *)
Inductive held (V : Type) := Chunks (l : list (list V)) | Rows (X : list V) | Flat.
Arguments Chunks {V} l. Arguments Rows {V} X. Arguments Flat {V}.

Section Nip.
  Context {K : ofield}.
  Variable sq : K -> K.
  Notation vec := (vec (K := K)).
  (** input_dim, output_dim, desired_variance, conv, max_it, data, tlen, avg, total_variance, d, v (None: nan), explained_variance (None: not set; Some None: nan) *)
  Record nip := mkN { n_dim : nat; n_out : option nat; n_des : option K; n_conv : K; n_max : nat; n_data : held vec; n_tlen : nat;
                      n_avg : option vec; n_tot : option K; n_comps : list (option (vec * K)); n_expl : option (option K) }.
  (** __init__ nipals.py:48-73; output_dim an integer or a fraction (PCANode._set_output_dim, pca_nodes.py:116-121) *)
  Inductive odim := ONone | OInt (n : nat) | OFrac (q : K).
  Definition nip_new (n : nat) (o : odim) (conv : K) (max_it : nat) : nip :=
    mkN n (match o with OInt k => Some k | _ => None end) (match o with OFrac q => Some q | _ => None end) conv max_it (Chunks []) 0 None None [] None.

  Definition put_data (d : held vec) (t : nat) (s : nip) : nip :=
    mkN (n_dim s) (n_out s) (n_des s) (n_conv s) (n_max s) d t (n_avg s) (n_tot s) (n_comps s) (n_expl s).
  (** Cumulator._train, signal_node.py:774-778: tlen is increased before the data are appended *)
  Definition nip_train (x : list vec) (s : nip) : nip * option nexn :=
    match n_data s with
    | Chunks l => (put_data (Chunks (l ++ [x])) (n_tlen s + length x) s, None)
    | d => (put_data d (n_tlen s + length x) s, Some NAttribute)
    end.

  (** X.mean(axis=0) :90 *)
  Definition mean (n : nat) (X : list vec) : vec := tab n (fun i => fsum (map (fun r => r i) X) / fn (length X))%of.
  Definition center (n : nat) (X : list vec) : list vec := let m := mean n X in map (fun r => tab n (fun i => r i - m i)%of) X.
  (** X.var(axis=0).sum() :97 *)
  Definition variance (n : nat) (X : list vec) : K :=
    let m := mean n X in fsumn n (fun i => (fsum (map (fun r => (r i - m i) * (r i - m i)) X) / fn (length X))%of).

  (** mult(X.T, t) *)
  Definition loading (X : list vec) (t : list K) : vec := fun i => fsum (map (fun p => (fst p i * snd p)%of) (combine X t)).
  Definition sumsq (t : list K) : K := fsum (map (fun a => (a * a)%of) t).
  (** mult(X, p) *)
  Definition scores (n : nat) (X : list vec) (p : vec) : list K := map (fun r => dot n r p) X.
  (** the body of the inner loop :114-122: p, t_new and diff; None: nan *)
  Definition turn (n : nat) (X : list vec) (t : list K) : option (vec * list K * K) :=
    let tt := sumsq t in
    if iszero tt then None else
    let q := over n (loading X t) tt in
    let l := dot n q q in
    if iszero l then None else
    let p := over n q (sq l) in
    let t' := scores n X p in
    Some (p, t', sumsq (map (fun q => (fst q - snd q)%of) (combine t' t))).
  (** while diff > conv :109-126; k is max_it minus the number of turns so far: in the turn after the last one it > max_it holds, whatever diff is *)
  Inductive conv_ := CNan | CFail | CDone (p : vec) (t : list K).
  Fixpoint turns (n : nat) (X : list vec) (conv : K) (k : nat) (t : list K) : conv_ :=
    match k with
    | 0 => CFail
    | S k => match turn n X t with
             | None => CNan
             | Some (p, t', diff) => if fltb conv diff then turns n X conv k t' else CDone p t'
             end
    end.
  (** X -= outer(t, p) :131-132 *)
  Definition deflate (n : nat) (X : list vec) (t : list K) (p : vec) : list vec := map (fun q => tab n (fun i => fst q i - snd q * p i)%of) (combine X t).
  (** d[i] :133-134, D = outer(t, p) *)
  Definition power (n : nat) (t : list K) (p : vec) (tlen : nat) : K := (sumsq (map (fun a => dot n (fun i => (a * p i)%of) p) t) / (fn tlen - f1))%of.

  (** the outer loop :103-138 with k components to go: the components, exp_var (None: nan), whether desired_variance was reached; None: no convergence *)
  Fixpoint extract (n : nat) (conv : K) (max_it tlen : nat) (var : K) (des : option K) (k : nat) (X : list vec) (ev : K) : option (list (option (vec * K)) * option K * bool) :=
    match k with
    | 0 => Some ([], Some ev, false)
    | S k =>
        match turns n X conv max_it (map (fun r => r 0) X) with
        | CFail => None
        | CNan => Some (repeat None (S k), None, false)
        | CDone p t =>
            let d := power n t p tlen in
            let ev := (ev + d / var)%of in
            if match des with Some q => negb (fltb ev q) | None => false end then Some ([Some (p, d)], Some ev, true)
            else match extract n conv max_it tlen var des k (deflate n X t p) ev with
                 | Some (l, e, b) => Some (Some (p, d) :: l, e, b)
                 | None => None
                 end
        end
    end.

  (** _stop_training :78-142.  An exception is raised by concatenate if there are no data, by X[:, 0] if data is not the list of the chunks, and by the inner loop.
      (With no data input_dim is not known in the code and PCANode._adjust_output_dim comes second.) *)
  Definition nip_stop (s : nip) : nip * option nexn :=
    match n_data s with
    | Chunks [] => (s, Some NValue)
    | Chunks l =>
        let n := n_dim s in
        let X := concat l in
        let out := match n_des s, n_out s with None, None => Some n | _, o => o end in
        let Y := center n X in
        let var := variance n Y in
        let mk o c e := mkN n o (n_des s) (n_conv s) (n_max s) (Rows Y) (n_tlen s) (Some (mean n X)) (Some var) c e in
        match extract n (n_conv s) (n_max s) (n_tlen s) var (n_des s) n Y f0 with
        | None => (mk out (n_comps s) (n_expl s), Some NNode)
        | Some (c, e, b) =>
            let out := if b then Some (length c) else out in
            (mk out (match out with Some o => firstn o c | None => c end) (Some e), None)
        end
    | Rows _ | Flat => (put_data Flat (n_tlen s) s, Some NIndex)
    end.

  (** PCANode._execute (pca_nodes.py:327-344) on one row, for components without nan *)
  Definition nip_vectors (s : nip) : list vec := map (fun c => match c with Some (p, _) => p | None => vzero end) (n_comps s).
  Definition nip_execute (s : nip) (x : vec) : list K :=
    match n_avg s with None => [] | Some m => map (fun v => dot (n_dim s) (fun i => (x i - m i)%of) v) (nip_vectors s) end.
End Nip.
