(** Model of the training mode 'compact_classes' of mdp/nodes/gsfa_nodes.py: Hamming_weight and CovDCovMatrix.update_compact_classes.

    Exact arithmetic as in GSFAModel.v; labels are integers.  numx.argsort is a parameter; the elements of the set n_free are listed in increasing order.  log2 is exact; numx.arange
    with a fractional step gives the numbers above the limit.  Not modelled: printing, a numpy array as block_sizes (a list is converted to one), block sizes which are neither. *)
From Coq Require Import List Arith ZArith Bool.
From Verif Require Import OField LinAlg PCAModel SymeigModel SFAModel GSFAModel.
Import ListNotations.
Open Scope nat_scope.

(** Hamming_weight of an integer :559-576; the loop ends after at most n steps *)
Fixpoint hamming_loop (fuel n : nat) : nat := match fuel with 0 => 0 | S f => if n =? 0 then 0 else (if n mod 2 =? 0 then 0 else 1) + hamming_loop f (n / 2) end.
Definition hamming (n : nat) : nat := hamming_loop n n.

(** update_compact_classes :1196-1199: entry k of column j < J *)
Definition column (J b j k : nat) : Z := (Z.of_nat (k / b / 2 ^ (J - j - 1) mod 2) * 2 - 1)%Z.
(** :1204-1205 *)
Definition n_free (J : nat) : list nat := filter (fun d => negb (existsb (Nat.eqb d) (map (fun k => 2 ^ k) (seq 0 J)))) (seq 0 (2 ^ J)).
(** :1210-1217: an extra column *)
Definition extra_column (J b digit k : nat) : Z :=
  let p := fold_left (fun l c => if Nat.testbit digit c then (l * column J b c k)%Z else l) (seq 0 J) 1%Z in
  if hamming digit mod 2 =? 0 then (p * -1)%Z else p.
(** OverflowError: int(-inf) *)
Inductive cres := COk | CErr (e : gerr) | COverflow.
Section Compact.
  Context {K : ofield}.
  Notation vec := (vec (K := K)). Notation cdc := (cdc (K := K)).
  Variable argsort : list nat -> list nat.          (* numx.argsort *)
  (** :1206-1207 *)
  Definition order (J : nat) : list nat := rev (argsort (map hamming (n_free J))).
  (** all columns, for [extra] of them besides the J ones; None: IndexError *)
  Definition digits (J extra : nat) : option (list nat) :=
    if length (order J) <? extra then None else Some (map (fun i => nth i (n_free J) 0) (firstn extra (order J))).
  Definition columns (J b : nat) (ds : list nat) : list (nat -> Z) := map (column J b) (seq 0 J) ++ map (extra_column J b) ds.
  (** :1200-1202, :1219-1221 *)
  Definition raw_eigenvalues (J extra : nat) : list K := repeat f1 (J - 1) ++ map (fun i => f1 - fn i * (f1 / fn (extra + 1)))%of (seq 0 (extra + 1)).
  Definition eigenvalues (J extra : nat) : list K := let l := raw_eigenvalues J extra in map (fun e => e / fsum l)%of l.
  (** x[labels[:, j] == v] *)
  Definition select (l : nat -> Z) (v : Z) (x : list vec) : list vec := map snd (filter (fun p => Z.eqb (l (fst p)) v) (combine (seq 0 (length x)) x)).
  (** :1228-1236 *)
  Fixpoint up_columns (cols : list (nat -> Z)) (es : list K) (x : list vec) (c : cdc) : cdc * gres unit :=
    match cols, es with
    | l :: cols, e :: es =>
        bind (up_homog e (BInt (length x / 2)) true (select l (-1) x) c) (fun c =>
        bind (up_homog e (BInt (length x / 2)) true (select l 1 x) c) (up_columns cols es x))
    | _, _ => (c, GOk tt)
    end.
  (** :1157-1174 *)
  Definition compact_size (b : bsize) : gres (nat * bool) :=     (* the flag: a numpy number *)
    match b with
    | BNone => GErr GTraining
    | BInt b => GOk (b, false)
    | BList [] => GErr GIndex
    | BList (b :: l) => if forallb (Nat.eqb b) l then GOk (b, true) else GErr GValue
    end.
  (** update_compact_classes :1152-1236; [jdes]: None or an integer *)
  Definition up_compact (bs : bsize) (jdes : option Z) (x : list vec) (c : cdc) : cdc * cres :=
    match compact_size bs with
    | GErr e => (c, CErr e)
    | GOk (b, np) =>
        if b =? 0 then (c, if np then COverflow else CErr GZero) else
        if negb (length x mod b =? 0) then (c, CErr (match bs with BList (_ :: _ :: _) => GType | _ => GValue end)) else
        let classes := length x / b in
        if classes =? 0 then (c, COverflow) else
        let J := Nat.log2 classes in
        let jdes := match jdes with None => Z.of_nat J | Some z => z end in
        if negb (classes =? 2 ^ J) then (c, CErr GValue) else
        if (jdes <? 0)%Z then (c, CErr GValue) else
        if (jdes <? Z.of_nat J)%Z then (c, CErr GIndex) else
        let extra := Z.to_nat jdes - J in
        match digits J extra with
        | None => (c, CErr GIndex)
        | Some ds => match up_columns (columns J b ds) (eigenvalues J extra) x c with (c, GOk _) => (c, COk) | (c, GErr e) => (c, CErr e) end
        end
    end.
End Compact.
