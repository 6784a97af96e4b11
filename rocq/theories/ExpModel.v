(** Model of mdp/nodes/expansion_nodes.py: nmonomials, expanded_dim, PolynomialExpansionNode, GeneralExpansionNode.

    PolynomialExpansionNode._execute works column by column of dexp; all samples are treated alike, so the model
    expands one sample, the list of its values.  Values are of any type with a product. *)
From Coq Require Import List Arith ZArith Bool.
From Verif Require Import RoutModel MiscModel.
Import ListNotations.

(** nmonomials :11-25, expanded_dim :27-42 *)
Definition nmonomials (degree nvariables : Z) : Z := comb (nvariables + degree - 1) degree.
Definition expanded_dim (degree nvariables : Z) : Z := (comb (nvariables + degree) degree - 1)%Z.

Section Poly.
  Context {A : Type} (zero : A) (mul : A -> A -> A).
  (** l.cumsum() *)
  Fixpoint cumsum_from (s : nat) (l : list nat) : list nat := match l with [] => [] | a :: r => (s + a) :: cumsum_from (s + a) r end.
  (** dexp, k, next_lens *)
  Record pstate := mkP { p_dexp : list A; p_k : nat; p_lens : list nat }.
  (** the loop over j :137-142; [prec] is the view of dexp taken before the loop: as rows below k are not written any more, a copy.
      None: ValueError of the assignment *)
  Fixpoint inner (x : list A) (prec : list A) (lens : list nat) (js : list nat) (s : pstate) : option pstate :=
    match js with
    | [] => Some s
    | j :: js =>
      let factor := skipn (nth j lens 0) prec in
      let len := length factor in
      match assign (p_k s) len (map (mul (nth j x zero)) factor) (p_dexp s) with
      | Some dexp => inner x prec lens js (mkP dexp (p_k s + len) (set (S j) len (p_lens s)))
      | None => None
      end
    end.
  (** the loop over the degrees :130-142, [i] is the next degree *)
  Fixpoint outer (dim : nat) (x : list A) (todo i : nat) (prec_end : nat) (s : pstate) : option pstate :=
    match todo with
    | O => Some s
    | S todo =>
      let prec_start := prec_end in
      let prec_end := prec_end + Z.to_nat (nmonomials (Z.of_nat i - 1) (Z.of_nat dim)) in
      let prec := slice prec_start prec_end (p_dexp s) in
      let lens := cumsum_from 0 (removelast (p_lens s)) in
      match inner x prec lens (seq 0 dim) (mkP (p_dexp s) (p_k s) (repeat 0 (dim + 1))) with
      | Some s => outer dim x todo (S i) prec_end s
      | None => None
      end
    end.
  (** _execute :116-144 *)
  Definition poly_execute (degree : nat) (x : list A) : option (list A) :=
    let dim := length x in
    let dexp := repeat zero (Z.to_nat (expanded_dim (Z.of_nat degree) (Z.of_nat dim))) in
    match assign 0 dim x dexp with
    | Some dexp => match outer dim x (degree - 1) 2 0 (mkP dexp dim (0 :: repeat 1 dim)) with Some s => Some (p_dexp s) | None => None end
    | None => None
    end.
End Poly.

(** ** GeneralExpansionNode :384-517.  An array is its number of columns and its rows. *)
Section General.
  Context {A : Type} (zero : A).
  Record arr := mkA { a_cols : nat; a_rows : list (list A) }.
  (** output_sizes :450-465: the functions are applied to zeros((1,n)) *)
  Definition output_sizes (funcs : list (arr -> arr)) (n : nat) : list nat := map (fun f => a_cols (f (mkA n [repeat zero n]))) funcs.
  Definition general_dim (funcs : list (arr -> arr)) (n : nat) : nat := fold_right Nat.add 0 (output_sizes funcs n).
  (** out[:, pos:pos+size] = y for one row of out; numpy broadcasts a single column or a single row.  None: ValueError *)
  Definition put_row (pos size : nat) (src row : list A) : option (list A) := assign pos size src row.
  Definition put (pos size : nat) (y : arr) (out : list (list A)) : option (list (list A)) :=
    match fit (length out) (a_rows y) with
    | Some ys => all_some (map (fun p => put_row pos size (fst p) (snd p)) (combine ys out))
    | None => None
    end.
  Fixpoint general_loop (funcs : list (arr -> arr)) (sizes : list nat) (pos : nat) (x : arr) (out : list (list A)) : option (list (list A)) :=
    match funcs with
    | [] => Some out
    | f :: funcs => match put pos (hd 0 sizes) (f x) out with
                    | Some out => general_loop funcs (tl sizes) (pos + hd 0 sizes) x out
                    | None => None
                    end
    end.
  (** _execute :504-517; the input dim is that of x *)
  Definition general_execute (funcs : list (arr -> arr)) (x : arr) : option (list (list A)) :=
    general_loop funcs (output_sizes funcs (a_cols x)) 0 x (repeat (repeat zero (general_dim funcs (a_cols x))) (length (a_rows x))).
End General.
