(** Python list semantics used by the container methods: indices, slices (CPython Objects/sliceobject.c PySlice_AdjustIndices,
    Objects/listobject.c list_subscript / list_ass_subscript).  Part of the trusted base: it is the meaning given to
    [l[i]], [l[i:j:k]], [l[i:j:k] = v] and [del l[i:j:k]] on built-in lists. *)
From Coq Require Import List Arith ZArith Bool Lia.
Import ListNotations.
Open Scope Z_scope.

Inductive pexn := PyTypeError | PyValueError | PyIndexError | PyAttributeError.
Inductive pres (R : Type) := POk (r : R) | PErr (e : pexn).
Arguments POk {R} _. Arguments PErr {R} _.

Section L.
  Context {V : Type}.
  Definition zlen (l : list V) : Z := Z.of_nat (length l).

  (** l[i]: negative indices count from the end. *)
  Definition norm_index (n i : Z) : option nat :=
    let j := if i <? 0 then i + n else i in
    if (0 <=? j) && (j <? n) then Some (Z.to_nat j) else None.
  Definition get_item (l : list V) (i : Z) : option V :=
    match norm_index (zlen l) i with Some k => nth_error l k | None => None end.
  Definition set_item (l : list V) (i : Z) (v : V) : option (list V) :=
    match norm_index (zlen l) i with Some k => Some (firstn k l ++ v :: skipn (S k) l) | None => None end.
  Definition del_item (l : list V) (i : Z) : option (list V) :=
    match norm_index (zlen l) i with Some k => Some (firstn k l ++ skipn (S k) l) | None => None end.

  (** slice(start, stop, step) *)
  Record slice := mkSlice { sl_start : option Z; sl_stop : option Z; sl_step : option Z }.
  Definition clip (lo hi v : Z) : Z := if v <? lo then lo else if hi <? v then hi else v.
  (** PySlice_AdjustIndices: start, stop, step; None for step 0. *)
  Definition adjust (n : Z) (s : slice) : option (Z * Z * Z) :=
    let step := match sl_step s with Some k => k | None => 1 end in
    if step =? 0 then None else
    let lo := if step <? 0 then -1 else 0 in
    let hi := if step <? 0 then n - 1 else n in
    let adj d o := match o with None => d | Some v => clip lo hi (if v <? 0 then v + n else v) end in
    Some (adj (if step <? 0 then hi else lo) (sl_start s), adj (if step <? 0 then lo else hi) (sl_stop s), step).
  (** Number of elements in range(start, stop, step). *)
  Definition slice_len (start stop step : Z) : nat :=
    if step <? 0 then (if stop <? start then Z.to_nat ((start - stop - 1) / (- step) + 1) else 0%nat)
    else (if start <? stop then Z.to_nat ((stop - start - 1) / step + 1) else 0%nat).
  Definition slice_indices (n : Z) (s : slice) : option (list nat) :=
    match adjust n s with
    | None => None
    | Some (a, b, k) => Some (map (fun q => Z.to_nat (a + Z.of_nat q * k)) (seq 0 (slice_len a b k)))
    end.

  Definition pick (l : list V) (is : list nat) : list V :=
    flat_map (fun i => match nth_error l i with Some v => [v] | None => [] end) is.
  (** l[s] *)
  Definition get_slice (l : list V) (s : slice) : pres (list V) :=
    match slice_indices (zlen l) s with Some is => POk (pick l is) | None => PErr PyValueError end.

  Definition put (l : list V) (i : nat) (v : V) : list V := firstn i l ++ match skipn i l with [] => [] | _ :: r => v :: r end.
  Fixpoint puts (l : list V) (is : list nat) (vs : list V) : list V :=
    match is, vs with i :: is, v :: vs => puts (put l i v) is vs | _, _ => l end.
  (** l[s] = vs: a plain slice is replaced, an extended slice needs the same length. *)
  Definition set_slice (l : list V) (s : slice) (vs : list V) : pres (list V) :=
    match adjust (zlen l) s with
    | None => PErr PyValueError
    | Some (a, b, k) =>
        if k =? 1 then POk (firstn (Z.to_nat a) l ++ vs ++ skipn (Z.to_nat (Z.max a b)) l)
        else
          let is := map (fun q => Z.to_nat (a + Z.of_nat q * k)) (seq 0 (slice_len a b k)) in
          if Nat.eqb (length vs) (length is) then POk (puts l is vs) else PErr PyValueError
    end.
  (** del l[s] *)
  Definition del_slice (l : list V) (s : slice) : pres (list V) :=
    match slice_indices (zlen l) s with
    | Some is => POk (pick l (filter (fun i => negb (existsb (Nat.eqb i) is)) (seq 0 (length l))))
    | None => PErr PyValueError
    end.
End L.
Arguments slice : clear implicits.

(** Sanity checks against the Python documentation. *)
Example py1 : get_slice [0;1;2;3;4;5] (mkSlice (Some 1) (Some (-1)) (Some 2)) = POk [1;3]. Proof. reflexivity. Qed.
Example py2 : get_slice [0;1;2;3;4;5] (mkSlice None None (Some (-2))) = POk [5;3;1]. Proof. reflexivity. Qed.
Example py3 : set_slice [0;1;2;3] (mkSlice (Some 3) (Some 1) None) [7;8] = POk [0;1;2;7;8;3]. Proof. reflexivity. Qed.
Example py4 : set_slice [0;1;2;3] (mkSlice (Some (-9)) (Some 2) None) [7] = POk [7;2;3]. Proof. reflexivity. Qed.
Example py5 : set_slice [0;1;2;3] (mkSlice None None (Some (-2))) [7;8] = POk [0;8;2;7]. Proof. reflexivity. Qed.
Example py6 : set_slice [0;1;2;3] (mkSlice None None (Some 2)) [7] = PErr PyValueError. Proof. reflexivity. Qed.
Example py7 : del_slice [0;1;2;3;4] (mkSlice None (Some 10) (Some 2)) = POk [1;3]. Proof. reflexivity. Qed.
Example py8 : del_item [0;1;2] (-1) = Some [0;1]. Proof. reflexivity. Qed.
Example py9 : get_item [0;1;2] (-4) = None. Proof. reflexivity. Qed.

Section Facts.
  Context {V : Type}.
  (** l[len(l):len(l)] = vs appends. *)
  Lemma set_slice_end (l vs : list V) : set_slice l (mkSlice (Some (zlen l)) (Some (zlen l)) None) vs = POk (l ++ vs).
  Proof.
    unfold set_slice, adjust, zlen, clip. cbn [sl_step sl_start sl_stop].
    replace (1 =? 0) with false by reflexivity. replace (1 <? 0) with false by reflexivity.
    destruct (Z.ltb_spec (Z.of_nat (length l)) 0); [lia|].
    rewrite Z.ltb_irrefl. destruct (Z.ltb_spec (Z.of_nat (length l)) 0); [lia|].
    replace (1 =? 1) with true by reflexivity. rewrite Z.max_id, Nat2Z.id, firstn_all, skipn_all, app_nil_r. reflexivity.
  Qed.
  (** l[i:i] = [x] is list.insert: at the position [i] clipped to the list, counting from the end if negative. *)
  Lemma set_slice_insert (l vs : list V) i :
    let k := Z.to_nat (Z.max 0 (Z.min (zlen l) (if i <? 0 then i + zlen l else i))) in
    set_slice l (mkSlice (Some i) (Some i) None) vs = POk (firstn k l ++ vs ++ skipn k l).
  Proof.
    unfold set_slice, adjust, zlen, clip. cbn [sl_step sl_start sl_stop].
    replace (1 =? 0) with false by reflexivity. replace (1 <? 0) with false by reflexivity.
    replace (1 =? 1) with true by reflexivity. rewrite Z.max_id. cbn zeta.
    set (n := Z.of_nat (length l)). set (j := if i <? 0 then i + n else i).
    assert (0 <= n) by (unfold n; lia).
    replace (if j <? 0 then 0 else if n <? j then n else j) with (Z.max 0 (Z.min n j)); [reflexivity|].
    destruct (Z.ltb_spec j 0); [lia|]. destruct (Z.ltb_spec n j); lia.
  Qed.
End Facts.
