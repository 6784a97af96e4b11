(** Model of mdp/nodes/recursive_expansion_nodes.py: the recursions, process, RecursiveExpansionNode._execute, and the domain
    transformation of NormalizingRecursiveExpansionNode.

    All samples are treated alike, so the model expands one sample.  Numbers are exact rationals; division by zero (x = -1 for the
    Legendre rational functions) gives 0 instead of infinity.  A column of result not written yet (np.empty) is None. *)
From Coq Require Import List Arith ZArith QArith Qcanon Bool.
From Verif Require Import CovModel RoutModel MiscModel ExpModel.
Import ListNotations.
Local Open Scope nat_scope.

Inductive kind := Standard | Legendre | Rational | Chebyshev.
Definition cell := option Qc.
Definition ap1 (f : Qc -> Qc) (a : cell) : cell := match a with Some a => Some (f a) | None => None end.
Definition ap2 (f : Qc -> Qc -> Qc) (a b : cell) : cell := match a, b with Some a, Some b => Some (f a b) | _, _ => None end.
Definition rd (pos : nat) (res : list cell) : cell := nth pos res None.
(** result[:, pos] = v; None: IndexError *)
Definition wr (pos : nat) (v : cell) (res : list cell) : option (list cell) := if pos <? length res then Some (set pos v res) else None.
Definition half : Qc := (1 / (1 + 1))%Qc.
Definition three : Qc := (1 + 1 + 1)%Qc.
(** the quotient (x-1)/(x+1) *)
Definition ratio (x : Qc) : Qc := ((x - 1) / (x + 1))%Qc.

Section Kind.
  Context (kd : kind).
  Local Open Scope Qc_scope.
  (** r_init :45-89, 157-196, 246-286, 336-375: the array, the next position, order and special index (None where python has None) *)
  Definition r_init (res : list cell) (x : Qc) (pos : nat) : option (list cell * (nat * nat * nat)) :=
    match kd with
    | Standard => match wr pos (Some x) res with Some res => Some (res, (S pos, 2%nat, pos)) | None => None end
    | Legendre => match wr pos (Some x) res with
                  | Some res => match wr (S pos) (ap1 (fun p => three * half * p * p - half) (rd pos res)) res with Some res => Some (res, (S (S pos), 3%nat, pos)) | None => None end
                  | None => None end
    | Rational => match wr pos (Some (ratio x)) res with
                  | Some res => match wr (S pos) (ap1 (fun p => three * half * (x - 1) / (x + 1) * p - half) (rd pos res)) res with Some res => Some (res, (S (S pos), 3%nat, 0%nat)) | None => None end
                  | None => None end
    | Chebyshev => match wr pos (Some x) res with
                   | Some res => match wr (S pos) (ap1 (fun p => (1 + 1) * x * p - 1) (rd pos res)) res with Some res => Some (res, (S (S pos), 3%nat, pos)) | None => None end
                   | None => None end
    end.
  (** recf :92-154, 199-243, 289-333, 378-423 *)
  Definition recf (res : list cell) (x : Qc) (special n pos : nat) : cell :=
    match kd with
    | Standard => ap2 Qcmult (rd (pos - 1) res) (rd special res)
    | Legendre => ap2 Qcminus (ap2 (fun s p => ((1 + 1) * qn n - 1) / qn n * s * p) (rd special res) (rd (pos - 1) res)) (ap1 (fun p => (qn n - 1) / qn n * p) (rd (pos - 2) res))
    | Rational => ap2 Qcminus (ap1 (fun p => ((1 + 1) * qn n - 1) / qn n * (x - 1) / (x + 1) * p) (rd (pos - 1) res)) (ap1 (fun p => (qn n - 1) / qn n * p) (rd (pos - 2) res))
    | Chebyshev => ap2 Qcminus (ap1 (fun p => (1 + 1) * x * p) (rd (pos - 1) res)) (rd (pos - 2) res)
    end.
  (** while n <= deg :580-585; [todo] = deg + 1 - n passes *)
  Fixpoint recursion (todo : nat) (res : list cell) (x : Qc) (special n pos : nat) : option (list cell * nat) :=
    match todo with
    | O => Some (res, pos)
    | S todo => match wr pos (recf res x special n pos) res with Some res => recursion todo res x special (S n) (S pos) | None => None end
    end.
  (** for cur_var in range(num_vars) :577-585 *)
  Fixpoint variables (deg : nat) (xs : list Qc) (res : list cell) (pos : nat) : option (list cell * nat) :=
    match xs with
    | [] => Some (res, pos)
    | x :: xs => match r_init res x pos with
                 | Some (res, (pos, n, special)) => match recursion (deg + 1 - n) res x special n pos with
                                                    | Some (res, pos) => variables deg xs res pos
                                                    | None => None
                                                    end
                 | None => None
                 end
    end.
End Kind.

(** ** process :437-456 *)
Definition entry := (nat * nat * nat)%type.   (* off, leadVar, leadDeg *)
Record rstate := mkR { r_pos : nat; r_res : list cell; r_todo : list entry }.
(** result[:, pos:pos+l] = result[:, 1+off:1+off+l] * result[:, k:k+1] *)
Definition put_block (off l k : nat) (s : rstate) : option (list cell) :=
  if k <? length (r_res s) then assign (r_pos s) l (map (fun a => ap2 Qcmult a (rd k (r_res s))) (slice (1 + off) (1 + off + l) (r_res s))) (r_res s) else None.
Fixpoint proc_d (deg off lv ld v : nat) (ds : list nat) (k : nat) (s : rstate) : option rstate :=
  match ds with
  | [] => Some s
  | d :: ds =>
    let l := deg + 1 - ld - d in
    match put_block off l k s with
    | Some res => proc_d deg off lv ld v ds (S k) (mkR (r_pos s + l) res (if (1 <? l) && (0 <? lv) then r_todo s ++ [(r_pos s - 1, v, ld + d)] else r_todo s))
    | None => None
    end
  end.
Fixpoint proc_v (deg off lv ld : nat) (vs : list nat) (s : rstate) : option rstate :=
  match vs with
  | [] => Some s
  | v :: vs => match proc_d deg off lv ld v (seq 1 (deg - ld)) (1 + deg * v) s with Some s => proc_v deg off lv ld vs s | None => None end
  end.
Definition process (e : entry) (deg : nat) (s : rstate) : option rstate := let '(off, lv, ld) := e in proc_v deg off lv ld (seq 0 lv) s.
(** while len(todoList) > 0 :601-603; Running: not finished within the fuel *)
Inductive outcome := Done (res : list cell) | Raised | Running.
Fixpoint products (fuel deg : nat) (s : rstate) : outcome :=
  match r_todo s with
  | [] => Done (r_res s)
  | e :: todo => match fuel with
                 | O => Running
                 | S fuel => match process e deg (mkR (r_pos s) (r_res s) todo) with Some s => products fuel deg s | None => Raised end
                 end
  end.
(** RecursiveExpansionNode.expanded_dim :532-545 *)
Definition rec_dim (with0 : bool) (deg n : nat) : Z := if with0 then (expanded_dim (Z.of_nat deg) (Z.of_nat n) + 1)%Z else expanded_dim (Z.of_nat deg) (Z.of_nat n).
Definition finish (with0 : bool) (o : outcome) : outcome := match o with Done res => Done (if with0 then res else tl res) | o => o end.
(** _execute :547-604 without check; Done [] also stands for the None returned for degree 0 without with0 *)
Definition rec_execute (kd : kind) (with0 : bool) (fuel deg : nat) (x : list Qc) : outcome :=
  let n := length x in
  let dim := Z.to_nat (rec_dim with0 deg n + (if with0 then 0 else 1))%Z in
  match wr 0 (Some 1%Qc) (repeat None dim) with
  | None => Raised
  | Some res =>
    match deg with
    | O => if with0 then Done (repeat (Some 1%Qc) n) else Done []
    | 1 => match assign 1 n (map Some x) res with
           | Some res => finish with0 (products fuel deg (mkR 1 res (map (fun i => (i * deg, i, 1)) (seq 1 (n - 1)))))
           | None => Raised
           end
    | _ => match variables kd deg x res 1 with
           | Some (res, pos) => finish with0 (products fuel deg (mkR pos res (map (fun i => (i * deg, i, 1)) (seq 1 (n - 1)))))
           | None => Raised
           end
    end
  end.

(** ** RecursiveExpansionNode.__init__ :468-519: Node.__init__ is called first, and calls set_input_dim if an input_dim is given;
    _set_input_dim (expansion_nodes.py:68-70) calls expanded_dim, which reads self.degree.  [attr] is the attribute degree of the
    instance; None as result: AttributeError.  The result: input and output dim, degree *)
Definition set_input_dim (attr : option nat) (with0 : bool) (n : nat) : option (nat * Z) :=
  match attr with Some deg => Some (n, rec_dim with0 deg n) | None => None end.
Definition rec_init (deg : nat) (with0 : bool) (input_dim : option nat) : option (option (nat * Z) * nat) :=
  match input_dim with
  | None => Some (None, deg)
  | Some n => match set_input_dim None with0 n with Some d => Some (Some d, deg) | None => None end
  end.

(** ** NormalizingRecursiveExpansionNode: domain bounds None is infinite *)
Local Open Scope Qc_scope.
Definition qmax (a b : Qc) : Qc := if Qclt_le_dec a b then b else a.
Definition qmin (a b : Qc) : Qc := if Qclt_le_dec b a then b else a.
Definition list_max (a : Qc) (l : list Qc) : Qc := fold_left qmax l a.
Definition list_min (a : Qc) (l : list Qc) : Qc := fold_left qmin l a.
(** _train :696-715, the columns of a chunk of data; a column is given by its first value and the others *)
Definition column := (Qc * list Qc)%type.
Definition col_max (c : column) : Qc := list_max (fst c) (snd c).
Definition col_min (c : column) : Qc := list_min (fst c) (snd c).
Definition norm := option (list Qc * list Qc).      (* amaxcolumn, amincolumn *)
Definition norm_train (s : norm) (x : list column) : norm :=
  match s with
  | None => Some (map col_max x, map col_min x)
  | Some (mx, mn) => Some (map (fun p => qmax (fst p) (snd p)) (combine mx (map col_max x)), map (fun p => qmin (fst p) (snd p)) (combine mn (map col_min x)))
  end.
Definition amax (l : list Qc) : Qc := match l with [] => 0 | a :: r => list_max a r end.
Definition amin (l : list Qc) : Qc := match l with [] => 0 | a :: r => list_min a r end.
(** the transformation f of _stop_training :717-781 applied to a value of column i *)
Definition transform (lower upper : option Qc) (mx mn : list Qc) (i : nat) (x : Qc) : Qc :=
  match lower, upper with
  | None, None => x
  | None, Some u => x - qmax (nth i mx 0 - u) 0
  | Some l, None => x - qmin (nth i mn 0 - l) 0
  | Some l, Some u =>
    let mean := l + (u - l) / (1 + 1) in
    let dev := u - l in
    let xmax := amax mx in let xmin := amin mn in
    let maxdev := xmax - xmin in let dmean := (xmax + xmin) / (1 + 1) in
    if Qclt_le_dec xmax u then
      if Qclt_le_dec l xmin then x
      else if Qclt_le_dec maxdev dev then x + (- dmean + mean) else (x + (- dmean + mean * maxdev / dev)) * (dev / maxdev)
    else if Qclt_le_dec maxdev dev then x + (- dmean + mean) else (x + (- dmean + mean * maxdev / dev)) * (dev / maxdev)
  end.
(** :686-694: f works in place (-=, +=, *=), on the array given by the caller if its dtype is that of the node: the array of the
    caller afterwards, and the data expanded *)
Definition norm_execute (lower upper : option Qc) (mx mn : list Qc) (x : list Qc) : list Qc * list Qc :=
  let y := map (fun p => transform lower upper mx mn (fst p) (snd p)) (combine (seq 0 (length x)) x) in (y, y).
