(** Model of mdp/nodes/gsfa_nodes.py: CovDCovMatrix and GSFANode.

    Exact arithmetic over an ordered field; a data array is the list of its rows, a row a function from the column to the entry; the dimension is fixed, data have it.
    Numbers of samples and of differences are elements of the field (they are weighted).  A division of a number by zero raises ZeroDivisionError (numbers are Python numbers, not numpy ones); a division of an
    array by zero gives nan: this is the outcome [GNan], which is not followed any further.  The state after an exception is kept.  Weights are scalars, labels are natural
    numbers.  Not modelled: numpy arrays as block sizes, negative indices in a dictionary of edges, negative half-widths, half-width 0 of the mirroring windows for a single sample,
    printing (but verbose is modelled where it has another effect), overwriting of the matrices by the solver. *)
From Coq Require Import List Arith ZArith Bool.
From Verif Require Import OField LinAlg PCAModel SymeigModel SFAModel.
Import ListNotations.
Open Scope nat_scope.

(** NodeException, InconsistentDimException, TrainingException, TrainingFinishedException, AttributeError, ValueError, IndexError, TypeError, ZeroDivisionError; nan *)
Inductive gerr := GNode | GInconsistent | GTraining | GFinished | GAttribute | GValue | GIndex | GType | GZero | GNan.
Inductive gres (T : Type) := GOk (v : T) | GErr (e : gerr).
Arguments GOk {T}. Arguments GErr {T}.
(** the argument block_size: None, an integer, a list of integers *)
Inductive bsize := BNone | BInt (n : nat) | BList (l : list nat).

Section GSFA.
  Context {K : ofield}.
  Notation vec := (vec (K := K)). Notation mtx := (mtx (K := K)).
  Notation two := (f1 + f1 : K)%of.
  Definition sumv (x : list vec) : vec := fun i => fsum (map (fun v => v i) x).                                   (* x.sum(axis=0) *)
  Definition gram (x y : list vec) : mtx := fun i j => fsum (map (fun p : vec * vec => fst p i * snd p j)%of (combine x y)).   (* mult(x.T, y) *)
  Definition outer (v : vec) : mtx := fun i j => (v i * v j)%of.
  Definition vscale (a : K) (v : vec) : vec := fun i => (a * v i)%of.
  Definition mscale (a : K) (m : mtx) : mtx := fun i j => (a * m i j)%of.
  Definition vadd (v w : vec) : vec := fun i => (v i + w i)%of.
  Definition madd (m n : mtx) : mtx := fun i j => (m i j + n i j)%of.
  Definition msub (m n : mtx) : mtx := fun i j => (m i j - n i j)%of.
  Definition row (x : list vec) (k : nat) : vec := nth k x vzero.
  Definition slice (a b : nat) (x : list vec) : list vec := firstn (b - a) (skipn a x).                           (* x[a:b], 0 <= a, b *)

  (** * CovDCovMatrix: (sum_x, sum_prod_x), num_samples, sum_prod_diffs, num_diffs; __init__ :586-613 *)
  Record cdc := mkC { c_x : option (vec * mtx); c_n : K; c_d : option mtx; c_nd : K }.
  Definition cdc_new : cdc := mkC None f0 None f0.
  (** add_samples :615-631 *)
  Definition add_samples (sp : mtx) (sx : vec) (n w : K) (c : cdc) : cdc :=
    mkC (Some (match c_x c with None => (vscale w sx, mscale w sp) | Some (s, p) => (vadd s (vscale w sx), madd p (mscale w sp)) end)) (c_n c + n * w)%of (c_d c) (c_nd c).
  (** add_diffs :633-646 *)
  Definition add_diffs (sd : mtx) (nd w : K) (c : cdc) : cdc :=
    mkC (c_x c) (c_n c) (Some (match c_d c with None => mscale w sd | Some d => madd d (mscale w sd) end)) (c_nd c + nd * w)%of.
  (** update_unlabeled :648-656 *)
  Definition up_unlabeled (w : K) (x : list vec) (c : cdc) : cdc := add_samples (gram x x) (sumv x) (fn (length x)) w c.
  (** update_regular :658-673 *)
  Definition up_regular (w : K) (x : list vec) (c : cdc) : cdc :=
    let diffs := map (fun p : vec * vec => sub (fst p) (snd p)) (combine (tl x) (removelast x)) in
    add_diffs (gram diffs diffs) (fn (length x) - 1)%of w (up_unlabeled w x c).

  (** the graph: node weights, and edge weights as an array with its shape or as a dictionary (the list of its items) *)
  Inductive edges := EArr (r c : nat) (W : mtx) | EDict (l : list ((nat * nat) * K)).
  Definition weighted (nw : list K) (x : list vec) : list vec := map (fun p : K * vec => vscale (fst p) (snd p)) (combine nw x).
  (** the loop over the items, :729-740, 790-802: IndexError if a sample does not exist *)
  Definition dict_diffs (x : list vec) (l : list ((nat * nat) * K)) : option (mtx * K) :=
    if forallb (fun e : (nat * nat) * K => (fst (fst e) <? length x) && (snd (fst e) <? length x)) l then
      let diffs := map (fun e : (nat * nat) * K => sub (row x (snd (fst e))) (row x (fst (fst e)))) l in
      Some (gram diffs (map (fun p : vec * ((nat * nat) * K) => vscale (snd (snd p)) (fst p)) (combine diffs l)), fsum (map snd l))
    else None.
  Definition node_weights (nw : option (list K)) (x : list vec) : list K := match nw with Some l => l | None => map (fun _ => f1) x end.
  Definition graph_samples (w : K) (nw : list K) (x : list vec) (c : cdc) : cdc := add_samples (gram x (weighted nw x)) (sumv (weighted nw x)) (fsum nw) w c.
  (** update_graph :675-743 *)
  Definition up_graph (w : K) (nw : option (list K)) (ew : option edges) (x : list vec) (c : cdc) : cdc * gres unit :=
    let n := length x in
    let nw := node_weights nw x in
    if negb (length nw =? n) then (c, GErr GTraining) else
    match ew with
    | None => (c, GErr GTraining)
    | Some (EArr r q W) =>
        if negb ((r =? n) && (q =? n)) then (c, GErr GTraining) else
        let prod1 := gram x (weighted nw x) in
        let prod2 : mtx := fun i j => fsumn n (fun b => fsumn n (fun a => row x a i * W a b)%of * row x b j)%of in
        (add_diffs (msub (mscale two prod1) (mscale two prod2)) (fsumn n (fun a => fsumn n (fun b => W a b))) w (graph_samples w nw x c), GOk tt)
    | Some (EDict l) =>
        let c := graph_samples w nw x c in
        match dict_diffs x l with None => (c, GErr GIndex) | Some (sd, nd) => (add_diffs sd nd w c, GOk tt) end
    end.
  (** update_graph_old :745-805; the array is turned into a dictionary without its zeros *)
  Definition feqb (a b : K) : bool := negb (fltb a b) && negb (fltb b a).
  Definition nonzero (n : nat) (W : mtx) : list ((nat * nat) * K) :=
    map (fun p : nat * nat => (p, W (fst p) (snd p))) (filter (fun p : nat * nat => negb (feqb (W (fst p) (snd p)) f0)) (list_prod (seq 0 n) (seq 0 n))).
  Definition up_graph_old (w : K) (nw : option (list K)) (ew : option edges) (x : list vec) (c : cdc) : cdc * gres unit :=
    let n := length x in
    let nw := node_weights nw x in
    if negb (length nw =? n) then (c, GErr GTraining) else
    match match ew with
          | None => None
          | Some (EArr r q W) => if (r =? n) && (q =? n) then Some (nonzero n W) else None
          | Some (EDict l) => Some l
          end with
    | None => (c, GErr GTraining)
    | Some l => let c := graph_samples w nw x c in
                match dict_diffs x l with None => (c, GErr GIndex) | Some (sd, nd) => (add_diffs sd nd w c, GOk tt) end
    end.

  (** * sliding windows *)
  Definition mirror (h : nat) (x : list vec) : list vec := rev (firstn h x) ++ x ++ rev (skipn (length x - h) x).
  Definition csum (x : list vec) (k : nat) : vec := sumv (firstn k x).            (* row k of b: zeros, then the cumulative sums *)
  (** the accumulation Aacc123: (i+1) times the product of row i for the first 2h rows, (end-i) times that of the last 2h rows (from row m on), and 2h+1 times that of the rows 2h..m-1 *)
  Definition aacc (h m : nat) (y : list vec) : mtx := fun i j =>
    (fsumn (2 * h) (fun k => fn (k + 1) * outer (row y k) i j) + fsumn (2 * h) (fun k => fn (m + 2 * h - (m + k)) * outer (row y (m + k)) i j)
     + fn (2 * h + 1) * gram (slice (2 * h) m y) (slice (2 * h) m y) i j)%of.
  (** the products of all differences of row k of z with rows k..k+2h of y, k < m: (2h+1) sum_prod_x_full + Aacc123 - Bprod - Bprod.T *)
  Definition window_products (h m : nat) (z y : list vec) : mtx :=
    let B := map (fun k => sub (csum y (2 * h + 1 + k)) (csum y k)) (seq 0 m) in
    fun i j => (fn (2 * h + 1) * gram z z i j + aacc h m y i j - gram z B i j - gram z B j i)%of.
  (** update_mirroring_sliding_window :807-855 *)
  Definition up_mirror (w : K) (h : nat) (x : list vec) (c : cdc) : cdc * gres unit :=
    let n := length x in
    if n <=? 2 * h then (c, GErr GTraining) else
    let c := up_unlabeled w x c in
    if h =? 0 then (c, GErr GValue) else
    (add_diffs (window_products h n x (mirror h x)) (fn n * fn (2 * h))%of w c, GOk tt).
  Definition diffs_of (x y : list vec) : list vec := map (fun p : vec * vec => sub (fst p) (snd p)) (combine x y).
  (** update_slow_mirroring_sliding_window :857-888; k is offset + width *)
  Definition up_smirror (w : K) (h : nat) (x : list vec) (c : cdc) : cdc * gres unit :=
    let n := length x in
    if n <=? 2 * h then (c, GErr GTraining) else
    let c := up_unlabeled w x c in
    if h =? 0 then (c, GErr GValue) else
    (fold_left (fun c k => if k =? h then c else let d := diffs_of (slice k (k + n) (mirror h x)) x in add_diffs (gram d d) (fn (length d)) w c) (seq 0 (2 * h + 1)) c, GOk tt).
  (** update_slow_truncating_sliding_window :890-917; rows width+offset .. width+n-1 of x_extended are rows offset..n-1 of x *)
  Definition up_truncating (w : K) (h : nat) (x : list vec) (c : cdc) : cdc * gres unit :=
    let n := length x in
    if n <=? 2 * h then (c, GErr GValue) else
    let c := up_unlabeled w x c in
    if h =? 0 then (c, GErr GValue) else
    (fold_left (fun c o => let d := diffs_of (skipn o x) (firstn (n - o) x) in add_diffs (mscale two (gram d d)) (two * (fn n - fn o))%of w c) (seq 1 h) c, GOk tt).
  (** x_sel: the first and the last width rows are scaled, :929-935, 995-1001 *)
  Definition wnode (h n k : nat) : K :=
    if k <? h then (fn (h + k) / fn (2 * h))%of else if n - h <=? k then (fn (2 * h - 1 - (k - (n - h))) / fn (2 * h))%of else f1.
  Definition x_sel (h : nat) (x : list vec) : list vec := weighted (map (wnode h (length x)) (seq 0 (length x))) x.
  (** :937-940, 1003-1006 *)
  Definition window_samples (w : K) (h : nat) (x : list vec) (c : cdc) : cdc :=
    add_samples (gram (x_sel h x) x) (sumv (x_sel h x)) (fn (length x) - (fn h / two - f1 / two))%of w c.
  Definition border (w : K) (x : list vec) (c : cdc) (p : list vec * vec) : cdc :=
    let d := map (fun v => sub v (snd p)) (fst p) in add_diffs (gram d d) (fn (length d) - 1)%of w c.
  (** update_fast_sliding_window :919-984 *)
  Definition up_fwindow (w : K) (h : nat) (x : list vec) (c : cdc) : cdc * gres unit :=
    let n := length x in
    if n <=? 2 * h then (c, GErr GValue) else
    if h =? 0 then (c, GErr GValue) else
    let c := window_samples w h x c in
    let c := fold_left (border w x) (map (fun i => (slice 0 (h + i + 1) x, row x i)) (seq 0 h)) c in
    let c := fold_left (border w x) (map (fun i => (slice (i - h) n x, row x i)) (seq (n - h) h)) c in
    (add_diffs (window_products h (n - 2 * h) (slice h (n - h) x) x) ((fn n - fn (2 * h)) * fn (2 * h))%of w c, GOk tt).
  (** update_sliding_window :986-1017 *)
  Definition up_window (w : K) (h : nat) (x : list vec) (c : cdc) : cdc * gres unit :=
    let n := length x in
    if n <=? 2 * h then (c, GErr GValue) else
    if h =? 0 then (c, GErr GValue) else
    (fold_left (fun c o => let d := diffs_of (skipn o x) (firstn (n - o) x) in add_diffs (gram d d) (fn (length d)) w c) (seq 1 h) (window_samples w h x c), GOk tt).

  (** * groups *)
  Definition block (b : nat) (x : list vec) (k : nat) : list vec := slice (k * b) ((k + 1) * b) x.
  Definition media (b : nat) (x : list vec) : list vec := map (fun k => vscale (f1 / fn b)%of (sumv (block b x k))) (seq 0 (length x / b)).
  (** update_clustered_homogeneous_block_sizes :1104-1150 *)
  Definition up_homog (w : K) (b : bsize) (loops : bool) (x : list vec) (c : cdc) : cdc * gres unit :=
    match b with
    | BNone => (c, GErr GTraining)
    | BList _ => (c, GErr GType)                                                   (* num_samples % block_size *)
    | BInt 0 => (c, GErr GZero)
    | BInt b =>
        if negb (length x mod b =? 0) then (c, GErr GValue) else
        let c := up_unlabeled w x c in
        let S : mtx := fun i j => (two * fn b * (gram x x i j - fn b * gram (media b x) (media b x) i j))%of in
        if loops then (add_diffs (fun i j => (S i j / fn b)%of) (fn (length x / b) * fn b)%of w c, GOk tt)
        else if b =? 1 then (c, GErr GNan)
        else (add_diffs (fun i j => (S i j / (fn b - 1))%of) (fn (length x / b) * fn b)%of w c, GOk tt)
    end.
  Fixpoint up_blocks (w : K) (loops : bool) (bs : list nat) (x : list vec) (c : cdc) : cdc * gres unit :=
    match bs with
    | [] => (c, GOk tt)
    | b :: bs => match up_homog w (BInt b) loops (firstn b x) c with (c, GErr e) => (c, GErr e) | (c, GOk _) => up_blocks w loops bs (skipn b x) c end
    end.
  (** update_clustered :1076-1102; the message of the ValueError cannot be made from a list: TypeError *)
  Definition up_clustered (w : K) (b : bsize) (loops : bool) (x : list vec) (c : cdc) : cdc * gres unit :=
    match b with
    | BInt _ => up_homog w b loops x c
    | BNone => (c, GErr GTraining)
    | BList l => if negb (length x =? list_sum l) then (c, GErr GType) else up_blocks w loops l x c
    end.
  (** update_serial :1020-1073 *)
  Definition serial_size (b : bsize) : gres nat :=
    match b with
    | BNone => GErr GTraining
    | BInt b => GOk b
    | BList [] => GErr GIndex
    | BList (b :: l) => if forallb (Nat.eqb b) l then GOk b else GErr GValue
    end.
  Definition up_serial (w : K) (bs : bsize) (x : list vec) (c : cdc) : cdc * gres unit :=
    match serial_size bs with
    | GErr e => (c, GErr e)
    | GOk 0 => (c, GErr GZero)
    | GOk b =>
        let n := length x in
        if negb (n mod b =? 0) then (c, GErr GValue) else
        let xp := slice b (n - b) x in
        let ini := firstn b x in
        let fin := skipn (n - b) x in
        let sx := vadd (vadd (sumv ini) (vscale two (sumv xp))) (sumv fin) in
        let sp := madd (madd (gram ini ini) (mscale two (gram xp xp))) (gram fin fin) in
        let c := add_samples sp sx (two * fn b + two * (fn n - two * fn b))%of w c in
        let m := media b x in
        let a := removelast m in
        let sd : mtx := fun i j => ((fn b * sp i j - fn b * fn b * (gram a (tl m) i j + gram (tl m) a i j)) * (f1 / fn b))%of in
        (add_diffs (mscale two sd) (two * (fn b * (fn (n / b) - 1)))%of w c, GOk tt)
    end.
  (** add_cov_dcov_matrix :1238-1256; the other matrix has seen samples and differences *)
  Definition add_cdc (o : cdc) (adding own : K) (c : cdc) : cdc * gres unit :=
    match c_x o, c_d o with
    | Some (s, p), Some d =>
        (mkC (Some (match c_x c with None => (vscale adding s, mscale adding p) | Some (s', p') => (vadd (vscale own s') (vscale adding s), madd (mscale own p') (mscale adding p)) end))
             (c_n c * own + c_n o * adding)%of
             (Some (match c_d c with None => mscale adding d | Some d' => madd (mscale own d') (mscale adding d) end))
             (c_nd c * own + c_nd o * adding)%of, GOk tt)
    | _, _ => (c, GErr GType)
    end.
  (** fix :1258-1294: (cov_mtx, avg, dcov_mtx) *)
  Definition cdc_fix (c : cdc) : gres (mtx * vec * mtx) :=
    if feqb (c_n c) f0 then GErr GZero else
    match c_x c, c_d c with
    | Some (s, p), Some d =>
        let avg := vscale (f1 / c_n c)%of s in
        if feqb (c_nd c) f0 then GErr GNan else
        GOk (fun i j => ((p i j - c_n c * (avg i * avg j)) / c_n c)%of, avg, fun i j => (d i j / c_nd c)%of)
    | _, _ => GErr GType
    end.

  (** * GSFANode *)
  (** train_mode :64-98, 120-460; labels of classification and regression are those of the samples *)
  Inductive mode := MNoneG | MUnlabeled | MRegular | MClustered | MSerial | MDual (k : nat) | MMixed | MWindow (h : nat) | MFWindow (h : nat) | MMirror (h : nat) | MSMirror (h : nat)
    | MGraph | MGraphOld | MSmart2 | MSmart3 | MIgnore | MClass (labels : list nat) (w : K) | MRegress (b : nat) (labels : list nat) (w : K) | MUnknown.
  Variable argsort : list nat -> list nat.          (* numx.argsort *)
  Variable vunl : K.                                 (* 2.0 ** (-9.5), the weight of unlabeled samples of smart_unlabeled3 *)
  (** x[ordering, :]; IndexError *)
  Definition take (x : list vec) (o : list nat) : option (list vec) := if forallb (fun k => k <? length x) o then Some (map (row x) o) else None.
  (** numx.unique *)
  Definition uniq (l : list nat) : list nat := filter (fun v => existsb (Nat.eqb v) l) (seq 0 (S (list_max l))).
  (** the samples regrouped for DualSerial, :187-193 *)
  Definition dual (b k : nat) (x : list vec) : list vec :=
    let n := length x in let db := n / k in let ch := b / k in
    map (fun p => let j := p / db in let r := p mod db in
                  if negb (ch =? 0) && (j <? k) && (r / ch <? n / b) then row x (r / ch * b + j * ch + r mod ch) else vzero) (seq 0 n).
  Definition bind (r : cdc * gres unit) (f : cdc -> cdc * gres unit) : cdc * gres unit := match r with (c, GErr e) => (c, GErr e) | (c, GOk _) => f c end.
  (** smart_unlabeled2 :244-328 *)
  Definition up_smart2 (x : list vec) (c : cdc) : cdc * gres unit :=
    match c_x c with
    | None => (c, GErr GAttribute)                                                 (* None.reshape *)
    | Some (sl, pl) =>
        let n2 := fn (length x) in
        let q := c_n c in
        if feqb (c_nd c) f0 then (c, GErr GZero) else
        let frac := (f1 / fn 5)%of in
        let w1 := (q / c_nd c * (f1 - frac))%of in
        match c_d c with
        | None => (c, GErr GType)
        | Some d =>
            let c := mkC (c_x c) (c_n c) (Some (mscale w1 d)) (c_nd c * w1)%of in
            let nw2 := (q * frac / n2)%of in
            if feqb q f0 then (c, GErr GZero) else
            let w12 := (nw2 / q)%of in
            let su := sumv x in let pu := gram x x in
            let c := add_samples pu su n2 nw2 c in
            let ad : mtx := fun i j => (pu i j * q - sl i * su j - su i * sl j + pl i j * n2)%of in
            let c := add_diffs (mscale two ad) (two * q * n2)%of w12 c in
            up_homog (- (f1 / fn 40))%of (BInt (length x)) true x c
        end
    end.
  (** smart_unlabeled3 :330-451.  sum_x_labeled is a view of sum_x (reshape), so the scaling of sum_x in place changes it, too; sum_prod_x_labeled is a copy *)
  Definition up_smart3 (x : list vec) (c : cdc) : cdc * gres unit :=
    match c_x c with
    | None => (c, GErr GAttribute)
    | Some (sl, pl) =>
        let n2 := fn (length x) in
        let n1 := c_n c in
        let vn := (vunl / fn 10)%of in let n1n := (n1 / fn 10)%of in
        let den1 := (n1n - 1 + vn * n2)%of in let den2 := (n1n + vn * (n2 - 1))%of in
        if feqb den1 f0 then (c, GErr GZero) else
        let adj := ((n1n - 1) / den1)%of in
        match c_d c with
        | None => (mkC (Some (vscale adj sl, mscale adj pl)) (c_n c * adj)%of None (c_nd c), GErr GType)
        | Some d =>
            let c := mkC (Some (vscale adj sl, mscale adj pl)) (c_n c * adj)%of (Some (mscale adj d)) (c_nd c * adj)%of in
            let slv := vscale adj sl in
            if feqb den2 f0 then (c, GErr GZero) else
            let w22 := (vn * vn / den2)%of in
            let su := sumv x in let pu := gram x x in
            let nwc2 := (w22 * (n2 - 1) * fn 10)%of in
            bind (up_homog nwc2 (BInt (length x)) true x c) (fun c =>
            let w12 := (vn * (f1 / den1 + f1 / den2))%of in
            let mixed : mtx := fun i j => (w12 * (n1 * pu i j - (slv i * su j + su i * slv j) + n2 * pl i j))%of in
            let c := add_diffs mixed (fn 10 * n1n * n2 * w12)%of f1 c in
            let c := add_samples pu su n2 (vunl - nwc2)%of c in
            (add_samples pl slv n1 (f1 - adj)%of c, GOk tt))
        end
    end.
  (** _train :64-460: one training mode *)
  Definition up_mode (m : mode) (b : bsize) (nw : option (list K)) (ew : option edges) (x : list vec) (c : cdc) : cdc * gres unit :=
    match m with
    | MNoneG | MRegular => (up_regular f1 x c, GOk tt)
    | MUnlabeled => (up_unlabeled f1 x c, GOk tt)
    | MClustered => up_clustered f1 b true x c
    | MSerial => up_serial f1 b x c
    | MDual k =>
        match b with
        | BInt (S b') =>
            let b := S b' in
            if k =? 0 then (c, GErr GZero) else
            bind (up_serial f1 (BInt b) x c) (up_serial f0 (BInt (length x / k)) (dual b k x))
        | BInt 0 => (c, GErr GZero)
        | _ => (c, GErr GType)
        end
    | MMixed =>
        match b with
        | BInt b =>
            bind (up_homog two (BInt b) true (firstn b x) c) (fun c =>
            bind (up_homog f1 (BInt b) true (slice b (length x - b) x) c) (fun c =>
            bind (up_homog two (BInt b) true (skipn (length x - b) x) c) (up_serial f1 (BInt b) x)))
        | BNone => (c, GErr GTraining)
        | BList _ => (c, GErr GType)
        end
    | MWindow h => up_window f1 h x c
    | MFWindow h => up_fwindow f1 h x c
    | MMirror h => up_mirror f1 h x c
    | MSMirror h => up_smirror f1 h x c
    | MGraph => up_graph f1 nw ew x c
    | MGraphOld => up_graph_old f1 nw ew x c
    | MSmart2 => up_smart2 x c
    | MSmart3 => up_smart3 x c
    | MIgnore => (c, GOk tt)
    | MClass labels w =>
        match take x (argsort labels) with
        | None => (c, GErr GIndex)
        | Some x2 => up_clustered w (BList (map (fun v => count_occ Nat.eq_dec labels v) (uniq labels))) true x2 c
        end
    | MRegress b labels w => match take x (argsort labels) with None => (c, GErr GIndex) | Some x2 => up_serial w (BInt b) x2 c end
    | MUnknown => (c, GErr GValue)
    end.
  (** serial_regression assigns to block_size, :141 *)
  Definition next_size (m : mode) (b : bsize) : bsize := match m with MRegress k _ _ => BInt k | _ => b end.
  Fixpoint up_modes (ms : list mode) (b : bsize) (nw : option (list K)) (ew : option edges) (x : list vec) (c : cdc) : cdc * gres unit :=
    match ms with [] => (c, GOk tt) | m :: ms => bind (up_mode m b nw ew x c) (up_modes ms (next_size m b) nw ew x) end.

  Variable dim : nat.                                                               (* input_dim *)
  Variable solver : option (Z * Z) -> mtx -> mtx -> solres K vec.                   (* mdp.utils.symeig *)
  (** fields: _output_dim, block_size, train_mode, verbose, _covdcovmtx, d, sf, avg, _bias, _train_phase_started, is_training() *)
  Record gsfa := mkG { g_out : option nat; g_bs : bsize; g_modes : list mode; g_verbose : bool; g_c : option cdc; g_d : list K; g_sf : list vec; g_avg : option vec; g_bias : list K;
                       g_started : bool; g_training : bool }.
  (** __init__ :41-62 *)
  Definition gsfa_new (out : option nat) (b : bsize) (ms : list mode) (verbose : bool) : gsfa := mkG out b ms verbose (Some cdc_new) [] [] None [] false true.
  (** arguments of train *)
  Record targs := mkT { t_x : list vec; t_bs : bsize; t_modes : option (list mode); t_nw : option (list K); t_ew : option edges }.
  Definition g_mid (s : gsfa) (c : option cdc) (avg : option vec) (out : option nat) (started : bool) : gsfa :=
    mkG out (g_bs s) (g_modes s) (g_verbose s) c (g_d s) (g_sf s) avg (g_bias s) started (g_training s).
  (** Node.train (mdp/signal_node.py:590-617) and _train :64-460 *)
  Definition g_train (s : gsfa) (a : targs) : gsfa * gres unit :=
    if negb (g_training s) then (s, GErr GFinished)
    else if length (t_x a) =? 0 then (s, GErr GNode)
    else
      match g_c s with
      | None => (g_mid s None (g_avg s) (g_out s) true, GErr GAttribute)
      | Some c =>
          let (c, r) := up_modes (match t_modes a with Some m => m | None => g_modes s end) (match t_bs a with BNone => g_bs s | b => b end) (t_nw a) (t_ew a) (t_x a) c in
          (g_mid s (Some c) (g_avg s) (g_out s) true, r)
      end.
  Fixpoint g_trains (s : gsfa) (l : list targs) : gsfa * gres unit :=
    match l with [] => (s, GOk tt) | a :: l => match g_train s a with (s, GErr e) => (s, GErr e) | (s, GOk _) => g_trains s l end end.
  (** Node.stop_training (mdp/signal_node.py:619-639), _stop_training :462-500 and _set_range :521-530; with verbose, self.dcov_mtx is read, which does not exist *)
  Definition g_stop (s : gsfa) (debug : bool) (verbose : option bool) : gsfa * gres unit :=
    if g_training s && negb (g_started s) then (s, GErr GTraining)
    else if negb (g_training s) then (s, GErr GFinished)
    else
      match g_c s with
      | None => (s, GErr GAttribute)
      | Some c =>
          match cdc_fix c with
          | GErr e => (s, GErr e)
          | GOk (cm, avg, dm) =>
              let s := g_mid s (g_c s) (Some avg) (g_out s) (g_started s) in
              if match verbose with Some v => v | None => g_verbose s end then (s, GErr GAttribute) else
              match match g_out s with
                    | Some k => if k <=? dim then Some (k, Some (1, Z.of_nat k)%Z) else None
                    | None => Some (dim, None)
                    end with
              | None => (s, GErr GInconsistent)
              | Some (out, rng) =>
                  let s := g_mid s (g_c s) (Some avg) (Some out) (g_started s) in
                  match solver rng dm cm with
                  | SolSymeig => (s, GErr GNode)
                  | SolIndex => (s, GErr GIndex)
                  | SolOk _ d u =>
                      let s := mkG (g_out s) (g_bs s) (g_modes s) (g_verbose s) (g_c s) d u (g_avg s) (g_bias s) (g_started s) (g_training s) in
                      if length d =? 0 then (s, GErr GValue)
                      else if existsb (fun a => fltb a f0) d then (s, GErr GNode)
                      else (mkG (g_out s) (g_bs s) (g_modes s) (g_verbose s) (if debug then g_c s else None) d u (Some avg) (map (fun v => dot dim avg v) u) false false, GOk tt)
                  end
              end
          end
      end.
  (** _execute :502-511 on one row of a trained node *)
  Definition g_execute (s : gsfa) (n : option Z) (x : vec) : list K :=
    map (fun p : vec * K => (dot dim x (fst p) - snd p)%of) (combine (upto n (g_sf s)) (upto n (g_bias s))).
End GSFA.

(** graph_delta_values :537-548: one value per column; edges given as a dictionary *)
Definition graph_delta_values {K : ofield} (y : list (list K)) (ew : list ((nat * nat) * K)) (k : nat) : K :=
  let out p := nth k (nth p y []) f0 in
  (fsum (map (fun e : (nat * nat) * K => snd e * ((out (snd (fst e)) - out (fst (fst e))) * (out (snd (fst e)) - out (fst (fst e)))))%of ew) / fsum (map snd ew))%of.
Arguments MNoneG {K}. Arguments MUnlabeled {K}. Arguments MRegular {K}. Arguments MClustered {K}. Arguments MSerial {K}. Arguments MDual {K}. Arguments MMixed {K}.
Arguments MWindow {K}. Arguments MFWindow {K}. Arguments MMirror {K}. Arguments MSMirror {K}. Arguments MGraph {K}. Arguments MGraphOld {K}. Arguments MSmart2 {K}. Arguments MSmart3 {K}.
Arguments MIgnore {K}. Arguments MUnknown {K}.
