(** Model of mdp/nodes/pca_nodes_online.py (CCIPCANode, CCIPCAWhiteningNode), mdp/nodes/mca_nodes_online.py (MCANode) and mdp/nodes/sfa_nodes_online.py
    (IncSFANode), with the parts of OnlineNode (mdp/signal_node_online.py) they go through.

    Numbers are elements of an ordered field, [sq] is the square root.  A vector is a function from indices to numbers, a matrix the list of its columns; an
    array of samples is its number of columns and the list of its rows.  What numpy computes after a division by a zero norm (nan, a warning but no exception)
    is not followed: such a call returns [XNan].  (MCANode without normalization: the division by l only touches the matrix for the next components.)
    Data types, the shape of a sample (rank 2 assumed), stop_training and the end of the training phase are left out; they are in OnlineModel.
    The random matrices 0.1 * randn(...) are arguments. *)
From Coq Require Import List Arith Bool.
From Verif Require Import OField LinAlg.
Import ListNotations.
Open Scope nat_scope.

Inductive exn := XNode | XDim | XAssert | XType | XValue | XAttr | XTrain | XZero | XNan.
(** the state after a call and the exception it ended with *)
Definition out (S : Type) := (S * option exn)%type.

Section Inc.
  Context {K : ofield}.
  Variable sq : K -> K.
  Notation vec := (vec (K := K)). Notation mtx := (mtx (K := K)).
  Definition iszero (a : K) : bool := negb (fltb a f0) && negb (fltb f0 a).
  (** an array of n entries *)
  Definition tab (n : nat) (v : vec) : vec := let l := map v (seq 0 n) in fun i => nth i l f0.
  Definition norm (n : nat) (v : vec) : K := sq (dot n v v).
  (** mult(V, W) for V with the columns vs *)
  Definition mult (n : nat) (vs ws : list vec) : list vec := map (fun w => tab n (fun i => fsumn (length vs) (fun k => (nth k vs vzero i * w k)%of))) ws.

  (** ** CCIPCANode, CCIPCAWhiteningNode

      The arrays self.v was ever bound to, the last one is self.v (get_projmatrix hands it out): [l_old] and [l_v].  [l_u], [l_d]: _v and d. *)
  Record live := mkLive { l_u : list vec; l_d : list K; l_old : list (list vec); l_v : list vec }.
  (** amn_params, var_rel, _input_dim, _output_dim, _init_v (number of rows and columns), _v, v and d (None until they are set), _var_tot, _reduced_dims,
      _train_iteration, _train_phase_started, training type (true: 'batch') *)
  Record pca := mkP { p_amn : K * K * K * K; p_rel : K; p_in : option nat; p_out : option nat; p_init : option (nat * list vec); p_live : option live;
                      p_tot : K; p_red : option nat; p_iter : nat; p_started : bool; p_batch : bool }.
  (** __init__ pca_nodes_online.py:27-74; init_eigen_vectors goes to _init_v, not through the setter *)
  Definition pca_new (amn : K * K * K * K) (iv : option (nat * list vec)) (rel : K) (din dout : option nat) : pca :=
    mkP amn rel din dout iv None f1 dout 0 false false.

  (** _amnesic :125-141 *)
  Definition amnesic (a : K * K * K * K) (k : nat) : option (K * K) :=
    let '(n1, n2, m, c) := a in
    let i := fn (k + 1) in
    let w l := Some ((i - f1 - l) / i, (f1 + l) / i)%of in
    if fltb i n1 then w f0
    else if fltb i n2 then w (c * (i - n1) / (n2 - n1))%of
    else if iszero m then None else w (c + (i - n2) / m)%of.

  (** the checks of the setters of init_eigen_vectors *)
  Definition agree (a : option nat) (k : nat) : bool := match a with None => true | Some n => n =? k end.
  (** v / d, columnwise *)
  Definition over (n : nat) (v : vec) (d : K) : vec := tab n (fun i => (v i / d)%of).
  (** the setter of init_eigen_vectors :85-111, in the order of the assignments; a matrix is its number of rows and its columns *)
  Definition p_set_init (M : nat * list vec) (s : pca) : out pca :=
    let (k, cols) := M in
    let mk di do_ li := mkP (p_amn s) (p_rel s) di do_ (Some M) li (p_tot s) (p_red s) (p_iter s) (p_started s) (p_batch s) in
    if negb (agree (p_in s) k) then (mk (p_in s) (p_out s) (p_live s), Some XAssert) else
    if negb (agree (p_out s) (length cols)) then (mk (Some k) (p_out s) (p_live s), Some XAssert) else
    match p_live s with
    | Some l => (mk (Some k) (Some (length cols)) (Some l), None)
    | None =>
        if existsb (fun c => iszero (norm k c)) cols then (mk (Some k) (Some (length cols)) None, Some XNan) else
        let d := map (norm k) cols in
        (mk (Some k) (Some (length cols)) (Some (mkLive cols d [] (map (fun p => over k (fst p) (snd p)) (combine cols d)))), None)
    end.

  (** the loop of _train :155-173 on the residual r, without the bookkeeping of red_j: the new _v, v and d *)
  Fixpoint comps (n : nat) (w1 w2 : K) (r : vec) (us : list vec) (ds : list K) : option (list vec * list vec * list K) :=
    match us, ds with
    | u :: us, d :: ds =>
        let y := (w2 * dot n r u / d)%of in
        let v := tab n (fun i => w1 * u i + y * r i)%of in
        let d' := norm n v in
        if iszero d' then None else
        let vn := over n v d' in
        let z := dot n r vn in
        let r' := tab n (fun i => r i - z * vn i)%of in
        match comps n w1 w2 r' us ds with
        | Some (vs, vns, es) => Some (v :: vs, vn :: vns, d' :: es)
        | None => None
        end
    | _, _ => Some ([], [], [])
    end.
  (** red_j :150-152, 163-169: explained_var so far, j *)
  Fixpoint reduce (rel tot acc : K) (j : nat) (ds : list K) : nat :=
    match ds with [] => j | d :: ds => if fltb rel ((acc + d) / tot)%of then j else reduce rel tot (acc + d)%of (S j) ds end.

  (** _train :143-176 and, for [white], CCIPCAWhiteningNode._train :284-291; x is the list of rows.  With more than one row the shapes do not fit: (m, 1) times
      (n, m) is refused, or for m = n the (n, n) result does not fit into the column _v[:, j:j + 1].  (A node with output_dim 0 is not followed.) *)
  Definition p_train_ (white : bool) (x : list vec) (s : pca) : out pca :=
    match amnesic (p_amn s) (p_iter s + 1) with
    | None => (s, Some XZero)
    | Some (w1, w2) =>
        match p_out s, p_live s with
        | None, _ | _, None => (s, Some XType)
        | Some o, Some l =>
            match x, p_in s with
            | [r], Some n =>
                match comps n w1 w2 r (l_u l) (l_d l) with
                | None => (s, Some XNan)
                | Some (us, vns, ds) =>
                    let l' := if white then mkLive us ds (l_old l ++ [vns]) (map (fun p => over n (fst p) (sq (snd p))) (combine vns ds))
                              else mkLive us ds (l_old l) vns in
                    (mkP (p_amn s) (p_rel s) (p_in s) (p_out s) (p_init s) (Some l') (fsum ds) (Some (reduce (p_rel s) (p_tot s) f0 0 ds))
                       (p_iter s) (p_started s) (p_batch s), None)
                end
            | _, _ => (s, Some XValue)
            end
        end
    end.

  Definition p_count (k : nat) (s : pca) : pca :=
    mkP (p_amn s) (p_rel s) (p_in s) (p_out s) (p_init s) (p_live s) (p_tot s) (p_red s) (p_iter s + k) (p_started s) (p_batch s).
  (** _check_input (signal_node.py:469-491): x has w columns and m rows *)
  Definition p_check_input (w m : nat) (s : pca) : out pca :=
    let s' := mkP (p_amn s) (p_rel s) (match p_in s with None => Some w | d => d end) (p_out s) (p_init s) (p_live s) (p_tot s) (p_red s) (p_iter s) (p_started s) (p_batch s) in
    (s', if agree (p_in s) w && negb (m =? 0) then None else Some XNode).
  (** _check_params :113-124; [rnd rows columns]: the random matrix *)
  Definition p_check_params (rnd : nat -> nat -> list vec) (s : pca) : out pca :=
    match p_init s with
    | Some _ => (s, None)
    | None => let n := match p_in s with Some n => n | None => 0 end in
              p_set_init (n, rnd n (match p_out s with Some o => o | None => n end)) s
    end.
  Definition bnd {S} (r : out S) (f : S -> out S) : out S := match r with (s, None) => f s | (s, Some e) => (s, Some e) end.
  Fixpoint each {S A} (f : A -> S -> out S) (l : list A) (s : S) : out S := match l with [] => (s, None) | a :: l => bnd (f a s) (each f l) end.

  Section Pca.
    Variable rnd : nat -> nat -> list vec.
    Variable white : bool.
    Definition p_checks (w m : nat) (s : pca) : out pca := bnd (p_check_input w m s) (p_check_params rnd).
    (** OnlineNode.train (signal_node_online.py:240-286) *)
    Definition p_train (w : nat) (x : list vec) (s : pca) : out pca :=
      bnd (p_checks w (length x) s) (fun s =>
        let s := mkP (p_amn s) (p_rel s) (p_in s) (p_out s) (p_init s) (p_live s) (p_tot s) (p_red s) (p_iter s) true (p_batch s) in
        if p_batch s then bnd (p_train_ white x s) (fun s => (p_count (length x) s, None))
        else each (fun r s => bnd (p_train_ white [r] s) (fun s => (p_count 1 s, None))) x s).
    (** _execute :215-230 *)
    Definition p_execute_ (x : list vec) (k : option nat) (s : pca) : list (list K) + exn :=
      match p_live s, p_in s with
      | Some l, Some n => inl (map (fun r => map (fun c => dot n r c) (match k with Some k => firstn k (l_v l) | None => l_v l end)) x)
      | _, _ => inr XType
      end.
    (** OnlineNode._pre_execution_checks (signal_node_online.py:177-193) *)
    Definition p_pre (w : nat) (x : list vec) (s : pca) : out pca :=
      bnd (if p_started s then (s, None) else p_train w x s) (fun s =>
      bnd (p_checks w (length x) s) (fun s =>
        (mkP (p_amn s) (p_rel s) (p_in s) (match p_out s with None => p_in s | o => o end) (p_init s) (p_live s) (p_tot s) (p_red s) (p_iter s) (p_started s) (p_batch s), None))).
    Definition p_execute (w : nat) (x : list vec) (k : option nat) (s : pca) : pca * (list (list K) + exn) :=
      match p_pre w x s with (s, None) => (s, p_execute_ x k s) | (s, Some e) => (s, inr e) end.
    (** get_recmatrix :205-213, 301-315: the rows of the transposed matrix *)
    Definition p_rec (s : pca) : list vec :=
      match p_live s with
      | None => []
      | Some l => if white then map (fun p i => (fst p i * snd p)%of) (combine (l_v l) (l_d l)) else l_v l
      end.
    (** _inverse :232-255 for y with output_dim columns (_check_output) *)
    Definition p_inverse_ (y : list K) (s : pca) : vec := fun i => fsum (map (fun p => (fst p * snd p i)%of) (combine y (p_rec s))).
    (** CCIPCAWhiteningNode.get_eigenvectors :293-299 *)
    Definition p_eigenvectors (s : pca) : list vec :=
      match p_live s with None => [] | Some l => map (fun p i => (sq (snd p) * fst p i)%of) (combine (l_v l) (l_d l)) end.
    (** get_projmatrix :195-203 hands out the array (or a view of it): its number; its content at any later time *)
    Definition p_proj (s : pca) : option nat := option_map (fun l => length (l_old l)) (p_live s).
    Definition p_deref (s : pca) (k : nat) : option (list vec) :=
      match p_live s with None => None | Some l => nth_error (l_old l ++ [l_v l]) k end.
  End Pca.
  (** get_reduced_dimsensionality :187-193, get_var_tot :178-185 are [p_red] and [p_tot] *)

  (** ** MCANode *)
  Record mca := mkM { m_eps : K; m_gamma : K; m_norm : bool; m_in : option nat; m_out : option nat; m_init : option (nat * list vec);
                      m_live : option (list vec * list K); m_iter : nat; m_started : bool; m_batch : bool }.
  (** __init__ mca_nodes_online.py:28-67 *)
  Definition mca_new (eps gamma : K) (nrm : bool) (iv : option (nat * list vec)) (din dout : option nat) : mca :=
    mkM eps gamma nrm din dout iv None 0 false false.
  (** the setter :77-105 *)
  Definition m_set_init (M : nat * list vec) (s : mca) : out mca :=
    let (k, cols) := M in
    let mk di do_ li := mkM (m_eps s) (m_gamma s) (m_norm s) di do_ (Some M) li (m_iter s) (m_started s) (m_batch s) in
    if negb (agree (m_in s) k) then (mk (m_in s) (m_out s) (m_live s), Some XAssert) else
    if negb (agree (m_out s) (length cols)) then (mk (Some k) (m_out s) (m_live s), Some XAssert) else
    (mk (Some k) (Some (length cols)) (match m_live s with Some l => Some l | None => Some (cols, map (norm k) cols) end), None).
  Definition m_check_params (rnd : nat -> nat -> list vec) (s : mca) : out mca :=
    match m_init s with
    | Some _ => (s, None)
    | None => let n := match m_in s with Some n => n | None => 0 end in
              m_set_init (n, rnd n (match m_out s with Some o => o | None => n end)) s
    end.
  (** mult(x.T, x) *)
  Definition gram (x : list vec) : mtx := fun i j => fsum (map (fun r => (r i * r j)%of) x).
  Definition three_halves : K := (fn 3 / fn 2)%of.
  Definition six_fifths : K := (fn 6 / fn 5)%of.
  (** the loop of _train :118-134 from component j on, with the matrix c *)
  Fixpoint mcols (n : nat) (eps gamma : K) (nrm : bool) (c : mtx) (j : nat) (vs : list vec) (ds : list K) : option (list vec * list K) :=
    match vs, ds with
    | v :: vs, d :: ds =>
        let h := (eps / (f1 + fn j * six_fifths))%of in
        let f := (if nrm then three_halves - h else three_halves - h * (d * d))%of in
        let v' := tab n (fun i => f * v i - h * mulv n c v i)%of in
        let l := dot n v' v' in
        if iszero l then None else
        let c' : mtx := fun i k => (c i k + gamma * (v' i * v' k) / l)%of in
        let d' := sq l in
        match mcols n eps gamma nrm c' (S j) vs ds with
        | Some (ws, es) => Some ((if nrm then over n v' d' else v') :: ws, d' :: es)
        | None => None
        end
    | _, _ => Some ([], [])
    end.
  (** _train :115-134; any number of rows *)
  Definition m_train_ (x : list vec) (s : mca) : out mca :=
    match m_out s, m_live s, m_in s with
    | Some o, Some (vs, ds), Some n =>
        match mcols n (m_eps s) (m_gamma s) (m_norm s) (gram x) 0 vs ds with
        | None => (s, Some XNan)
        | Some l => (mkM (m_eps s) (m_gamma s) (m_norm s) (m_in s) (m_out s) (m_init s) (Some l) (m_iter s) (m_started s) (m_batch s), None)
        end
    | _, _, _ => (s, Some XType)
    end.
  Definition m_count (k : nat) (s : mca) : mca :=
    mkM (m_eps s) (m_gamma s) (m_norm s) (m_in s) (m_out s) (m_init s) (m_live s) (m_iter s + k) (m_started s) (m_batch s).
  Definition m_check_input (w m : nat) (s : mca) : out mca :=
    let s' := mkM (m_eps s) (m_gamma s) (m_norm s) (match m_in s with None => Some w | d => d end) (m_out s) (m_init s) (m_live s) (m_iter s) (m_started s) (m_batch s) in
    (s', if agree (m_in s) w && negb (m =? 0) then None else Some XNode).
  Definition m_checks (rnd : nat -> nat -> list vec) (w m : nat) (s : mca) : out mca := bnd (m_check_input w m s) (m_check_params rnd).
  Definition m_train (rnd : nat -> nat -> list vec) (w : nat) (x : list vec) (s : mca) : out mca :=
    bnd (m_checks rnd w (length x) s) (fun s =>
      let s := mkM (m_eps s) (m_gamma s) (m_norm s) (m_in s) (m_out s) (m_init s) (m_live s) (m_iter s) true (m_batch s) in
      if m_batch s then bnd (m_train_ x s) (fun s => (m_count (length x) s, None))
      else each (fun r s => bnd (m_train_ [r] s) (fun s => (m_count 1 s, None))) x s).
  Definition m_execute_ (x : list vec) (s : mca) : list (list K) + exn :=
    match m_live s, m_in s with Some l, Some n => inl (map (fun r => map (fun c => dot n r c) (fst l)) x) | _, _ => inr XType end.

  (** ** OnlineCenteringNode as used by IncSFANode (stats_nodes_online.py:4-91; StatsOnlineModel has it over the rationals): avg_n, the input dimension, avg,
      _train_iteration, _train_phase_started *)
  Record cent := mkC { c_n : option nat; c_dim : option nat; c_avg : option vec; c_iter : nat; c_started : bool }.
  Definition cent_alpha (s : cent) : K :=
    (match c_n s with None => f1 / (fn (c_iter s) + f1) | Some k => if (0 <? c_iter s)%nat then fn 2 / fn (k + 1) else f1 end)%of.
  (** _train :57-64 and the count of the iteration *)
  Definition c_step (n : nat) (r : vec) (s : cent) : out cent :=
    match c_avg s with
    | None => (s, Some XType)
    | Some a => let al := cent_alpha s in
                (mkC (c_n s) (c_dim s) (Some (tab n (fun i => (f1 - al) * a i + al * r i)%of)) (c_iter s + 1) (c_started s), None)
    end.
  Definition c_checks (w m : nat) (s : cent) : out cent :=
    if agree (c_dim s) w && negb (m =? 0) then (mkC (c_n s) (Some w) (match c_avg s with None => Some (tab w vzero) | a => a end) (c_iter s) (c_started s), None)
    else (mkC (c_n s) (match c_dim s with None => Some w | d => d end) (c_avg s) (c_iter s) (c_started s), Some XNode).
  (** _execute :66-77 *)
  Definition c_execute_ (n : nat) (x : list vec) (s : cent) : list vec :=
    if c_iter s <=? 1 then x else map (fun r : vec => tab n (fun i => r i - match c_avg s with Some a => a i | None => f0 end)%of) x.
  (** execute: trains first if the training has not started *)
  Definition c_pre (w : nat) (x : list vec) (s : cent) : out cent :=
    bnd (if c_started s then (s, None)
         else bnd (c_checks w (length x) s) (fun s => each (c_step w) x (mkC (c_n s) (c_dim s) (c_avg s) (c_iter s) true)))
        (c_checks w (length x)).

  (** ** OnlineTimeDiffNode (stats_nodes_online.py:119-194): x_prev and x_cur *)
  Definition td := option (list vec * list vec).
  Definition td_check (m : nat) (s : td) : td := match s with None => Some (repeat vzero m, repeat vzero m) | _ => s end.
  Definition td_step (r : vec) (s : td) : td := Some (match s with Some (_, cur) => cur | None => [] end, [r]).
  Fixpoint diffs (n : nat) (l : list vec) : list vec :=
    match l with a :: (b :: _) as r => tab n (fun i => b i - a i)%of :: diffs n r | _ => [] end.
  Definition td_exec (n : nat) (r : vec) (s : td) : list vec := match s with Some (prev, _) => diffs n (prev ++ [r]) | None => [] end.

  (** ** IncSFANode: avgnode (None: the attribute does not exist, remove_mean is False), whiteningnode, tdiffnode, mcanode, _input_dim, _output_dim, _new_episode, _init_sf,
      sf, sf_change, wv, _train_iteration, _train_phase_started, training type *)
  Record isfa := mkI { i_avg : option cent; i_w : pca; i_td : td; i_mca : mca; i_in : option nat; i_out : option nat; i_ep : option bool;
                       i_init : option (list vec); i_sf : option (list vec); i_change : option K; i_wv : option nat; i_iter : nat; i_started : bool; i_batch : bool }.
  (** __init__ sfa_nodes_online.py:29-92 *)
  Definition isfa_new (eps : K) (wdim : option nat) (rm : bool) (avg_n : option nat) (amn : K * K * K * K) (ipca imca : option (nat * list vec))
      (din dout : option nat) : isfa :=
    mkI (if rm then Some (mkC avg_n None None 0 false) else None) (pca_new amn ipca f1 din wdim) None (mca_new eps f1 true imca wdim dout)
      din dout None None None (Some f0) None 0 false false.
  Definition set_avg (s : isfa) (a : cent) : isfa := mkI (Some a) (i_w s) (i_td s) (i_mca s) (i_in s) (i_out s) (i_ep s) (i_init s) (i_sf s) (i_change s) (i_wv s) (i_iter s) (i_started s) (i_batch s).
  Definition set_w (s : isfa) (w : pca) : isfa := mkI (i_avg s) w (i_td s) (i_mca s) (i_in s) (i_out s) (i_ep s) (i_init s) (i_sf s) (i_change s) (i_wv s) (i_iter s) (i_started s) (i_batch s).
  Definition set_td (s : isfa) (t : td) : isfa := mkI (i_avg s) (i_w s) t (i_mca s) (i_in s) (i_out s) (i_ep s) (i_init s) (i_sf s) (i_change s) (i_wv s) (i_iter s) (i_started s) (i_batch s).
  Definition set_mca (s : isfa) (m : mca) : isfa := mkI (i_avg s) (i_w s) (i_td s) m (i_in s) (i_out s) (i_ep s) (i_init s) (i_sf s) (i_change s) (i_wv s) (i_iter s) (i_started s) (i_batch s).
  Definition set_dims (s : isfa) (di do_ : option nat) : isfa := mkI (i_avg s) (i_w s) (i_td s) (i_mca s) di do_ (i_ep s) (i_init s) (i_sf s) (i_change s) (i_wv s) (i_iter s) (i_started s) (i_batch s).
  Definition set_ep (s : isfa) (e : option bool) : isfa := mkI (i_avg s) (i_w s) (i_td s) (i_mca s) (i_in s) (i_out s) e (i_init s) (i_sf s) (i_change s) (i_wv s) (i_iter s) (i_started s) (i_batch s).
  Definition set_sf (s : isfa) (i f : option (list vec)) : isfa := mkI (i_avg s) (i_w s) (i_td s) (i_mca s) (i_in s) (i_out s) (i_ep s) i f (i_change s) (i_wv s) (i_iter s) (i_started s) (i_batch s).
  Definition set_res (s : isfa) (c : option K) (v : option nat) : isfa := mkI (i_avg s) (i_w s) (i_td s) (i_mca s) (i_in s) (i_out s) (i_ep s) (i_init s) (i_sf s) c v (i_iter s) (i_started s) (i_batch s).
  Definition set_run (s : isfa) (k : nat) (b : bool) : isfa := mkI (i_avg s) (i_w s) (i_td s) (i_mca s) (i_in s) (i_out s) (i_ep s) (i_init s) (i_sf s) (i_change s) (i_wv s) k b (i_batch s).
  (** the effect of a call on a part *)
  Definition on {S T} (put : T -> S) (r : out T) : out S := (put (fst r), snd r).

  Section Isfa.
    Variable rnd : nat -> nat -> nat -> list vec.   (* the first and the second random matrix *)

    (** _check_input: input_dim also goes to the whitening node, which can refuse it (_set_input_dim :94-96) *)
    Definition i_check_input (w m : nat) (s : isfa) : out isfa :=
      match i_in s with
      | Some n => (s, if (n =? w) && negb (m =? 0) then None else Some XNode)
      | None =>
          let s := set_dims s (Some w) (i_out s) in
          if negb (agree (p_in (i_w s)) w) then (s, Some XDim) else
          let p := i_w s in
          (set_w s (mkP (p_amn p) (p_rel p) (Some w) (p_out p) (p_init p) (p_live p) (p_tot p) (p_red p) (p_iter p) (p_started p) (p_batch p)),
           if m =? 0 then Some XNode else None)
      end.
    (** _check_params :144-157, the part under _init_sf is None *)
    Definition i_setup (w : nat) (x : list vec) (s : isfa) : out isfa :=
      match i_avg s with
      | None => (s, Some XAttr)
      | Some a =>
          bnd (on (set_avg s) (bnd (c_checks w (length x) a) (c_pre w x))) (fun s =>
          let x := match i_avg s with Some a => c_execute_ w x a | None => x end in
          bnd (on (set_w s) (bnd (p_checks (rnd 0) w (length x) (i_w s)) (p_pre (rnd 0) true w x))) (fun s =>
          match p_execute_ x None (i_w s) with
          | inr e => (s, Some e)
          | inl y =>
              let s := set_td s (td_check (length x) (i_td s)) in
              let q := match p_live (i_w s) with Some l => length (l_v l) | None => 0 end in
              bnd (on (set_mca s) (m_checks (rnd 1) q (length x) (i_mca s))) (fun s =>
              match p_init (i_w s), m_init (i_mca s) with
              | Some (_, u), Some (k, v) =>
                  if negb (length u =? k) then (s, Some XValue) else
                  let sf := mult w u v in
                  let s := set_sf s (Some sf) (Some sf) in
                  (match i_out s with None => set_dims s (i_in s) (m_out (i_mca s)) | Some _ => s end, None)
              | _, _ => (s, Some XType)
              end)
          end))
      end.
    (** the flag :159-162 *)
    Definition i_flag (s : isfa) : isfa := set_ep s (match i_ep s with None => Some true | Some true => Some false | e => e end).
    Definition i_check_params (w : nat) (x : list vec) (s : isfa) : out isfa :=
      bnd (match i_init s with None => i_setup w x s | Some _ => (s, None) end) (fun s => (i_flag s, None)).

    (** norm(sf - self.sf) *)
    Definition sf_dist (n : nat) (a b : list vec) : K := sq (fsum (map (fun p => dot n (fun i => fst p i - snd p i)%of (fun i => fst p i - snd p i)%of) (combine a b))).
    (** _step_train :181-201; also returns sf_change (None: nothing) *)
    Definition i_step (n : nat) (r : vec) (s : isfa) : out isfa * option K :=
      let start := match i_avg s with
                   | Some a => on (set_avg s) (c_step n r a)
                   | None => (s, None) end in
      match start with
      | (s, Some e) => ((s, Some e), None)
      | (s, None) =>
          let r := match i_avg s with Some a => hd r (c_execute_ n [r] a) | None => r end in
          match on (set_w s) (bnd (p_train_ true [r] (i_w s)) (fun p => (p_count 1 p, None))) with
          | (s, Some e) => ((s, Some e), None)
          | (s, None) =>
              match p_live (i_w s) with
              | None => ((s, Some XType), None)
              | Some l =>
                  let q := length (l_v l) in
                  let y := tab q (fun k => dot n r (nth k (l_v l) vzero)) in
                  let s := set_td s (td_step y (i_td s)) in
                  match i_ep s with
                  | Some true => ((s, None), None)
                  | _ =>
                      let dx := td_exec q y (i_td s) in
                      match on (set_mca s) (bnd (m_train_ dx (i_mca s)) (fun m => (m_count (length dx) m, None))) with
                      | (s, Some e) => ((s, Some e), None)
                      | (s, None) =>
                          match m_live (i_mca s), i_sf s with
                          | Some (v, _), Some old => let sf := mult n (l_v l) v in ((set_sf s (i_init s) (Some sf), None), Some (sf_dist n sf old))
                          | _, _ => ((s, Some XType), None)
                          end
                      end
                  end
              end
          end
      end.
    (** the loop of _train in batch mode :211-215 *)
    Fixpoint i_steps (n : nat) (x : list vec) (s : isfa) (ch : option K) : out isfa * option K :=
      match x with
      | [] => ((s, None), ch)
      | r :: x => match i_step n r s with ((s, None), ch) => i_steps n x (set_ep s (Some false)) ch | ((s, Some e), ch) => ((s, Some e), ch) end
      end.
    (** the end of _train :221-222 *)
    Definition i_end (r : out isfa * option K) : out isfa :=
      match r with ((s, None), ch) => (set_res s ch (p_proj (i_w s)), None) | ((s, Some e), _) => (s, Some e) end.
    (** _train :203-222 *)
    Definition i_train_ (n : nat) (x : list vec) (ep : option bool) (s : isfa) : out isfa :=
      if i_batch s then i_end (i_steps n x (set_ep s (Some true)) (Some f0))
      else let s := match ep with Some b => set_ep s (Some b) | None => s end in
           match x with [r] => i_end (i_step n r s) | _ => (s, Some XValue) end.
    (** OnlineNode.train with the check of _check_train_args :174-179 *)
    Definition i_train (w : nat) (x : list vec) (ep : option bool) (s : isfa) : out isfa :=
      bnd (i_check_input w (length x) s) (fun s =>
      if i_batch s && (length x <? 2) then (s, Some XTrain) else
      bnd (i_check_params w x s) (fun s =>
      let s := set_run s (i_iter s) true in
      if i_batch s then bnd (i_train_ w x ep s) (fun s => (set_run s (i_iter s + length x) true, None))
      else each (fun r s => bnd (i_train_ w [r] ep s) (fun s => (set_run s (i_iter s + 1) true, None))) x s)).
    (** _execute :224-231 and the checks before it *)
    Definition i_execute_ (n : nat) (x : list vec) (s : isfa) : list (list K) + exn :=
      match i_sf s with
      | None => inr XType
      | Some sf => let x := match i_avg s with Some a => c_execute_ n x a | None => x end in
                   inl (map (fun r => map (fun c => dot n r c) sf) x)
      end.
    Definition i_pre (w : nat) (x : list vec) (s : isfa) : out isfa :=
      bnd (if i_started s then (s, None) else i_train w x None s) (fun s =>
      bnd (i_check_input w (length x) s) (fun s => i_check_params w x s)).
    Definition i_execute (w : nat) (x : list vec) (s : isfa) : isfa * (list (list K) + exn) :=
      match i_pre w x s with (s, None) => (s, i_execute_ w x s) | (s, Some e) => (s, inr e) end.
    (** _inverse :233-238; [P]: the rows of pinv(sf) *)
    Definition i_inverse_ (P : list vec) (y : list K) (s : isfa) : vec + exn :=
      match i_avg s with
      | None => inr XAttr
      | Some a => match c_avg a with
                  | None => inr XType
                  | Some av => inl (fun i => fsum (map (fun p => (fst p * snd p i)%of) (combine y P)) + av i)%of
                  end
      end.
  End Isfa.
End Inc.
