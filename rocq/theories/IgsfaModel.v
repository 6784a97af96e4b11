(** Model of mdp/nodes/gsfa_nodes.py: iGSFANode, SFANode_reduce_output_dim and PCANode_reduce_output_dim.

    The nodes inside are the models of GSFANode ([gsfa]) and PCANode ([pca]); the linear regression, the QR decomposition and pinv are parameters.  Exact arithmetic over an
    ordered field; a data array is the list of its rows, a row a function from the column to the entry; the input dimension is fixed, data have it.  The expansion node is
    a function on rows with its output dimension; the node before the expansion is a function from the data to a function on rows ([None]: it raises).
    A division of an array by zero gives nan, which is not followed: the value of the field is arbitrary there, except for [p_expl] (None).
    Multiple training keeps the state after an exception, but num_sfa_features_preserved is only assigned if it is accepted; a training in one batch that raises leaves only
    x_mean and output_dim (the next call of train assigns all other attributes anew).
    Not modelled: negative integers as delta_threshold, max_length_slow_part = 0, printing, nonlinear_inverse (:1876-1928), dtypes. *)
From Coq Require Import List Arith ZArith Bool.
From Verif Require Import OField LinAlg PCAModel SymeigModel SFAModel GSFAModel.
Import ListNotations.
Open Scope nat_scope.

(** NodeException, TrainingException, TrainingFinishedException, AttributeError, ValueError, an exception of the GSFANode, of the PCANode, of the node before the expansion *)
Inductive ierr := INode | ITraining | IFinished | IAttribute | IValue | ISfa (e : gerr) | IPca (e : perr) | IPre.
Inductive ires (T : Type) := IOk (v : T) | IErr (e : ierr).
Arguments IOk {T}. Arguments IErr {T}.
(** slow_feature_scaling_method: None, "data_dependent", "sensitivity_based", "QR_decomposition", anything else *)
Inductive scaling := ScNone | ScData | ScSens | ScQR | ScOther.

Section Igsfa.
  Context {K : ofield}.
  Notation vec := (vec (K := K)). Notation mtx := (mtx (K := K)). Notation gsfa := (gsfa (K := K)). Notation pca := (pca (K := K)). Notation targs := (targs (K := K)).
  (** delta_threshold: a float, an integer, anything else *)
  Inductive threshold := DFloat (q : K) | DInt (n : nat) | DOther.
  Variable dim : nat.                                                          (* input_dim *)
  Variable exp_ : option (nat * (vec -> vec)).                                 (* exp_node *)
  Variable pre_class : option (targs -> option (vec -> vec)).         (* pre_expansion_node_class *)
  Variable maxlen : option nat.                                                (* max_length_slow_part *)
  Variable scale_m : scaling.                                                  (* slow_feature_scaling_method *)
  Variable delta_ : threshold.                                                 (* delta_threshold *)
  Variable recon verbose : bool.                                               (* reconstruct_with_sfa, verbose *)
  (** inside the nodes: mdp.utils.symeig and sorting of GSFANode, eigh of PCANode, sqrt *)
  Variable argsort : list nat -> list nat.
  Variables vunl : K.
  Variable solver : option (Z * Z) -> mtx -> mtx -> solres K vec.
  Variable eigh : option (Z * Z) -> nat -> mtx -> option (list K * list vec).
  Variable svd_ : nat -> mtx -> option (list K * list vec).
  Variable sqrt_ : K -> K.
  (** LinearRegressionNode trained on the slow features and the data: the row 0 of beta and the others; None: NodeException *)
  Variable lr_fit : list (list K) -> list vec -> option (vec * list vec).
  (** numx.linalg.qr of the transposed of the rows of beta: the columns of Q and the rows of R; pinv of R: the rows of the result *)
  Variable qr : list vec -> list vec * list vec.
  Variable pinv : list vec -> list vec.

  Definition edim : nat := match exp_ with None => dim | Some (e, _) => e end.
  Definition expand_ (x : vec) : vec := match exp_ with None => x | Some (_, f) => f x end.
  (** the case in which train is multiple_train, :1431-1437 and :1721-1724 *)
  Definition multi : bool := negb recon && match scale_m with ScNone | ScData => true | _ => false end.

  (** fields: _output_dim, x_mean, pre_expansion_node, sfa_node, sfa_x_mean, sfa_x_std, lr_node.beta, R, Rpinv, magn_n_sfa_x, pca_node, num_sfa_features_preserved, evar,
      _train_phase_started, is_training(); __init__ :1306-1406 *)
  Record igsfa := mkI { i_out : option nat; i_xmean : option vec; i_pre : option (vec -> vec); i_sfa : option gsfa; i_smean : vec; i_sstd : vec; i_lr : vec * list vec;
                        i_R : list vec; i_Rpinv : list vec; i_magn : vec; i_pca : option pca; i_num : nat; i_evar : option K; i_started : bool; i_training : bool }.
  Definition vconst (a : K) : vec := fun _ => a.
  Definition i_new (out : option nat) : igsfa :=
    mkI out None None None (vconst f0) (vconst f1) (vzero, []) [] [] (vconst f1) None 0 None false true.

  (** the output dimension of the GSFANode, :1477-1485 and :1687-1695 *)
  Definition sfa_dim (o : nat) : nat :=
    let k := match maxlen with None => Nat.min edim o | Some m => Nat.min (Nat.min m edim) o end in
    match delta_ with DInt n => Nat.max 1 (Nat.min k n) | _ => k end.
  (** the number of slow features, :1497-1526 and :1732-1758 *)
  Definition slow_size (d : list K) (o : nat) : ires nat :=
    match delta_ with
    | DFloat q => IOk (Nat.min (length (filter (fun a => negb (fltb q a)) d)) o)
    | DInt n => if o <? n then IErr IValue
                else if match maxlen with Some m => m <? n | None => false end then IErr IValue
                else IOk (Nat.min n o)
    | DOther => IErr IValue
    end.
  (** SFANode_reduce_output_dim :1978-1991 *)
  Definition reduce_sfa (g : gsfa) (k : nat) : ires gsfa :=
    match g_out g with
    | None => IErr IValue
    | Some o => if o <? k then IErr IValue
                else IOk (mkG (Some k) (g_bs g) (g_modes g) (g_verbose g) (g_c g) (firstn k (g_d g)) (firstn k (g_sf g)) (g_avg g) (firstn k (g_bias g)) (g_started g) (g_training g))
    end.
  (** PCANode_reduce_output_dim :1994-2014 *)
  Definition reduce_pca (p : pca) (k : nat) : ires pca :=
    match p_out p with
    | None => IErr IValue
    | Some o =>
        if o <? k then IErr IValue
        else
          let total := fsum (p_d p) in
          let d := firstn k (p_d p) in
          let expl := match p_expl p with Some e => if fltb f0 total || fltb total f0 then Some (e * fsum d / total)%of else None | None => None end in
          IOk (mkP (Some k) (p_desired p) (p_acc p) (p_tlen p) (p_avg p) d (firstn k (p_v p)) (p_vartot p) expl (p_started p) (p_training p))
    end.
  (** numx.median *)
  Fixpoint insert_ (a : K) (l : list K) : list K := match l with [] => [a] | b :: l => if fltb b a then b :: insert_ a l else a :: b :: l end.
  Definition sort_ (l : list K) : list K := fold_right insert_ [] l.
  Definition median (l : list K) : K :=
    let n := length l in let s := sort_ l in
    if Nat.even n then ((nth (n / 2 - 1) s f0 + nth (n / 2) s f0) / (f1 + f1))%of else nth (n / 2) s f0.

  (** the operations of the nodes inside *)
  Definition sfa_new (o : nat) : gsfa := gsfa_new (Some o) BNone [MNoneG] verbose.
  Definition sfa_train : gsfa -> targs -> gsfa * gres unit := g_train argsort vunl.
  Definition sfa_stop (g : gsfa) : gsfa * gres unit := g_stop edim solver g false None.
  Definition sfa_execute (g : gsfa) (x : vec) : list K := g_execute edim g None x.
  Definition pc_stop : pca -> pca * pres unit := pca_stop eigh svd_ sqrt_ dim false false f0 f0 None false.
  Definition pc_execute (p : pca) (x : vec) : list K := pca_execute dim p None x.
  Definition pc_inverse (p : pca) (y : list K) : pres vec := pca_inverse dim false p y None.
  Definition with_x (a : targs) (x : list vec) : targs := mkT x (t_bs a) (t_modes a) (t_nw a) (t_ew a).

  Definition set_nodes (s : igsfa) (g : option gsfa) (p : option pca) : igsfa :=
    mkI (i_out s) (i_xmean s) (i_pre s) g (i_smean s) (i_sstd s) (i_lr s) (i_R s) (i_Rpinv s) (i_magn s) p (i_num s) (i_evar s) (i_started s) (i_training s).
  Definition set_num (s : igsfa) (n : nat) : igsfa :=
    mkI (i_out s) (i_xmean s) (i_pre s) (i_sfa s) (i_smean s) (i_sstd s) (i_lr s) (i_R s) (i_Rpinv s) (i_magn s) (i_pca s) n (i_evar s) (i_started s) (i_training s).
  Definition set_mean (s : igsfa) (m : option vec) : igsfa :=
    mkI (i_out s) m (i_pre s) (i_sfa s) (vconst f0) (vconst f1) (i_lr s) (i_R s) (i_Rpinv s) (i_magn s) (i_pca s) (i_num s) (i_evar s) (i_started s) (i_training s).
  Definition begin_ (s : igsfa) : igsfa :=
    mkI (Some (match i_out s with None => dim | Some o => o end)) (i_xmean s) (i_pre s) (i_sfa s) (i_smean s) (i_sstd s) (i_lr s) (i_R s) (i_Rpinv s) (i_magn s) (i_pca s) (i_num s)
        (i_evar s) true (i_training s).
  Definition out_ (s : igsfa) : nat := match i_out s with None => dim | Some o => o end.

  (** multiple_train :1652-1716 *)
  Definition i_multi (s : igsfa) (a : targs) : igsfa * ires unit :=
    let s := mkI (i_out s) (Some (match i_xmean s with None => vzero | Some m => m end)) (i_pre s) (i_sfa s) (i_smean s) (i_sstd s) (i_lr s) (i_R s) (i_Rpinv s) (i_magn s) (i_pca s)
                 (i_num s) (i_evar s) (i_started s) (i_training s) in
    if match pre_class, exp_ with Some _, Some _ => true | _, _ => false end then (s, IErr ITraining)
    else
      let g := match i_sfa s with None => sfa_new (sfa_dim (out_ s)) | Some g => g end in
      let s := set_mean s (i_xmean s) in
      match sfa_train g (with_x a (map expand_ (t_x a))) with
      | (g, GErr e) => (set_nodes s (Some g) (i_pca s), IErr (ISfa e))
      | (g, GOk _) =>
          let p := match i_pca s with None => pca_new (OInt (out_ s)) | Some p => p end in
          match pca_train p (t_x a) with
          | (p, PErr e) => (set_nodes s (Some g) (Some p), IErr (IPca e))
          | (p, POk _) => (set_nodes s (Some g) (Some p), IOk tt)
          end
      end.

  (** training in one batch, _train :1448-1650 *)
  Definition mean_ (n : nat) (f : nat -> K) : K := (fsumn n f / fn n)%of.
  Definition col (l : list (list K)) (k : nat) : nat -> K := fun t => nth k (nth t l []) f0.
  Definition mean_std (l : list (list K)) : vec * vec :=
    let n := length l in
    let m : vec := fun k => mean_ n (col l k) in
    (m, fun k => sqrt_ (mean_ n (fun t => (col l k t - m k) * (col l k t - m k))%of)).
  Fixpoint mapi_from {A B} (f : nat -> A -> B) (i : nat) (l : list A) : list B := match l with [] => [] | a :: l => f i a :: mapi_from f (S i) l end.
  Definition mapi {A B} (f : nat -> A -> B) (l : list A) : list B := mapi_from f 0 l.
  Definition normalize (m sd : vec) (y : list K) : list K := mapi (fun k a => ((a - m k) / sd k)%of) y.
  Definition times (c : vec) (y : list K) : list K := mapi (fun k a => (a * c k)%of) y.
  Definition over (c : vec) (y : list K) : list K := mapi (fun k a => (a / c k)%of) y.
  (** LinearRegressionNode._execute (mdp/nodes/regression_nodes.py:131-134) *)
  Definition lr_execute (b : vec * list vec) (y : list K) : vec := fun i => (fst b i + fsum (map (fun p : K * vec => fst p * snd p i) (combine y (snd b))))%of.
  (** numx.dot(y, W.T) for the rows of W *)
  Definition dotT (W : list vec) (y : list K) : list K := map (fun w : vec => fsum (mapi (fun k a => (a * w k)%of) y)) W.
  Definition sqsum (l : list K) : K := fsum (map (fun a => a * a)%of l).
  (** the scaled slow features, :1566-1598 and :1833-1849; [None]: unknown method *)
  Definition scaled (R : list vec) (magn : vec) (y : list K) : option (list K) :=
    match scale_m with
    | ScQR => if recon then Some (dotT R y) else None
    | ScSens => if recon then Some (times magn y) else None
    | ScNone | ScData => Some (times magn y)
    | ScOther => None
    end.
  Definition i_batch (s : igsfa) (a : targs) : igsfa * ires unit :=
    let x := t_x a in
    let xmean : vec := fun i => mean_ (length x) (fun t => nth t x vzero i) in
    let o := out_ s in
    let s := set_mean s (Some xmean) in
    let xz := map (fun r => sub r xmean) x in
    let fail e := (s, IErr e) in
    match match pre_class, exp_ with Some f, Some _ => match f (with_x a xz) with None => None | Some h => Some (Some h) end | _, _ => Some None end with
    | None => fail IPre
    | Some pre =>
        let ex := map (fun r => expand_ (match pre with None => r | Some h => h r end)) xz in
        match sfa_train (sfa_new (sfa_dim o)) (with_x a ex) with
        | (_, GErr e) => fail (ISfa e)
        | (g, GOk _) =>
            match sfa_stop g with
            | (_, GErr e) => fail (ISfa e)
            | (g, GOk _) =>
                match slow_size (g_d g) o with
                | IErr e => fail e
                | IOk num =>
                    match reduce_sfa g num with
                    | IErr e => fail e
                    | IOk g =>
                        let y := map (sfa_execute g) ex in
                        let (m, sd) := mean_std y in
                        if existsb (fun k => negb (fltb f0 (sd k) || fltb (sd k) f0)) (seq 0 (length (g_sf g))) then fail ITraining
                        else
                          let n := map (normalize m sd) y in
                          match lr_fit n xz with
                          | None => fail INode
                          | Some b =>
                              let removed := map (fun p : vec * list K => sub (fst p) (lr_execute b (snd p))) (combine xz n) in
                              let R := match scale_m with ScQR => snd (qr (snd b)) | _ => [] end in
                              match scale_m with
                              | ScOther => fail IValue
                              | _ =>
                                  let po := o - num in
                                  match pca_train (pca_new (OInt (Nat.max 1 po))) removed with
                                  | (_, PErr e) => fail (IPca e)
                                  | (p, POk _) =>
                                      match pc_stop p with
                                      | (_, PErr e) => fail (IPca e)
                                      | (p, POk _) =>
                                          match reduce_pca p po with
                                          | IErr e => fail e
                                          | IOk p =>
                                              let magn : vec :=
                                                match scale_m with
                                                | ScSens => fun k => sqrt_ (dot dim (nth k (snd b) vzero) (nth k (snd b) vzero))
                                                | ScData => vconst (if 0 <? po then sqrt_ (median (p_d p)) else f1)
                                                | _ => vconst f1
                                                end in
                                              if match p_out p with Some po => po + num <? o | None => true end then fail ITraining
                                              else
                                                let outp := map (fun q : list K * vec => match scaled R magn (fst q) with Some sc => firstn o (sc ++ pc_execute p (snd q)) | None => [] end) (combine n removed) in
                                                let total := fsum (map (fun r => dot dim r r) xz) in
                                                let evar := if fltb f0 total || fltb total f0 then Some (fsum (map sqsum outp) / total)%of else None in
                                                (mkI (Some o) (Some xmean) pre (Some g) m sd b R (match scale_m with ScQR => pinv R | _ => [] end) magn (Some p) num evar false false, IOk tt)
                                          end
                                      end
                                  end
                              end
                          end
                    end
                end
            end
        end
    end.

  (** Node.train (mdp/signal_node.py:590-617) and _train :1413-1446 *)
  Definition i_train (s : igsfa) (a : targs) : igsfa * ires unit :=
    if negb (i_training s) then (s, IErr IFinished)
    else if length (t_x a) =? 0 then (s, IErr INode)
    else
      let s := begin_ s in
      if multi then i_multi s a
      else if negb recon then (s, IErr ITraining)
      else i_batch s a.
  Fixpoint i_trains (s : igsfa) (l : list targs) : igsfa * ires unit :=
    match l with [] => (s, IOk tt) | a :: l => match i_train s a with (s, IErr e) => (s, IErr e) | (s, IOk _) => i_trains s l end end.

  (** Node.stop_training (mdp/signal_node.py:619-639) and _stop_training :1718-1798 *)
  Definition i_stop (s : igsfa) : igsfa * ires unit :=
    if i_training s && negb (i_started s) then (s, IErr ITraining)
    else if negb (i_training s) then (s, IErr IFinished)
    else if negb multi then
      (mkI (i_out s) (i_xmean s) (i_pre s) (i_sfa s) (i_smean s) (i_sstd s) (i_lr s) (i_R s) (i_Rpinv s) (i_magn s) (i_pca s) (i_num s) (i_evar s) false false, IOk tt)
    else
      let o := out_ s in
      match i_sfa s with
      | None => (s, IErr IAttribute)
      | Some g =>
          match sfa_stop g with
          | (g, GErr e) => (set_nodes s (Some g) (i_pca s), IErr (ISfa e))
          | (g, GOk _) =>
              match i_pca s with
              | None => (set_nodes s (Some g) None, IErr IAttribute)
              | Some p =>
                  match pc_stop p with
                  | (p, PErr e) => (set_nodes s (Some g) (Some p), IErr (IPca e))
                  | (p, POk _) =>
                      let s := set_nodes s (Some g) (Some p) in
                      match slow_size (g_d g) o with
                      | IErr e => (s, IErr e)
                      | IOk num =>
                          let s := set_num s num in
                          match reduce_sfa g num with
                          | IErr e => (s, IErr e)
                          | IOk g =>
                              let s := set_nodes s (Some g) (Some p) in
                              if match p_out p with Some po => po <? o - num | None => true end then (s, IErr IValue)
                              else
                                match reduce_pca p (o - num) with
                                | IErr e => (s, IErr e)
                                | IOk p =>
                                    let magn := match scale_m with
                                                | ScData => if 0 <? length (p_d p) then sqrt_ (median (p_d p)) else f1
                                                | _ => f1
                                                end in
                                    (mkI (i_out s) (i_xmean s) (i_pre s) (Some g) (i_smean s) (i_sstd s) (i_lr s) (i_R s) (i_Rpinv s) (vconst magn) (Some p) num (p_expl p) false false, IOk tt)
                                end
                          end
                      end
                  end
              end
          end
      end.

  (** _execute :1804-1862 on one row of a trained node *)
  Definition i_execute (s : igsfa) (x : vec) : ires (list K) :=
    match i_sfa s, i_pca s, i_xmean s with
    | Some g, Some p, Some xm =>
        let xz := sub x xm in
        let n := normalize (i_smean s) (i_sstd s) (sfa_execute g (expand_ (match i_pre s with None => xz | Some h => h xz end))) in
        let removed := if recon then sub xz (lr_execute (i_lr s) n) else sub xz vzero in
        match scaled (i_R s) (i_magn s) n with
        | None => IErr IValue
        | Some sc => IOk (sc ++ if match p_out p with Some o => 0 <? o | None => false end then pc_execute p removed else [])
        end
    | _, _, _ => IErr IAttribute
    end.
  (** Node.inverse (mdp/signal_node.py:656-667), _inverse :1864-1874 and linear_inverse :1930-1975 on one row of a trained node *)
  Definition i_inverse (s : igsfa) (y : list K) : ires vec :=
    if negb (length y =? out_ s) then IErr INode
    else
      match i_pca s, i_xmean s with
      | Some p, Some xm =>
          let po := match p_out p with Some o => o | None => 0 end in
          if po + i_num s <? length y then IErr IValue
          else
            let full := y ++ repeat f0 (po + i_num s - length y) in
            let sc := firstn (i_num s) full in
            let px := skipn (i_num s) full in
            match (if 0 <? length px then pc_inverse p px else POk vzero) with
            | PErr e => IErr (IPca e)
            | POk removed =>
                match match scale_m with
                      | ScQR => if recon then if length (i_R s) =? length sc then Some (dotT (i_Rpinv s) sc) else None else Some (over (i_magn s) sc)
                      | _ => Some (over (i_magn s) sc)
                      end with
                | None => IErr IValue
                | Some n =>
                    let app : vec := if recon then lr_execute (i_lr s) n else vzero in
                    IOk (fun i => removed i + app i + xm i)%of
                end
            end
      | _, _ => IErr IAttribute
      end.
End Igsfa.
Arguments DFloat {K}. Arguments DInt {K}. Arguments DOther {K}.
