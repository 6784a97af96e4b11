(** Model of bimdp/nodes/gradient.py: the extension 'gradient', which gives the total derivative of what a node or a BiFlow executes, with the
    parts of bimdp/binode.py (execute), bimdp/biflow.py (_execute_seq), bimdp/hinet/bilayer.py (CloneBiLayer._execute) and mdp/hinet/layer.py it uses.

    A sample is a function of the index of the variable; the number of columns is stored with the data.  Simplifications:
    - numbers are those of an ordered field; dtypes are not modelled;
    - the nodes are IdentityNode, SFANode, QuadraticExpansionNode, SFA2Node, Layer, SameInputLayer, Switchboard, CloneBiLayer (the nodes inside are BiNodes), and nodes without an implementation of
      the gradient.  Of an SFANode there are sf and the product with avg (_bias); the training is modelled in SfaModel.v and QuadModel.v;
    - executing a node in its training phase raises TrainingException (the code tries to stop the training first);
    - the message has the keys method and grad only; no targets are used, so that the BiFlow goes from node to node;
    - samples and gradients have the same number when they are used together. *)
From Coq Require Import List Arith ZArith Bool.
From Verif Require Import OField LinAlg QuadModel.
Import ListNotations.
Open Scope of_scope.

(** TrainingException, TrainingFinishedException, NotImplementedError, TypeError, ValueError, IndexError, NodeException *)
Inductive gexn := XTrain | XFinished | XNotImpl | XType | XValue | XIndex | XNode.

Section Grad.
  Context {K : ofield}.
  Notation vec := (vec (K := K)). Notation mtx := (mtx (K := K)).
  Record data := mkD { d_cols : nat; d_rows : list vec }.
  (** an array with three axes, of shape (length ms, a, b), or np.asarray([]), of shape (0,) *)
  Inductive grd := G3 (a b : nat) (ms : list mtx) | GFlat.

  Inductive gnode :=
  | GId (dim : option nat)
  | GSfa (training : bool) (n m : nat) (sf : mtx) (bias : vec)
  | GQuad (dim : option nat)
  | GSfa2 (training : bool) (n m : nat) (sf : mtx) (bias : vec)
  | GLayer (nodes : list gnode)
  | GSame (nodes : list gnode)
  | GSwitch (inp : nat) (conn : list nat)
  | GClone (k : nat) (node : gnode)
  | GOther (n m : nat) (f : vec -> vec).

  Definition osum (l : list (option nat)) : option nat := fold_right (fun o s => match o, s with Some a, Some b => Some (a + b)%nat | _, _ => None end) (Some O) l.
  (** input_dim and output_dim; a Layer has the sums (layer.py:34-52), a SameInputLayer the input_dim of its nodes *)
  Fixpoint in_dim (t : gnode) : option nat :=
    match t with
    | GId d => d | GSfa _ n _ _ _ => Some n | GQuad d => d | GSfa2 _ n _ _ _ => Some n
    | GLayer ts => osum (map in_dim ts)
    | GSame ts => match ts with [] => None | u :: _ => in_dim u end
    | GSwitch n _ => Some n
    | GClone k u => osum (repeat (in_dim u) k)
    | GOther n _ _ => Some n
    end.
  Fixpoint out_dim (t : gnode) : option nat :=
    match t with
    | GId d => d | GSfa _ _ m _ _ => Some m | GQuad d => option_map edim d | GSfa2 _ _ m _ _ => Some m
    | GLayer ts => osum (map out_dim ts)
    | GSame ts => osum (map out_dim ts)
    | GSwitch _ c => Some (length c)
    | GClone k u => osum (repeat (out_dim u) k)
    | GOther _ m _ => Some m
    end.
  (** is_training; a layer is in training if one of its nodes is *)
  Fixpoint in_training (t : gnode) : bool :=
    match t with
    | GSfa b _ _ _ _ => b | GSfa2 b _ _ _ _ => b
    | GLayer ts => existsb in_training ts
    | GSame ts => existsb in_training ts
    | GClone _ u => in_training u
    | _ => false
    end.

  (** x[:, a:b] *)
  Definition cut (a b : nat) (x : data) : data := mkD (Nat.min b (d_cols x) - Nat.min a (d_cols x)) (map (fun v i => v (a + i)%nat) (d_rows x)).
  Definition hcat (a : nat) (v w : vec) : vec := fun i => if i <? a then v i else w (i - a)%nat.

  (** ** _execute of the nodes *)
  (** _pre_execution_checks of a node, and _check_input (mdp/signal_node.py): input_dim is set if it is None *)
  Definition checks (t : gnode) (x : data) : option gexn :=
    if in_training t then Some XTrain
    else match in_dim t with Some n => if d_cols x =? n then None else Some XNode | None => None end.
  Definition touch (t : gnode) (x : data) : gnode :=
    match t with GId None => GId (Some (d_cols x)) | GQuad None => GQuad (Some (d_cols x)) | t => t end.
  Definition mult_sf (n m : nat) (sf : mtx) (bias : vec) (v : vec) : vec := fun j => fsumn n (fun i => v i * sf i j) - bias j.
  (** the loop of Layer._execute (layer.py:181-201): the nodes with their input_dim, output_dim and execute; all of them give the same number of rows *)
  Fixpoint columns (l : list (option nat * option nat * (data -> gexn + data))) (in_stop : nat) (x : data) : gexn + list (nat * list vec) :=
    match l with
    | [] => inr []
    | (Some i, Some o, ex) :: l =>
        match ex (cut in_stop (in_stop + i) x) with
        | inl e => inl e
        | inr y => if d_cols y =? o then match columns l (in_stop + i) x with inl e => inl e | inr r => inr ((o, d_rows y) :: r) end else inl XValue
        end
    | _ :: _ => inl XType
    end.
  (** the array y of Layer._execute, hstack *)
  Fixpoint join (l : list (nat * list vec)) (rows : nat) : list vec :=
    match l with [] => repeat vzero rows | (a, ys) :: l => map (fun p => hcat a (fst p) (snd p)) (combine ys (join l rows)) end.
  Definition dsum (l : list (nat * list vec)) : nat := fold_right (fun p s => (fst p + s)%nat) O l.
  (** _execute of the nodes.  QuadraticExpansionNode: the case of a wrong number of columns is not reached; Switchboard: switchboard.py:71-72 *)
  Fixpoint raw (t : gnode) (x : data) {struct t} : gexn + data :=
    let ex (u : gnode) (xs : data) := match checks u xs with Some e => inl e | None => raw u xs end in
    let rows := d_rows x in
    match t with
    | GId _ => inr x
    | GSfa _ n m sf bias => if d_cols x =? n then inr (mkD m (map (mult_sf n m sf bias) rows)) else inl XValue
    | GQuad d => match d with
                 | None => inr (mkD (edim (d_cols x)) (map (expand (d_cols x)) rows))
                 | Some n => if d_cols x =? n then inr (mkD (edim n) (map (expand n) rows)) else inl XValue
                 end
    | GSfa2 _ n m sf bias => if d_cols x =? n then inr (mkD m (map (fun v => mult_sf (edim n) m sf bias (expand n v)) rows)) else inl XValue
    | GLayer ts => match columns (map (fun u => (in_dim u, out_dim u, ex u)) ts) 0 x with
                   | inl e => inl e
                   | inr l => inr (mkD (dsum l) (join l (length rows)))
                   end
    | GSame ts => match columns (map (fun u => (Some 0%nat, out_dim u, fun _ : data => ex u x)) ts) 0 x with
                  | inl e => inl e
                  | inr l => inr (mkD (dsum l) (join l (length rows)))
                  end
    | GSwitch n c => if forallb (fun i => i <? d_cols x) c then inr (mkD (length c) (map (fun (v : vec) i => v (nth i c 0%nat)) rows)) else inl XIndex
    | GClone k u => (* bilayer.py:107-153 without message *)
        let d := (d_cols x / k)%nat in
        if d =? 0 then inl XType else
        match columns (map (fun j => (Some d, out_dim u, ex u)) (seq 0 k)) 0 x with
        | inl e => inl e
        | inr l => inr (mkD (dsum l) (join l (length rows)))
        end
    | GOther n m f => inr (mkD m (map f rows))
    end.
  (** Node.execute *)
  Definition execute (t : gnode) (x : data) : gexn + data := match checks t x with Some e => inl e | None => raw t x end.

  (** ** _get_grad *)
  Definition mmul (n : nat) (A B : mtx) : mtx := fun i j => fsumn n (fun k => A i k * B k j).
  Definition transpose (A : mtx) : mtx := fun i j => A j i.
  (** _quadex_grad :97-114 for one sample: the loop over i *)
  Definition quad_step (dim : nat) (x : vec) (s : mtx * nat) (i : nat) : mtx * nat :=
    let (g, st) := s in
    let g1 : mtx := fun r c => if (st <=? r) && (r <? st + (dim - i)) && (c =? i) then x (i + (r - st))%nat else g r c in
    let g2 : mtx := fun r c => if (st <=? r) && (r <? st + (dim - i)) && (c =? i + (r - st)) then g1 r c + x i else g1 r c in
    (g2, st + (dim - i))%nat.
  Definition quad_grad (dim : nat) (x : vec) : mtx :=
    fst (fold_left (quad_step dim x) (seq 0 dim) (fun r c => if (r <? dim) && (r =? c) then 1 else 0, dim)).
  (** grad[:, p:p+o, q:q+i] = ng in an array with N columns: slices beyond the array are clipped, a single column is repeated *)
  Definition put_block (N p o q i : nat) (ng : grd) (base : list mtx) : gexn + list mtx :=
    match ng with
    | GFlat => inl XValue
    | G3 a b ms =>
        let w := (Nat.min (q + i) N - Nat.min q N)%nat in
        if (a =? o) && ((b =? w) || (b =? 1)) then
          inr (map (fun pr : mtx * mtx => fun r c => if (p <=? r) && (r <? p + o) && (q <=? c) && (c <? q + w) then fst pr (r - p)%nat (if b =? w then (c - q)%nat else 0%nat) else snd pr r c) (combine ms base))
        else inl XValue
    end.
  (** the loop of _layer_grad :125-147; the nodes with output_dim, input_dim and _get_grad *)
  Fixpoint blocks (N : nat) (l : list (option nat * option nat * (data -> gexn + grd))) (out_stop in_stop : nat) (g : option (list mtx)) (x : data) : gexn + option (list mtx) :=
    match l with
    | [] => inr g
    | (Some o, Some i, gg) :: l =>
        match gg (cut in_stop (in_stop + i) x) with
        | inl e => inl e
        | inr ng =>
            let base := match g with Some g => g | None => repeat (fun _ _ => 0) (match ng with G3 _ _ ms => length ms | GFlat => O end) end in
            match put_block N out_stop o in_stop i ng base with
            | inl e => inl e
            | inr g => blocks N l (out_stop + o) (in_stop + i) (Some g) x
            end
        end
    | _ :: _ => inl XType
    end.
  (** _get_grad: the default :62-68, IdentityNode :85-90, SFANode :92-95, QuadraticExpansionNode :97-114, SFA2Node :116-121, Layer :125-147, which SameInputLayer and CloneBiLayer inherit; a Switchboard
      has the default only *)
  Fixpoint get_grad (t : gnode) (x : data) {struct t} : gexn + grd :=
    let rows := d_rows x in
    let layer (l : list (option nat * option nat * (data -> gexn + grd))) :=
      match out_dim t, in_dim t with
      | Some m, Some n => match blocks n l 0 0 None x with inl e => inl e | inr None => inl XType | inr (Some g) => inr (G3 m n g) end
      | _, _ => inl XType
      end in
    match t with
    | GId None => inl XType
    | GId (Some n) => inr (G3 n n (map (fun _ => delta) rows))
    | GSfa _ n m sf _ => inr (G3 m n (map (fun _ => transpose sf) rows))
    | GQuad None => inl XType
    | GQuad (Some n) => if d_cols x =? n then inr (G3 (edim n) n (map (quad_grad n) rows)) else inl XValue
    | GSfa2 _ n m sf _ => if d_cols x =? n then
                            match rows with [] => inr GFlat | _ => inr (G3 m n (map (fun v => mmul (edim n) (transpose sf) (quad_grad n v)) rows)) end
                          else inl XValue
    | GLayer ts => layer (map (fun u => (out_dim u, in_dim u, get_grad u)) ts)
    | GSame ts => layer (map (fun u => (out_dim u, in_dim u, get_grad u)) ts)
    | GSwitch _ _ => inl XNotImpl
    | GClone k u => layer (repeat (out_dim u, in_dim u, get_grad u) k)
    | GOther _ _ _ => inl XNotImpl
    end.

  (** ** _gradient *)
  Definition eye (n rows : nat) : grd := G3 n n (repeat delta rows).
  (** np.asarray([np.dot(new_grad[i], grad[i]) for i in range(len(new_grad))]) :48-49 *)
  Definition product (ng g : grd) : gexn + grd :=
    match ng with
    | GFlat => inr GFlat
    | G3 a b [] => inr GFlat
    | G3 a b ms => match g with
                   | GFlat => inl XIndex
                   | G3 a' b' ms' => if length ms' <? length ms then inl XIndex
                                     else if b =? a' then inr (G3 a b' (map (fun p => mmul b (fst p) (snd p)) (combine ms ms'))) else inl XValue
                   end
    end.
  (** hsplit of grad for the node j of k (bilayer.py:301-319), hstack (:321-341) *)
  Definition split_grd (k j : nat) (g : grd) : grd :=
    match g with
    | G3 a b ms => if (a mod k =? 0) then G3 (a / k) b (map (fun (M : mtx) r c => M (a / k * j + r)%nat c) ms) else g
    | GFlat => GFlat
    end.
  Definition stack2 (g h : grd) : gexn + grd :=
    match g, h with
    | G3 a b ms, G3 a' b' ms' => if b =? b' then inr (G3 (a + a') b (map (fun p : mtx * mtx => fun r c => if r <? a then fst p r c else snd p (r - a)%nat c) (combine ms ms'))) else inl XValue
    | _, _ => inr h
    end.
  Fixpoint stack (l : list grd) : gexn + grd :=
    match l with [] => inl XType | [g] => inr g | g :: l => match stack l with inl e => inl e | inr h => stack2 g h end end.
  Fixpoint all_ok {A} (l : list (gexn + A)) : gexn + list A :=
    match l with [] => inr [] | inl e :: _ => inl e | inr a :: l => match all_ok l with inl e => inl e | inr r => inr (a :: r) end end.
  (** execute with the method 'gradient' (binode.py:129-163: no checks of the data): _gradient :33-60, of Switchboard :151-168; CloneBiLayer executes its nodes with their part of the message *)
  Fixpoint gradient (t : gnode) (x : data) (g : option grd) {struct t} : gexn + data * grd :=
    match t with
    | GSwitch n c =>
        match (match g with Some g => g | None => eye n (length (d_rows x)) end) with
        | GFlat => inl XIndex
        | G3 a b ms => if forallb (fun i => i <? a) c then
                         match raw t x with inl e => inl e | inr y => inr (y, G3 (length c) b (map (fun (M : mtx) r => M (nth r c 0%nat)) ms)) end
                       else inl XIndex
        end
    | GClone k u =>
        let d := (d_cols x / k)%nat in
        if d =? 0 then inl XType else
        match all_ok (map (fun j => gradient u (cut (d * j) (d * (j + 1)) x) (option_map (split_grd k j) g)) (seq 0 k)) with
        | inl e => inl e
        | inr l => let ys := map (fun p => (d_cols (fst p), d_rows (fst p))) l in
                   match stack (map snd l) with inl e => inl e | inr h => inr (mkD (dsum ys) (join ys (length (d_rows x))), h) end
        end
    | _ =>
        if in_training t then inl XTrain else
        match (match g, in_dim t with Some g, _ => Some g | None, Some n => Some (eye n (length (d_rows x))) | None, None => None end) with
        | None => inl XType
        | Some g => match get_grad t x with
                    | inl e => inl e
                    | inr ng => match product ng g with
                                | inl e => inl e
                                | inr g' => match raw t x with inl e => inl e | inr y => inr (y, g') end
                                end
                    end
        end
    end.

  (** ** A BiFlow executed with the message {'method': 'gradient'} (biflow.py:511-568): BiNodes (true) get the message, normal nodes (false) only the data *)
  Fixpoint run (fl : list (bool * gnode)) (x : data) (g : option grd) : gexn + data * option grd :=
    match fl with
    | [] => inr (x, g)
    | (true, t) :: fl => match gradient t x g with inl e => inl e | inr (y, g') => run fl y (Some g') end
    | (false, t) :: fl => match execute t x with inl e => inl e | inr y => run fl y g end
    end.
  (** executed without message; the nodes afterwards *)
  Fixpoint flow_execute (ts : list gnode) (x : data) : list gnode * (gexn + data) :=
    match ts with
    | [] => ([], inr x)
    | t :: ts => match execute t x with
                 | inl e => (t :: ts, inl e)
                 | inr y => let (ts', r) := flow_execute ts y in (touch t x :: ts', r)
                 end
    end.

  (** stop_training(msg) of a BiNode with the message {'method': 'stop_gradient', 'x': x} (binode.py:228-296, gradient.py:70-75); what _stop_gradient returns *)
  Definition stop_gradient (t : gnode) (started : bool) (x : data) (g : option grd) : gexn + grd * nat :=
    if in_training t && negb started then inl XTrain
    else if negb (in_training t) then inl XFinished
    else match gradient t x g with inl e => inl e | inr (_, g') => inr (g', 1%nat) end.
End Grad.
