(** Model of the tracing wrappers in bimdp/inspection/tracer.py: InspectionHTMLTracer._standard_tracer_decorate and _undecorate (:310-368), TraceDecorationVisitor (:371-445) without
    CloneBiLayer, and the part of trace_execution (:172-224) which decorates, runs and undecorates the flow.

    A node is a table of the attributes which the instance has of its own, on top of the methods of its class. A method of the class is a tree of actions: it may return, raise, or call
    another method of the same node (through its attribute, as self.name(...) does) and continue with its result. Python's recursion limit is the fuel: [None] is a call which did not return.
    The callback records its arguments; the HTML code it writes, its exceptions and __getstate__ of decorated nodes are not modelled. *)
From Coq Require Import List Arith Bool.
Import ListNotations.

(** names of attributes: a method, ORIGINAL_METHOD_PREFIX + its name, TRACING_WRAP_FLAG, "__getstate__", others *)
Inductive name := NMeth (m : nat) | NOrig (m : nat) | NFlag | NGet | NOther (n : nat).
Definition name_eqb (a b : name) : bool :=
  match a, b with NMeth m, NMeth n | NOrig m, NOrig n | NOther m, NOther n => m =? n | NFlag, NFlag | NGet, NGet => true | _, _ => false end.
Section Trace.
  Variables D A V : Type.     (* the data of the node, arguments, results *)
  Inductive res := ROk (v : V) | RErr (e : nat).
  Inductive act := Done (r : res) (d : D) | Call (m : nat) (a : A) (d : D) (k : res -> D -> act).
  Variable cls : nat -> A -> D -> act.     (* the methods of the class *)
  (** values of attributes: the bound method of the class, the wrapper, anything else *)
  Inductive aval := VMeth (m : nat) | VWrap (m : nat) | VAny (n : nat).
  Definition attrs := name -> option aval.
  Definition aset (s : attrs) (n : name) (v : aval) : attrs := fun k => if name_eqb k n then Some v else s k.
  Definition adel (s : attrs) (n : name) : attrs := fun k => if name_eqb k n then None else s k.
  Definition aget (s : attrs) (n : name) : option aval := match s n with Some v => Some v | None => match n with NMeth m => Some (VMeth m) | _ => None end end.
  (** NODE_TRACE_METHOD_NAMES :45 *)
  Variable names : list nat.
  (** _standard_tracer_decorate :310-351 *)
  Definition deco_method (s : attrs) (m : nat) : attrs :=
    let s := match aget s (NMeth m) with Some v => aset s (NOrig m) v | None => s end in
    aset s (NMeth m) (VWrap m).
  Definition decorate (s : attrs) : attrs := aset (fold_left deco_method names (aset s NFlag (VAny 1))) NGet (VAny 2).
  (** _standard_tracer_undecorate :353-368; None: AttributeError of delattr *)
  Definition del_ (s : option attrs) (n : name) : option attrs := match s with Some s => match s n with Some _ => Some (adel s n) | None => None end | None => None end.
  Definition undecorate (s : attrs) : option attrs :=
    match s NFlag with
    | None => Some s
    | Some _ => del_ (fold_left (fun s m => del_ (del_ s (NMeth m)) (NOrig m)) names (del_ (Some s) NFlag)) NGet
    end.
  (** a call of a method: the wrapper (:324-330) calls the saved method, then the callback *)
  Fixpoint call (fuel : nat) (s : attrs) (n : name) (a : A) (d : D) : option (D * res * list (nat * A * V)) :=
    match fuel with
    | O => None
    | S fuel =>
        match aget s n with
        | Some (VMeth m) =>
            (fix go (t : act) : option (D * res * list (nat * A * V)) :=
               match t with
               | Done r d => Some (d, r, [])
               | Call m a d k => match call fuel s (NMeth m) a d with
                                 | None => None
                                 | Some (d, r, ev) => match go (k r d) with None => None | Some (d, r, ev') => Some (d, r, ev ++ ev') end
                                 end
               end) (cls m a d)
        | Some (VWrap m) =>
            match call fuel s (NOrig m) a d with
            | Some (d, ROk v, ev) => Some (d, ROk v, ev ++ [(m, a, v)])
            | r => r
            end
        | Some (VAny _) | None => Some (d, RErr 0, [])
        end
    end.
  (** ** Flows: nodes, and groups of them (flow nodes and layers) *)
  Inductive hnode := HLeaf (o : nat) | HGroup (l : list hnode).
  Definition heap := nat -> attrs.
  Definition hset (h : heap) (o : nat) (s : attrs) : heap := fun p => if p =? o then s else h p.
  (** decorate_flow, _visit_node :386-415 *)
  Fixpoint visit (n : hnode) (h : heap) : heap :=
    match n with
    | HLeaf o => hset h o (decorate (h o))
    | HGroup l => (fix go (l : list hnode) (h : heap) : heap := match l with [] => h | n :: l => go l (visit n h) end) l h
    end.
  Fixpoint unvisit (n : hnode) (h : heap) : option heap :=
    match n with
    | HLeaf o => match undecorate (h o) with Some s => Some (hset h o s) | None => None end
    | HGroup l => (fix go (l : list hnode) (h : heap) : option heap := match l with [] => Some h | n :: l => match unvisit n h with Some h => go l h | None => None end end) l h
    end.
  (** trace_execution :186-224: [run] is flow.execute on the decorated nodes; [badmsg]: msg was given for a normal Flow. The result is the heap and whether an exception was raised *)
  Definition trace_execution {T} (flow : hnode) (badmsg : bool) (run : heap -> option T) (h : heap) : option (heap * option T) :=
    let h := visit flow h in
    if badmsg then Some (h, None)
    else match run h with
         | None => Some (h, None)
         | Some r => match unvisit flow h with Some h => Some (h, Some r) | None => None end
         end.
End Trace.

(** ** CloneLayer: _visit_clonelayer :417-445 and Layer._train (mdp/hinet/layer.py:147-155); [l_obj] are the states of the nodes, [l_nodes] the tuple nodes, [l_node] the attribute node *)
Section Clone.
  Variables D X : Type.
  Variable train : X -> D -> D.
  Record clayer := mkL { l_obj : list D; l_node : nat; l_nodes : list nat }.
  Variable d0 : D.
  Definition clone_new (d : D) (n : nat) : clayer := mkL [d] 0 (repeat 0 n).
  Definition clone_decorate (l : clayer) : clayer :=
    let fresh := length (l_obj l) in mkL (l_obj l ++ [nth (hd 0 (l_nodes l)) (l_obj l) d0]) fresh (fresh :: tl (l_nodes l)).
  Definition clone_undecorate (l : clayer) : clayer := mkL (l_obj l) (l_node l) (repeat (l_node l) (length (l_nodes l))).
  Definition upd (i : nat) (f : D -> D) (l : list D) : list D := firstn i l ++ match skipn i l with [] => [] | d :: r => f d :: r end.
  Definition clone_train (l : clayer) (xs : list X) : clayer :=
    mkL (fold_left (fun o (p : nat * X) => upd (fst p) (train (snd p)) o) (combine (l_nodes l) xs) (l_obj l)) (l_node l) (l_nodes l).
  (** training while the layer is traced, trace_training :115-170 *)
  Definition traced_train (l : clayer) (xs : list X) : clayer := clone_undecorate (clone_train (clone_decorate l) xs).
  (** the states of the nodes of the layer *)
  Definition states (l : clayer) : list D := map (fun i => nth i (l_obj l) d0) (l_nodes l).
End Clone.
