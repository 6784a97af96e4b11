(** Model of mdp/graph/graph.py:21-403 (directed multigraphs).

    Node and edge objects are numbered in the order of creation (object identity); data slots are omitted.  [g_ends], [g_ein],
    [g_eout] are the attributes of all objects ever created, [g_nodes] and [g_edges] are Graph.nodes and Graph.edges. *)
From Coq Require Import List Arith Bool.
Import ListNotations.

Inductive gexn := GException | GTopological (sorted : list nat) | GValueError | GIndexError | GKeyError | GTypeError | GAttributeError | GFuel.
Inductive gres (R : Type) := GOk (r : R) | GErr (e : gexn).
Arguments GOk {R} _. Arguments GErr {R} _.

Record graph := mkG {
  g_nodes : list nat;             (* Graph.nodes *)
  g_edges : list nat;             (* Graph.edges *)
  g_ends : list (nat * nat);      (* edge -> (head, tail): the edge goes from head to tail *)
  g_ein : nat -> list nat;        (* GraphNode.ein *)
  g_eout : nat -> list nat;       (* GraphNode.eout *)
  g_next : nat                    (* number of GraphNode objects *)
}.
(** Graph.__init__ :137-141 *)
Definition empty : graph := mkG [] [] [] (fun _ => []) (fun _ => []) 0.

Definition fupd (f : nat -> list nat) (n : nat) (v : list nat) : nat -> list nat := fun m => if m =? n then v else f m.
Definition head_of (g : graph) (e : nat) : nat := fst (nth e (g_ends g) (0, 0)).
Definition tail_of (g : graph) (e : nat) : nat := snd (nth e (g_ends g) (0, 0)).

(** add_node :144-147 *)
Definition add_node (g : graph) : graph * nat :=
  (mkG (g_nodes g ++ [g_next g]) (g_edges g) (g_ends g) (g_ein g) (g_eout g) (S (g_next g)), g_next g).

(** add_edge :162-174 (also add_edge_in :56, add_edge_out :59) *)
Definition add_edge (g : graph) (h t : nat) : graph * nat :=
  let e := length (g_ends g) in
  (mkG (g_nodes g) (g_edges g ++ [e]) (g_ends g ++ [(h, t)]) (fupd (g_ein g) t (g_ein g t ++ [e])) (fupd (g_eout g) h (g_eout g h ++ [e])) (g_next g), e).

(** list.remove: first occurrence, None for ValueError. *)
Fixpoint lremove (x : nat) (l : list nat) : option (list nat) :=
  match l with
  | [] => None
  | y :: l => if x =? y then Some l else match lremove x l with Some l => Some (y :: l) | None => None end
  end.

(** remove_edge :176-183 (also remove_edge_in :62, remove_edge_out :65) *)
Definition remove_edge (g : graph) (e : nat) : graph * gres unit :=
  let h := head_of g e in let t := tail_of g e in
  match lremove e (g_eout g h) with
  | None => (g, GErr GValueError)
  | Some l =>
      let g1 := mkG (g_nodes g) (g_edges g) (g_ends g) (g_ein g) (fupd (g_eout g) h l) (g_next g) in
      match lremove e (g_ein g1 t) with
      | None => (g1, GErr GValueError)
      | Some l =>
          let g2 := mkG (g_nodes g1) (g_edges g1) (g_ends g1) (fupd (g_ein g1) t l) (g_eout g1) (g_next g1) in
          match lremove e (g_edges g2) with
          | None => (g2, GErr GValueError)
          | Some l => (mkG (g_nodes g2) l (g_ends g2) (g_ein g2) (g_eout g2) (g_next g2), GOk tt)
          end
      end
  end.
Fixpoint remove_edges (g : graph) (es : list nat) : graph * gres unit :=
  match es with
  | [] => (g, GOk tt)
  | e :: es => match remove_edge g e with (g', GOk _) => remove_edges g' es | r => r end
  end.
(** remove_node :149-159; node.get_edges() :84-88 is a copy of ein + eout. *)
Definition remove_node (g : graph) (n : nat) : graph * gres unit :=
  if negb (existsb (Nat.eqb n) (g_nodes g)) then (g, GErr GException) else
  match remove_edges g (g_ein g n ++ g_eout g n) with
  | (g', GOk _) =>
      match lremove n (g_nodes g') with
      | None => (g', GErr GValueError)
      | Some l => (mkG l (g_edges g') (g_ends g') (g_ein g') (g_eout g') (g_next g'), GOk tt)
      end
  | r => r
  end.

(** add_nodes :187-194 *)
Fixpoint add_nodes (g : graph) (k : nat) : graph * list nat :=
  match k with
  | O => (g, [])
  | S k => let (g1, n) := add_node g in let (g2, ns) := add_nodes g1 k in (g2, n :: ns)
  end.

(** add_full_connectivity :225-238 *)
Fixpoint add_edges_to (g : graph) (h : nat) (ts : list nat) : graph * list nat :=
  match ts with
  | [] => (g, [])
  | t :: ts => let (g1, e) := add_edge g h t in let (g2, es) := add_edges_to g1 h ts in (g2, e :: es)
  end.
Fixpoint add_full (g : graph) (from_ to_ : list nat) : graph * list (list nat) :=
  match from_ with
  | [] => (g, [])
  | h :: hs => let (g1, es) := add_edges_to g h to_ in let (g2, ess) := add_full g1 hs to_ in (g2, es :: ess)
  end.

(** add_tree :196-223.  The argument is a nested sequence: a value or a sequence of such; the result has nodes for values. *)
Inductive nested := NVal (n : nat) | NSeq (l : list nested).
(** recursive_map(self.add_node, tree) :25-32 *)
Fixpoint map_add (g : graph) (t : nested) : graph * nested :=
  match t with
  | NVal _ => let (g', n) := add_node g in (g', NVal n)
  | NSeq l =>
      let fix go g l := match l with [] => (g, []) | x :: l => let (g1, y) := map_add g x in let (g2, ys) := go g1 l in (g2, y :: ys) end in
      let (g', l') := go g l in (g', NSeq l')
  end.
(** add_edge with a tail that is no node: fails in tail.add_edge_in, after head.add_edge_out. *)
Definition half_edge (g : graph) (h : nat) : graph :=
  mkG (g_nodes g) (g_edges g) (g_ends g ++ [(h, g_next g)]) (g_ein g) (fupd (g_eout g) h (g_eout g h ++ [length (g_ends g)])) (g_next g).
(** recursive_reduce(_add_edge, nodes) :34-42: reduce starts with the first item, whatever it is; a sequence there is not a node
    (AttributeError in add_edge), an empty sequence is a TypeError of reduce. *)
Fixpoint reduce_edges (g : graph) (t : nested) : graph * gres nested :=
  match t with
  | NVal n => (g, GOk (NVal n))       (* not a sequence: the node itself is passed to func *)
  | NSeq [] => (g, GErr GTypeError)
  | NSeq (x :: l) =>
      (fix go (g : graph) (l : list nested) : graph * gres nested :=
         match l with
         | [] => (g, GOk x)
         | y :: l =>
             match reduce_edges g y with
             | (g1, GErr e) => (g1, GErr e)
             | (g1, GOk r) => match x, r with
                              | NVal h, NVal t => go (fst (add_edge g1 h t)) l
                              | NVal h, NSeq _ => (half_edge g1 h, GErr GAttributeError)
                              | NSeq _, _ => (g1, GErr GAttributeError)
                              end
             end
         end) g l
  end.
Definition add_tree (g : graph) (l : list nested) : graph * gres nested :=
  let (g1, nodes) := map_add g (NSeq l) in
  match reduce_edges g1 nodes with (g2, GOk _) => (g2, GOk nodes) | (g2, GErr e) => (g2, GErr e) end.

(** out_neighbors :106-108, in_neighbors :102-104, neighbors :110-111 *)
Definition out_neighbors (g : graph) (n : nat) : list nat := map (tail_of g) (g_eout g n).
Definition in_neighbors (g : graph) (n : nat) : list nat := map (head_of g) (g_ein g n).
Definition neighbors (g : graph) (n : nat) : list nat := in_neighbors g n ++ out_neighbors g n.

(** Loop [for son in neighbors: if son not in visited: ...]: new sons in order, and the new visited set. *)
Definition mem (n : nat) (l : list nat) : bool := existsb (Nat.eqb n) l.
Fixpoint new_sons (sons visited : list nat) : list nat * list nat :=
  match sons with
  | [] => ([], visited)
  | s :: sons => if mem s visited then new_sons sons visited else let (r, v) := new_sons sons (visited ++ [s]) in (s :: r, v)
  end.
(** _dfs :281-309: the stack is a list with its top first; the result is the dfs_list (the order of the calls of visit_fct). *)
Fixpoint dfs_loop (fuel : nat) (nb : nat -> list nat) (stack visited out : list nat) : gres (list nat) :=
  match stack with
  | [] => GOk out
  | n :: stack =>
      match fuel with
      | O => GErr GFuel
      | S fuel => let (new, visited') := new_sons (nb n) visited in dfs_loop fuel nb (rev new ++ stack) visited' (out ++ [n])
      end
  end.
(** _bfs :356-384: a queue. *)
Fixpoint bfs_loop (fuel : nat) (nb : nat -> list nat) (queue visited out : list nat) : gres (list nat) :=
  match queue with
  | [] => GOk out
  | n :: queue =>
      match fuel with
      | O => GErr GFuel
      | S fuel => let (new, visited') := new_sons (nb n) visited in bfs_loop fuel nb (queue ++ new) visited' (out ++ [n])
      end
  end.
(** The fuel is never used up when the root and all neighbors are among g_nodes (proved). *)
Definition fuel_of (g : graph) : nat := S (length (g_nodes g)).
Definition dfs (g : graph) (root : nat) := dfs_loop (fuel_of g) (out_neighbors g) [root] [root] [].
Definition undirected_dfs (g : graph) (root : nat) := dfs_loop (fuel_of g) (neighbors g) [root] [root] [].
Definition bfs (g : graph) (root : nat) := bfs_loop (fuel_of g) (out_neighbors g) [root] [root] [].
Definition undirected_bfs (g : graph) (root : nat) := bfs_loop (fuel_of g) (neighbors g) [root] [root] [].

(** connected_components :332-346 *)
Fixpoint components_loop (g : graph) (ns visited : list nat) (comps : list (list nat)) : gres (list (list nat)) :=
  match ns with
  | [] => GOk comps
  | n :: ns =>
      if mem n visited then components_loop g ns visited comps else
      match undirected_dfs g n with
      | GErr e => GErr e
      | GOk c => components_loop g ns (visited ++ c) (comps ++ [c])
      end
  end.
Definition connected_components (g : graph) : gres (list (list nat)) := components_loop g (g_nodes g) [] [].
(** is_weakly_connected :348-350 *)
Definition is_weakly_connected (g : graph) : gres bool :=
  match g_nodes g with
  | [] => GErr GIndexError
  | n :: _ => match undirected_dfs g n with GOk l => GOk (length l =? length (g_nodes g)) | GErr e => GErr e end
  end.

(** topological_sort :242-277. The dictionary remaining_indegree is an association by function; None is a missing key. *)
Definition indeg := nat -> option nat.
Definition iset (d : indeg) (n : nat) (v : nat) : indeg := fun m => if m =? n then Some v else d m.
Fixpoint topo_init (g : graph) (ns : list nat) (queue : list nat) (d : indeg) : list nat * indeg :=
  match ns with
  | [] => (queue, d)
  | n :: ns => match length (g_ein g n) with
               | O => topo_init g ns (queue ++ [n]) d
               | k => topo_init g ns queue (iset d n k)
               end
  end.
(** [for son in node.out_neighbors()]: None for KeyError. (A count of 0 does not occur here; the model subtracts in nat.) *)
Fixpoint topo_sons (sons queue : list nat) (d : indeg) : option (list nat * indeg) :=
  match sons with
  | [] => Some (queue, d)
  | s :: sons => match d s with
                 | None => None
                 | Some k => topo_sons sons (if k =? 1 then queue ++ [s] else queue) (iset d s (k - 1))
                 end
  end.
Fixpoint topo_loop (fuel : nat) (g : graph) (queue : list nat) (d : indeg) (out : list nat) : gres (list nat) :=
  match queue with
  | [] => GOk out
  | n :: queue =>
      match fuel with
      | O => GErr GFuel
      | S fuel => match topo_sons (out_neighbors g n) queue d with
                  | None => GErr GKeyError
                  | Some (queue', d') => topo_loop fuel g queue' d' (out ++ [n])
                  end
      end
  end.
Definition topological_sort (g : graph) : gres (list nat) :=
  let (queue, d) := topo_init g (g_nodes g) [] (fun _ => None) in
  match topo_loop (fuel_of g) g queue d [] with
  | GOk l => if length l =? length (g_nodes g) then GOk l else GErr (GTopological l)
  | r => r
  end.

(** GraphNode.get_edges_in / get_edges_out / get_edges :68-88. A given node argument is always true in [if from_]:
    GraphNode defines neither __bool__ nor __len__. *)
Definition get_edges_in (g : graph) (n : nat) (from_ : option nat) : list nat :=
  match from_ with None => g_ein g n | Some m => filter (fun e => head_of g e =? m) (g_ein g n) end.
Definition get_edges_out (g : graph) (n : nat) (to_ : option nat) : list nat :=
  match to_ with None => g_eout g n | Some m => filter (fun e => tail_of g e =? m) (g_eout g n) end.
Definition get_edges (g : graph) (n : nat) (neighbor : option nat) : list nat :=
  get_edges_in g n neighbor ++ get_edges_out g n neighbor.
(** in_degree, out_degree, degree :90-100 *)
Definition in_degree (g : graph) (n : nat) : nat := length (g_ein g n).
Definition out_degree (g : graph) (n : nat) : nat := length (g_eout g n).
Definition degree (g : graph) (n : nat) : nat := in_degree g n + out_degree g n.

(** Operations of a user. *)
Inductive gop := OAddNode | OAddEdge (h t : nat) | ORemoveEdge (e : nat) | ORemoveNode (n : nat) | OAddNodes (k : nat)
               | OAddTree (l : list nested) | OAddFull (from_ to_ : list nat).
Definition gstep (g : graph) (o : gop) : graph :=
  match o with
  | OAddNode => fst (add_node g)
  | OAddEdge h t => fst (add_edge g h t)
  | ORemoveEdge e => fst (remove_edge g e)
  | ORemoveNode n => fst (remove_node g n)
  | OAddNodes k => fst (add_nodes g k)
  | OAddTree l => fst (add_tree g l)
  | OAddFull a b => fst (add_full g a b)
  end.
