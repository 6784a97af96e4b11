(** Model of mdp/caching/caching_extension.py: the globals of the module, set_cachedir, activate_caching, deactivate_caching,
    set_instance_cache and the execute method of CacheExecuteExtensionNode.

    A node has a class and a state (all that pickle sees of it).  [pre] is Node._pre_execution_checks: the state afterwards and whether
    it returned normally; [val] is what _execute returns (None: it raises); _execute does not change the node, as the warning
    in the docstring of the extension demands.  joblib.Memory(dir).cache(f)(node, x) is modelled as a table in the directory, keyed by
    class and state of the node and by x: a stored value is returned without calling f, else f is called and the value stored unless
    f raises.  Nodes are compared by identity. *)
From Coq Require Import List Arith Bool.
Import ListNotations.

Inductive dir := Named (n : nat) | Temp (n : nat).
Definition dir_eq_dec (a b : dir) : {a = b} + {a <> b}.
Proof. decide equality; apply Nat.eq_dec. Defined.
Global Arguments dir_eq_dec : simpl never.

Section Cache.
  Context {St X Y : Type} (eqS : forall a b : St, {a = b} + {a <> b}) (eqX : forall a b : X, {a = b} + {a <> b}).
  Context (cls : nat -> nat) (pre : nat -> St -> X -> St * bool) (val : nat -> St -> X -> option Y).

  Inductive result := Value (y : Y) | CheckRaised | ExecRaised | AttrError.
  (** the globals :18-32, whether the extension is active, the nodes, and the files in the directories; [g_calls] is ghost and counts
      the calls of the original execute *)
  Record glob := mkG {
    g_active : bool; g_dir : option dir; g_temp : option nat; g_fresh : nat; g_memory : option dir;
    g_global : bool; g_classes : list nat; g_instances : list nat; g_methods : list (nat * dir);
    g_store : list ((dir * nat * St * X) * Y); g_st : nat -> St; g_calls : nat }.
  Definition set_active b g := mkG b (g_dir g) (g_temp g) (g_fresh g) (g_memory g) (g_global g) (g_classes g) (g_instances g) (g_methods g) (g_store g) (g_st g) (g_calls g).
  Definition set_flags gl cs is g := mkG (g_active g) (g_dir g) (g_temp g) (g_fresh g) (g_memory g) gl cs is (g_methods g) (g_store g) (g_st g) (g_calls g).
  Definition set_methods m g := mkG (g_active g) (g_dir g) (g_temp g) (g_fresh g) (g_memory g) (g_global g) (g_classes g) (g_instances g) m (g_store g) (g_st g) (g_calls g).
  Definition set_store t g := mkG (g_active g) (g_dir g) (g_temp g) (g_fresh g) (g_memory g) (g_global g) (g_classes g) (g_instances g) (g_methods g) t (g_st g) (g_calls g).
  Definition set_st f g := mkG (g_active g) (g_dir g) (g_temp g) (g_fresh g) (g_memory g) (g_global g) (g_classes g) (g_instances g) (g_methods g) (g_store g) f (g_calls g).
  Definition add_call g := mkG (g_active g) (g_dir g) (g_temp g) (g_fresh g) (g_memory g) (g_global g) (g_classes g) (g_instances g) (g_methods g) (g_store g) (g_st g) (S (g_calls g)).
  Definition upd (f : nat -> St) (i : nat) (s : St) : nat -> St := fun j => if Nat.eqb j i then s else f j.

  (** Node.execute, signal_node.py:641-654 *)
  Definition original (c : nat) (s : St) (x : X) : St * result :=
    let (s, ok) := pre c s x in
    if ok then (s, match val c s x with Some y => Value y | None => ExecRaised end) else (s, CheckRaised).

  (** set_cachedir :34-60.  The temporary directory of the previous call is deleted when its object is replaced; names of temporary
      directories are new *)
  Definition set_cachedir (d : option dir) (g : glob) : glob :=
    let '(d, g) := match d with
                   | Some d => (d, g)
                   | None => (Temp (g_fresh g),
                              mkG (g_active g) (g_dir g) (Some (g_fresh g)) (S (g_fresh g)) (g_memory g) (g_global g) (g_classes g) (g_instances g) (g_methods g)
                                  (match g_temp g with Some k => filter (fun e => negb (if dir_eq_dec (fst (fst (fst (fst e)))) (Temp k) then true else false)) (g_store g) | None => g_store g end)
                                  (g_st g) (g_calls g))
                   end in
    if match g_dir g with Some d' => if dir_eq_dec d d' then true else false | None => false end then g
    else mkG (g_active g) (Some d) (g_temp g) (g_fresh g) (Some d) (g_global g) (g_classes g) (g_instances g) [] (g_store g) (g_st g) (g_calls g).
  (** activate_caching :131-163; activate_extension does nothing if the extension is active *)
  Definition activate (d : option dir) (classes instances : option (list nat)) (g : glob) : glob :=
    let g := set_cachedir d g in
    let g := set_flags (match classes, instances with None, None => true | _, _ => false end)
                       (match classes with Some cs => cs | None => g_classes g end) (match instances with Some is => is | None => g_instances g end) g in
    set_active true g.
  (** deactivate_caching :165-177 *)
  Definition deactivate (g : glob) : glob := set_methods [] (set_flags true [] [] (set_active false g)).
  (** is_cached :84-91 *)
  Definition is_cached (i : nat) (g : glob) : bool := g_global g || existsb (Nat.eqb (cls i)) (g_classes g) || existsb (Nat.eqb i) (g_instances g).
  Fixpoint remove_one (i : nat) (l : list nat) : list nat := match l with [] => [] | j :: l => if Nat.eqb i j then l else j :: remove_one i l end.
  (** set_instance_cache :93-105; the method exists while the extension is active *)
  Definition set_instance_cache (i : nat) (act : bool) (g : glob) : glob :=
    if g_active g then set_flags (g_global g) (g_classes g) (if act then g_instances g ++ [i] else remove_one i (g_instances g)) g else g.

  Definition key_eqb (a b : dir * nat * St * X) : bool :=
    let '(d, c, s, x) := a in let '(d', c', s', x') := b in
    (if dir_eq_dec d d' then true else false) && Nat.eqb c c' && (if eqS s s' then true else false) && (if eqX x x' then true else false).
  Definition lookup (k : dir * nat * St * X) (t : list ((dir * nat * St * X) * Y)) : option Y := option_map snd (find (fun e => key_eqb k (fst e)) t).
  Definition run_original (i : nat) (x : X) (g : glob) : glob * result :=
    let (s, r) := original (cls i) (g_st g i) x in (add_call (set_st (upd (g_st g) i s) g), r).
  (** calling the cached function; the key is computed before the call *)
  Definition cached_call (d : dir) (i : nat) (x : X) (g : glob) : glob * result :=
    let k := (d, cls i, g_st g i, x) in
    match lookup k (g_store g) with
    | Some y => (g, Value y)
    | None => let (g, r) := run_original i x g in (match r with Value y => set_store ((k, y) :: g_store g) g | _ => g end, r)
    end.
  Definition method (i : nat) (g : glob) : option dir := option_map snd (find (fun e => Nat.eqb i (fst e)) (g_methods g)).
  (** execute :107-124 *)
  Definition execute (i : nat) (x : X) (g : glob) : glob * result :=
    if g_active g && is_cached i g then
      match method i g with
      | Some d => cached_call d i x g
      | None =>
        match g_memory g with
        | None => (g, AttrError)
        | Some d =>
          let g := set_methods ((i, d) :: g_methods g) g in
          let (s, ok) := pre (cls i) (g_st g i) x in
          let g := set_st (upd (g_st g) i s) g in
          if ok then cached_call d i x g else (g, CheckRaised)
        end
      end
    else run_original i x g.

  (** what a program does: [Change] is anything else done to a node (training etc.); [ByName] is mdp.activate_extension('cache_execute') *)
  Inductive op :=
  | Execute (i : nat) (x : X) | Activate (d : option dir) (classes instances : option (list nat)) | Deactivate
  | SetDir (d : option dir) | SetInstance (i : nat) (act : bool) | Change (i : nat) (f : St -> St) | ByName (act : bool).
  Definition step (o : op) (g : glob) : glob * option result :=
    match o with
    | Execute i x => let (g, r) := execute i x g in (g, Some r)
    | Activate d cs is => (activate d cs is g, None)
    | Deactivate => (deactivate g, None)
    | SetDir d => (set_cachedir d g, None)
    | SetInstance i act => (set_instance_cache i act g, None)
    | Change i f => (set_st (upd (g_st g) i (f (g_st g i))) g, None)
    | ByName act => (set_active act g, None)
    end.
  Fixpoint run (ops : list op) (g : glob) : glob * list (option result) :=
    match ops with [] => (g, []) | o :: ops => let (g, r) := step o g in let (g, rs) := run ops g in (g, r :: rs) end.
  (** the same program without the extension *)
  Definition plain_step (o : op) (st : nat -> St) : (nat -> St) * option result :=
    match o with
    | Execute i x => let (s, r) := original (cls i) (st i) x in (upd st i s, Some r)
    | Change i f => (upd st i (f (st i)), None)
    | _ => (st, None)
    end.
  Fixpoint plain (ops : list op) (st : nat -> St) : (nat -> St) * list (option result) :=
    match ops with [] => (st, []) | o :: ops => let (st, r) := plain_step o st in let (st, rs) := plain ops st in (st, r :: rs) end.
  (** the globals after import of the module *)
  Definition init_glob (store : list ((dir * nat * St * X) * Y)) (st : nat -> St) : glob := mkG false None None 0 None true [] [] [] store st 0.
  (** the context manager cache :179-221 around a program *)
  Definition with_cache (d : option dir) (cs is : option (list nat)) (body : list op) : list op := Activate d cs is :: body ++ [Deactivate].
End Cache.
