(** Model of bimdp/binode.py: binode_coroutine (:489-565), bi_reset (:295-314) and _combine_result (:412-438) for the results of coroutines, with the generators of Python 3.

    A generator object is the suspended body, a running or a finished body; the objects live in a heap.  The body of a coroutine is an arbitrary function that
    gets the values sent to it and the whole node, and yields, returns or raises.  Arguments and results are values of an arbitrary type: the adaptation of the
    signatures (_wrap_function, :534-542, :562-563) and the parsing of messages are not modelled here. *)
From Coq Require Import List Arith Bool String.
Import ListNotations.
Open Scope nat_scope.

Section Coro.
  Variables V W G E : Type.
  (** what a body does when it is resumed: yield a value, return (with or without a value), raise an exception *)
  Inductive outcome := Yields (v : V) (g : G) | Returns (o : option V) | Raises (e : E).
  Inductive gst := GOpen (g : G) | GRunning | GClosed.
  (** _coroutine_instances (None, or a dict: name of the method -> generator object), the instance attributes which shadow methods, the generator objects,
      everything else *)
  Record node := mkN { n_tab : option (list (string * nat)); n_attr : list string; n_heap : list gst; n_w : W }.
  (** the result of a call: a value, None, the tuple exception.args with one entry, an exception of the body; AttributeError, KeyError, ValueError (already executing) *)
  Inductive cres := RVal (v : V) | RNone | RTuple (v : V) | RRaise (e : E) | RAttr | RKey | RBusy.

  Definition get (t : list (string * nat)) (k : string) : option nat := match find (fun p => String.eqb (fst p) k) t with Some p => Some (snd p) | None => None end.
  Definition del (t : list (string * nat)) (k : string) : list (string * nat) := filter (fun p => negb (String.eqb (fst p) k)) t.
  Definition shadowed (k : string) (l : list string) : bool := existsb (String.eqb k) l.
  Definition remove (k : string) (l : list string) : list string := filter (fun s => negb (String.eqb k s)) l.
  Definition setn (l : list gst) (i : nat) (v : gst) : list gst := firstn i l ++ match skipn i l with [] => [] | _ :: r => v :: r end.
  Definition set_heap (s : node) (i : nat) (v : gst) : node := mkN (n_tab s) (n_attr s) (setn (n_heap s) i v) (n_w s).

  (** the body of a method for given arguments, before its first statement; its continuation *)
  Variable start : string -> V -> G.
  Variable step : G -> option V -> node -> node * outcome.
  (** generator.send(args), next(generator) *)
  Inductive sent := SVal (v : V) | SStop (o : option V) | SRaise (e : E) | SBusy.
  Definition send (i : nat) (a : option V) (s : node) : node * sent :=
    match nth i (n_heap s) GClosed with
    | GClosed => (s, SStop None)
    | GRunning => (s, SBusy)
    | GOpen g => match step g a (set_heap s i GRunning) with
                 | (s', Yields v g') => (set_heap s' i (GOpen g'), SVal v)
                 | (s', Returns o) => (set_heap s' i GClosed, SStop o)
                 | (s', Raises e) => (set_heap s' i GClosed, SRaise e)
                 end
    end.
  (** the handler of StopIteration :530-536, :555-561 *)
  Definition finish (k : string) (o : option V) (s : node) : node * cres :=
    if shadowed k (n_attr s) then
      let s1 := mkN (n_tab s) (remove k (n_attr s)) (n_heap s) (n_w s) in
      match n_tab s with
      | None => (s1, RKey)                                       (* del None[...]: TypeError *)
      | Some t => match get t k with
                  | None => (s1, RKey)
                  | Some _ => (mkN (Some (del t k)) (n_attr s1) (n_heap s1) (n_w s1), match o with None => RNone | Some v => RTuple v end)
                  end
      end
    else (s, RAttr).
  Definition resume (k : string) (i : nat) (a : option V) (s : node) : node * cres :=
    match send i a s with
    | (s', SVal v) => (s', RVal v)
    | (s', SStop o) => finish k o s'
    | (s', SRaise e) => (s', RRaise e)
    | (s', SBusy) => (s', RBusy)
    end.
  (** _coroutine_interface :527-536 *)
  Definition interface (k : string) (a : V) (s : node) : node * cres :=
    match match n_tab s with None => None | Some t => get t k end with
    | None => (s, RKey)
    | Some i => resume k i (Some a) s
    end.
  (** _coroutine_initialization :545-561 for the body [g]; an entry already there (C415) is moved to the end of the dict *)
  Definition initialize (k : string) (g : G) (s : node) : node * cres :=
    let i := List.length (n_heap s) in
    let t := match n_tab s with None => [] | Some t => t end in
    resume k i None (mkN (Some (del t k ++ [(k, i)])) (remove k (n_attr s) ++ [k]) (n_heap s ++ [GOpen g]) (n_w s)).
  (** node.method(args) *)
  Definition call (k : string) (a : V) (s : node) : node * cres :=
    if shadowed k (n_attr s) then interface k a s else initialize k (start k a) s.
  (** bi_reset :295-314; the hook _bi_reset; false: AttributeError *)
  Variable hook : W -> W.
  Fixpoint del_attrs (ks : list string) (l : list string) : list string * bool :=
    match ks with [] => (l, true) | k :: ks => if shadowed k l then del_attrs ks (remove k l) else (l, false) end.
  Definition reset (s : node) : node * bool :=
    match n_tab s with
    | None => (mkN None (n_attr s) (n_heap s) (hook (n_w s)), true)
    | Some t => match del_attrs (map fst t) (n_attr s) with
                | (l, true) => (mkN None l (n_heap s) (hook (n_w s)), true)
                | (l, false) => (mkN (Some t) l (n_heap s) (n_w s), false)
                end
    end.
  (** node.copy(): a deep copy; generator objects cannot be copied (TypeError) *)
  Definition copyable (s : node) : bool := match n_tab s with None | Some [] => true | _ => false end.
  Definition fresh (w : W) : node := mkN None [] [] w.

  Inductive event := Call (k : string) (a : V) | DoReset.
  Definition do (e : event) (s : node) : node * option cres :=
    match e with
    | Call k a => let (s', r) := call k a s in (s', Some r)
    | DoReset => let (s', b) := reset s in (s', if b then None else Some RAttr)
    end.
  Fixpoint history (es : list event) (s : node) : node * list (option cres) :=
    match es with [] => (s, []) | e :: es => let (s1, r) := do e s in let (s2, rs) := history es s1 in (s2, r :: rs) end.
End Coro.

(** ** _combine_result :412-438 for the result of a method: something that is not a tuple, or a tuple *)
Section Combine.
  Variables V M T : Type.
  Variable emptyb : M -> bool.             (* not msg *)
  Variable update : M -> V -> M.           (* msg.update(result[1]), if result[1] is true *)
  Inductive pyres := Plain (v : V) | Tup (l : list V).
  (** what is returned; a tuple is the list of its entries: values, messages, targets *)
  Inductive entry := EV (v : V) | EM (m : option M) | ET (t : T).
  (** IndexError *)
  Definition combine_result (r : pyres) (m : option M) (t : option T) : option (list entry + V) :=
    match r with
    | Tup l =>
        match match m with
              | Some m => if emptyb m then Some (map EV l) else
                          match l with
                          | a :: b :: r => Some (EV a :: EM (Some (update m b)) :: map EV r)
                          | _ => None                              (* result[1] *)
                          end
              | None => Some (map EV l)
              end with
        | None => None
        | Some l => Some (inl (match t with Some t => if (List.length l =? 2) then l ++ [ET t] else l | None => l end))
        end
    | Plain v =>
        match match m with Some m => if emptyb m then None else Some m | None => None end, t with
        | None, None => Some (inr v)
        | Some m, None => Some (inl [EV v; EM (Some m)])
        | _, Some t => Some (inl [EV v; EM m; ET t])
        end
    end.
End Combine.
