(** Model of bimdp/binode.py: BiNode (execute, train, stop_training and the handling of messages).

    A message is a Python dict with string keys, an ordered association list.  Messages are objects that are modified in place, so they
    live on a heap and are passed by reference.  Simplifications: node ids are strings or None; methods have positional-or-keyword
    parameters only; the message in the result of a method is a dict or None; stop_result is a list with one entry per training phase
    (for one phase the code takes the entry itself), the empty list for None. *)
From Coq Require Import List Arith ZArith Bool String Ascii.
Import ListNotations.
Open Scope nat_scope.

(** BiNodeException, TypeError, ValueError, IndexError, IsNotTrainableException, TrainingFinishedException, TrainingException,
    IsNotInvertibleException, BiFlowException, AttributeError, and an exception of the node's own code *)
Inductive bexn := EBiNode | EType | EValue | EIndex | ENotTrainable | EFinished | ETraining | ENotInvertible | EBiFlow | EAttr | EOwn (n : nat).
Inductive bres (R : Type) := BOk (r : R) | BErr (e : bexn).
Arguments BOk {R} _. Arguments BErr {R} _.

(** ** MSG_ID_SEP :85; fullkey.find(MSG_ID_SEP) and the split at its first occurrence *)
Definition is_sep (s : string) : bool := match s with String "-" (String ">" _) => true | _ => false end.
Fixpoint cut (s : string) : option (string * string) :=
  match s with
  | EmptyString => None
  | String c s' =>
      if is_sep s then Some (EmptyString, match s' with String _ b => b | EmptyString => EmptyString end)
      else match cut s' with Some (a, b) => Some (String c a, b) | None => None end
  end.
(** the parsing of one key in _get_msg_id_keys :343-345: None for a plain key; ValueError if the key has two separators *)
Definition parse_key (s : string) : bres (option (string * string)) :=
  match cut s with
  | None | Some (EmptyString, _) => BOk None
  | Some (a, b) => match cut b with None => BOk (Some (a, b)) | Some _ => BErr EValue end
  end.

(** ** Python dicts *)
Section Dict.
  Context {V : Type}.
  Definition dict := list (string * V).
  Fixpoint dget (k : string) (d : dict) : option V :=
    match d with [] => None | (k', v) :: d => if String.eqb k k' then Some v else dget k d end.
  Fixpoint dset (k : string) (v : V) (d : dict) : dict :=
    match d with [] => [(k, v)] | (k', v') :: d => if String.eqb k k' then (k', v) :: d else (k', v') :: dset k v d end.
  Definition ddel (k : string) (d : dict) : dict := filter (fun p => negb (String.eqb k (fst p))) d.
  Definition dupdate (d e : dict) : dict := fold_left (fun d p => dset (fst p) (snd p) d) e d.
End Dict.
Arguments dict : clear implicits.

Section BiNode.
  Variables X O S : Type.      (* arrays, other objects in messages, the attributes of the node *)
  Variable truthy : O -> bool.

  Inductive value := VNone | VBool (b : bool) | VInt (z : Z) | VStr (s : string) | VObj (o : O).
  Definition truth (v : value) : bool :=
    match v with VNone => false | VBool b => b | VInt z => negb (z =? 0)%Z | VStr s => negb (String.eqb s "") | VObj o => truthy o end.
  Definition is_str (s : string) (v : value) : bool := match v with VStr t => String.eqb t s | _ => false end.
  Definition msg := dict value.
  Definition ref := nat.
  Definition heap := list msg.
  Definition hget (h : heap) (r : ref) : msg := nth r h [].
  Fixpoint hset (h : heap) (r : ref) (m : msg) : heap :=
    match h, r with [], _ => [] | _ :: h, 0 => m :: h | m' :: h, Datatypes.S r => m' :: hset h r m end.
  (** an argument of a method: a value of the message, or the message itself *)
  Inductive arg := AVal (v : value) | ARef (r : ref).
  (** y, (y, msg), (y, msg, target), a tuple of another length (at least 4) *)
  Inductive result := RPlain (y : option X) | RPair (y : option X) (m : option ref) | RTriple (y : option X) (m : option ref) (t : value) | ROther.

  (** a bound method: its parameters without self, each with a flag whether it is required; the body *)
  Record meth := mkMeth { m_params : list (string * bool); m_run : option X -> dict arg -> S * heap -> (S * heap) * bres result }.
  Record bclass := mkClass {
    c_id : option string;
    c_trainable : bool;
    c_invertible : bool;
    c_methods : string -> option meth;                 (* getattr(self, '_' + name) *)
    c_execute : meth; c_inverse : meth;
    c_phases : list (meth * meth);                     (* _train_seq *)
    c_stop_result : list (msg * value);
    c_check_input : X -> S -> S * bres unit;           (* _check_input, and output_dim = input_dim after it in _pre_execution_checks *)
    c_check_output : X -> S -> S * bres unit;          (* the end of _pre_inversion_checks *)
    c_check_args : X -> dict arg -> S -> S * bres unit; (* _check_train_args *)
    c_refcast : S -> X -> X;
    c_bi_reset : S -> S }.
  Record bnode := mkNode { n_own : S; n_training : bool; n_phase : nat; n_started : bool }.
  Definition world := (bnode * heap)%type.
  Definition M (R : Type) := world -> world * bres R.
  Definition ret {R} (r : R) : M R := fun w => (w, BOk r).
  Definition raise {R} (e : bexn) : M R := fun w => (w, BErr e).
  Definition bind {R Q} (p : M R) (f : R -> M Q) : M Q := fun w => match p w with (w', BOk r) => f r w' | (w', BErr e) => (w', BErr e) end.
  Notation "'do' x <- p ; q" := (bind p (fun x => q)) (at level 60, x name, p at level 59, q at level 60, right associativity).
  Notation "p ;; q" := (bind p (fun _ => q)) (at level 60, right associativity).
  Definition look : M bnode := fun w => (w, BOk (fst w)).
  Definition mget (r : ref) : M msg := fun w => (w, BOk (hget (snd w) r)).
  Definition mset (r : ref) (m : msg) : M unit := fun w => ((fst w, hset (snd w) r m), BOk tt).
  Definition mnew (m : msg) : M ref := fun w => ((fst w, snd w ++ [m]), BOk (List.length (snd w))).
  Definition lift {R} (r : bres R) : M R := fun w => (w, r).
  Definition own (f : S -> S * bres unit) : M unit :=
    fun w => let (s', r) := f (n_own (fst w)) in ((mkNode s' (n_training (fst w)) (n_phase (fst w)) (n_started (fst w)), snd w), r).
  Definition set_started (b : bool) : M unit := fun w => ((mkNode (n_own (fst w)) (n_training (fst w)) (n_phase (fst w)) b, snd w), BOk tt).

  Variable c : bclass.

  (** ** Messages *)
  (** _get_msg_id_keys :337-348, for the keys of the message in order *)
  Fixpoint get_ids (ks : list string) : bres (list (string * string)) :=
    match ks with
    | [] => BOk []
    | k :: ks => match parse_key k with
                 | BErr e => BErr e
                 | BOk p => match get_ids ks with
                            | BErr e => BErr e
                            | BOk l => BOk (match p, c_id c with
                                            | Some (a, b), Some i => if String.eqb a i then (b, k) :: l else l
                                            | _, _ => l
                                            end)
                            end
                 end
    end.
  (** msg_id_keys without the first entry for this key *)
  Fixpoint drop_id (k : string) (ids : list (string * string)) : list (string * string) :=
    match ids with [] => [] | (a, b) :: ids => if String.eqb k a then ids else (a, b) :: drop_id k ids end.
  Definition oval (o : option value) : value := match o with Some v => v | None => VNone end.
  (** _extract_message_key :351-366: value, message and msg_id_keys afterwards *)
  Definition extract_key (k : string) (m : msg) (ids : list (string * string)) : value * msg * list (string * string) :=
    match dget k ids with
    | Some full => (oval (dget full m), ddel full m, drop_id k ids)
    | None => (oval (dget k m), m, ids)
    end.
  (** the loop over msg_id_keys in _extract_method_args :377-381 *)
  Fixpoint take_ids (names : list string) (ids : list (string * string)) (m : msg) (args : dict arg) : msg * dict arg :=
    match ids with
    | [] => (m, args)
    | (k, full) :: ids =>
        if existsb (String.eqb k) names then take_ids names ids (ddel full m) (dset k (AVal (oval (dget full m))) args)
        else take_ids names ids (ddel full m) args
    end.
  (** getargs(method)[0] *)
  Definition arg_names (f : meth) : list string := "self"%string :: map fst (m_params f).
  (** _extract_method_args :369-385: the message handed on (None if the method takes it) and the arguments *)
  Definition extract_args (f : meth) (r : ref) (ids : list (string * string)) : M (option ref * dict arg) :=
    do m <- mget r;
    let plain := map (fun p => (fst p, AVal (snd p))) (filter (fun p => existsb (String.eqb (fst p)) (arg_names f)) m) in
    let (m', args) := take_ids (arg_names f) ids m plain in
    mset r m';;
    (if existsb (String.eqb "msg") (arg_names f) then ret (None, dset "msg" (ARef r) args) else ret (Some r, args)).
  (** _get_method :387-410 *)
  Definition get_method (name : value) (default : meth) (target : value) : bres (meth * value) :=
    if negb (truth name) then BOk (default, target) else
    if is_str "inverse" name then BOk (c_inverse c, match target with VNone => VInt (-1) | t => t end) else
    match name with
    | VStr n => match c_methods c n with Some f => BOk (f, target) | None => BErr EBiNode end
    | _ => BErr EType
    end.
  (** binding of the arguments of a call method(x, ...) or method(...) *)
  Definition bind_args (f : meth) (npos : nat) (args : dict arg) : bool :=
    (npos <=? List.length (m_params f))
    && forallb (fun p => negb (existsb (String.eqb (fst p)) ("self"%string :: map fst (firstn npos (m_params f))))) args
    && forallb (fun p => implb (snd p) (existsb (fun q => String.eqb (fst p) (fst q)) args)) (skipn npos (m_params f)).
  Definition call (f : meth) (npos : nat) (x : option X) (args : dict arg) : M result :=
    if bind_args f npos args then
      fun w => let '((s', h'), r) := m_run f x args (n_own (fst w), snd w) in
               ((mkNode s' (n_training (fst w)) (n_phase (fst w)) (n_started (fst w)), h'), r)
    else raise EType.
  (** if msg: ... *)
  Definition nonempty (o : option ref) : M bool :=
    match o with None => ret false | Some r => do m <- mget r; ret (match m with [] => false | _ => true end) end.
  (** the tuple part of _combine_result :421-429 *)
  Definition merge (y : option X) (m : option ref) (mr : option ref) : M (option ref) :=
    do b <- nonempty m;
    match m, b with
    | Some r, true =>
        do b' <- nonempty mr;
        (match mr, b' with
         | Some r', true => do d <- mget r; do e <- mget r'; mset r (dupdate d e)
         | _, _ => ret tt
         end);; ret (Some r)
    | _, _ => ret mr
    end.
  Definition combine (res : result) (m : option ref) (target : value) : M result :=
    match res with
    | RPair y mr => do mm <- merge y m mr; ret (match target with VNone => RPair y mm | t => RTriple y mm t end)
    | RTriple y mr t => do mm <- merge y m mr; ret (RTriple y mm t)
    | ROther => ret ROther
    | RPlain y =>
        do b <- nonempty m;
        ret (match target, b with
             | VNone, false => RPlain y
             | VNone, true => RPair y m
             | t, _ => RTriple y m t
             end)
    end.

  (** ** Training *)
  Definition remaining (s : bnode) : nat := if c_trainable c then List.length (c_phases c) - n_phase s else 0.
  Definition phase_meths (s : bnode) : bres (meth * meth) := match nth_error (c_phases c) (n_phase s) with Some p => BOk p | None => BErr EIndex end.
  Record parsed := mkParsed { p_meth : meth; p_name : value; p_target : value; p_msg : option ref; p_args : dict arg }.
  (** the part common to execute :148-152, train :201-206 and stop_training :258-264 *)
  Definition parse (default : meth) (r : ref) : M parsed :=
    do m <- mget r;
    do ids <- lift (get_ids (map fst m));
    let '(target, m1, ids1) := extract_key "target" m ids in
    mset r m1;;
    let '(name, m2, ids2) := extract_key "method" m1 ids1 in
    mset r m2;;
    do q <- lift (get_method name default target);
    let (f, target) := q in
    do a <- extract_args f r ids2;
    let (mm, args) := a in
    ret (mkParsed f name target mm args).
  (** try: self._check_train_args(...) except TypeError: BiNodeException *)
  Definition check_args (x : X) (args : dict arg) : M unit :=
    own (fun s => let (s', r) := c_check_args c x args s in (s', match r with BErr EType => BErr EBiNode | r => r end)).
  Definition refcast (x : X) : M X := do s <- look; ret (c_refcast c (n_own s) x).
  (** stop_training :232-286 *)
  Definition stop_training (om : option ref) : M result :=
    do s <- look;
    if n_training s && negb (n_started s) then raise ETraining else
    if negb (n_training s) then raise EFinished else
    do fs <- lift (phase_meths s);
    do b <- nonempty om;
    do q <- (match om, b with
            | Some r, true => do p <- parse (snd fs) r; do res <- call (p_meth p) 0 None (p_args p); ret (res, p_msg p, p_target p)
            | _, _ => do res <- call (snd fs) 0 None []; ret (res, om, VNone)
            end);
    let '(res, mm, target) := q in
    (fun w => let s := fst w in
       ((mkNode (n_own s) (if List.length (c_phases c) - (n_phase s + 1) =? 0 then false else n_training s) (n_phase s + 1) false, snd w), BOk tt));;
    match c_stop_result c with
    | [] => combine res mm target
    | st =>
        do s <- look;
        match nth_error st (n_phase s - 1) with
        | None => raise EIndex
        | Some (m0, t0) =>
            do b <- nonempty mm;
            do r <- (match mm, b with Some r, true => do m <- mget r; mnew (dupdate m0 m) | _, _ => mnew m0 end);
            combine res (Some r) (match target with VNone => t0 | t => t end)
        end
    end.
  (** Node._if_training_stop_training (mdp/signal_node.py:505-511), _pre_inversion_checks (:537-557) *)
  Definition stop_if_training : M unit :=
    do s <- look;
    if n_training s then stop_training None;; (do s' <- look; if 0 <? remaining s' then raise ETraining else ret tt) else ret tt.
  Definition pre_inverse (x : X) : M unit :=
    if negb (c_invertible c) then raise ENotInvertible else stop_if_training;; own (c_check_output c x).
  (** train without message :190-200 *)
  Definition train_plain (x : X) : M result :=
    own (c_check_input c x);; check_args x [];; set_started true;;
    do x' <- refcast x; do s <- look; do fs <- lift (phase_meths s); call (fst fs) 1 (Some x') [].
  Definition guard_train : M unit :=
    if negb (c_trainable c) then raise ENotTrainable else do s <- look; if negb (n_training s) then raise EFinished else ret tt.
  (** train :165-230 *)
  Definition train (x : option X) (om : option ref) : M result :=
    guard_train;;
    match om with
    | None => match x with None => raise EBiNode | Some x => train_plain x end
    | Some r =>
        do s <- look; do fs <- lift (phase_meths s);
        do p <- parse (fst fs) r;
        do x' <- (match x with
                 | None => ret None
                 | Some x =>
                     if negb (truth (p_name p)) || is_str "train" (p_name p)
                     then own (c_check_input c x);; check_args x (p_args p);; set_started true;; (do x' <- refcast x; ret (Some x'))
                     else if is_str "inverse" (p_name p) then pre_inverse x;; ret (Some x) else ret (Some x)
                 end);
        do res <- call (p_meth p) 1 x' (p_args p);
        match res with
        | RPlain None => ret res
        | _ => do res' <- combine res (p_msg p) (p_target p); ret (match res' with RPair None _ => RPlain None | r => r end)
        end
    end.
  (** the automatic training in Node._pre_execution_checks (mdp/signal_node.py:519-526) *)
  Fixpoint auto_train (n : nat) (x : X) : M unit :=
    train (Some x) None;;
    (do s <- look;
     match n with
     | Datatypes.S n => if 1 <? remaining s then stop_training None;; auto_train n x else ret tt
     | 0 => ret tt
     end).
  (** Node._pre_execution_checks (mdp/signal_node.py:513-535); at most one round per training phase *)
  Definition pre_execute (x : X) : M unit :=
    do s <- look;
    (if c_trainable c && (n_phase s =? 0) && negb (n_started s) then auto_train (List.length (c_phases c)) x else ret tt);;
    stop_if_training;; own (c_check_input c x).
  (** execute :129-163 *)
  Definition execute (x : option X) (om : option ref) : M result :=
    match om with
    | None => match x with
              | None => raise EBiNode
              | Some x => pre_execute x;; (do x' <- refcast x; call (c_execute c) 1 (Some x') [])
              end
    | Some r =>
        do p <- parse (c_execute c) r;
        do x' <- (match x with
                 | None => ret None
                 | Some x =>
                     if negb (truth (p_name p)) || is_str "execute" (p_name p)
                     then pre_execute x;; (do x' <- refcast x; ret (Some x'))
                     else if is_str "inverse" (p_name p) then pre_inverse x;; ret (Some x) else ret (Some x)
                 end);
        do res <- call (p_meth p) 1 x' (p_args p);
        combine res (p_msg p) (p_target p)
    end.
  (** bi_reset :295-314 without coroutines *)
  Definition bi_reset : M unit := own (fun s => (c_bi_reset c s, BOk tt)).
  (** a new node *)
  Definition new_node (s : S) : bnode := mkNode s (c_trainable c) 0 false.
End BiNode.
