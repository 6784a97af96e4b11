(** Model of TemporaryDirectory, mdp/utils/temporarydir.py:11-88.

    The file system is a tree of directories, files and symbolic links to absolute paths; names are numbers. The operating system is modelled as far as the code uses it:
    os.listdir, os.path.isdir, os.remove and os.rmdir with their errors; [maxlinks] is the number of links after which a path is refused (ELOOP). The entries of a directory
    in [locked] cannot be removed, and a directory in [hidden] cannot be listed (EACCES). Not modelled: other processes, the handling of None'd globals (:39-45), mkdtemp. *)
From Coq Require Import List Arith Bool Lia.
Import ListNotations.

Inductive node := File | Dir (es : list (nat * node)) | Link (target : list nat).
Fixpoint find (l : list (nat * node)) (n : nat) : option node := match l with [] => None | (m, t) :: l => if m =? n then Some t else find l n end.
Fixpoint erase (l : list (nat * node)) (n : nat) : list (nat * node) := match l with [] => [] | (m, t) :: l => if m =? n then erase l n else (m, t) :: erase l n end.
(** the node at a path without links *)
Fixpoint get (t : node) (p : list nat) : option node :=
  match p with [] => Some t | n :: p => match t with Dir l => match find l n with Some u => get u p | None => None end | _ => None end end.
(** the entries of the directory at a path are replaced *)
Fixpoint setes (t : node) (p : list nat) (es : list (nat * node)) : node :=
  match p with
  | [] => match t with Dir _ => Dir es | t => t end
  | n :: p => match t with Dir l => Dir (map (fun e => if fst e =? n then (fst e, setes (snd e) p es) else e) l) | t => t end
  end.
Section OS.
  Variables (maxlinks : nat) (locked hidden : list nat -> bool).
  (** the real path of a path; [None]: a component is missing, or too many links (listdir of such a path is only called for the directory itself) *)
  Fixpoint resolve (budget : nat) (root : node) : list nat -> list nat -> option (list nat) :=
    fix go (done p : list nat) {struct p} : option (list nat) :=
      match p with
      | [] => Some done
      | n :: p =>
          match get root (done ++ [n]) with
          | Some (Link q) => match budget with O => None | S b => resolve b root [] (q ++ p) end
          | Some _ => go (done ++ [n]) p
          | None => None
          end
      end.
  Definition real (root : node) (p : list nat) : option (list nat) := resolve maxlinks root [] p.
  Inductive oserr := ENOENT | EOTHER.
  Definition listdir (root : node) (p : list nat) : list nat + oserr :=
    match real root p with
    | None => inr ENOENT
    | Some q => match get root q with Some (Dir es) => if hidden q then inr EOTHER else inl (map fst es) | _ => inr EOTHER end
    end.
  Definition isdir (root : node) (p : list nat) : bool := match real root p with Some q => match get root q with Some (Dir _) => true | _ => false end | None => false end.
  (** remove and rmdir do not follow a link at the end of the path; [None] is an OSError. The path is parent and name *)
  Definition unlink (dir : bool) (root : node) (parent : list nat) (n : nat) : option node :=
    match real root parent with
    | None => None
    | Some q =>
        match get root q with
        | Some (Dir es) =>
            if locked q then None
            else match find es n with
                 | Some (Dir []) => if dir then Some (setes root q (erase es n)) else None
                 | Some (Dir _) | None => None
                 | Some _ => if dir then None else Some (setes root q (erase es n))
                 end
        | _ => None
        end
    end.
  (** _rmtree :69-88 with path = parent/name; the exceptions of remove and rmdir are caught, those of listdir are not *)
  Fixpoint rmtree (fuel : nat) (root : node) (parent : list nat) (name : nat) : node * option oserr :=
    match fuel with
    | O => (root, Some EOTHER)
    | S fuel =>
        let path := parent ++ [name] in
        match listdir root path with
        | inr e => (root, Some e)
        | inl names =>
            let fix loop (names : list nat) (root : node) : node * option oserr :=
              match names with
              | [] => (root, None)
              | n :: names =>
                  if isdir root (path ++ [n]) then match rmtree fuel root path n with (root, None) => loop names root | r => r end
                  else loop names (match unlink false root path n with Some r => r | None => root end)
              end in
            match loop names root with
            | (root, None) => (match unlink true root parent name with Some r => r | None => root end, None)
            | r => r
            end
        end
    end.
  (** cleanup :35-50: closed is set unless an exception other than ENOENT is raised; __exit__ :52-53 and __del__ :55-56 call it *)
  Definition cleanup (fuel : nat) (parent : list nat) (name : nat) (closed : bool) (root : node) : node * bool * option oserr :=
    if closed then (root, true, None)
    else match rmtree fuel root parent name with
         | (root, None) | (root, Some ENOENT) => (root, true, None)
         | (root, Some e) => (root, false, Some e)
         end.
End OS.
