(** Properties of TemporaryDirectory *)
From Coq Require Import List Arith Bool Lia.
From Verif Require Import TmpModel.
Import ListNotations.

Lemma get_app t p q : get t (p ++ q) = match get t p with Some u => get u q | None => None end.
Proof. revert t. induction p as [|n p IH]; intros t; [reflexivity|]. cbn [app get]. destruct t; try reflexivity. destruct (find es n); [apply IH|reflexivity]. Qed.
Definition is_link (t : node) : bool := match t with Link _ => true | _ => false end.
Lemma resolve_plain b root t : forall p done, get root (done ++ p) = Some t -> is_link t = false -> resolve b root done p = Some (done ++ p).
Proof.
  intros p. destruct b as [|b]; (induction p as [|n p IH]; intros done G L; [now rewrite app_nil_r|]; cbn; replace (done ++ n :: p) with ((done ++ [n]) ++ p) in G |- * by now rewrite <- app_assoc).
  - destruct (get root (done ++ [n])) as [u|] eqn:E; [|rewrite get_app, E in G; discriminate]. destruct u as [|es|q]; [now apply IH|now apply IH|]. exfalso. rewrite get_app, E in G. destruct p; cbn in G; [injection G as <-; discriminate L|discriminate].
  - destruct (get root (done ++ [n])) as [u|] eqn:E; [|rewrite get_app, E in G; discriminate]. destruct u as [|es|q]; [now apply IH|now apply IH|]. exfalso. rewrite get_app, E in G. destruct p; cbn in G; [injection G as <-; discriminate L|discriminate].
Qed.
Lemma find_edit l n f m : find (map (fun e : nat * node => if fst e =? n then (fst e, f (snd e)) else e) l) m = if m =? n then option_map f (find l m) else find l m.
Proof.
  induction l as [|[k t] l IH]; cbn [map find fst snd]; [now destruct (m =? n)|]. destruct (Nat.eqb_spec k n) as [->|N]; cbn [find fst snd]; destruct (Nat.eqb_spec n m) as [<-|M]; try (rewrite Nat.eqb_refl; reflexivity); rewrite IH; try reflexivity.
  - destruct (Nat.eqb_spec k n); [contradiction|]. destruct (k =? n); reflexivity.
  - destruct (Nat.eqb_spec k m) as [->|]; [|reflexivity]. destruct (Nat.eqb_spec m n); [congruence|reflexivity].
Qed.
Lemma erase_edit l n f : erase (map (fun e : nat * node => if fst e =? n then (fst e, f (snd e)) else e) l) n = erase l n.
Proof. induction l as [|[k t] l IH]; [reflexivity|]. cbn [map erase fst snd]. destruct (Nat.eqb_spec k n) as [->|N]; cbn [erase fst]; [now rewrite Nat.eqb_refl|]. destruct (Nat.eqb_spec k n); [contradiction|]. now rewrite IH. Qed.
Lemma get_setes t p l x : get t p = Some (Dir l) -> get (setes t p x) p = Some (Dir x).
Proof.
  revert t. induction p as [|n p IH]; intros t; cbn [get]; [intros [= ->]; reflexivity|]. destruct t as [|es|q]; try discriminate. cbn [setes get]. rewrite (find_edit es n (fun u => setes u p x)), Nat.eqb_refl. destruct (find es n); [cbn; apply IH|discriminate].
Qed.
Lemma get_setes_parent t p n l x : get t p = Some (Dir l) -> get (setes t (p ++ [n]) x) p = Some (Dir (map (fun e => if fst e =? n then (fst e, setes (snd e) [] x) else e) l)).
Proof.
  revert t. induction p as [|m p IH]; intros t; cbn [get app]; [intros [= ->]; reflexivity|]. destruct t as [|es|q]; try discriminate. cbn [setes get]. rewrite (find_edit es m (fun u => setes u (p ++ [n]) x)), Nat.eqb_refl. destruct (find es m); [cbn; apply IH|discriminate].
Qed.
Lemma setes_under t p q x y : setes (setes t (p ++ q) x) p y = setes t p y.
Proof.
  revert t. induction p as [|n p IH]; intros t; cbn [app]; [destruct q; destruct t; reflexivity|]. destruct t as [|es|r]; try reflexivity. cbn [setes]. f_equal. rewrite map_map. apply map_ext. intros [m u]. cbn [fst snd]. destruct (m =? n) eqn:E; cbn [fst snd]; rewrite E; [now rewrite IH|reflexivity].
Qed.
Lemma setes_twice t p x y : setes (setes t p x) p y = setes t p y.
Proof. pose proof (setes_under t p [] x y) as H. now rewrite app_nil_r in H. Qed.

(** a tree of files and directories without links, of a depth, in which the names in a directory are different *)
Inductive plain : nat -> node -> Prop :=
  | pl_file : forall d, plain d File
  | pl_dir : forall d es, NoDup (map fst es) -> Forall (fun e => plain d (snd e)) es -> plain (S d) (Dir es).
Lemma erase_absent l n : ~ In n (map fst l) -> erase l n = l.
Proof. induction l as [|[m t] l IH]; [reflexivity|]. cbn. intros H. destruct (Nat.eqb_spec m n) as [->|]; [tauto|]. now rewrite IH by tauto. Qed.

Section Tmp.
  Variables (maxlinks : nat) (locked hidden : list nat -> bool).
  Notation rmtree := (rmtree maxlinks locked hidden). Notation cleanup := (cleanup maxlinks locked hidden). Notation real := (real maxlinks). Notation isdir := (isdir maxlinks). Notation unlink := (unlink maxlinks locked). Notation listdir := (listdir maxlinks hidden).
  Lemma real_plain root p t : get root p = Some t -> is_link t = false -> real root p = Some p.
  Proof. intros G L. exact (resolve_plain maxlinks root t p [] G L). Qed.
  Lemma unlink_ok dir root parent n es t : get root parent = Some (Dir es) -> locked parent = false -> find es n = Some t -> (if dir : bool then t = Dir [] else t = File) -> unlink dir root parent n = Some (setes root parent (erase es n)).
  Proof. intros G L F T. unfold TmpModel.unlink. rewrite (real_plain root parent _ G eq_refl), G, L, F. destruct dir; rewrite T; reflexivity. Qed.

  (** ** C492: without links the directory is removed with its contents, and nothing else *)
  Lemma rmtree_plain : forall d fuel es root parent name pes, get root parent = Some (Dir pes) -> find pes name = Some (Dir es) -> plain d (Dir es) -> d <= fuel ->
    locked parent = false -> (forall q, locked (parent ++ name :: q) = false) -> (forall q, hidden (parent ++ name :: q) = false) ->
    rmtree fuel root parent name = (setes root parent (erase pes name), None).
  Proof.
    induction d as [|d IHd]; intros fuel es root parent name pes Gp Fn Pl Lf Lp Lu Hu; [inversion Pl|]. destruct fuel as [|fuel]; [lia|]. cbn [TmpModel.rmtree]. set (path := parent ++ [name]).
    assert (Gd : get root path = Some (Dir es)) by (unfold path; rewrite get_app, Gp; cbn [get]; now rewrite Fn).
    assert (Sh : forall q, path ++ q = parent ++ name :: q) by (intros q; unfold path; now rewrite <- app_assoc).
    assert (Hp : hidden path = false) by (specialize (Hu []); exact Hu). assert (Lpa : locked path = false) by (specialize (Lu []); exact Lu).
    unfold TmpModel.listdir at 1. rewrite (real_plain root path _ Gd eq_refl), Gd, Hp.
    match goal with |- context [(fix loop (names : list nat) (root0 : node) {struct names} := _) (map fst es) root] => set (loop := fix loop (names : list nat) (root0 : node) {struct names} : node * option oserr := _) end.
    inversion Pl as [|d' es' Nd Fa]; subst.
    assert (LP : forall l r, get r path = Some (Dir l) -> (forall x, setes r path x = setes root path x) -> NoDup (map fst l) -> Forall (fun e => plain d (snd e)) l ->
      exists r', loop (map fst l) r = (r', None) /\ get r' path = Some (Dir []) /\ forall x, setes r' path x = setes root path x).
    { induction l as [|[n t] l IHl]; intros r Gr Sr Ndl Fal; [exists r; auto|]. cbn [map fst] in Ndl |- *. inversion Ndl as [|? ? N1 N2]; subst. inversion Fal as [|? ? P1 P2]; subst. cbn [snd] in P1.
      assert (Gn : get r (path ++ [n]) = Some t) by (rewrite get_app, Gr; cbn [get find]; now rewrite Nat.eqb_refl).
      assert (Fd : find ((n, t) :: l) n = Some t) by (cbn [find]; now rewrite Nat.eqb_refl). assert (Er : erase ((n, t) :: l) n = l) by (cbn [erase]; rewrite Nat.eqb_refl; now apply erase_absent).
      assert (Next : exists r', loop (map fst l) (setes r path l) = (r', None) /\ get r' path = Some (Dir []) /\ forall x, setes r' path x = setes root path x).
      { apply IHl; [exact (get_setes r path _ l Gr)| |exact N2|exact P2]. intros x. rewrite setes_twice. apply Sr. }
      change (loop (n :: map fst l) r) with (if isdir r (path ++ [n]) then match rmtree fuel r path n with (root, None) => loop (map fst l) root | r0 => r0 end else loop (map fst l) (match unlink false r path n with Some r0 => r0 | None => r end)).
      destruct t as [|es'|q].
      - unfold TmpModel.isdir. rewrite (real_plain r _ _ Gn eq_refl), Gn, (unlink_ok false r path n _ File Gr Lpa Fd eq_refl), Er. exact Next.
      - unfold TmpModel.isdir. rewrite (real_plain r _ _ Gn eq_refl), Gn, (IHd fuel es' r path n _ Gr Fd P1); [rewrite Er; exact Next|lia|exact Lpa| |].
        + intros q. rewrite Sh. apply Lu.
        + intros q. rewrite Sh. apply Hu.
      - inversion P1. }
    destruct (LP es root Gd (fun x => eq_refl) Nd Fa) as (r' & -> & Gr & Sr). destruct (get r' parent) as [t|] eqn:Gt; [|unfold path in Gr; rewrite get_app, Gt in Gr; discriminate].
    destruct t as [|pes'|q]; try (unfold path in Gr; rewrite get_app, Gt in Gr; discriminate). assert (Fr : find pes' name = Some (Dir [])) by (unfold path in Gr; rewrite get_app, Gt in Gr; cbn [get] in Gr; destruct (find pes' name); [exact Gr|discriminate]).
    rewrite (unlink_ok true r' parent name pes' (Dir []) Gt Lp Fr eq_refl). f_equal.
    assert (Ee : erase pes' name = erase pes name).
    { pose proof (get_setes_parent r' parent name pes' [] Gt) as A. pose proof (get_setes_parent root parent name pes [] Gp) as B. fold path in A, B. rewrite (Sr []) in A. rewrite A in B. injection B as B.
      rewrite <- (erase_edit pes' name (fun u => setes u [] [])), <- (erase_edit pes name (fun u => setes u [] [])). now f_equal. }
    rewrite Ee, <- (setes_under r' parent [name] []). fold path. rewrite (Sr []). unfold path. now rewrite setes_under.
  Qed.
  Theorem C492_removed : forall d fuel es root parent name pes, get root parent = Some (Dir pes) -> find pes name = Some (Dir es) -> plain d (Dir es) -> d <= fuel ->
    locked parent = false -> (forall q, locked (parent ++ name :: q) = false) -> (forall q, hidden (parent ++ name :: q) = false) ->
    cleanup fuel parent name false root = (setes root parent (erase pes name), true, None).
  Proof. intros d fuel es root parent name pes Gp Fn Pl Lf Lp Lu Hu. unfold TmpModel.cleanup. now rewrite (rmtree_plain d fuel es root parent name pes). Qed.
  (** what that tree is: the directory is gone, its siblings are not *)
  Theorem C492_tree : forall root parent name pes, get root parent = Some (Dir pes) ->
    get (setes root parent (erase pes name)) (parent ++ [name]) = None /\ forall m q, m <> name -> get (setes root parent (erase pes name)) (parent ++ m :: q) = get root (parent ++ m :: q).
  Proof.
    intros root parent name pes G. rewrite get_app, (get_setes root parent pes _ G). cbn [get]. split.
    - assert (E : find (erase pes name) name = None) by (clear; induction pes as [|[k t] l IH]; [reflexivity|]; cbn; destruct (Nat.eqb_spec k name) as [->|N]; [exact IH|]; cbn; destruct (Nat.eqb_spec k name); [contradiction|exact IH]). now rewrite E.
    - intros m q N. rewrite !get_app, (get_setes root parent pes _ G), G. cbn [get]. assert (E : find (erase pes name) m = find pes m); [|now rewrite E].
      clear -N. induction pes as [|[k t] l IH]; [reflexivity|]. cbn. destruct (Nat.eqb_spec k name) as [->|]; [destruct (Nat.eqb_spec name m); [congruence|exact IH]|]. cbn. destruct (k =? m); [reflexivity|exact IH].
  Qed.
  (** a node which is not on the way to the directory is not changed *)
  Theorem C492_elsewhere : forall root parent es q n m p r, parent = q ++ n :: r -> n <> m -> get (setes root parent es) (q ++ m :: p) = get root (q ++ m :: p).
  Proof.
    intros root parent es q n m p r -> N. revert root. induction q as [|k q IH]; intros root; cbn [app get].
    - destruct root as [|l|t]; try reflexivity. cbn [setes get]. rewrite (find_edit l n (fun u => setes u r es)). destruct (Nat.eqb_spec m n); [congruence|reflexivity].
    - destruct root as [|l|t]; try reflexivity. cbn [setes get]. rewrite (find_edit l k (fun u => setes u (q ++ n :: r) es)), Nat.eqb_refl. destruct (find l k); [cbn; apply IH|reflexivity].
  Qed.
  (** ** C493: a second cleanup, and one after the directory was removed by someone else, do nothing *)
  Theorem C493_again : forall fuel parent name root, cleanup fuel parent name true root = (root, true, None).
  Proof. reflexivity. Qed.
  Theorem C493_gone : forall fuel parent name root pes, get root parent = Some (Dir pes) -> find pes name = None -> cleanup (S fuel) parent name false root = (root, true, None).
  Proof.
    intros fuel parent name root pes G F. unfold TmpModel.cleanup. cbn [TmpModel.rmtree]. unfold TmpModel.listdir, TmpModel.real.
    assert (E : resolve maxlinks root [] (parent ++ [name]) = None); [|now rewrite E].
    assert (H : forall p done, get root (done ++ p) = Some (Dir pes) -> resolve maxlinks root done (p ++ [name]) = None); [|now apply (H parent [])].
    destruct maxlinks as [|b].
    - induction p as [|n p IH]; intros done Gd; cbn; [rewrite app_nil_r in Gd; rewrite get_app, Gd; cbn; now rewrite F|]. replace (done ++ n :: p) with ((done ++ [n]) ++ p) in Gd by now rewrite <- app_assoc.
      destruct (get root (done ++ [n])) as [u|] eqn:Eu; [|reflexivity]. destruct u; [now apply IH|now apply IH|reflexivity].
    - induction p as [|n p IH]; intros done Gd; cbn; [rewrite app_nil_r in Gd; rewrite get_app, Gd; cbn; now rewrite F|]. replace (done ++ n :: p) with ((done ++ [n]) ++ p) in Gd by now rewrite <- app_assoc.
      destruct (get root (done ++ [n])) as [u|] eqn:Eu; [|reflexivity]. destruct u as [|es|q]; [now apply IH|now apply IH|]. exfalso. rewrite get_app, Eu in Gd. destruct p; cbn in Gd; discriminate.
  Qed.
  (** an error of listdir other than ENOENT is raised and cleanup can be called again *)
  Theorem C493_raised : forall fuel parent name root r c x, cleanup fuel parent name false root = (r, c, Some x) -> c = false /\ x = EOTHER.
  Proof. intros fuel parent name root r c x. unfold TmpModel.cleanup. destruct (rmtree fuel root parent name) as [r' [[|]|]]; intros [= <- <- <-]; auto. Qed.
End Tmp.
(** ** C494: "the directory and everything contained in it are removed": with a link to a directory the contents of a directory elsewhere are removed, and the directory itself remains *)
Definition noperm : list nat -> bool := fun _ => false.
Definition root1 := Dir [(1, Dir [(7, Dir [(5, File); (6, Link [2])])]); (2, Dir [(3, File); (4, Dir [(8, File)])])].
Theorem C494_refuted_outside : exists root parent name, get root [2; 3] = Some File /\ exists r, cleanup 40 noperm noperm 10 parent name false root = (r, true, None) /\ get r [2] = Some (Dir []) /\ get r (parent ++ [name]) = Some (Dir [(6, Link [2])]).
Proof. exists root1, [1], 7. split; [reflexivity|]. eexists. split; [vm_compute; reflexivity|]. split; reflexivity. Qed.
(** an error of remove is dropped: cleanup returns without exception, does nothing afterwards, and the directory is still there *)
Definition locked1 (p : list nat) : bool := match p with [1; 7; 5] => true | _ => false end.
Definition root2 := Dir [(1, Dir [(7, Dir [(5, Dir [(9, File)]); (6, File)])])].
Theorem C494_refuted_left : exists root parent name r, cleanup 40 locked1 noperm 10 parent name false root = (r, true, None) /\ get r (parent ++ [name]) = Some (Dir [(5, Dir [(9, File)])]) /\ cleanup 40 noperm noperm 10 parent name true r = (r, true, None).
Proof. exists root2, [1], 7. eexists. split; [vm_compute; reflexivity|]. split; reflexivity. Qed.
Example ex_C492 : cleanup 40 noperm noperm 10 [1] 7 false root2 = (Dir [(1, Dir [])], true, None) /\ plain 3 (Dir [(5, Dir [(9, File)]); (6, File)]).
Proof. split; [reflexivity|]. apply (pl_dir 2); [repeat constructor; cbn; intuition discriminate|]. repeat constructor; cbn; intuition discriminate. Qed.
Example ex_C493 : cleanup 40 noperm (fun p => match p with [1; 7; 5] => true | _ => false end) 10 [1] 7 false root2 = (root2, false, Some EOTHER).
Proof. reflexivity. Qed.
