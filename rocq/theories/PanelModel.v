(** Model of the panel with the links to the sections: html_controls_template of SectionHTMLSlideShow (mdp/utils/slideshow.py:493-515).

    A link is the id of the section and the index of the slide; the link before the first one is the empty text, [None]. The ids are those given to the constructor, since vars() is read before they are
    made strings (:363, :375); None is not an id. *)
From Coq Require Import List Arith Bool.
From Verif Require Import ShowModel.
Import ListNotations.

Definition opid_eqb (a : option pid) (b : pid) : bool := match a with Some a => pid_eqb a b | None => false end.
(** the loop :502-510; the result are the texts written, in their order, with the last write :511 *)
Fixpoint panel_loop (index : nat) (last : option pid) (link : option (pid * nat)) (l : list pid) : list (option (pid * nat)) :=
  match l with
  | [] => [link]
  | id :: l => if opid_eqb last id then panel_loop (S index) last link l
               else (if 0 <? index then [link] else []) ++ panel_loop (S index) (Some id) (Some (id, index)) l
  end.
Definition panel (l : list pid) : list (option (pid * nat)) := panel_loop 0 None None l.
(** the id attribute of the element of a link: the text of the section id *)
Definition html_ids (p : list (option (pid * nat))) : list nat := flat_map (fun o => match o with Some (id, _) => [snd id] | None => [] end) p.
