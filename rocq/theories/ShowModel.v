(** Model of the slideshow with sections: SectionHTMLSlideShow (mdp/utils/slideshow.py:349-446) with the controls of HTMLSlideShow (slideshow.py:107-171).

    The JavaScript of the templates is modelled, with the state of one slideshow; the HTML elements, the loading of the slides and the delay are not. A section id in JavaScript is a number (it stands for the text);
    section_ids[i] is [nth_error], [None] is undefined. [None] as a result of a loop means that the fuel is used up. *)
From Coq Require Import List Arith ZArith Bool.
Import ListNotations.

(** A section id of Python is a number or a string (:355-356): (false, k) is the number k, (true, k) the string str(k). *)
Definition pid := (bool * nat)%type.
Definition pid_eqb (a b : pid) : bool := Bool.eqb (fst a) (fst b) && (snd a =? snd b).
(** only_one_section: the loop with else :366-373; [None] is the IndexError for an empty list *)
Definition only_one_section (ids : list pid) : option bool :=
  match ids with [] => None | first :: _ => Some (negb (existsb (fun i => negb (pid_eqb i first)) ids)) end.
(** str(section_id) :375-380 *)
Definition js_ids (ids : list pid) : list nat := map snd ids.

Definition oeqb (a b : option nat) : bool := match a, b with Some a, Some b => a =? b | None, None => true | _, _ => false end.

Section Show.
  Variable n : nat.            (* slideselect.length *)
  Variable loop : bool.        (* loop_slideshow *)
  Variable ids : list nat.     (* section_ids *)
  Variable one : bool.         (* only_one_section *)
  Record show := mkS { cur : nat; sec : option nat; playing : bool }.
  Definition start : show := mkS 0 (nth_error ids 0) false.
  (** updateSlide with the slide [i] :391-399 *)
  Definition update (s : show) (i : nat) : show := mkS i (nth_error ids i) (playing s).
  Definition go_next (i : nat) : nat := if i + 1 <? n then i + 1 else 0.
  Definition go_prev (i : nat) : nat := if 0 <? i then i - 1 else n - 1.
  (** the while loops :412-418 and :435-441 *)
  Fixpoint leave (fuel : nat) (go : nat -> nat) (c : option nat) (i : nat) : option nat :=
    match fuel with 0 => None | S f => if oeqb c (nth_error ids i) then leave f go c (go i) else Some i end.
  (** :421-427: to the start of the section *)
  Fixpoint section_start (c : option nat) (i : nat) : nat :=
    match i with 0 => 0 | S j => if oeqb c (nth_error ids j) then section_start c j else i end.
  Definition next_section (fuel : nat) (s : show) : option show :=
    if one then Some s else option_map (update s) (leave fuel go_next (sec s) (cur s)).
  Definition previous_section (fuel : nat) (s : show) : option show :=
    if one then Some s else option_map (fun i => update s (section_start (nth_error ids i) i)) (leave fuel go_prev (sec s) (cur s)).
  (** showAuto :158-171, with current_slide [c], which startstop may have set to -1 *)
  Definition show_auto (s : show) (c : Z) : show :=
    if playing s then
      if (c =? Z.of_nat n - 1)%Z then if loop then update s 0 else mkS (Z.to_nat c) (sec s) false
      else update s (Z.to_nat (c + 1))
    else s.
  Inductive op := Next | Previous | First | Last | Select (i : nat) | StartStop | Tick | NextSection | PreviousSection.
  Definition step (fuel : nat) (s : show) (o : op) : option show :=
    match o with
    | Next => Some (if cur s + 1 <? n then update s (cur s + 1) else if loop then update s 0 else s)
    | Previous => Some (if 0 <? cur s then update s (cur s - 1) else if loop then update s (n - 1) else s)
    | First => Some (update s 0)
    | Last => Some (update s (n - 1))
    | Select i => Some (update s i)                       (* onSelectorChange, setSlide *)
    | StartStop => Some (if playing s then mkS (cur s) (sec s) false
                         else show_auto (mkS (cur s) (sec s) true) (if negb loop && (Z.of_nat (cur s) =? Z.of_nat n - 1)%Z then -1 else Z.of_nat (cur s))%Z)
    | Tick => Some (show_auto s (Z.of_nat (cur s)))
    | NextSection => next_section fuel s
    | PreviousSection => previous_section fuel s
    end.
  Fixpoint run (fuel : nat) (s : show) (l : list op) : option show :=
    match l with [] => Some s | o :: l => match step fuel s o with Some s => run fuel s l | None => None end end.
End Show.
