(** Model of the bookkeeping of InspectionHTMLTracer (bimdp/inspection/tracer.py): _reset (:103-113), _tracer_callback (:226-255), _begin_HTML_frame (:259-274), _write_error_frame (:284-306)
    and trace_execution (:172-224) without the decoration of the flow, which is in TraceModel.v.

    A file name "<trace_name>_<index>.html" is its index. The execution of the flow is the list of the results of write_html in the calls of the callback, and its end. An exception of the
    callback ends the execution (nodes which catch exceptions are not modelled). File errors are not modelled. *)
From Coq Require Import String List Arith Bool.
Import ListNotations.
Local Open Scope string_scope.

(** the attributes of the class NewlineWriteFile (mdp/hinet/htmlvisitor.py:24-40) and of object; [with] looks up __enter__ in the class, where __getattr__ is of no effect *)
Definition newline_write_file : list string := ["__init__"; "write"; "__getattr__"; "__repr__"; "__eq__"; "__hash__"].
Definition has_enter (cls : list string) : bool := existsb (String.eqb "__enter__") cls.
Section Slides.
  Variables N S R : Type.     (* node ids, section ids, results of the flow *)
  Record slides := mkT { t_index : nat; t_files : list nat; t_nodes : list N; t_sections : list S; t_open : list nat (* files which were not closed *) }.
  Inductive texn := TFlow (n : nat) | TAttr | TDebug (files : list nat) (nodes : list N) (sections : option (list S)) | TMismatch.
  Definition reset : slides := mkT 0 [] [] [] [].
  Definition begin_frame (s : slides) : slides := mkT (t_index s) (t_files s ++ [t_index s]) (t_nodes s) (t_sections s) (t_open s).
  (** _tracer_callback: [None] is an exception of write_html; the file is closed in any case *)
  Definition callback (s : slides) (r : option (option S * N)) : slides * bool :=
    let s := begin_frame s in
    match r with
    | None => (s, false)
    | Some (sec, n) => (mkT (1 + t_index s) (t_files s) (t_nodes s ++ [n]) (match sec with Some x => t_sections s ++ [x] | None => t_sections s end) (t_open s), true)
    end.
  Fixpoint callbacks (s : slides) (l : list (option (option S * N))) : slides * bool :=
    match l with [] => (s, true) | r :: l => match callback s r with (s, true) => callbacks s l | r => r end end.
  (** _write_error_frame: with self._begin_HTML_frame() as html_file *)
  Definition error_frame (s : slides) : slides * bool :=
    let s := begin_frame s in
    if has_enter newline_write_file then (s, true)
    else (mkT (t_index s) (t_files s) (t_nodes s) (t_sections s) (t_open s ++ [t_index s]), false).
  Definition sections_of (l : list S) : option (list S) := match l with [] => None | _ => Some l end.
  (** trace_execution: [l] the callbacks, [fin] the end of flow.execute (its result, or an exception) *)
  Definition trace (l : list (option (option S * N))) (fin : R + nat) (debug : bool) : slides * (list nat * list N * option (list S) * R + texn) :=
    let (s, ok) := callbacks reset l in
    match (if ok then fin else inr 0) with
    | inr e =>
        if debug then
          let (s, written) := error_frame s in
          if written then (s, inr (TDebug (t_files s) (t_nodes s) (sections_of (t_sections s)))) else (s, inr TAttr)
        else (s, inr (TFlow e))
    | inl r =>
        match t_sections s with
        | [] => (s, inl (t_files s, t_nodes s, None, r))
        | secs => if negb (Nat.eqb (List.length secs) (List.length (t_files s))) then (s, inr TMismatch) else (s, inl (t_files s, t_nodes s, Some secs, r))
        end
    end.
End Slides.
