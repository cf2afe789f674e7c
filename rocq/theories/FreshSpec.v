(** When two texts are the same line by line, and what it means that a parser is up to date. *)
From Coq Require Import List Arith Bool.
From Verif Require Import Base TextModel ToolModel.
Import ListNotations.
Open Scope list_scope.

(** The text made of these lines, with a line break between any two of them *)
Inductive in_lines : list bytes -> bytes -> Prop :=
| one_line : forall l, ~ In 10 l -> in_lines [l] l
| more_lines : forall l ls t, ~ In 10 l -> in_lines ls t -> in_lines (l :: ls) (l ++ [10] ++ t).

(** [l] is the line without the whitespace at its end. *)
Definition without_end (space : bytes -> bool) (line l : bytes) : Prop :=
  exists pad, chars line = chars l ++ pad /\ Forall (fun c => space c = true) pad
    /\ forall cs c, chars l = cs ++ [c] -> space c = false.

(** What the text has in its lines: whitespace at the ends of lines and lines without anything else left out *)
Definition content (space : bytes -> bool) (t : bytes) (ls : list bytes) : Prop :=
  exists lines stripped, in_lines lines t /\ Forall2 (without_end space) lines stripped
    /\ ls = filter (fun l => match l with [] => false | _ => true end) stripped.
Definition same_content (space : bytes -> bool) (a b : bytes) : Prop := exists ls, content space a ls /\ content space b ls.

(** ** Files *)

Section Files.
  Variable space : bytes -> bool.
  Variable generate : bytes -> bytes + bytes.
  Variable is_utf8 : bytes -> bool.

  (** The parser that the generator makes from the grammar in this file *)
  Definition makes (s : fs) (g : path) (parser : bytes) : Prop :=
    exists text, s g = Some text /\ is_utf8 text = true /\ generate text = inl parser.
  (** The text in this file, or nothing if there is no such file or it is not UTF-8 *)
  Definition holds (s : fs) (p : path) (t : bytes) : Prop :=
    (s p = Some t /\ is_utf8 t = true) \/ ((forall x, s p = Some x -> is_utf8 x = false) /\ t = []).
  (** The parser beside the grammar is that of the grammar, but for whitespace at the ends of lines and empty lines. *)
  Definition up_to_date (s : fs) (g : path) : Prop :=
    exists parser old, makes s g parser /\ holds s (with_extension g s_rs) old /\ same_content space old parser.
End Files.
