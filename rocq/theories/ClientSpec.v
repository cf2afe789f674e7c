(** What VS Code makes of edits. *)
From Coq Require Import List Arith.
From Verif Require Import Base TextModel TextSpec SessionModel SessionSpec.
Import ListNotations.

(** The characters before an offset in UTF-16 units. *)
Fixpoint before (d : document) (o : nat) : document :=
  match d with
  | [] => []
  | c :: r => let k := if length c =? 4 then 2 else 1 in if k <=? o then c :: before r (o - k) else []
  end.

(** The text of the document after all edits, which are meant for the old text. *)
Definition after_edits (d : document) (es : list ((nat * nat) * bytes)) : bytes :=
  splice 0 (concat d) (map (fun e => mkRepl (length (concat (before d (fst (fst e))))) (length (concat (before d (snd (fst e))))) (snd e)) es).

Definition ascii_document (d : document) : Prop := Forall (fun c => length c = 1) d.
