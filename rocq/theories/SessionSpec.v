(** The texts of the documents of an editor, from the events alone. *)
From Coq Require Import List Arith.
From Verif Require Import Base TextModel ScanSpec SessionModel.
Import ListNotations.

(** What an event does to the texts of the documents. *)
Definition after (texts : nat -> document) (ev : event) : nat -> document :=
  fun w => match ev with
           | Opened u d | Rewritten u d => if w =? u then d else texts w
           | Changed u i j ins => if w =? u then firstn i (texts u) ++ ins ++ skipn j (texts u) else texts w
           | Closed _ | Asked _ | Switched => texts w
           end.

(** The texts of the documents after all events. *)
Definition current (texts : nat -> document) (evs : list (event * option nat)) : nat -> document :=
  fold_left after (map fst evs) texts.

(** The text of a document is made of UTF-8 characters; the first [j] of them are ASCII. *)
Definition characters (d : document) : Prop := Forall utf8_char d.
Definition ascii_up_to (j : nat) (d : document) : Prop := Forall (fun c => length c = 1) (firstn j d).

(** Every text that comes with the events consists of characters; a change is inside its document; and if the change is to a
    file of this plugin then the text before the end of what it replaces is ASCII, and [fine] holds of the whole text. *)
Fixpoint plain (fine : bytes -> Prop) (known : nat -> bool) (texts : nat -> document) (evs : list (event * option nat)) : Prop :=
  match evs with
  | [] => True
  | (ev, _) :: rest =>
      match ev with
      | Opened _ d | Rewritten _ d => characters d
      | Changed u i j ins => i <= j <= length (texts u) /\ characters ins
          /\ (known u = true -> ascii_up_to j (texts u) /\ fine (concat (texts u)))
      | Closed _ | Asked _ | Switched => True
      end /\ plain fine known (after texts ev) rest
  end.
