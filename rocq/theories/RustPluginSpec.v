(** What the Rust plugin should do. *)
From Coq Require Import List Arith.
From Verif Require Import Base TextModel LexModel TreeModel GrammarModel ParserModel ConvertModel SessionModel SessionSpec.
Import ListNotations.

(** Every file the plugin holds is the file of its document's text. *)
Definition up_to_date (L : language) (known : nat -> bool) (s : session) : Prop :=
  forall w x, docs s w = Some x -> known w = true /\ exists fuel, parse_file L fuel (concat (texts s w)) = Ok x.

(** The offset VS Code gives to a column of a line: a line ends with a line feed, a carriage return, or both; a column behind the end of its line
    means the end, and a line behind the last one means the end of the text. *)
Definition ends_line (c : bytes) (r : document) : Prop := c = [10] \/ c = [13] /\ hd [] r <> [10].
Lemma ends_line_dec : forall c r, {ends_line c r} + {~ ends_line c r}.
Proof.
  intros c r. unfold ends_line. destruct (list_eq_dec Nat.eq_dec c [10]); [left; auto|]. destruct (list_eq_dec Nat.eq_dec c [13]); [|right; tauto].
  destruct (list_eq_dec Nat.eq_dec (hd [] r) [10]); [right; tauto|left; tauto].
Defined.
Fixpoint vs_offset (d : document) (line col : nat) : nat :=
  match d with
  | [] => 0
  | c :: r =>
      let k := if length c =? 4 then 2 else 1 in
      match line with
      | 0 => if in_dec (list_eq_dec Nat.eq_dec) c [[10]; [13]] then 0 else if k <=? col then k + vs_offset r 0 (col - k) else 0
      | S l => k + vs_offset r (if ends_line_dec c r then l else line) col
      end
  end.

(** Put between the elements of a list. *)
Inductive joined (sep : bytes) : list bytes -> bytes -> Prop :=
| jn_none : joined sep [] []
| jn_one : forall x, joined sep [x] x
| jn_more : forall x y l s, joined sep (y :: l) s -> joined sep (x :: y :: l) (x ++ sep ++ s).

(** No document of the plugin is changed by typing: it is opened, closed, and rewritten as a whole. *)
Definition no_typing (known : nat -> bool) (evs : list (event * option nat)) : Prop :=
  Forall (fun e => match fst e with Changed u _ _ _ => known u = false | _ => True end) evs.

(** Every text that comes with the events consists of characters, and every change is inside its document. *)
Fixpoint proper_events (texts : nat -> document) (evs : list (event * option nat)) : Prop :=
  match evs with
  | [] => True
  | (ev, _) :: rest =>
      match ev with
      | Opened _ d | Rewritten _ d => characters d
      | Changed u i j ins => i <= j <= length (texts u) /\ characters ins
      | Closed _ | Asked _ | Switched => True
      end /\ proper_events (after texts ev) rest
  end.

(** Every change that was typed into a document with a file was reparsed to what parsing the new text returns. *)
Fixpoint reparsed_well (L : language) (known : nat -> bool) (fuel : nat) (s : session) (evs : list (event * option nat)) : Prop :=
  match evs with
  | [] => True
  | ev :: rest =>
      match fst ev with
      | Changed u i j ins =>
          forall x, known u = true -> docs s u = Some x ->
            let new := firstn i (texts s u) ++ ins ++ skipn j (texts s u) in
            forall s' y, handle L None known fuel s ev = Ok s' -> docs s' u = Some y -> parse_file L fuel (concat new) = Ok y
      | _ => True
      end /\ forall s', handle L None known fuel s ev = Ok s' -> reparsed_well L known fuel s' rest
  end.
