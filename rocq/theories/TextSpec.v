(** Specification vocabulary for the text layer, independent of the model's algorithms. *)
From Coq Require Import List Arith Bool.
From Verif Require Import Base TextModel EditModel.
Import ListNotations.

(** The set of byte positions a range denotes. *)
Definition in_range (r : range) (i : nat) : Prop := rstart r <= i < rend r.

(** Ranges a client can construct. *)
Definition proper (r : range) : Prop := rstart r <= rend r.

(** A text view lies inside its buffer. *)
Definition wf_text (t : text) : Prop :=
  rstart (trange t) <= rend (trange t) /\ rend (trange t) <= length (owned t).

(** The bytes a view denotes. *)
Definition bytes_of (t : text) : bytes := sub (rstart (trange t)) (rend (trange t)) (owned t).

(** Character-aligned position in a buffer: the start of the buffer, its end, or the first byte of a
    character. *)
Definition aligned (s : bytes) (i : nat) : Prop :=
  i = 0 \/ i = length s \/ exists b, nth_error s i = Some b /\ is_cont b = false.

(** A well-formed character: a lead byte and continuation bytes. *)
Definition valid_char (c : bytes) : Prop :=
  match c with
  | [] => False
  | b :: r => is_cont b = false /\ Forall (fun x => is_cont x = true) r
  end.

(** Characters left after removing whitespace at both ends. *)
Fixpoint drop_ws (ws : bytes -> bool) (cs : list bytes) : list bytes :=
  match cs with
  | [] => []
  | c :: r => if ws c then drop_ws ws r else cs
  end.

Definition strip (ws : bytes -> bool) (cs : list bytes) : list bytes :=
  rev (drop_ws ws (rev (drop_ws ws cs))).

(** An elementary replacement: bytes [from, to) are replaced by [what]. *)
Record repl : Type := mkRepl { r_from : nat; r_to : nat; r_what : bytes }.

Definition repl_of_call (c : edit_call) : repl :=
  match c with
  | CInsert o t => mkRepl o o t
  | CDelete r => mkRepl (rstart r) (rend r) []
  | CReplace r t => mkRepl (rstart r) (rend r) t
  end.

Definition repl_of_vs (e : vs_edit) : repl :=
  mkRepl (rstart (vs_delete e)) (rend (vs_delete e)) (vs_insert e).

(** Replacements given left to right, not overlapping, inside a text of length [n]. *)
Fixpoint ordered (pos n : nat) (rs : list repl) : Prop :=
  match rs with
  | [] => pos <= n
  | r :: rest => pos <= r_from r /\ r_from r <= r_to r /\ ordered (r_to r) n rest
  end.

(** Performing the replacements simultaneously on the old text. *)
Fixpoint splice (pos : nat) (s : bytes) (rs : list repl) : bytes :=
  match rs with
  | [] => sub pos (length s) s
  | r :: rest => sub pos (r_from r) s ++ r_what r ++ splice (r_to r) s rest
  end.

Definition repls_aligned (s : bytes) (rs : list repl) : Prop :=
  Forall (fun r => aligned s (r_from r) /\ aligned s (r_to r)) rs.
