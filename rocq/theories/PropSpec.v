(** What the random edits of the property tests should be. *)
From Coq Require Import List Arith NArith.
From Verif Require Import Base TextModel EditModel PropModel.
Import ListNotations.

(** A text in ASCII. *)
Definition ascii (s : bytes) : Prop := Forall (fun b => b < 128) s.

(** Numbers that fit into 32 bits. *)
Definition unit_ok (x : N) : Prop := (x <= 4294967295)%N.
Definition pair_ok (p : N * N) : Prop := unit_ok (fst p) /\ unit_ok (snd p).

(** What proptest may draw: any cuts and any insertions. *)
Definition drawn (cuts : list N) (inserts : list (option (N * N))) : Prop :=
  Forall unit_ok cuts /\ Forall (fun o => forall p, o = Some p -> pair_ok p) inserts.

(** Ranges of fractions that are in order, [true] for what is copied: these also follow each other, from [lo] on. *)
Fixpoint well_drawn (lo : N) (ops : list (bool * (N * N))) : Prop :=
  match ops with
  | [] => True
  | (true, (s, e)) :: rest => (lo <= s)%N /\ (s <= e)%N /\ unit_ok e /\ well_drawn e rest
  | (false, (s, e)) :: rest => (s <= e)%N /\ unit_ok e /\ well_drawn lo rest
  end.

(** A part of the text. *)
Definition part_of (txt b : bytes) : Prop := exists i j, i <= j <= length txt /\ b = sub i j txt.

(** An edit of the text: copies from left to right inside the text, [lo] the end of the last one, and insertions of parts of the
    same text. *)
Fixpoint shuffles (txt : bytes) (lo : nat) (ops : list edit_op) : Prop :=
  match ops with
  | [] => True
  | Copy r :: rest => lo <= rstart r /\ rstart r <= rend r /\ rend r <= length txt /\ shuffles txt (rend r) rest
  | Insert b :: rest => part_of txt b /\ shuffles txt lo rest
  end.

(** The edit that inserts, copies, inserts and copies the rest. *)
Definition some_insert (txt : bytes) (o : option range) : list edit_op :=
  match o with Some r => [Insert (sub (rstart r) (rend r) txt)] | None => [] end.
Definition two_inserts (txt : bytes) (first second : option range) (copies : list range) : list edit_op :=
  some_insert txt first ++ map Copy (firstn 1 copies) ++ some_insert txt second ++ map Copy (skipn 1 copies).
Definition in_text (txt : bytes) (o : option range) : Prop := forall r, o = Some r -> rstart r <= rend r <= length txt.

(** The edits that the drawn ones become on the texts they meet, and the last text. *)
Inductive becomes : bytes -> list (list arb_op) -> list (list edit_op) -> bytes -> Prop :=
| b_none : forall txt, becomes txt [] [] txt
| b_next : forall txt e ops mid es history new, as_text_edit e (as_text txt) = Ok ops -> apply ops (as_text txt) = Ok mid -> becomes mid es history new ->
    becomes txt (e :: es) (ops :: history) new.
