(** Which parts of a text are removed by replacements (TextSpec.v). *)
From Coq Require Import List Arith.
From Verif Require Import Base TextSpec.

(** The byte at [i] of the old text is deleted or replaced. *)
Definition removed (rs : list repl) (i : nat) : Prop := exists r, In r rs /\ r_from r <= i < r_to r.
