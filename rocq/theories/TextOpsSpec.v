(** What searching and comparing texts should mean. *)
From Coq Require Import List Arith Bool.
From Verif Require Import Base TextModel TextSpec ScanSpec.
Import ListNotations.

(** The text shows the string [s]. *)
Definition shows (t : text) (s : bytes) : Prop := as_str t = Ok s.

(** [n] occurs at [i] and at no greater position. *)
Definition last_at (n s : bytes) (i : nat) : Prop := occurs n s i /\ forall j, i < j -> ~ occurs n s j.

(** The order of a dictionary: the shorter one first, or the smaller byte at the first difference. *)
Inductive precedes : bytes -> bytes -> Prop :=
| pr_shorter : forall p y r, precedes p (p ++ y :: r)
| pr_smaller : forall p x y r r', x < y -> precedes (p ++ x :: r) (p ++ y :: r').
