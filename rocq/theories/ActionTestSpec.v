(** What the tests of actions should accept. *)
From Coq Require Import List Arith Bool.
From Verif Require Import Base TextModel EditModel ScanSpec.
Import ListNotations.

(** The text [a ++ b ++ c] with the selection [b], as it is written in a test: a circumflex on either side of [b].  The text has
    none before the end of the selection. *)
Definition marked (a b c : bytes) : bytes := a ++ [94] ++ b ++ [94] ++ c.
Definition markable (a b c : bytes) : Prop := utf8 a /\ utf8 b /\ utf8 c /\ ~ In 94 a /\ ~ In 94 b.
Definition selection (a b : bytes) : range := mkRange (length a) (length a + length b).
