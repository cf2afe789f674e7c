(** What the scanners should do, in terms of positions in the text. *)
From Coq Require Import List Arith Bool.
From Verif Require Import Base TextModel TextSpec.
Import ListNotations.

(** A UTF-8 character: a lead byte, which determines the length, and continuation bytes (that some code points
    are excluded does not matter here). *)
Definition char_len (lead : nat) : nat :=
  if lead <? 128 then 1 else if lead <? 224 then 2 else if lead <? 240 then 3 else 4.
Definition utf8_char (c : bytes) : Prop := valid_char c /\ forall b, hd_error c = Some b -> length c = char_len b.
Definition utf8 (s : bytes) : Prop := exists cs, Forall utf8_char cs /\ s = concat cs.

(** [n] occurs in [s] at position [i]. *)
Definition occurs (n s : bytes) (i : nat) : Prop := exists a b, s = a ++ n ++ b /\ length a = i.

(** ... and at no smaller position. *)
Definition first_at (n s : bytes) (i : nat) : Prop := occurs n s i /\ forall j, j < i -> ~ occurs n s j.

(** No two occurrences of the caret can overlap: no proper non-empty prefix of it is also a suffix. *)
Definition unbordered (c : bytes) : Prop :=
  c <> [] /\ forall a b d, a <> [] -> b <> [] -> c = a ++ b -> c = d ++ a -> False.

(** ** Raw strings *)

(** [r##"] and ["##] with [n] hashes. *)
Definition opening (n : nat) : bytes := 114 :: repeat 35 n ++ [34].
Definition closing (n : nat) : bytes := 34 :: repeat 35 n.

(** ** Nested comments *)

(** Reading comment [s] up to position [p] leaves [d] comments open; nothing is read once none is. *)
Inductive open_at (s : bytes) : nat -> nat -> Prop :=
| oa_start : open_at s 2 1
| oa_open p d : open_at s p (S d) -> occurs [47; 42] s p -> open_at s (p + 2) (S (S d))
| oa_close p d : open_at s p (S d) -> occurs [42; 47] s p -> open_at s (p + 2) d
| oa_other p d : open_at s p (S d) -> p < length s -> ~ occurs [47; 42] s p -> ~ occurs [42; 47] s p ->
    open_at s (p + 1) (S d).

(** ** Inline tests *)

(** [out] lists the texts of the raw strings that start after the occurrences of [test r] at the positions [ps]. *)
Inductive tests_at (trim : bytes -> bytes) (s : bytes) : list nat -> list bytes -> Prop :=
| ta_nil : tests_at trim s [] []
| ta_closed : forall p ps out a n body rest,
    s = a ++ [116; 101; 115; 116; 32] ++ opening n ++ body ++ closing n ++ rest -> length a = p ->
    (forall j, j < length body -> ~ occurs (closing n) (body ++ closing n ++ rest) j) ->
    tests_at trim s ps out -> tests_at trim s (p :: ps) (trim body :: out)
| ta_open : forall p ps out a n body,
    s = a ++ [116; 101; 115; 116; 32] ++ opening n ++ body -> length a = p ->
    (forall j, ~ occurs (closing n) body j) ->
    tests_at trim s ps out -> tests_at trim s (p :: ps) out.
