(** Model of the crate fall/text: TextRange, Text, TextBuf (not the serialisation impls). *)
From Coq Require Import List Arith Bool.
From Verif Require Import Base.
Import ListNotations.

(** fall/text/src/text_range.rs:9-13 [struct TextRange].  [TextUnit] (text_unit.rs:5-6) is a [nat];
    32-bit overflow is not modelled, underflow of [-] is a panic ([usub]).
    The fields are public here because [Deserialize] (text_range.rs:33-38) builds unchecked ranges. *)
Record range : Type := mkRange { rstart : nat; rend : nat }.

(** fall/text/src/text_range.rs:46-49 *)
Definition from_to (from to : nat) : res range :=
  guard (from <=? to) (Ok (mkRange from to)).

(** fall/text/src/text_range.rs:51-53 *)
Definition from_len (from len : nat) : res range := from_to from (from + len).

(** fall/text/src/text_range.rs:63-65 *)
Definition range_len (r : range) : res nat := usub (rend r) (rstart r).

(** fall/text/src/text_range.rs:67-69 *)
Definition range_is_empty (r : range) : bool := rstart r =? rend r.

(** fall/text/src/text_range.rs:71-73 *)
Definition is_subrange_of (r other : range) : bool :=
  (rstart other <=? rstart r) && (rend r <=? rend other).

(** fall/text/src/text_range.rs:79-81 *)
Definition disjoint (r other : range) : bool :=
  (rend r <=? rstart other) || (rend other <=? rstart r).

(** fall/text/src/text_range.rs:75-77 *)
Definition intersects (r other : range) : bool := negb (disjoint r other).

(** fall/text/src/text_range.rs:83-85 *)
Definition contains_offset_nonstrict (r : range) (o : nat) : bool :=
  (rstart r <=? o) && (o <=? rend r).

(** fall/text/src/text_range.rs:87-90 *)
Definition glue (r right : range) : res range :=
  guard (rend r =? rstart right) (from_to (rstart r) (rend right)).

(** fall/text/src/text_range.rs:92-94 *)
Definition shift_right (r : range) (o : nat) : res range :=
  l <- range_len r ;; from_len (rstart r + o) l.

(** derived [PartialEq], text_range.rs:9 *)
Definition range_eqb (a b : range) : bool := (rstart a =? rstart b) && (rend a =? rend b).

(** fall/text/src/text_range.rs:114-126 [partial_cmp] *)
Definition range_cmp (r other : range) : option comparison :=
  if rend r <=? rstart other then Some Lt
  else if rend other <=? rstart r then Some Gt
  else if range_eqb r other then Some Eq
  else None.

(** Operator [<] derived from [partial_cmp]. *)
Definition range_ltb (r other : range) : bool :=
  match range_cmp r other with Some Lt => true | _ => false end.

(** UTF-8 continuation bytes; Rust's [str::is_char_boundary]. *)
Definition is_cont (b : nat) : bool := (128 <=? b) && (b <? 192).

Definition is_char_boundary (s : bytes) (i : nat) : bool :=
  if i =? 0 then true
  else if i =? length s then true
  else match nth_error s i with Some b => negb (is_cont b) | None => false end.

(** fall/text/src/text_range.rs:98-112 [str[range]] / std slicing: panics when out of order, out of
    bounds or off a character boundary. *)
Definition str_index (s : bytes) (r : range) : res bytes :=
  guard (rstart r <=? rend r)
    (guard (is_char_boundary s (rstart r) && is_char_boundary s (rend r))
      (Ok (sub (rstart r) (rend r) s))).

(** fall/text/src/text.rs:9-13 [struct Text] *)
Record text : Type := mkText { owned : bytes; trange : range }.

(** fall/text/src/text_buf.rs:28-33 [TextBuf::as_text] (length cast to u32 not modelled) *)
Definition as_text (s : bytes) : text := mkText s (mkRange 0 (length s)).

(** fall/text/src/text.rs:16-18 *)
Definition text_len (t : text) : res nat := usub (rend (trange t)) (rstart (trange t)).

(** fall/text/src/text.rs:20 *)
Definition text_is_empty (t : text) : bool := range_is_empty (trange t).

(** fall/text/src/text.rs:22-31 [slice] with a [TextRange] *)
Definition slice (t : text) (r : range) : res text :=
  len <- text_len t ;;
  guard (rend r <=? len)
    (let start := rstart (trange t) + rstart r in
     guard (start <=? rend (trange t))
       (d <- usub (rend r) (rstart r) ;;
        rg <- from_to start (start + d) ;;
        Ok (mkText (owned t) rg))).

(** fall/text/src/text_slice.rs:14-27 [slice] with a [TextSuffix] *)
Definition slice_suffix (t : text) (off : nat) : res text :=
  len <- text_len t ;; r <- from_to off len ;; slice t r.

(** fall/text/src/text.rs:88-90 [as_str]; [to_string]/[to_cow]/[to_text_buf] (72-82) are the same bytes *)
Definition as_str (t : text) : res bytes := str_index (owned t) (trange t).

(** fall/text/src/text.rs:113-117 *)
Definition text_eqb (a b : text) : res bool :=
  x <- as_str a ;; y <- as_str b ;; Ok (bytes_eqb x y).

(** fall/text/src/text.rs:33-35 *)
Definition starts_with (t : text) (p : bytes) : res bool :=
  s <- as_str t ;; Ok (is_prefix p s).

(** fall/text/src/text.rs:41-43 *)
Definition contains (t : text) (needle : bytes) : res bool :=
  s <- as_str t ;; Ok (match find_sub needle s with Some _ => true | None => false end).

(** fall/text/src/text.rs:45-47 *)
Definition find (t : text) (needle : bytes) : res (option nat) :=
  s <- as_str t ;; Ok (find_sub needle s).

(** The characters of a string (std [chars]): a byte followed by its continuation bytes. *)
Fixpoint chars (s : bytes) : list bytes :=
  match s with
  | [] => []
  | b :: s' =>
      match s' with
      | c :: _ =>
          if is_cont c
          then match chars s' with [] => [[b]] | ch :: r => (b :: ch) :: r end
          else [b] :: chars s'
      | [] => [[b]]
      end
  end.

(** std [str::find] with a character predicate: byte offset of the first match. *)
Fixpoint find_char (p : bytes -> bool) (cs : list bytes) : option nat :=
  match cs with
  | [] => None
  | c :: r => if p c then Some 0 else option_map (Nat.add (length c)) (find_char p r)
  end.

(** std [str::rfind] with a character predicate: byte offset of the last match. *)
Fixpoint rfind_char (p : bytes -> bool) (cs : list bytes) : option nat :=
  match cs with
  | [] => None
  | c :: r =>
      match rfind_char p r with
      | Some o => Some (length c + o)
      | None => if p c then Some 0 else None
      end
  end.

(** fall/text/src/text.rs:53-70 [trim].  [ws] is [char::is_whitespace]. *)
Definition trim (ws : bytes -> bool) (t : text) : res text :=
  let non_ws c := negb (ws c) in
  s <- as_str t ;;
  let left := match find_char non_ws (chars s) with Some o => o | None => length s end in
  s2 <- str_index s (mkRange left (length s)) ;;
  right <- (match rfind_char non_ws (chars s2) with
            | Some last =>
                s3 <- str_index s2 (mkRange last (length s2)) ;;
                c <- unwrap (hd_error (chars s3)) ;;
                Ok (last + length c)
            | None => Ok 0
            end) ;;
  r <- from_to left (left + right) ;;
  slice t r.
