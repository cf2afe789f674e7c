(** Model of fall/text/src/prop.rs, the random edits, and of the property test of lang/fall/syntax/tests/prop.rs.

    What proptest draws (32-bit numbers and lists of them) is an argument. *)
From Coq Require Import List Arith NArith Bool.
From Verif Require Import Base TextModel EditModel TreeModel ParserModel ConvertModel ReparseModel HarnessModel.
Import ListNotations.

(** prop.rs 36-39 [ArbTextEdit]: whether to copy or to insert, and a range in fractions of the text's length *)
Definition arb_op : Type := bool * (N * N).

(** prop.rs 11-15 [arb_text_range] from two units; [range] (58-65) is [prop_range] of EditModel.v *)
Definition arb_range (p : N * N) : N * N := prop_range (fst p) (snd p).

(** [slice::sort] *)
Fixpoint insert_unit (x : N) (l : list N) : list N :=
  match l with [] => [x] | y :: r => if (x <=? y)%N then x :: l else y :: insert_unit x r end.
Fixpoint sort_units (l : list N) : list N := match l with [] => [] | x :: r => insert_unit x (sort_units r) end.

(** [Itertools::tuples] for pairs: an odd one at the end is dropped *)
Fixpoint tuples (l : list N) : list (N * N) :=
  match l with x :: y :: r => (x, y) :: tuples r | _ => [] end.

(** [Itertools::interleave]: alternately, and when one of them is exhausted the rest of the other *)
Fixpoint interleave {A} (a b : list A) : list A :=
  match a, b with
  | [], _ => b
  | _, [] => a
  | x :: a', y :: b' => x :: y :: interleave a' b'
  end.

(** [filter_map] with the identity *)
Fixpoint somes {A} (l : list (option A)) : list A :=
  match l with [] => [] | Some x :: r => x :: somes r | None :: r => somes r end.

(** prop.rs 17-34 [arb_text_edit] from the cuts (at most nine are drawn) and the insertions (at most two, each a pair of units
    or nothing) *)
Definition arb_text_edit (cuts : list N) (inserts : list (option (N * N))) : list arb_op :=
  let copies := map (fun se => Some (true, prop_range (fst se) (snd se))) (tuples (sort_units cuts)) in
  let inserts' := map (option_map (fun p => (false, arb_range p))) inserts in
  somes (interleave inserts' copies).

(** prop.rs 67-72 [scale_range]; [scale] (74-80) is that of EditModel.v *)
Definition scale_range (r : N * N) (target_len : nat) : res range :=
  from_to (N.to_nat (scale (fst r) (N.of_nat target_len))) (N.to_nat (scale (snd r) (N.of_nat target_len))).

(** prop.rs 41-56 [as_text_edit] *)
Definition as_edit_op (t : text) (op : arb_op) : res edit_op :=
  len <- text_len t ;;
  r <- scale_range (snd op) len ;;
  if fst op then Ok (Copy r) else s <- slice t r ;; b <- as_str s ;; Ok (Insert b).
Fixpoint as_text_edit (ops : list arb_op) (t : text) : res (list edit_op) :=
  match ops with [] => Ok [] | op :: rest => o <- as_edit_op t op ;; os <- as_text_edit rest t ;; Ok (o :: os) end.

(** ** The test *)

Section Test.
  (** [char::is_whitespace] of a character *)
  Variable space : bytes -> bool.
  (** Names of node types and [Debug] of [str] *)
  Variable info : nat -> option (bytes * bool).
  Variable debug : bytes -> bytes.
  Variables (L : language) (fuel : nat).

  (** tests/prop.rs 223-225 [is_blank] *)
  Definition is_blank (s : bytes) : bool := match trim_str space s with [] => true | _ => false end.

  (** [str::trim_end] *)
  Definition trim_end (s : bytes) : bytes := concat (rev (drop_while space (rev (chars s)))).

  (** [str::lines]: [cur] is the line so far; a line break does not belong to its line, nor a carriage return before it *)
  Definition strip_cr (l : bytes) : bytes := match rev l with 13 :: r => rev r | _ => l end.
  Fixpoint lines_from (cur : bytes) (s : bytes) : list bytes :=
    match s with
    | [] => match cur with [] => [] | _ => [cur] end
    | b :: r => if b =? 10 then strip_cr cur :: lines_from [] r else lines_from (cur ++ [b]) r
    end.
  Definition str_lines (s : bytes) : list bytes := lines_from [] s.

  (** tests/prop.rs 211: the number of spaces at the start; a space is one byte *)
  Fixpoint leading (s : bytes) : nat := match s with b :: r => if b =? 32 then S (leading r) else 0 | [] => 0 end.

  (** [Iterator::min] *)
  Fixpoint minimum (l : list nat) : option nat :=
    match l with [] => None | x :: r => Some (match minimum r with None => x | Some y => Nat.min x y end) end.

  (** tests/prop.rs 214-219: one line of the result *)
  Definition dedent (indent : nat) (line : bytes) : res bytes :=
    if is_blank line then Ok [10] else s <- str_index line (mkRange indent (length line)) ;; Ok (s ++ [10]).

  (** tests/prop.rs 202-221 [normalize] *)
  Definition normalize (txt : bytes) : res bytes :=
    if is_blank txt then Ok []
    else
      let ls := drop_while is_blank (str_lines (trim_end txt)) in
      indent <- unwrap (minimum (map leading (filter (fun l => negb (is_blank l)) ls))) ;;
      flat_map_res (dedent indent) ls.

  (** tests/prop.rs 191-199: the loop of the test, from the current text and the current file *)
  Fixpoint check_edits (txt : bytes) (x : file * incremental) (edits : list (list arb_op)) : res unit :=
    match edits with
    | [] => Ok tt
    | e :: rest =>
        ops <- as_text_edit e (as_text txt) ;;
        new <- apply ops (as_text txt) ;;
        current <- reparse_file L fuel (fst x) (snd x) ops ;;
        fresh <- parse_file L fuel new ;;
        _ <- check_equal_files space info debug (fst fresh) (fst current) ;;
        check_edits new current rest
    end.

  (** tests/prop.rs 184-200 [incremental_reparse_is_equivalent_to_full_parse] *)
  Definition property_test (initial_text : bytes) (edits : list (list arb_op)) : res unit :=
    txt <- normalize initial_text ;;
    x <- parse_file L fuel txt ;;
    check_edits txt x edits.
End Test.
