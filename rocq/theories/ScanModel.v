(** Model of the hand-written scanners of the lexers (raw strings, block comments) and of the helpers that take
    markers out of test inputs. *)
From Coq Require Import List Arith Bool.
From Verif Require Import Base TextModel.
Import ListNotations.

(** [&s[from..]] *)
Definition suffix (s : bytes) (from : nat) : res bytes := str_index s (mkRange from (length s)).
(** [&s[..to]] *)
Definition upto (s : bytes) (to : nat) : res bytes := str_index s (mkRange 0 to).

(** lang/rust/syntax/src/rust.rs:572-578, lang/fall/syntax/src/fall.rs:189-195 and
    fall/test/src/weird.rs:109-114 [parse_raw_string] (the same text in each): a quote is byte 34, a hash 35. *)
Definition q_hashes : bytes := 34 :: repeat 35 30.
Definition parse_raw_string (s : bytes) : res (option nat) :=
  quote_start <- unwrap (find_sub [34] s) ;;
  closing <- upto q_hashes quote_start ;;
  rest <- suffix s (quote_start + 1) ;;
  Ok (option_map (fun i => i + quote_start + 1 + length closing) (find_sub closing rest)).

(** lang/rust/syntax/src/rust.rs:583-600: the loop of [parse_block_comment].  The fuel bounds the rounds. *)
Definition s_open : bytes := [47; 42].
Definition s_close : bytes := [42; 47].
Fixpoint comment_loop (fuel : nat) (s : bytes) (len level : nat) : res nat :=
  match fuel with
  | 0 => OutOfFuel
  | S fuel =>
      if (length s =? 0) || (level =? 0) then Ok len
      else if is_prefix s_open s then
        s' <- suffix s 2 ;; comment_loop fuel s' (len + 2) (level + 1)
      else if is_prefix s_close s then
        s' <- suffix s 2 ;; level' <- usub level 1 ;; comment_loop fuel s' (len + 2) level'
      else
        c <- unwrap (hd_error (chars s)) ;;
        s' <- suffix s (length c) ;; comment_loop fuel s' (len + length c) level
  end.

(** lang/rust/syntax/src/rust.rs:579-602 [parse_block_comment] *)
Definition parse_block_comment (s : bytes) : res (option nat) :=
  s' <- suffix s 2 ;; len <- comment_loop (S (length s)) s' 2 1 ;; Ok (Some len).

(** fall/tree/src/test_util.rs:9-25 [extract_range] (the formatted panic messages and the cast to u32 are not
    modelled) *)
Definition extract_range (input caret : bytes) : res (bytes * range) :=
  left_offset <- unwrap (find_sub caret input) ;;
  let mid_offset := left_offset + length caret in
  after <- suffix input mid_offset ;;
  d <- unwrap (find_sub caret after) ;;
  let right_offset := mid_offset + d in
  a <- upto input left_offset ;;
  b <- str_index input (mkRange mid_offset right_offset) ;;
  c <- suffix input (right_offset + length caret) ;;
  e <- usub right_offset (length caret) ;;
  r <- from_to left_offset e ;;
  Ok (a ++ b ++ c, r).

(** fall/tree/src/test_util.rs:27-34 [extract_offset] *)
Definition extract_offset (input caret : bytes) : res (bytes * nat) :=
  left_offset <- unwrap (find_sub caret input) ;;
  let right_offset := left_offset + length caret in
  a <- upto input left_offset ;;
  b <- suffix input right_offset ;;
  Ok (a ++ b, left_offset).

(** fall/tree/src/test_util.rs:105-117 [collect_tests].  [trim] is [str::trim], a parameter; the fuel bounds the
    rounds of [while let]. *)
Definition s_test_r : bytes := [116; 101; 115; 116; 32; 114].
Fixpoint count_hashes (s : bytes) : nat :=
  match s with 35 :: s' => S (count_hashes s') | _ => 0 end.
Section Collect.
  Variable trim : bytes -> bytes.
  Fixpoint collect_loop (fuel : nat) (grammar : bytes) (result : list bytes) : res (list bytes) :=
    match fuel with
    | 0 => OutOfFuel
    | S fuel =>
        match find_sub s_test_r grammar with
        | None => Ok result
        | Some pos =>
            grammar <- suffix grammar (pos + length s_test_r) ;;
            let n_hashes := count_hashes grammar in
            grammar <- suffix grammar (n_hashes + 1) ;;
            closing <- upto (34 :: repeat 35 16) (1 + n_hashes) ;;
            match find_sub closing grammar with
            | Some e => example <- upto grammar e ;; collect_loop fuel grammar (result ++ [trim example])
            | None => collect_loop fuel grammar result
            end
        end
    end.
  Definition collect_tests (grammar : bytes) : res (list bytes) := collect_loop (S (length grammar)) grammar [].
End Collect.
