(** The fall language itself, used for the concrete cases beside the theorems about grammar files.
    lang/fall/syntax/src/fall.rs:59-84 [create_lexer].  Simplifications: only ASCII letters, digits and spaces are
    recognised; m_lexer (not part of the repository) is taken to prefer the longest match and then the earlier
    rule.  Nothing but the concrete cases depends on this lexer. *)
From Coq Require Import List Arith Bool Ascii String.
From Verif Require Import Base TextModel TreeModel LexModel GrammarModel ParserModel ConvertModel GrammarData ScanModel.
Import ListNotations.
Open Scope list_scope.

Fixpoint span (p : nat -> bool) (s : bytes) : nat :=
  match s with b :: r => if p b then S (span p r) else 0 | [] => 0 end.
Definition is_space (b : nat) : bool := ((9 <=? b) && (b <=? 13)) || (b =? 32).
Definition is_digit (b : nat) : bool := (48 <=? b) && (b <=? 57).
Definition is_word (b : nat) : bool :=
  is_digit b || ((65 <=? b) && (b <=? 90)) || ((97 <=? b) && (b <=? 122)) || (b =? 95).

(** ['([^'\\]|\\.)*'] after the opening quote *)
Fixpoint simple_string (s : bytes) : option nat :=
  match s with
  | [] => None
  | 39 :: _ => Some 1
  | 92 :: 10 :: _ => None
  | 92 :: _ :: r => option_map (fun n => 2 + n) (simple_string r)
  | 92 :: [] => None
  | _ :: r => option_map S (simple_string r)
  end.

Definition punctuation : list (nat * nat) :=
  [(61, 111); (124, 112); (42, 113); (63, 114); (46, 115); (44, 116); (58, 117); (35, 118); (123, 119); (125, 120);
   (91, 121); (93, 122); (60, 123); (62, 124); (40, 125); (41, 126)].

Definition word_token (s : bytes) : token :=
  let n := span is_word s in
  if n =? 0 then mkTok ERROR 1 else if span is_digit s =? n then mkTok 127 n else mkTok 130 n.

Definition fall_lexer : lexer := fun s =>
  match s with
  | [] => mkTok ERROR 1
  | b :: r =>
      if is_space b then mkTok 100 (span is_space s)
      else if is_prefix [47; 47] s then mkTok 101 (span (fun c => negb (c =? 10)) s)
      else match find_first (fun x => fst x =? b) punctuation with
      | Some (_, ty) => mkTok ty 1
      | None =>
          if b =? 39 then match simple_string r with Some n => mkTok 128 (S n) | None => mkTok ERROR 1 end
          else if (b =? 114) && is_prefix [34] (skipn (count_hashes r) r) then
            match parse_raw_string s with Ok (Some n) => mkTok 129 n | _ => word_token s end
          else word_token s
      end
  end.

(** fall.rs:86-188: the language; there is no whitespace binder. *)
Definition fall_lang : language := mkLang fall_lexer fall_grammar fall_ws (fun _ _ _ => 0).

(** The bytes of a literal. *)
Fixpoint text_of (s : string) : bytes :=
  match s with EmptyString => [] | String c r => nat_of_ascii c :: text_of r end.

Definition no_file : file := mkFile [] [].
(** The file parsed from a literal. *)
Definition fall_file (s : string) : file :=
  match parse_file fall_lang 5000 (text_of s) with Ok (f, _) => f | _ => no_file end.
