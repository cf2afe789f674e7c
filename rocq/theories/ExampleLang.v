(** A small language used as the running example beside the parser theorems: sums, products, negation and
    parentheses over numbers, with spaces. *)
From Coq Require Import List Arith Bool Lia.
From Verif Require Import Base LexModel LexSpec GrammarModel ParserModel ConvertModel.
Import ListNotations.

(** Types: 0 error, 1 space, 2 digits, 3 plus, 4 star, 5 and 6 parentheses, 7 file, 8 number, 9 sum, 10 product,
    11 parenthesised, 12 negation, 13 minus. *)
Definition calc_lexer : lexer := fun txt =>
  match txt with
  | 32 :: _ => mkTok 1 1
  | 43 :: _ => mkTok 3 1
  | 42 :: _ => mkTok 4 1
  | 40 :: _ => mkTok 5 1
  | 41 :: _ => mkTok 6 1
  | 45 :: _ => mkTok 13 1
  | b :: _ => if (48 <=? b) && (b <=? 57) then mkTok 2 1 else mkTok ERROR 1
  | [] => mkTok ERROR 1
  end.

Definition calc_table : pratt_table :=
  mkPratt [3; 4] [mkPrefix 12 9 3] [mkInfix 9 7 1 true; mkInfix 10 8 2 true].

(** file: expr?; expr: pratt; number: digit; paren: '(' commit expr ')' *)
Definition calc_grammar : grammar :=
  mkGrammar (seq 0 14)
    [EPub 7 1 false; EOpt 2; EPratt calc_table; EPub 8 5 false; EPub 11 6 false; EToken 2; EAnd [10; 2; 11] (Some 1);
     EToken 3; EToken 4; EToken 13; EToken 5; EToken 6].

Definition calc_ws (ty : nat) : bool := ty =? 1.

Definition calc : language := mkLang calc_lexer calc_grammar calc_ws (fun _ _ _ => 0).

Lemma calc_progress : progressing calc_lexer.
Proof.
  intros txt NE. destruct txt as [|b r]; [congruence|].
  assert (tk_len (calc_lexer (b :: r)) = 1).
  { unfold calc_lexer. do 46 (destruct b as [|b]; [reflexivity|]). destruct ((48 <=? _) && _); reflexivity. }
  rewrite H. cbn. lia.
Qed.

(** "1 + 2*-3 " *)
Definition calc_text : bytes := [49; 32; 43; 32; 50; 42; 45; 51; 32].
(** "(1 2" : a parenthesis without its end, and something left over *)
Definition calc_broken : bytes := [40; 49; 32; 50].

Definition calc_toks (txt : bytes) : list token := match lex calc_lexer txt with Ok ts => ts | _ => [] end.
Definition calc_env (txt : bytes) : env := new_env None calc_grammar calc_ws txt (calc_toks txt).
