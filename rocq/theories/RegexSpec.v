(** What a regular expression means, and what a lexer made of rules should return. *)
From Coq Require Import List Arith NArith Bool.
From Verif Require Import Base TextModel EditModel LexModel LexSpec TextSpec ScanSpec RegexModel.
Import ListNotations.

(** The characters [cs], all of them, match. *)
Inductive matches (U : tables) : regex -> list bytes -> Prop :=
| m_eps : matches U Eps []
| m_chr : forall k c, in_set U k c = true -> matches U (Chr k) [c]
| m_seq : forall a b x y, matches U a x -> matches U b y -> matches U (Seq a b) (x ++ y)
| m_left : forall a b x, matches U a x -> matches U (Alt a b) x
| m_right : forall a b x, matches U b x -> matches U (Alt a b) x
| m_stop : forall a, matches U (Star a) []
| m_more : forall a x y, matches U a x -> matches U (Star a) y -> matches U (Star a) (x ++ y).

(** The classes contain characters, and on ASCII they are the well-known ones; nothing is said about other characters. *)
Definition letter (b : nat) : Prop := 65 <= b <= 90 \/ 97 <= b <= 122.
Definition digit (b : nat) : Prop := 48 <= b <= 57.
Definition ascii_class (k : cls) (b : nat) : Prop :=
  match k with
  | Space => 9 <= b <= 13 \/ b = 32
  | Word | XidContinue => letter b \/ digit b \/ b = 95
  | Digit => digit b
  | XidStart => letter b
  end.
Record tables_ok (U : tables) : Prop := {
  t_chars : forall k c, U k c = true -> utf8_char c;
  t_ascii : forall k b, b < 128 -> (U k [b] = true <-> ascii_class k b)
}.

(** Any choice among the rules that apply will do for some properties ... *)
Definition picks (pick : list (N * nat) -> N * nat) : Prop := forall c, c <> [] -> In (pick c) c.
(** ... and any length of an error token that is not empty and ends between characters. *)
Definition err_ok (err : bytes -> nat) : Prop :=
  forall s, s <> [] -> 0 < err s <= length s /\ (utf8 s -> aligned s (err s)).

(** Rule [r] takes the first [n] bytes of [s]: some characters at the start of [s] match its expression, and they are
    these bytes, unless the rule has a function: then that says [n]. *)
Definition takes (U : tables) (r : lex_rule) (s : bytes) (n : nat) : Prop :=
  exists cs rest, chars s = cs ++ rest /\ matches U (r_re r) cs /\
    match r_f r with None => n = length (concat cs) | Some f => f s = Ok (Some n) end.

(** No text an edit inserts stops inside a character. *)
Definition inserts_utf8 (ops : list edit_op) : Prop :=
  Forall (fun o => match o with Copy _ => True | Insert t => utf8 t end) ops.

(** Reading the text meets no error. *)
Definition error_free (lx : lexer) (s : bytes) : Prop := forall toks, lex lx s = Ok toks -> Forall (fun t => tk_ty t <> ERROR) toks.

(** In texts of some kind without errors, a token that ends before the end of [w] is determined by [w]. *)
Definition local_on (lx : lexer) (fine : bytes -> Prop) : Prop :=
  forall w a b, utf8 w -> utf8 a -> utf8 b -> error_free lx (w ++ a) -> fine (w ++ a) -> tk_len (lx (w ++ a)) < length w -> lx (w ++ b) = lx (w ++ a).

(** Without its first token a text stays of that kind. *)
Definition token_tails (lx : lexer) (fine : bytes -> Prop) : Prop := forall s, s <> [] -> fine s -> fine (skipn (tk_len (lx s)) s).

(** Tokens end between characters. *)
Definition whole_tokens (lx : lexer) : Prop := forall s, s <> [] -> utf8 s -> aligned s (tk_len (lx s)).
