(** Model of RegexLexer (fall/parse/src/lib.rs 25-60) and of what it asks of the external crate m_lexer 0.0.4 and, through
    it, of the crate regex.  Neither crate is in the repository: this file is what they are taken to do. *)
From Coq Require Import List Arith NArith Bool.
From Verif Require Import Base TextModel LexModel ScanModel.
Import ListNotations.

(** ** Regular expressions (the syntax used by the lexical rules of the repository) *)

(** [\s] [\w] [\d] [\p{XID_Start}] [\p{XID_Continue}] *)
Inductive cls : Type := Space | Word | Digit | XidStart | XidContinue.

(** Which characters are in a class: the tables of the crate regex are a parameter. *)
Definition tables := cls -> bytes -> bool.

(** An ASCII character, any character but some ASCII ones ([.] is any but a newline), a class. *)
Inductive cset : Type := Lit (b : nat) | Not (bs : list nat) | Cls (k : cls).

Definition in_set (U : tables) (k : cset) (c : bytes) : bool :=
  match k with
  | Lit b => list_eqb Nat.eqb c [b]
  | Not bs => negb (existsb (fun b => list_eqb Nat.eqb c [b]) bs)
  | Cls k => U k c
  end.

Inductive regex : Type :=
| Eps
| Chr (k : cset)
| Seq (a b : regex)
| Alt (a b : regex)
| Star (a : regex).

(** [a+] and [a?] *)
Definition Plus (a : regex) : regex := Seq a (Star a).
Definition Opt (a : regex) : regex := Alt a Eps.

(** The repetition of [f], longer runs first; a round that consumes nothing ends it.  The fuel is the number of
    characters left. *)
Fixpoint runs (f : list bytes -> list (list bytes)) (fuel : nat) (s : list bytes) : list (list bytes) :=
  match fuel with
  | 0 => [s]
  | S fuel => flat_map (fun r => if length r <? length s then runs f fuel r else []) (f s) ++ [s]
  end.

(** What may be left after a match at the start of [s], in the order in which a backtracking matcher tries: the first
    alternative first, repetitions as long as possible first.  The crate regex reports the first one. *)
Fixpoint ends (U : tables) (r : regex) (s : list bytes) : list (list bytes) :=
  match r with
  | Eps => [s]
  | Chr k => match s with c :: s' => if in_set U k c then [s'] else [] | [] => [] end
  | Seq a b => flat_map (ends U b) (ends U a s)
  | Alt a b => ends U a s ++ ends U b s
  | Star a => runs (ends U a) (length s) s
  end.

(** The length of the match at the start of the text. *)
Definition find (U : tables) (r : regex) (s : bytes) : option nat :=
  option_map (fun rest => length s - length (concat rest)) (hd_error (ends U r (chars s))).

(** ** m_lexer *)

(** fall/parse/src/lib.rs 62-78 [LexRule], [CustomLexRule] *)
Record lex_rule : Type := mkRule { r_ty : nat; r_re : regex; r_f : option (bytes -> res (option nat)) }.

(** One rule: the length of the match, or, if the rule has a function, what that makes of the text. *)
Definition try_rule (U : tables) (s : bytes) (r : lex_rule) : res (option nat) :=
  match find U (r_re r) s with
  | None => Ok None
  | Some n => match r_f r with None => Ok (Some n) | Some f => f s end
  end.

(** The rules that apply, each with its kind and length, in order. *)
Fixpoint candidates (U : tables) (s : bytes) (rules : list (N * lex_rule)) : res (list (N * nat)) :=
  match rules with
  | [] => Ok []
  | (k, r) :: rest =>
      o <- try_rule U s r ;; c <- candidates U s rest ;;
      Ok (match o with Some n => (k, n) :: c | None => c end)
  end.

(** The longest of the candidates, the first among those. *)
Definition longer (a b : N * nat) : N * nat := if snd a <? snd b then b else a.
Definition longest (c : list (N * nat)) : N * nat := match c with [] => (0%N, 0) | x :: r => fold_left longer r x end.

(** [next_token] of m_lexer: if no rule applies, an error token (of kind 0) whose length [err] decides.  Which candidate
    is taken is a parameter, [pick]: m_lexer takes the [longest]. *)
Definition m_next (U : tables) (pick : list (N * nat) -> N * nat) (err : bytes -> nat) (rules : list (N * lex_rule)) (s : bytes)
  : res (N * nat) :=
  c <- candidates U s rules ;;
  Ok (match c with [] => (0%N, err s) | _ => pick c end).

(** ** RegexLexer *)

(** lib.rs 31-49 [new]: the types by kind, and the rules with their kinds; the kind is [tys.len() as u16] *)
Fixpoint numbered (tys : list nat) (rules : list lex_rule) : list nat * list (N * lex_rule) :=
  match rules with
  | [] => (tys, [])
  | r :: rest =>
      let '(tys', l) := numbered (tys ++ [r_ty r]) rest in
      (tys', (N.of_nat (length tys) mod 65536, r)%N :: l)
  end.
Definition new_lexer (rules : list lex_rule) : list nat * list (N * lex_rule) := numbered [ERROR] rules.

(** lib.rs 52-59 [next_token]: an unknown kind would panic; [len as u32] is the identity on texts shorter than 2^32 *)
Definition next_token (U : tables) (pick : list (N * nat) -> N * nat) (err : bytes -> nat) (rules : list lex_rule) (s : bytes)
  : res token :=
  let '(tys, l) := new_lexer rules in
  '(k, n) <- m_next U pick err l s ;;
  ty <- unwrap (nth_error tys (N.to_nat k)) ;;
  Ok (mkTok ty n).

(** As a lexer in the sense of LexModel, which returns a token for every text: when [next_token] panics (a raw string
    with more than 30 hashes: C71), an error token stands for it. *)
Definition regex_lexer (U : tables) (pick : list (N * nat) -> N * nat) (err : bytes -> nat) (rules : list lex_rule) : lexer :=
  fun s => match next_token U pick err rules s with Ok t => t | _ => mkTok ERROR (err s) end.
