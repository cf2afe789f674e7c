(** Which raw tokens the leaves of a parse tree stand for. *)
From Coq Require Import List Arith Bool.
From Verif Require Import Base LexModel LexSpec GrammarModel ParserModel.
Import ListNotations.

(** The [n] non-whitespace tokens from number [k] on are next to each other in the text. *)
Definition adjacent (E : env) (k n : nat) : Prop :=
  k + n <= length (e_idx E)
  /\ forall j, j + 1 < n -> exists o o' raw,
       nth_error (e_idx E) (k + j) = Some (o, raw) /\ nth_error (e_idx E) (k + j + 1) = Some (o', raw + 1).

(** A leaf of type [ty] made of [n] tokens is either a lexer token with its own type, or a contextual token of
    the grammar, which spells its text. *)
Definition leaf_ok (E : env) (k ty n : nat) : Prop :=
  (n = 1 /\ exists o raw t, nth_error (e_idx E) k = Some (o, raw) /\ nth_error (e_toks E) raw = Some t /\ tk_ty t = ty)
  \/ (exists i tyi txt o raw, nth_error (g_rules (e_g E)) i = Some (EContextual tyi txt)
        /\ nth_error (g_types (e_g E)) tyi = Some ty
        /\ nth_error (e_idx E) k = Some (o, raw)
        /\ lens (sub raw (raw + n) (e_toks E)) = length txt
        /\ sub o (o + length txt) (e_text E) = txt).

(** The leaves [l] are tokens number [k], [k+1], ... up to [k'] (not included), in this order. *)
Inductive spans (E : env) : nat -> list (nat * nat) -> nat -> Prop :=
| sp_nil : forall k, spans E k [] k
| sp_cons : forall k ty n l k', adjacent E k n -> leaf_ok E k ty n -> spans E (k + n) l k' -> spans E k ((ty, n) :: l) k'.

(** No whitespace inside contextual tokens: where the text of a contextual token occurs at a token, no
    whitespace token starts before that text ends. *)
Definition tight (E : env) (is_ws : nat -> bool) : Prop :=
  forall i ty txt, nth_error (g_rules (e_g E)) i = Some (EContextual ty txt) ->
  forall k o raw, nth_error (e_idx E) k = Some (o, raw) -> sub o (o + length txt) (e_text E) = txt ->
  forall j t, raw < j -> nth_error (e_toks E) j = Some t -> is_ws (tk_ty t) = true ->
  o + length txt <= lens (firstn j (e_toks E)).

(** A simple sufficient condition: no whitespace token starts with a byte of a contextual token. *)
Definition no_ws_byte (g : grammar) (is_ws : nat -> bool) (txt : bytes) (toks : list token) : Prop :=
  forall i ty ctx, nth_error (g_rules g) i = Some (EContextual ty ctx) ->
  forall j t b, nth_error toks j = Some t -> is_ws (tk_ty t) = true ->
  nth_error txt (lens (firstn j toks)) = Some b -> ~ In b ctx.
