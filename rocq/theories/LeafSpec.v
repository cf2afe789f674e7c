(** When a list of leaves spells out a list of lexer tokens. *)
From Coq Require Import List Arith.
From Verif Require Import Base LexModel LexSpec GrammarModel.
Import ListNotations.

(** [spells g txt off l ts]: the leaves [l] (type, length) are, in order, the tokens [ts], which start at offset
    [off] of the text: each leaf is one token with its type and length, or a contextual token of the grammar,
    which takes the adjacent tokens that together make up its text. *)
Inductive spells (g : grammar) (txt : bytes) : nat -> list (nat * nat) -> list token -> Prop :=
| sp_end : forall off, spells g txt off [] []
| sp_token : forall off t l ts, spells g txt (off + tk_len t) l ts -> spells g txt off ((tk_ty t, tk_len t) :: l) (t :: ts)
| sp_ctx : forall off i j ty ctx gr l ts,
    nth_error (g_rules g) i = Some (EContextual j ctx) -> nth_error (g_types g) j = Some ty ->
    lens gr = length ctx -> sub off (off + length ctx) txt = ctx ->
    spells g txt (off + length ctx) l ts -> spells g txt off ((ty, length ctx) :: l) (gr ++ ts).
