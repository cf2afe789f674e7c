(** Specification vocabulary for lexing. *)
From Coq Require Import List Arith Bool.
From Verif Require Import Base TextModel EditModel LexModel.
Import ListNotations.

(** What m_lexer guarantees: on a non-empty text it returns a non-empty token inside the text. *)
Definition progressing (lx : lexer) : Prop :=
  forall txt, txt <> [] -> 0 < tk_len (lx txt) <= length txt.

(** Reading tokens one after the other from the left. *)
Inductive tokenizes (lx : lexer) : bytes -> list token -> Prop :=
| tok_nil : tokenizes lx [] []
| tok_cons : forall txt t ts, txt <> [] -> lx txt = t -> tokenizes lx (skipn (tk_len t) txt) ts ->
    tokenizes lx txt (t :: ts).

(** Total length. *)
Definition lens (ts : list token) : nat := sum (map tk_len ts).

(** The token texts. *)
Fixpoint cut (txt : bytes) (ts : list token) : list bytes :=
  match ts with
  | [] => []
  | t :: r => firstn (tk_len t) txt :: cut (skipn (tk_len t) txt) r
  end.

(** The lexer looks at most one byte past the end of a (non-error) token that is not the last one. *)
Definition one_byte_lookahead (lx : lexer) : Prop :=
  forall u v, let t := lx u in
    tk_ty t <> ERROR -> tk_len t < length u ->
    firstn (S (tk_len t)) v = firstn (S (tk_len t)) u -> lx v = t.

(** The bytes an edit operation contributes; an edit is valid for [old] when its copies lie inside. *)
Definition op_bytes (old : bytes) (op : edit_op) : bytes :=
  match op with Copy r => sub (rstart r) (rend r) old | Insert t => t end.

Definition valid_op (old : bytes) (op : edit_op) : Prop :=
  match op with Copy r => rstart r <= rend r <= length old | Insert _ => True end.

Definition result_of (old : bytes) (ops : list edit_op) : bytes := flat_map (op_bytes old) ops.

(** [a] is obtained from [b] by dropping elements. *)
Inductive subseq {A} : list A -> list A -> Prop :=
| ss_nil : forall l, subseq [] l
| ss_keep : forall x a b, subseq a b -> subseq (x :: a) (x :: b)
| ss_drop : forall x a b, subseq a b -> subseq a (x :: b).
