(** What the editor should do with grammar files, in terms of the nodes of the file (AnalysisSpec.v). *)
From Coq Require Import List Arith Bool.
From Verif Require Import Base TextModel TreeModel AnalysisModel AnalysisSpec FallEditModel.
Import ListNotations.

Section View.
  Variable f : file.

  (** A token whose text touches the offset. *)
  Definition token_at (o n : nat) : Prop :=
    valid f n /\ kids f n = [] /\ rstart (rng f n) < rend (rng f n) /\ rstart (rng f n) <= o <= rend (rng f n).

  (** [a] is [n] or a node around it. *)
  Inductive inside (n : nat) : nat -> Prop :=
  | in_self : valid f n -> inside n n
  | in_up : forall a p, inside n a -> par f a = Some p -> inside n p.

  (** [n] holds all of [r]. *)
  Definition holds_all (r : range) (n : nat) : Prop := valid f n /\ rstart (rng f n) <= rstart r /\ rend r <= rend (rng f n).

  Definition expression (n : nat) : Prop := valid f n /\ is_expr (ty f n) = true.

  (** ** Swap alternatives *)

  (** The bar the action is about: one that touches the offset, the left one if there are two. *)
  Definition bar_at (o p : nat) : Prop :=
    token_at o p /\ ty f p = PIPE /\ forall q, token_at o q -> ty f q = PIPE -> p <= q.

  (** The alternatives next to a bar: it stands in a block, [l] is the last expression before it and [r] the first
      one after it. *)
  Definition alternatives_around (p l r : nat) : Prop :=
    exists b pre m1 m2 post, par f p = Some b /\ ty f b = BLOCK_EXPR /\ kids f b = pre ++ l :: m1 ++ p :: m2 ++ r :: post /\
      is_expr (ty f l) = true /\ is_expr (ty f r) = true /\ forall x, In x (m1 ++ m2) -> is_expr (ty f x) = false.

  Definition swappable (o l r : nat) : Prop := exists p, bar_at o p /\ alternatives_around p l r.

  (** The text with the texts of [l] and [r] exchanged. *)
  Definition exchanged (l r : nat) : bytes :=
    sub 0 (rstart (rng f l)) (f_text f) ++ str f r ++ sub (rend (rng f l)) (rstart (rng f r)) (f_text f) ++ str f l
    ++ sub (rend (rng f r)) (length (f_text f)) (f_text f).

  (** ** Extract rule *)

  (** The innermost expression that holds the selection. *)
  Definition selected (r : range) (e : nat) : Prop :=
    expression e /\ holds_all r e /\ forall m, expression m -> holds_all r m -> inside e m.

  Definition overlaps (a b : range) : Prop := rstart a < rend b /\ rstart b < rend a.

  (** From [a] to [b]: the children of the sequence [e] the selection overlaps, if there are two or more and the first and the
      last are expressions. *)
  Definition run_selected (r : range) (e a b : nat) : Prop :=
    ty f e = SEQ_EXPR /\ is_expr (ty f a) = true /\ is_expr (ty f b) = true /\
    exists pre mid post, kids f e = pre ++ a :: mid ++ b :: post /\ overlaps (rng f a) r /\ overlaps (rng f b) r /\
      forall x, In x pre \/ In x post -> ~ overlaps (rng f x) r.

  (** What is moved to the new rule: the run of expressions in a sequence, otherwise the expression. *)
  Definition moved (r : range) (e : nat) (m : range) : Prop :=
    (exists a b, run_selected r e a b /\ m = mkRange (rstart (rng f a)) (rend (rng f b)))
    \/ ((forall a b, ~ run_selected r e a b) /\ m = rng f e).

  (** The selection can be extracted: it is in an expression which is more than a reference. *)
  Definition extractable (r : range) (e : nat) : Prop := rstart r < rend r /\ selected r e /\ ty f e <> REF_EXPR.

  (** The text in which a reference to the new rule stands for [m], and the new rule follows after [rule]. *)
  Definition extracted (m : range) (rule : nat) : bytes :=
    sub 0 (rstart m) (f_text f) ++ s_new_rule ++ sub (rend m) (rend (rng f rule)) (f_text f)
    ++ [10; 10] ++ [114; 117; 108; 101; 32] ++ s_new_rule ++ [32; 123] ++ [10; 32; 32]
    ++ sub (rstart m) (rend m) (f_text f) ++ [10] ++ [125]
    ++ sub (rend (rng f rule)) (length (f_text f)) (f_text f).

  (** ** Outline *)
  Definition outline_entry (n : nat) : list (bytes * range) :=
    if ty f n =? SYN_RULE then match name_of f n with Some s => [(s, rng f n)] | None => [] end
    else if ty f n =? TOKENIZER_DEF then [(s_tokenizer, rng f n)]
    else if ty f n =? AST_DEF then [(s_ast, rng f n)]
    else [].

  (** The definitions of the file in order. *)
  Definition outline : list (bytes * range) := flat_map outline_entry (kids f 0).

  (** ** Tests *)

  (** The token at or after the offset. *)
  Definition token_right (o n : nat) : Prop := token_at o n /\ forall m, token_at o m -> m <= n.

  (** The cursor is in test number [i]. *)
  Definition in_test (o i : nat) : Prop :=
    exists n t, token_right o n /\ inside n t /\ nth_error (kids_of f TEST_DEF 0) i = Some t.
End View.
