(** Which colours the nodes of a grammar file get, in terms of the nodes and of what the names mean (AnalysisSpec.v). *)
From Coq Require Import List Arith Bool.
From Verif Require Import Base TextModel TreeModel LexModel AnalysisModel AnalysisSpec FallEditModel.
Import ListNotations.

Section View.
  Variable f : file.

  (** The colour of a token or node that depends on its type only: comments (101), the keywords (102 to 110), strings,
      parameters and attributes. *)
  Definition type_color (t : nat) : option hl_tag :=
    if t =? 101 then Some HComment
    else if (102 <=? t) && (t <=? 110) then Some HKeyword
    else if (t =? SIMPLE_STRING) || (t =? HASH_STRING) then Some HString
    else if t =? PARAMETER then Some HParameter
    else if t =? ATTRIBUTES then Some HAttribute
    else None.

  (** An error node is marked, with one byte if it is empty. *)
  Definition type_mark (n : nat) : list (range * hl_tag) :=
    if ty f n =? ERROR then [(mkRange (rstart (rng f n)) (Nat.max (S (rstart (rng f n))) (rend (rng f n))), HError)]
    else match type_color (ty f n) with Some c => [(rng f n, c)] | None => [] end.

  Definition part_mark (n t : nat) (c : hl_tag) : list (range * hl_tag) :=
    match kid f t n with Some m => [(rng f m, c)] | None => [] end.

  Definition reference_color (k : ref_kind) : hl_tag :=
    match k with RToken _ => HLiteral | RRule _ => HFunction | RParam _ => HParameter end.
  Definition selection_color (k : child_kind) : hl_tag := match k with CToken _ => HLiteral | _ => HFunction end.
  Definition is_builtin (n : nat) : Prop := exists s, named f s n /\ In s builtins.

  (** The marks that show what a name is. *)
  Inductive name_marks (n : nat) : list (range * hl_tag) -> Prop :=
  | nm_token : ty f n = LEX_RULE -> name_marks n (part_mark n IDENT HLiteral)
  | nm_definition : In (ty f n) [SYN_RULE; AST_NODE_DEF; AST_TRAIT_DEF; AST_CLASS_DEF] -> name_marks n (part_mark n IDENT HFunction)
  | nm_reference : forall k, ty f n = REF_EXPR -> resolves f n (Some k) -> name_marks n [(rng f n, reference_color k)]
  | nm_unresolved : ty f n = REF_EXPR -> resolves f n None -> name_marks n []
  | nm_method : forall k a sel, ty f n = METHOD_DEF -> method_means f n (Some (NodeAccessor k a)) -> kid f AST_SELECTOR n = Some sel ->
      name_marks n (part_mark sel IDENT (selection_color k))
  | nm_other_method : forall o, ty f n = METHOD_DEF -> method_means f n o -> (forall k a, o <> Some (NodeAccessor k a)) -> name_marks n []
  | nm_builtin : forall k ds, ty f n = CALL_EXPR -> is_builtin n -> call_means f n (Some k) ds ->
      name_marks n (part_mark n IDENT HBuiltin ++ part_mark n L_ANGLE HBuiltin ++ part_mark n R_ANGLE HBuiltin)
  | nm_call : forall o ds, ty f n = CALL_EXPR -> call_means f n o ds -> (o = None \/ ~ is_builtin n) ->
      name_marks n (part_mark n IDENT HFunction ++ part_mark n L_ANGLE HFunction ++ part_mark n R_ANGLE HFunction)
  | nm_other : ~ In (ty f n) [LEX_RULE; SYN_RULE; AST_NODE_DEF; AST_TRAIT_DEF; AST_CLASS_DEF; REF_EXPR; METHOD_DEF; CALL_EXPR] -> name_marks n [].

  (** All marks of a node. *)
  Definition colors (n : nat) (ms : list (range * hl_tag)) : Prop := exists names, name_marks n names /\ ms = type_mark n ++ names.
End View.
