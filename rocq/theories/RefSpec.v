(** Definitions, references and the cursor, in terms of the nodes of a grammar file. *)
From Coq Require Import List Arith Bool.
From Verif Require Import Base TextModel TreeModel DbModel DbSpec AnalysisModel AnalysisSpec.
Import ListNotations.

Section Refs.
  Variable f : file.
  Variable ws : nat -> bool.
  Variable ask : key -> res value.

  (** [ask] gives the answers the analysis gives. *)
  Definition honest : Prop := forall k, api_key f k -> exists v, ask k = Ok v /\ answers f k v.

  (** Node [p] is a reference to the definition [x]: a reference expression, a method whose selector selects it, or
      the name in a call. *)
  Inductive refers (p x : nat) : Prop :=
  | rf_rule : is_a f REF_EXPR p -> resolves f p (Some (RRule x)) -> refers p x
  | rf_param : is_a f REF_EXPR p -> resolves f p (Some (RParam x)) -> refers p x
  | rf_token : is_a f REF_EXPR p -> resolves f p (Some (RToken x)) -> refers p x
  | rf_method : forall c a, is_a f METHOD_DEF p -> method_means f p (Some (NodeAccessor c a)) ->
      x = (match c with CAstNode y | CAstClass y | CToken y => y end) -> refers p x
  | rf_call : forall c, is_a f IDENT p -> par f p = Some c -> ty f c = CALL_EXPR -> calls_rule f c x -> refers p x.

  (** What is shown for the reference: for a method its selector. *)
  Definition place (p : nat) : nat :=
    if ty f p =? METHOD_DEF then match kid f AST_SELECTOR p with Some s => s | None => p end else p.

  (** Nodes where a reference stands, whether it can be resolved or not. *)
  Definition reference_at (p : nat) : Prop :=
    is_a f REF_EXPR p \/ is_a f METHOD_DEF p \/
    (is_a f IDENT p /\ exists c r, par f p = Some c /\ ty f c = CALL_EXPR /\ calls_rule f c r).

  (** Nodes that define something. *)
  Definition defines (x : nat) : Prop := valid f x /\ In (ty f x) [SYN_RULE; LEX_RULE; PARAMETER; AST_NODE_DEF; AST_CLASS_DEF].

  (** Where the editor goes for a definition: its name; tokens and parameters as a whole. *)
  Definition target (x : nat) : range :=
    if (ty f x =? LEX_RULE) || (ty f x =? PARAMETER) then rng f x
    else match kid f IDENT x with Some i => rng f i | None => rng f x end.

  (** The leaf the cursor is on: of two leaves that meet there the left one, unless that is whitespace. *)
  Definition leaf_at (o n : nat) : Prop := valid f n /\ kids f n = [] /\ rstart (rng f n) < rend (rng f n) /\ rstart (rng f n) <= o <= rend (rng f n).
  Definition under_cursor (o n : nat) : Prop :=
    leaf_at o n /\ forall m, leaf_at o m -> (m < n -> ws (ty f m) = true) /\ (n < m -> ws (ty f n) = false).

  (** The node itself or the nearest node around it with property [P]. *)
  Inductive nearest (P : nat -> Prop) : nat -> nat -> Prop :=
  | nr_here : forall n, P n -> nearest P n n
  | nr_up : forall n p a, ~ P n -> par f n = Some p -> nearest P p a -> nearest P n a.

  (** The definition a user asks about with the cursor at [o] on node [a]: the definition whose name the cursor is on, or
      the definition referred to. *)
  Definition points (o a x : nat) : Prop :=
    (defines a /\ a = x /\ rstart (target a) <= o <= rend (target a)) \/ refers a x.
  Definition asked_about (o x : nat) : Prop :=
    exists n a, under_cursor o n /\ nearest (fun a => exists y, points o a y) n a /\ points o a x.

  (** The reference the cursor is on. *)
  Definition reference_under (o p : nat) : Prop := exists n, under_cursor o n /\ nearest reference_at n p.
End Refs.
