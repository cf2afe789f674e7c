(** What an accessor should return, by the ast block of the grammar. *)
From Coq Require Import List Arith Bool.
From Verif Require Import Base TextModel TreeModel DbModel AnalysisModel AnalysisSpec CodegenModel CodegenSpec AstGenSpec RuntimeModel.
Import ListNotations.
Open Scope list_scope.

Section Grammar.
  (** The file of the grammar, and its definitions of nodes and classes *)
  Variable f : file.
  Definition node_defs : list nat := ast_parts f AST_NODE_DEF.
  Definition class_defs : list nat := ast_parts f AST_CLASS_DEF.

  (** Nodes of the type called [s] (tokens and rules, however letters are capitalised) have the number [k]: their place, counted from 100. *)
  Definition type_no (s : bytes) (k : nat) : Prop :=
    exists i s' b c, nth_error (type_list f) i = Some (s', b) /\ screams s c /\ screams s' c /\ k = 100 + i.

  (** A variant of a class names the definition whose type has that name. *)
  Definition variant_of (i d : nat) : Prop := (In d node_defs \/ In d class_defs) /\ exists c, camel_case (str f i) c /\ type_name f d c.

  (** Nodes with the number [k] are what the definition [d] is about. *)
  Inductive of_kind : nat -> nat -> Prop :=
  | ok_node : forall d s k, In d node_defs -> name_of f d = Some s -> type_no s k -> of_kind d k
  | ok_class : forall d i e k, In d class_defs -> In i (variants f d) -> variant_of i e -> of_kind e k -> of_kind d k.

  (** The file the accessors are used on *)
  Variable h : file.

  (** The value that stands for the node [n] seen as a [d]: for a class, the first variant it fits. *)
  Inductive value_of (n : nat) : nat -> ast -> Prop :=
  | vo_node : forall d t, In d node_defs -> of_kind d (ty h n) -> type_name f d t -> value_of n d (AStruct t n)
  | vo_class : forall d t pre i post e v a, In d class_defs -> type_name f d t -> variants f d = pre ++ i :: post ->
      (forall j e', In j pre -> variant_of j e' -> ~ of_kind e' (ty h n)) -> variant_of i e -> camel_case (str f i) v -> value_of n e a ->
      value_of n d (AEnum t v a).

  (** The children of [n] that are [d]s, in order, and the values for them *)
  Definition children_as (n d : nat) (l : list ast) : Prop :=
    exists cs, picks (fun _ c => of_kind d (ty h c)) [] (kids h n) cs /\ Forall2 (fun c a => value_of c d a) cs l.

  Definition the_first {A} (wanted : arity) (make : A -> answer) (many : list A -> answer) (l : list A) : res answer :=
    match wanted, l with
    | Single, a :: _ => Ok (make a)
    | Single, [] => Panic
    | Optional, a :: _ => Ok (RSome (make a))
    | Optional, [] => Ok RNone
    | Many, l => Ok (many l)
    end.

  (** The answer of a method on the node [n]: of the children of that kind the first, perhaps one, or all. A required one that is missing is
      a panic. *)
  Inductive answers (n : nat) : method_kind -> res answer -> Prop :=
  | an_text : forall t a s k, name_of f t = Some s -> type_no s k ->
      answers n (TextAccessor t a) (the_first a (fun c => RText (str h c)) (fun _ => RNone) (kids_of h k n))
  | an_token : forall t a s k, name_of f t = Some s -> type_no s k ->
      answers n (NodeAccessor (CToken t) a) (the_first a RNode (fun _ => RNone) (kids_of h k n))
  | an_node : forall d a l, children_as n d l -> answers n (NodeAccessor (CAstNode d) a) (the_first a RAst RMany l)
  | an_class : forall d a l, children_as n d l -> answers n (NodeAccessor (CAstClass d) a) (the_first a RAst RMany l).
End Grammar.

(** ** What the Rust compiler checks *)
Definition type_names (x : ctx_ast) : list bytes := map cn_struct (ca_nodes x) ++ map cc_enum (ca_classes x).
Record compiles (types : list (bytes * bool)) (x : ctx_ast) : Prop := mkCompiles {
  (** no two constants and no two types have the same name *)
  cp_consts : NoDup (map (fun t => scream (fst t)) types);
  cp_types : NoDup (type_names x);
  (** names that are used are defined *)
  cp_node : forall d, In d (ca_nodes x) -> In (cn_type d) (map (fun t => scream (fst t)) types);
  cp_variant : forall d v, In d (ca_classes x) -> In v (cc_variants d) -> In (snd v) (type_names x);
  (** no enum has infinite size *)
  cp_finite : exists rank : bytes -> nat, forall d v, In d (ca_classes x) -> In v (cc_variants d) -> rank (snd v) < rank (cc_enum d) }.
