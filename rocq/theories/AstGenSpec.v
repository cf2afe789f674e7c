(** What the parts of a generated parser outside its table should be: the verbatim code and the accessors. *)
From Coq Require Import List Arith Bool.
From Verif Require Import Base TextModel TreeModel DbModel AnalysisModel AnalysisSpec CodegenModel CodegenSpec.
Import ListNotations.

(** ** Names *)

(** Letters a to z become A to Z, other bytes stay. *)
Definition capital (b u : nat) : Prop := (97 <= b <= 122 /\ u + 32 = b) \/ ((b < 97 \/ 122 < b) /\ u = b).
Definition screams (s t : bytes) : Prop := Forall2 capital s t.

(** The words of a name are separated by underscores. *)
Fixpoint joined (ws : list bytes) : bytes :=
  match ws with
  | [] => []
  | w :: rest => match rest with [] => w | _ :: _ => w ++ 95 :: joined rest end
  end.
Definition words (s : bytes) (ws : list bytes) : Prop := ws <> [] /\ joined ws = s /\ forall w, In w ws -> ~ In 95 w.

(** The second byte of the word does not continue a longer character. *)
Definition capitalised (w c : bytes) : Prop :=
  exists b u r, w = b :: r /\ capital b u /\ c = u :: r /\ (match r with x :: _ => is_cont x = false | [] => True end).
Definition camel_case (s c : bytes) : Prop := exists ws cs, words s ws /\ Forall2 capitalised ws cs /\ c = concat cs.

Section Spec.
  Variable f : file.

  (** The type and the constant generated for a definition. *)
  Definition type_name (x : nat) (c : bytes) : Prop := exists s, name_of f x = Some s /\ camel_case s c.
  Definition constant (x : nat) (c : bytes) : Prop := exists s, name_of f x = Some s /\ screams s c.

  Definition is_optional (a : arity) : bool := match a with Optional => true | _ => false end.
  Inductive accessor_is : method_kind -> accessor -> Prop :=
  | ai_text : forall t a c, a <> Many -> constant t c -> accessor_is (TextAccessor t a) (AText (is_optional a) c)
  | ai_token : forall t a c, a <> Many -> constant t c -> accessor_is (NodeAccessor (CToken t) a) (AToken (is_optional a) c)
  | ai_node : forall x a c, type_name x c -> accessor_is (NodeAccessor (CAstNode x) a) (AChild a c)
  | ai_class : forall x a c, type_name x c -> accessor_is (NodeAccessor (CAstClass x) a) (AChild a c).

  Definition method_done (m : nat) (x : ctx_method) : Prop :=
    name_of f m = Some (cm_name x) /\ exists d, method_means f m (Some d) /\ accessor_is d (cm_body x).
  Definition node_is (n : nat) (x : ctx_node) : Prop :=
    type_name n (cn_struct x) /\ constant n (cn_type x) /\ Forall2 method_done (kids_of f METHOD_DEF n) (cn_methods x).

  (** The variants are the identifiers after the name. *)
  Definition variants (n : nat) : list nat := tl (kids_of f IDENT n).
  Definition variant_is (i : nat) (v : bytes * bytes) : Prop := screams (str f i) (fst v) /\ camel_case (str f i) (snd v).
  Definition class_is (n : nat) (x : ctx_class) : Prop :=
    type_name n (cc_enum x) /\ Forall2 variant_is (variants n) (cc_variants x).

  (** Node definition [n] names the trait [t]. *)
  Definition implements (n t : nat) : Prop :=
    exists refs ts ds, trait_refs f n refs /\ traits_mean f refs ts ds /\ In t ts.
  Definition trait_is (a t : nat) (x : ctx_trait) : Prop :=
    type_name t (ct_name x) /\ Forall2 method_done (kids_of f METHOD_DEF t) (ct_methods x) /\
    exists ns, picks (fun _ n => implements n t) [] (kids_of f AST_NODE_DEF a) ns /\ Forall2 type_name ns (ct_impl_for x).

  Definition ast_is (a : nat) (x : ctx_ast) : Prop :=
    Forall2 node_is (kids_of f AST_NODE_DEF a) (ca_nodes x) /\
    Forall2 class_is (kids_of f AST_CLASS_DEF a) (ca_classes x) /\
    Forall2 (trait_is a) (kids_of f AST_TRAIT_DEF a) (ca_traits x).

  (** ** What is accepted *)
  Definition nameable (s : bytes) : Prop := exists c, camel_case s c.
  Definition method_fits (m : nat) : Prop :=
    name_of f m <> None /\ exists d, method_means f m (Some d) /\
      match d with TextAccessor _ a | NodeAccessor (CToken _) a => a <> Many | _ => True end.
  Record ast_fits (a : nat) : Prop := mkAstFits {
    af_names : forall x t s, In t [AST_NODE_DEF; AST_CLASS_DEF; AST_TRAIT_DEF] -> In x (kids_of f t a) -> name_of f x = Some s -> nameable s;
    af_variants : forall x i, In x (kids_of f AST_CLASS_DEF a) -> In i (variants x) -> nameable (str f i);
    af_methods : forall x t m, In t [AST_NODE_DEF; AST_TRAIT_DEF] -> In x (kids_of f t a) -> In m (kids_of f METHOD_DEF x) -> method_fits m }.

  (** ** Verbatim code *)
  Section Trim.
  Variable trim : bytes -> bytes.
  Definition verbatim_is (o : option bytes) : Prop :=
    match kid f VERBATIM_DEF 0 with
    | None => o = None
    | Some n => exists m b, kid f HASH_STRING n = Some m /\ literal_body (str f m) b /\ o = Some (trim b)
    end.
  End Trim.

  (** ** The whole generator *)
  Section Whole.
  Variable escape debug trim : bytes -> bytes.

  Definition accepted : Prop :=
    (forall r, In r (rules f) -> compilable_rule f r) /\
    (kid f TOKENIZER_DEF 0 <> None /\ forall t, In t (matched_tokens f) -> (exists b, pattern f escape t b) /\ exists o, custom f t o) /\
    (exists o, verbatim_is trim o) /\
    (forall a, kid f AST_DEF 0 = Some a -> ast_fits a).
  Definition faithful (c : context) : Prop :=
    cx_types c = type_list f /\ table_of_file f (cx_rules c) /\ closed f (cx_rules c) /\ length (rules f) <= length (cx_rules c) /\
    Forall2 (lex_rule_is f escape debug) (matched_tokens f) (cx_lex c) /\ verbatim_is trim (cx_verbatim c) /\
    match kid f AST_DEF 0, cx_ast c with Some a, Some x => ast_is a x | None, None => True | _, _ => False end.
  End Whole.

  (** ** What the analysis does not check about rules *)
  Definition no_errors : Prop := forall ds out d, collect_returns f ds out -> In d out -> d_severity d <> Error.
  Record usable : Prop := mkUsable {
    (** commits are written without spaces, as parts of sequences *)
    us_commit : forall n, is_a f CALL_EXPR n -> named f s_commit n ->
      is_commit_part f n = true /\ exists p, par f n = Some p /\ ty f p = SEQ_EXPR;
    (** borrowed types exist *)
    us_types : forall r s, In r (rules f) -> makes_type f r s -> exists i, type_number f s i;
    us_replaces : forall r, In r (rules f) -> has_attr f r s_replaces = true -> exists s, makes_type f r s;
    us_contextual : forall t, In t (tokens f) -> has_attr f t s_contextual = true -> exists b, plain_text f t b;
    us_inner : forall n, is_a f OPT_EXPR n \/ is_a f REP_EXPR n -> exprs f n <> [];
    (** the alternatives of expression rules are public rules marked as atoms or operators *)
    us_pratt : forall r b a, In r (rules f) -> has_attr f r s_pratt = true -> hd_error (exprs f r) = Some b -> In a (exprs f b) ->
      exists x s v, alternative f a x /\ makes_type f x s /\ variant f x v /\
        forall op, operator_of v = Some op -> is_commit_part f op = false }.
End Spec.
