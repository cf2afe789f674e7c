(** Generated by tools/accessors.py: the AST types of each language and the bodies of their methods. *)
From Coq Require Import List String.
From Verif Require Import Base TextModel AnalysisModel CodegenModel FallLang.
Import ListNotations.
Open Scope string_scope.
Local Notation t := FallLang.text_of.

(** lang/fall/syntax/src/fall.rs 198-861 *)
Definition fall_ast : ctx_ast := mkCtxAst
    [mkCtxNode (t "FallFile") (t "FALL_FILE") [(mkMethod (t "tokenizer_def") (AChild Optional (t "TokenizerDef"))); (mkMethod (t "syn_rules") (AChild Many (t "SynRule"))); (mkMethod (t "verbatim_def") (AChild Optional (t "VerbatimDef"))); (mkMethod (t "ast_def") (AChild Optional (t "AstDef"))); (mkMethod (t "tests") (AChild Many (t "TestDef")))];
     mkCtxNode (t "TokenizerDef") (t "TOKENIZER_DEF") [(mkMethod (t "lex_rules") (AChild Many (t "LexRule")))];
     mkCtxNode (t "LexRule") (t "LEX_RULE") [(mkMethod (t "attributes") (AChild Optional (t "Attributes"))); (mkMethod (t "node_type") (AText false (t "IDENT")))];
     mkCtxNode (t "SynRule") (t "SYN_RULE") [(mkMethod (t "attributes") (AChild Optional (t "Attributes"))); (mkMethod (t "name_ident") (AToken true (t "IDENT"))); (mkMethod (t "name") (AText true (t "IDENT"))); (mkMethod (t "body") (AChild Single (t "Expr"))); (mkMethod (t "parameters") (AChild Optional (t "Parameters")))];
     mkCtxNode (t "Parameters") (t "PARAMETERS") [(mkMethod (t "parameters") (AChild Many (t "Parameter")))];
     mkCtxNode (t "Parameter") (t "PARAMETER") [(mkMethod (t "name") (AText false (t "IDENT")))];
     mkCtxNode (t "Attributes") (t "ATTRIBUTES") [(mkMethod (t "attributes") (AChild Many (t "Attribute")))];
     mkCtxNode (t "Attribute") (t "ATTRIBUTE") [(mkMethod (t "name") (AText false (t "IDENT"))); (mkMethod (t "value") (AChild Optional (t "AttributeValue")))];
     mkCtxNode (t "AttributeValue") (t "ATTRIBUTE_VALUE") [];
     mkCtxNode (t "VerbatimDef") (t "VERBATIM_DEF") [(mkMethod (t "literal_string") (AText false (t "HASH_STRING")))];
     mkCtxNode (t "AstDef") (t "AST_DEF") [(mkMethod (t "ast_nodes") (AChild Many (t "AstNodeDef"))); (mkMethod (t "ast_classes") (AChild Many (t "AstClassDef"))); (mkMethod (t "ast_traits") (AChild Many (t "AstTraitDef")))];
     mkCtxNode (t "AstNodeDef") (t "AST_NODE_DEF") [(mkMethod (t "name_ident") (AToken false (t "IDENT"))); (mkMethod (t "name") (AText false (t "IDENT"))); (mkMethod (t "methods") (AChild Many (t "MethodDef")))];
     mkCtxNode (t "AstTraitDef") (t "AST_TRAIT_DEF") [(mkMethod (t "name_ident") (AToken false (t "IDENT"))); (mkMethod (t "name") (AText false (t "IDENT"))); (mkMethod (t "methods") (AChild Many (t "MethodDef")))];
     mkCtxNode (t "AstClassDef") (t "AST_CLASS_DEF") [(mkMethod (t "name_ident") (AToken false (t "IDENT")))];
     mkCtxNode (t "MethodDef") (t "METHOD_DEF") [(mkMethod (t "name") (AText false (t "IDENT"))); (mkMethod (t "selector") (AChild Single (t "AstSelector")))];
     mkCtxNode (t "AstSelector") (t "AST_SELECTOR") [(mkMethod (t "child") (AText false (t "IDENT"))); (mkMethod (t "optional") (AToken true (t "QUESTION"))); (mkMethod (t "many") (AToken true (t "STAR"))); (mkMethod (t "dot") (AToken true (t "DOT")))];
     mkCtxNode (t "TestDef") (t "TEST_DEF") [(mkMethod (t "literal_string") (AText true (t "HASH_STRING")))];
     mkCtxNode (t "RefExpr") (t "REF_EXPR") [];
     mkCtxNode (t "CallExpr") (t "CALL_EXPR") [(mkMethod (t "fn_name") (AText false (t "IDENT"))); (mkMethod (t "args") (AChild Many (t "Expr")))];
     mkCtxNode (t "BlockExpr") (t "BLOCK_EXPR") [(mkMethod (t "alts") (AChild Many (t "Expr")))];
     mkCtxNode (t "OptExpr") (t "OPT_EXPR") [(mkMethod (t "expr") (AChild Single (t "Expr")))];
     mkCtxNode (t "RepExpr") (t "REP_EXPR") [(mkMethod (t "expr") (AChild Single (t "Expr")))];
     mkCtxNode (t "SeqExpr") (t "SEQ_EXPR") [(mkMethod (t "parts") (AChild Many (t "Expr")))]]
    [mkCtxClass (t "Expr") [([], (t "RefExpr")); ([], (t "CallExpr")); ([], (t "BlockExpr")); ([], (t "OptExpr")); ([], (t "RepExpr")); ([], (t "SeqExpr"))]]
    [].

(** lang/rust/syntax/src/rust.rs 605-1003 *)
Definition rust_ast : ctx_ast := mkCtxAst
    [mkCtxNode (t "FnDef") (t "FN_DEF") [];
     mkCtxNode (t "StructDef") (t "STRUCT_DEF") [];
     mkCtxNode (t "EnumDef") (t "ENUM_DEF") [];
     mkCtxNode (t "TraitDef") (t "TRAIT_DEF") [];
     mkCtxNode (t "TypeDef") (t "TYPE_DEF") [];
     mkCtxNode (t "ModDef") (t "MOD_DEF") [];
     mkCtxNode (t "ImplDef") (t "IMPL_DEF") [];
     mkCtxNode (t "TypeParameters") (t "TYPE_PARAMETERS") [(mkMethod (t "lifetime_parameters") (AChild Many (t "LifetimeParameter"))); (mkMethod (t "type_parameters") (AChild Many (t "TypeParameter")))];
     mkCtxNode (t "TypeParameter") (t "TYPE_PARAMETER") [];
     mkCtxNode (t "LifetimeParameter") (t "LIFETIME_PARAMETER") [(mkMethod (t "lifetime") (AText false (t "LIFETIME")))];
     mkCtxNode (t "Path") (t "PATH") [(mkMethod (t "qualifier") (AChild Optional (t "Path"))); (mkMethod (t "segment") (AChild Optional (t "PathSegment")))];
     mkCtxNode (t "PathSegment") (t "PATH_SEGMENT") [];
     mkCtxNode (t "UseDecl") (t "USE_DECL") [(mkMethod (t "path") (AChild Optional (t "Path"))); (mkMethod (t "spec") (AChild Optional (t "UseSpec")))];
     mkCtxNode (t "UseSpec") (t "USE_SPEC") [];
     mkCtxNode (t "LetStmt") (t "LET_STMT") [];
     mkCtxNode (t "ExprStmt") (t "EXPR_STMT") [];
     mkCtxNode (t "TypeReference") (t "TYPE_REFERENCE") []]
    []
    [mkCtxTrait (t "NameOwner") [(mkMethod (t "name_ident") (AToken true (t "IDENT"))); (mkMethod (t "name") (AText true (t "IDENT")))] [(t "FnDef"); (t "StructDef"); (t "EnumDef"); (t "TraitDef"); (t "TypeDef"); (t "ModDef"); (t "TypeParameter")];
     mkCtxTrait (t "TypeParametersOwner") [(mkMethod (t "type_parameters") (AChild Optional (t "TypeParameters")))] [(t "StructDef"); (t "EnumDef")]].

(** lang/bnf/src/bnf.rs 84-231 *)
Definition bnf_ast : ctx_ast := mkCtxAst
    [mkCtxNode (t "Grammar") (t "GRAMMAR") [(mkMethod (t "productions") (AChild Many (t "Prod")))];
     mkCtxNode (t "Prod") (t "PROD") [(mkMethod (t "head") (AChild Single (t "Nonterminal"))); (mkMethod (t "alts") (AChild Many (t "Alt")))];
     mkCtxNode (t "Alt") (t "ALT") [(mkMethod (t "symbols") (AChild Many (t "Symbol")))];
     mkCtxNode (t "Terminal") (t "TERMINAL") [];
     mkCtxNode (t "Nonterminal") (t "NONTERMINAL") []]
    [mkCtxClass (t "Symbol") [([], (t "Terminal")); ([], (t "Nonterminal"))]]
    [].
