(** Generated by tools/names.py: the names of the node types of each language, and which are whitespace. *)
From Coq Require Import List String.
Import ListNotations.

(** lang/fall/syntax/src/fall.rs 119-178 *)
Definition fall_names : list (nat * (string * bool)) :=
  [(0, ("ERROR"%string, false));
   (100, ("WHITESPACE"%string, true));
   (101, ("EOL_COMMENT"%string, true));
   (102, ("NODE"%string, false));
   (103, ("CLASS"%string, false));
   (104, ("TRAIT"%string, false));
   (105, ("TOKENIZER"%string, false));
   (106, ("RULE"%string, false));
   (107, ("VERBATIM"%string, false));
   (108, ("AST"%string, false));
   (109, ("PUB"%string, false));
   (110, ("TEST"%string, false));
   (111, ("EQ"%string, false));
   (112, ("PIPE"%string, false));
   (113, ("STAR"%string, false));
   (114, ("QUESTION"%string, false));
   (115, ("DOT"%string, false));
   (116, ("COMMA"%string, false));
   (117, ("COLON"%string, false));
   (118, ("HASH"%string, false));
   (119, ("L_CURLY"%string, false));
   (120, ("R_CURLY"%string, false));
   (121, ("L_SQUARE"%string, false));
   (122, ("R_SQUARE"%string, false));
   (123, ("L_ANGLE"%string, false));
   (124, ("R_ANGLE"%string, false));
   (125, ("L_PAREN"%string, false));
   (126, ("R_PAREN"%string, false));
   (127, ("NUMBER"%string, false));
   (128, ("SIMPLE_STRING"%string, false));
   (129, ("HASH_STRING"%string, false));
   (130, ("IDENT"%string, false));
   (131, ("FALL_FILE"%string, false));
   (132, ("SYN_RULE"%string, false));
   (133, ("PARAMETERS"%string, false));
   (134, ("PARAMETER"%string, false));
   (135, ("REF_EXPR"%string, false));
   (136, ("SEQ_EXPR"%string, false));
   (137, ("BLOCK_EXPR"%string, false));
   (138, ("OPT_EXPR"%string, false));
   (139, ("REP_EXPR"%string, false));
   (140, ("CALL_EXPR"%string, false));
   (141, ("TOKENIZER_DEF"%string, false));
   (142, ("LEX_RULE"%string, false));
   (143, ("TEST_DEF"%string, false));
   (144, ("ATTRIBUTES"%string, false));
   (145, ("ATTRIBUTE"%string, false));
   (146, ("ATTRIBUTE_VALUE"%string, false));
   (147, ("STRING"%string, false));
   (148, ("VERBATIM_DEF"%string, false));
   (149, ("AST_DEF"%string, false));
   (150, ("AST_NODE_DEF"%string, false));
   (151, ("AST_CLASS_DEF"%string, false));
   (152, ("AST_TRAIT_DEF"%string, false));
   (153, ("METHOD_DEF"%string, false));
   (154, ("AST_SELECTOR"%string, false))].

(** lang/rust/syntax/src/rust.rs 332-540 *)
Definition rust_names : list (nat * (string * bool)) :=
  [(0, ("ERROR"%string, false));
   (100, ("WHITESPACE"%string, true));
   (101, ("LINE_COMMENT"%string, true));
   (102, ("BLOCK_COMMENT"%string, true));
   (103, ("UNION"%string, false));
   (104, ("AS"%string, false));
   (105, ("CRATE"%string, false));
   (106, ("EXTERN"%string, false));
   (107, ("FN"%string, false));
   (108, ("LET"%string, false));
   (109, ("PUB"%string, false));
   (110, ("STRUCT"%string, false));
   (111, ("USE"%string, false));
   (112, ("MOD"%string, false));
   (113, ("IF"%string, false));
   (114, ("ELSE"%string, false));
   (115, ("ENUM"%string, false));
   (116, ("IMPL"%string, false));
   (117, ("SELF"%string, false));
   (118, ("SUPER"%string, false));
   (119, ("TYPE"%string, false));
   (120, ("CONST"%string, false));
   (121, ("STATIC"%string, false));
   (122, ("FOR"%string, false));
   (123, ("LOOP"%string, false));
   (124, ("WHILE"%string, false));
   (125, ("MOVE"%string, false));
   (126, ("MUT"%string, false));
   (127, ("REF"%string, false));
   (128, ("TRAIT"%string, false));
   (129, ("MATCH"%string, false));
   (130, ("RETURN"%string, false));
   (131, ("CONTINUE"%string, false));
   (132, ("BREAK"%string, false));
   (133, ("IN"%string, false));
   (134, ("UNSAFE"%string, false));
   (135, ("WHERE"%string, false));
   (136, ("L_PAREN"%string, false));
   (137, ("R_PAREN"%string, false));
   (138, ("L_CURLY"%string, false));
   (139, ("R_CURLY"%string, false));
   (140, ("L_ANGLE"%string, false));
   (141, ("R_ANGLE"%string, false));
   (142, ("L_BRACK"%string, false));
   (143, ("R_BRACK"%string, false));
   (144, ("SHL"%string, false));
   (145, ("SHL_EQ"%string, false));
   (146, ("SHR"%string, false));
   (147, ("SHR_EQ"%string, false));
   (148, ("AND"%string, false));
   (149, ("OR"%string, false));
   (150, ("THIN_ARROW"%string, false));
   (151, ("FAT_ARROW"%string, false));
   (152, ("EQ"%string, false));
   (153, ("EQEQ"%string, false));
   (154, ("BANGEQ"%string, false));
   (155, ("GTET"%string, false));
   (156, ("LTEQ"%string, false));
   (157, ("SEMI"%string, false));
   (158, ("COLON"%string, false));
   (159, ("COLONCOLON"%string, false));
   (160, ("COMMA"%string, false));
   (161, ("DOT"%string, false));
   (162, ("DOTDOT"%string, false));
   (163, ("DOTDOTDOT"%string, false));
   (164, ("HASH"%string, false));
   (165, ("DOLLAR"%string, false));
   (166, ("STAR"%string, false));
   (167, ("STAR_EQ"%string, false));
   (168, ("SLASH"%string, false));
   (169, ("SLASH_EQ"%string, false));
   (170, ("PERCENT"%string, false));
   (171, ("PERCENT_EQ"%string, false));
   (172, ("PLUS"%string, false));
   (173, ("PLUS_EQ"%string, false));
   (174, ("MINUS"%string, false));
   (175, ("MINUS_EQ"%string, false));
   (176, ("AMPERSAND"%string, false));
   (177, ("AMPERSAND_EQ"%string, false));
   (178, ("PIPE"%string, false));
   (179, ("PIPE_EQ"%string, false));
   (180, ("UNDERSCORE"%string, false));
   (181, ("BANG"%string, false));
   (182, ("QUESTION"%string, false));
   (183, ("CARET"%string, false));
   (184, ("CARET_EQ"%string, false));
   (185, ("CHAR"%string, false));
   (186, ("LIFETIME"%string, false));
   (187, ("BOOL"%string, false));
   (188, ("NUMBER"%string, false));
   (189, ("STRING"%string, false));
   (190, ("RAW_STRING"%string, false));
   (191, ("IDENT"%string, false));
   (192, ("FILE"%string, false));
   (193, ("USE_DECL"%string, false));
   (194, ("USE_SPEC"%string, false));
   (195, ("USE_SPEC_ENTRY"%string, false));
   (196, ("EXTERN_CRATE_DECL"%string, false));
   (197, ("FN_DEF"%string, false));
   (198, ("LINKAGE"%string, false));
   (199, ("VALUE_PARAM"%string, false));
   (200, ("LAMBDA_VALUE_PARAM"%string, false));
   (201, ("SELF_PARAMETER"%string, false));
   (202, ("STRUCT_DEF"%string, false));
   (203, ("STRUCT_FIELD"%string, false));
   (204, ("TUPLE_FIELD"%string, false));
   (205, ("ENUM_DEF"%string, false));
   (206, ("ENUM_VARIANT"%string, false));
   (207, ("MOD_DEF"%string, false));
   (208, ("IMPL_DEF"%string, false));
   (209, ("TRAIT_DEF"%string, false));
   (210, ("MEMBERS"%string, false));
   (211, ("TYPE_DEF"%string, false));
   (212, ("CONST_DEF"%string, false));
   (213, ("MACRO_ITEM"%string, false));
   (214, ("EXTERN_BLOCK"%string, false));
   (215, ("TYPE_PARAMETERS"%string, false));
   (216, ("TYPE_PARAMETER"%string, false));
   (217, ("TYPE_BOUND"%string, false));
   (218, ("LIFETIME_PARAMETER"%string, false));
   (219, ("VISIBILITY"%string, false));
   (220, ("WHERE_CLAUSE"%string, false));
   (221, ("PATH"%string, false));
   (222, ("TRAIT_PROJECTION_PATH"%string, false));
   (223, ("PATH_SEGMENT"%string, false));
   (224, ("TYPE_ARGUMENTS"%string, false));
   (225, ("FN_TRAIT_SUGAR"%string, false));
   (226, ("ALIAS"%string, false));
   (227, ("TYPE_REFERENCE"%string, false));
   (228, ("PATH_TYPE"%string, false));
   (229, ("REFERENCE_TYPE"%string, false));
   (230, ("POINTER_TYPE"%string, false));
   (231, ("PLACEHOLDER_TYPE"%string, false));
   (232, ("UNIT_TYPE"%string, false));
   (233, ("PAREN_TYPE"%string, false));
   (234, ("TUPLE_TYPE"%string, false));
   (235, ("NEVER_TYPE"%string, false));
   (236, ("ARRAY_TYPE"%string, false));
   (237, ("FN_POINTER_TYPE"%string, false));
   (238, ("FOR_TYPE"%string, false));
   (239, ("WILDCARD_PATTERN"%string, false));
   (240, ("PATH_PATTERN"%string, false));
   (241, ("TUPE_STRUCT_PATTERN"%string, false));
   (242, ("STRUCT_PATTERN"%string, false));
   (243, ("STRUCT_PATTERN_FIELD"%string, false));
   (244, ("BINDING_PATTERN"%string, false));
   (245, ("LITERAL_PATTERN"%string, false));
   (246, ("UNIT_PATTERN"%string, false));
   (247, ("PAREN_PATTERN"%string, false));
   (248, ("TUPLE_PATTERN"%string, false));
   (249, ("REFERENCE_PATTERN"%string, false));
   (250, ("EXPR"%string, false));
   (251, ("LITERAL"%string, false));
   (252, ("PATH_EXPR"%string, false));
   (253, ("STRUCT_LITERAL"%string, false));
   (254, ("STRUCT_LITERAL_FIELD"%string, false));
   (255, ("UNIT_EXPR"%string, false));
   (256, ("PAREN_EXPR"%string, false));
   (257, ("TUPLE_EXPR"%string, false));
   (258, ("ARRAY_LITERAL"%string, false));
   (259, ("LAMBDA_EXPR"%string, false));
   (260, ("RETURN_EXPR"%string, false));
   (261, ("LOOP_CF_EXPR"%string, false));
   (262, ("BLOCK_EXPR"%string, false));
   (263, ("LET_STMT"%string, false));
   (264, ("TYPE_ASCRIPTION"%string, false));
   (265, ("EMPTY_STMT"%string, false));
   (266, ("EXPR_STMT"%string, false));
   (267, ("IF_EXPR"%string, false));
   (268, ("WHILE_EXPR"%string, false));
   (269, ("LOOP_EXPR"%string, false));
   (270, ("FOR_EXPR"%string, false));
   (271, ("MATCH_EXPR"%string, false));
   (272, ("MATCH_ARM"%string, false));
   (273, ("GUARD"%string, false));
   (274, ("BLOCK_MACRO_EXPR"%string, false));
   (275, ("LINE_MACRO_EXPR"%string, false));
   (276, ("METHOD_CALL_EXPR"%string, false));
   (277, ("CALL_EXPR"%string, false));
   (278, ("VALUE_ARGUMENT"%string, false));
   (279, ("FIELD_EXPR"%string, false));
   (280, ("INDEX_EXPR"%string, false));
   (281, ("TRY_EXPR"%string, false));
   (282, ("CAST_EXPR"%string, false));
   (283, ("REFERENCE_EXPR"%string, false));
   (284, ("DEREFERENCE_EXPR"%string, false));
   (285, ("NEGATION_EXPR"%string, false));
   (286, ("NOT_EXPR"%string, false));
   (287, ("PRODUCT_EXPR"%string, false));
   (288, ("SUM_EXPR"%string, false));
   (289, ("BIT_SHIFT"%string, false));
   (290, ("BIT_AND"%string, false));
   (291, ("BIT_XOR"%string, false));
   (292, ("BIT_OR"%string, false));
   (293, ("COMPARISON"%string, false));
   (294, ("LOGICAL_AND"%string, false));
   (295, ("LOGICAL_OR"%string, false));
   (296, ("RANGE_EXPR"%string, false));
   (297, ("ASSIGNMENT_EXPR"%string, false));
   (298, ("ATTRIBUTE"%string, false));
   (299, ("INNER_ATTRIBUTE"%string, false));
   (300, ("ATTR_VALUE"%string, false));
   (301, ("BLOCK_MACRO"%string, false));
   (302, ("LINE_MACRO"%string, false));
   (303, ("TT"%string, false))].

(** fall/test/src/sexp.rs 61-71 *)
Definition sexp_names : list (nat * (string * bool)) :=
  [(0, ("ERROR"%string, false));
   (100, ("WHITESPACE"%string, true));
   (101, ("LPAREN"%string, false));
   (102, ("RPAREN"%string, false));
   (103, ("ATOM"%string, false));
   (104, ("FILE"%string, false));
   (105, ("LIST"%string, false))].

(** lang/bnf/src/bnf.rs 57-71 *)
Definition bnf_names : list (nat * (string * bool)) :=
  [(0, ("ERROR"%string, false));
   (100, ("WHITESPACE"%string, true));
   (101, ("ARROW"%string, false));
   (102, ("PIPE"%string, false));
   (103, ("TERMINAL"%string, false));
   (104, ("NONTERMINAL"%string, false));
   (105, ("GRAMMAR"%string, false));
   (106, ("PROD"%string, false));
   (107, ("PROD_BODY"%string, false));
   (108, ("ALT"%string, false));
   (109, ("SYMBOL"%string, false))].

(** lang/json/src/json.rs 77-97 *)
Definition json_names : list (nat * (string * bool)) :=
  [(0, ("ERROR"%string, false));
   (100, ("WHITESPACE"%string, true));
   (101, ("LBRACE"%string, false));
   (102, ("RBRACE"%string, false));
   (103, ("LBRACK"%string, false));
   (104, ("RBRACK"%string, false));
   (105, ("COLON"%string, false));
   (106, ("COMMA"%string, false));
   (107, ("NULL"%string, false));
   (108, ("BOOL"%string, false));
   (109, ("STRING"%string, false));
   (110, ("NUMBER"%string, false));
   (111, ("FILE"%string, false));
   (112, ("OBJECT"%string, false));
   (113, ("FIELD"%string, false));
   (114, ("ARRAY"%string, false));
   (115, ("PRIMITIVE"%string, false))].

(** fall/test/src/arith.rs 75-95 *)
Definition arith_names : list (nat * (string * bool)) :=
  [(0, ("ERROR"%string, false));
   (100, ("WHITESPACE"%string, true));
   (101, ("NUMBER"%string, false));
   (102, ("PLUS"%string, false));
   (103, ("MINUS"%string, false));
   (104, ("STAR"%string, false));
   (105, ("SLASH"%string, false));
   (106, ("BANG"%string, false));
   (107, ("LPAREN"%string, false));
   (108, ("RPAREN"%string, false));
   (109, ("FILE"%string, false));
   (110, ("PRODUCT_EXPR"%string, false));
   (111, ("SUM_EXPR"%string, false));
   (112, ("CONSTANT_EXPR"%string, false));
   (113, ("PAREN_EXPR"%string, false));
   (114, ("FACTORIAL_EXPR"%string, false));
   (115, ("NEGATE_EXPR"%string, false))].

(** fall/test/src/weird.rs 76-95 *)
Definition weird_names : list (nat * (string * bool)) :=
  [(0, ("ERROR"%string, false));
   (100, ("WHITESPACE"%string, true));
   (101, ("RAW_STRING"%string, false));
   (102, ("FOO"%string, false));
   (103, ("BAR"%string, false));
   (104, ("T1"%string, false));
   (105, ("T2"%string, false));
   (106, ("T3"%string, false));
   (107, ("T4"%string, false));
   (108, ("LBRACE"%string, false));
   (109, ("RBRACE"%string, false));
   (110, ("ATOM"%string, false));
   (111, ("FILE"%string, false));
   (112, ("PRIVATE_PARTIAL"%string, false));
   (113, ("EMPTY"%string, false));
   (114, ("BLOCK"%string, false))].
