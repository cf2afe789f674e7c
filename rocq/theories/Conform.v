(** The model parses the inputs of the tests of the repository's parsers to the recorded trees.

    Written by tools/conform.py, which reads fall/test/tests, lang/json/tests, lang/bnf/tests, lang/fall/tests and lang/rust/syntax/tests
    and takes the languages it is asked for. These are checks of the model, not claims about all inputs.  Each input is lexed with the regular expressions of its grammar (ASCII tables), parsed, and its tree is
    written out and compared as check_syntax and check_syntax_ws (test_util.rs 48-58) do.  The trees were recorded when [Debug] of a string still
    escaped single quotes. *)
From Coq Require Import List Arith Bool String.
From Verif Require Import Base TextModel LexModel GrammarModel GrammarData ParserModel ConvertModel DumpModel NameModel NameData HarnessModel PropsHarness
  RegexModel RegexSpec LexData FallLang PropsRegex PropsRelex RustEditModel.
Import ListNotations.
Open Scope list_scope.
Open Scope string_scope.

Definition old_quoted (s : bytes) : bytes := ([34] ++ flat_map (fun b => if (b =? 39)%nat then [92; 39] else escaped b) s ++ [34])%list.

Definition conforms (L : language) (names : list (nat * (string * bool))) (x : bool * string * string) : bool :=
  let '(ws, input, tree) := x in
  match (if ws then check_syntax_ws else check_syntax) ascii_space (info_of names) old_quoted L 1000 (FallLang.text_of input) (FallLang.text_of tree) with
  | Ok _ => true
  | _ => false
  end.

Definition sexp_tests : list (bool * string * string) :=
  [(true, "",
    "FILE """"");
   (true, " 
 ",
    "
FILE
  WHITESPACE "" \n ""
");
   (true, " a ",
    "
FILE
  WHITESPACE "" ""
  ATOM ""a""
  WHITESPACE "" ""
");
   (true, "()",
    "
FILE
  LIST
    LPAREN ""(""
    RPAREN "")""
");
   (true, "(atom)",
    "
FILE
  LIST
    LPAREN ""(""
    ATOM ""atom""
    RPAREN "")""
");
   (true, "( atom )",
    "
FILE
  LIST
    LPAREN ""(""
    WHITESPACE "" ""
    ATOM ""atom""
    WHITESPACE "" ""
    RPAREN "")""
");
   (true, "( hello ( world )  )",
    "
FILE
  LIST
    LPAREN ""(""
    WHITESPACE "" ""
    ATOM ""hello""
    WHITESPACE "" ""
    LIST
      LPAREN ""(""
      WHITESPACE "" ""
      ATOM ""world""
      WHITESPACE "" ""
      RPAREN "")""
    WHITESPACE ""  ""
    RPAREN "")""
")].
Example sexp_conforms : (List.length sexp_tests = 7 /\ forallb (conforms (shipped_lang ascii_U one_char sexp_rules sexp_grammar sexp_ws (fun _ _ _ => 0)) sexp_names) sexp_tests = true)%nat.
Proof. vm_compute. auto. Qed.

Definition arith_tests : list (bool * string * string) :=
  [(false, "1",
    "
FILE
  CONSTANT_EXPR
    NUMBER ""1""
");
   (false, "1 + 2",
    "
FILE
  SUM_EXPR
    CONSTANT_EXPR
      NUMBER ""1""
    PLUS ""+""
    CONSTANT_EXPR
      NUMBER ""2""
");
   (false, "1 * 2",
    "
FILE
  PRODUCT_EXPR
    CONSTANT_EXPR
      NUMBER ""1""
    STAR ""*""
    CONSTANT_EXPR
      NUMBER ""2""
");
   (false, "1 + 2 + 3",
    "
  FILE
  SUM_EXPR
    SUM_EXPR
      CONSTANT_EXPR
        NUMBER ""1""
      PLUS ""+""
      CONSTANT_EXPR
        NUMBER ""2""
    PLUS ""+""
    CONSTANT_EXPR
      NUMBER ""3""");
   (false, "1 + 2 * 3 + 4",
    "
FILE
  SUM_EXPR
    SUM_EXPR
      CONSTANT_EXPR
        NUMBER ""1""
      PLUS ""+""
      PRODUCT_EXPR
        CONSTANT_EXPR
          NUMBER ""2""
        STAR ""*""
        CONSTANT_EXPR
          NUMBER ""3""
    PLUS ""+""
    CONSTANT_EXPR
      NUMBER ""4""
");
   (false, "1 * (2 + 3) * 4",
    "
FILE
  PRODUCT_EXPR
    PRODUCT_EXPR
      CONSTANT_EXPR
        NUMBER ""1""
      STAR ""*""
      PAREN_EXPR
        LPAREN ""(""
        SUM_EXPR
          CONSTANT_EXPR
            NUMBER ""2""
          PLUS ""+""
          CONSTANT_EXPR
            NUMBER ""3""
        RPAREN "")""
    STAR ""*""
    CONSTANT_EXPR
      NUMBER ""4""
");
   (false, "1! + 2!! + 3*4! * (5)!",
    "
FILE
  SUM_EXPR
    SUM_EXPR
      FACTORIAL_EXPR
        CONSTANT_EXPR
          NUMBER ""1""
        BANG ""!""
      PLUS ""+""
      FACTORIAL_EXPR
        FACTORIAL_EXPR
          CONSTANT_EXPR
            NUMBER ""2""
          BANG ""!""
        BANG ""!""
    PLUS ""+""
    PRODUCT_EXPR
      PRODUCT_EXPR
        CONSTANT_EXPR
          NUMBER ""3""
        STAR ""*""
        FACTORIAL_EXPR
          CONSTANT_EXPR
            NUMBER ""4""
          BANG ""!""
      STAR ""*""
      FACTORIAL_EXPR
        PAREN_EXPR
          LPAREN ""(""
          CONSTANT_EXPR
            NUMBER ""5""
          RPAREN "")""
        BANG ""!""
");
   (false, "--1",
    "
FILE
  NEGATE_EXPR
    MINUS ""-""
    NEGATE_EXPR
      MINUS ""-""
      CONSTANT_EXPR
        NUMBER ""1""
");
   (false, "1 + --1! - -2!",
    "
FILE
  SUM_EXPR
    SUM_EXPR
      CONSTANT_EXPR
        NUMBER ""1""
      PLUS ""+""
      NEGATE_EXPR
        MINUS ""-""
        NEGATE_EXPR
          MINUS ""-""
          FACTORIAL_EXPR
            CONSTANT_EXPR
              NUMBER ""1""
            BANG ""!""
    MINUS ""-""
    NEGATE_EXPR
      MINUS ""-""
      FACTORIAL_EXPR
        CONSTANT_EXPR
          NUMBER ""2""
        BANG ""!""
    ")].
Example arith_conforms : (List.length arith_tests = 9 /\ forallb (conforms (shipped_lang ascii_U one_char arith_rules arith_grammar arith_ws (fun _ _ _ => 0)) arith_names) arith_tests = true)%nat.
Proof. vm_compute. auto. Qed.

Definition weird_tests : list (bool * string * string) :=
  [(true, "_1 r##""f#""o""#o""## ",
    "
FILE
  T1 ""_1""
  WHITESPACE "" ""
  RAW_STRING ""r##\""f#\""o\""#o\""##""
  WHITESPACE "" ""
");
   (true, "_2 hello ",
    "
FILE
  T2 ""_2""
  WHITESPACE "" ""
  EMPTY """"
  ATOM ""hello""
  WHITESPACE "" ""
  EMPTY """"
");
   (true, "_3 foo bar",
    "
FILE
  T3 ""_3""
  WHITESPACE "" ""
  PRIVATE_PARTIAL
    FOO ""foo""
    WHITESPACE "" ""
    BAR ""bar""
");
   (true, "_3 foo foo",
    "
FILE
  T3 ""_3""
  WHITESPACE "" ""
  PRIVATE_PARTIAL
    FOO ""foo""
    WHITESPACE "" ""
    FOO ""foo""
");
   (true, "_4 { foo }",
    "
FILE
  T4 ""_4""
  WHITESPACE "" ""
  BLOCK
    LBRACE ""{""
    WHITESPACE "" ""
    FOO ""foo""
    WHITESPACE "" ""
    RBRACE ""}""
");
   (true, "_4 { foo { {foo} foo {bar}} bar }",
    "
FILE
  T4 ""_4""
  WHITESPACE "" ""
  BLOCK
    LBRACE ""{""
    WHITESPACE "" ""
    FOO ""foo""
    WHITESPACE "" ""
    LBRACE ""{""
    WHITESPACE "" ""
    LBRACE ""{""
    FOO ""foo""
    RBRACE ""}""
    WHITESPACE "" ""
    FOO ""foo""
    WHITESPACE "" ""
    LBRACE ""{""
    BAR ""bar""
    RBRACE ""}""
    RBRACE ""}""
    WHITESPACE "" ""
    BAR ""bar""
    WHITESPACE "" ""
    RBRACE ""}""
");
   (true, "_4 {",
    "
FILE
  T4 ""_4""
  WHITESPACE "" ""
  BLOCK
    LBRACE ""{""
    ERROR """"
");
   (true, "_4 { foo { {} bar",
    "
FILE
  T4 ""_4""
  WHITESPACE "" ""
  BLOCK
    LBRACE ""{""
    WHITESPACE "" ""
    FOO ""foo""
    WHITESPACE "" ""
    LBRACE ""{""
    WHITESPACE "" ""
    LBRACE ""{""
    RBRACE ""}""
    WHITESPACE "" ""
    BAR ""bar""
    ERROR """"
    ERROR """"
")].
Example weird_conforms : (List.length weird_tests = 8 /\ forallb (conforms (shipped_lang ascii_U one_char weird_rules weird_grammar weird_ws (fun _ _ _ => 0)) weird_names) weird_tests = true)%nat.
Proof. vm_compute. auto. Qed.

Definition bnf_tests : list (bool * string * string) :=
  [(false, "S -> E
  E -> E '+' T | T
  T -> T '*' F | F
  F -> '(' E ')' | 'id'",
    "

GRAMMAR
  PROD
    NONTERMINAL ""S""
    ARROW ""->""
    PROD_BODY
      ALT
        SYMBOL
          NONTERMINAL ""E""
  PROD
    NONTERMINAL ""E""
    ARROW ""->""
    PROD_BODY
      ALT
        SYMBOL
          NONTERMINAL ""E""
        SYMBOL
          TERMINAL ""\'+\'""
        SYMBOL
          NONTERMINAL ""T""
      PIPE ""|""
      ALT
        SYMBOL
          NONTERMINAL ""T""
  PROD
    NONTERMINAL ""T""
    ARROW ""->""
    PROD_BODY
      ALT
        SYMBOL
          NONTERMINAL ""T""
        SYMBOL
          TERMINAL ""\'*\'""
        SYMBOL
          NONTERMINAL ""F""
      PIPE ""|""
      ALT
        SYMBOL
          NONTERMINAL ""F""
  PROD
    NONTERMINAL ""F""
    ARROW ""->""
    PROD_BODY
      ALT
        SYMBOL
          TERMINAL ""\'(\'""
        SYMBOL
          NONTERMINAL ""E""
        SYMBOL
          TERMINAL ""\')\'""
      PIPE ""|""
      ALT
        SYMBOL
          TERMINAL ""\'id\'""

")].
Example bnf_conforms : (List.length bnf_tests = 1 /\ forallb (conforms (shipped_lang ascii_U one_char bnf_rules bnf_grammar bnf_ws (fun _ _ _ => 0)) bnf_names) bnf_tests = true)%nat.
Proof. vm_compute. auto. Qed.

Definition fall_tests : list (bool * string * string) :=
  [(false, "rule foo {
  'struct' type_parameters? '{'
    field_def*
  '}'
}",
    "

FALL_FILE
  SYN_RULE
    RULE ""rule""
    IDENT ""foo""
    BLOCK_EXPR
      L_CURLY ""{""
      SEQ_EXPR
        REF_EXPR
          SIMPLE_STRING ""\'struct\'""
        OPT_EXPR
          REF_EXPR
            IDENT ""type_parameters""
          QUESTION ""?""
        REF_EXPR
          SIMPLE_STRING ""\'{\'""
        REP_EXPR
          REF_EXPR
            IDENT ""field_def""
          STAR ""*""
        REF_EXPR
          SIMPLE_STRING ""\'}\'""
      R_CURLY ""}""

")].
Example fall_conforms : (List.length fall_tests = 1 /\ forallb (conforms (shipped_lang ascii_U one_char fall_rules fall_grammar fall_ws (fun _ _ _ => 0)) fall_names) fall_tests = true)%nat.
Proof. vm_compute. auto. Qed.

