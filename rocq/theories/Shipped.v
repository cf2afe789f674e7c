(** The parsers in the repository are what the model of the generator makes of the grammars in the repository.

    Written by tools/shipped.py from lang/json/src/json.{fall,rs}, fall/test/src/arith.{fall,rs}, fall/test/src/weird.{fall,rs}, fall/test/src/sexp.{fall,rs}, lang/bnf/src/bnf.{fall,rs}: the text of each grammar, and of each generated parser the
    constants, lexer rules, verbatim code and accessors.  The rule tables are in GrammarData.v. *)
From Coq Require Import List Arith Bool String.
From Verif Require Import Base TextModel TreeModel TreeSpec FileEditSpec LexModel GrammarModel ParserModel ConvertModel GrammarData DbModel AnalysisModel
  AnalysisSpec RefModel CodegenModel FallLang FallCheck ShipCheck.
Import ListNotations.
Open Scope string_scope.
Notation t := FallLang.text_of.

(** ** json *)
Definition json_source : string := "tokenizer {
  #[skip] whitespace r""\s+""

  lbrace     '{'
  rbrace     '}'
  lbrack     '['
  rbrack     ']'
  colon      ':'
  comma      ','
  null       'null'

  bool       r""true|false""
  string     r#""""[^""]*""""#
  number     r""\d+""
}

pub rule file {
  object | array
}

pub rule object {
  '{' <commit>
    <layer block_body object_body>
  '}'
}

rule object_body {
  <with_skip
    string
    {field <commit> {',' <not <eof>> | <eof>}}>*
}

pub rule field {
  string <commit> ':' value
}

pub rule array {
  '[' <commit>
     <layer br_block_body array_body>
  ']'
}

rule array_body {
  <with_skip
    { 'null' | number | string | bool | '{' | '[' }
    {value <commit> {',' <not <eof>> | <eof>}}>*
}

rule value { primitive | object | array }

pub rule primitive { 'null' | number | string | bool }

rule block_body { balanced* }
rule balanced {
  '{' <commit> block_body '}'
| {<not '}'> <any>}
}

rule br_block_body { br_balanced* }
rule br_balanced {
  '[' <commit> br_block_body ']'
| {<not ']'> <any>}
}
".
Definition json_rest : parser_file := mkParserFile [((t "WHITESPACE"), true); ((t "LBRACE"), false); ((t "RBRACE"), false); ((t "LBRACK"), false); ((t "RBRACK"), false); ((t "COLON"), false); ((t "COMMA"), false); ((t "NULL"), false); ((t "BOOL"), false); ((t "STRING"), false); ((t "NUMBER"), false); ((t "FILE"), false); ((t "OBJECT"), false); ((t "FIELD"), false); ((t "ARRAY"), false); ((t "PRIMITIVE"), false)]
  [mkCtxLex (t "WHITESPACE") (t "\s+") None; mkCtxLex (t "LBRACE") (t "\{") None; mkCtxLex (t "RBRACE") (t "\}") None; mkCtxLex (t "LBRACK") (t "\[") None; mkCtxLex (t "RBRACK") (t "\]") None; mkCtxLex (t "COLON") (t ":") None; mkCtxLex (t "COMMA") (t ",") None; mkCtxLex (t "NULL") (t "null") None; mkCtxLex (t "BOOL") (t "true|false") None; mkCtxLex (t "STRING") (t """[^""]*""") None; mkCtxLex (t "NUMBER") (t "\d+") None]
  None
  None.
Example json_shipped : ships json_source json_grammar json_rest.
Proof. apply (ships_check (5000)). vm_compute. reflexivity. Qed.
Print Assumptions json_shipped.

(** ** arith *)
Definition arith_source : string := "tokenizer {
  #[skip] whitespace r""\s+""

  number r""\d+""
  plus '+'
  minus '-'
  star '*'
  slash '/'
  bang '!'
  lparen '('
  rparen ')'
}

pub rule file { expr }

#[pratt]
rule expr {
  sum_expr | product_expr 
  | factorial_expr
  | negate_expr
  | constant_expr | paren_expr
}

#[bin(2)]
pub rule product_expr { expr {'*' | '/'} expr }

#[bin(1)]
pub rule sum_expr { expr {'+' | '-'} expr }

#[atom]
pub rule constant_expr { number }

#[atom]
pub rule paren_expr { '(' expr ')' }

#[postfix]
pub rule factorial_expr { expr '!' }

#[prefix]
pub rule negate_expr { '-' expr }

test r""
  1 + --1! - -2!
""".
Definition arith_rest : parser_file := mkParserFile [((t "WHITESPACE"), true); ((t "NUMBER"), false); ((t "PLUS"), false); ((t "MINUS"), false); ((t "STAR"), false); ((t "SLASH"), false); ((t "BANG"), false); ((t "LPAREN"), false); ((t "RPAREN"), false); ((t "FILE"), false); ((t "PRODUCT_EXPR"), false); ((t "SUM_EXPR"), false); ((t "CONSTANT_EXPR"), false); ((t "PAREN_EXPR"), false); ((t "FACTORIAL_EXPR"), false); ((t "NEGATE_EXPR"), false)]
  [mkCtxLex (t "WHITESPACE") (t "\s+") None; mkCtxLex (t "NUMBER") (t "\d+") None; mkCtxLex (t "PLUS") (t "\+") None; mkCtxLex (t "MINUS") (t "\-") None; mkCtxLex (t "STAR") (t "\*") None; mkCtxLex (t "SLASH") (t "/") None; mkCtxLex (t "BANG") (t "!") None; mkCtxLex (t "LPAREN") (t "\(") None; mkCtxLex (t "RPAREN") (t "\)") None]
  None
  None.
Example arith_shipped : ships arith_source arith_grammar arith_rest.
Proof. apply (ships_check (5000)). vm_compute. reflexivity. Qed.
Print Assumptions arith_shipped.

(** ** weird *)
Definition weird_source : string := "tokenizer {
  #[skip] whitespace r""\s+""
  raw_string r#""r#+""""# 'parse_raw_string'
  foo 'foo'
  bar 'bar'
  t1 '_1'
  t2 '_2'
  t3 '_3'
  t4 '_4'
  lbrace '{'
  rbrace '}'
  atom r""\w+""
}

pub rule file {
  '_1' raw_string | '_2' empty atom empty | '_3' private_partial | '_4' block
}

pub rule private_partial {
  foobar | foofoo
}

rule foobar { 'foo' 'bar' }
rule foofoo { 'foo' 'foo' }

pub rule empty { none? }

rule none { }

pub rule block {
  '{' <commit> block_body '}'
}

rule block_body { balanced* }
rule balanced {
  '{' <commit> block_body '}'
| {<not '}'> <any>}
}

verbatim r#########""

fn parse_raw_string(s: &str) -> Option<usize> {
    let quote_start = s.find('""').unwrap();
    let q_hashes = concat!('""', ""######"", ""######"", ""######"", ""######"", ""######"");
    let closing = &q_hashes[..quote_start];
    s[quote_start + 1..].find(closing).map(|i| i + quote_start + 1 + closing.len())
}

""#########

".
Definition weird_rest : parser_file := mkParserFile [((t "WHITESPACE"), true); ((t "RAW_STRING"), false); ((t "FOO"), false); ((t "BAR"), false); ((t "T1"), false); ((t "T2"), false); ((t "T3"), false); ((t "T4"), false); ((t "LBRACE"), false); ((t "RBRACE"), false); ((t "ATOM"), false); ((t "FILE"), false); ((t "PRIVATE_PARTIAL"), false); ((t "EMPTY"), false); ((t "BLOCK"), false)]
  [mkCtxLex (t "WHITESPACE") (t "\s+") None; mkCtxLex (t "RAW_STRING") (t "r#+""") (Some (t "parse_raw_string")); mkCtxLex (t "FOO") (t "foo") None; mkCtxLex (t "BAR") (t "bar") None; mkCtxLex (t "T1") (t "_1") None; mkCtxLex (t "T2") (t "_2") None; mkCtxLex (t "T3") (t "_3") None; mkCtxLex (t "T4") (t "_4") None; mkCtxLex (t "LBRACE") (t "\{") None; mkCtxLex (t "RBRACE") (t "\}") None; mkCtxLex (t "ATOM") (t "\w+") None]
  (Some (t "fn parse_raw_string(s: &str) -> Option<usize> {
    let quote_start = s.find('""').unwrap();
    let q_hashes = concat!('""', ""######"", ""######"", ""######"", ""######"", ""######"");
    let closing = &q_hashes[..quote_start];
    s[quote_start + 1..].find(closing).map(|i| i + quote_start + 1 + closing.len())
}"))
  None.
Example weird_shipped : ships weird_source weird_grammar weird_rest.
Proof. apply (ships_check (5000)). vm_compute. reflexivity. Qed.
Print Assumptions weird_shipped.

(** ** sexp *)
Definition sexp_source : string := "tokenizer {
  #[skip] whitespace r""\s+""

  lparen     '('
  rparen     ')'
  atom       r""\w+""
}

pub rule file { sexp* }

rule sexp { atom | list }
pub rule list { '(' sexp* ')' }
".
Definition sexp_rest : parser_file := mkParserFile [((t "WHITESPACE"), true); ((t "LPAREN"), false); ((t "RPAREN"), false); ((t "ATOM"), false); ((t "FILE"), false); ((t "LIST"), false)]
  [mkCtxLex (t "WHITESPACE") (t "\s+") None; mkCtxLex (t "LPAREN") (t "\(") None; mkCtxLex (t "RPAREN") (t "\)") None; mkCtxLex (t "ATOM") (t "\w+") None]
  None
  None.
Example sexp_shipped : ships sexp_source sexp_grammar sexp_rest.
Proof. apply (ships_check (5000)). vm_compute. reflexivity. Qed.
Print Assumptions sexp_shipped.

(** ** bnf *)
Definition bnf_source : string := "tokenizer {
  #[skip] whitespace r""\s+""
  arrow '->'
  pipe '|'
  terminal r""'[^']+'""
  nonterminal r""\w+""
}

pub rule grammar {
  <with_skip prod_head prod>*
}

test r""
  S -> E
  E -> E '+' T | T
  T -> T '*' F | F
  F -> '(' E ')' | 'id'
""

rule prod_head {
  nonterminal '->'
}

pub rule prod {
  prod_head <commit> prod_body
}

pub rule prod_body {
  alt {'|' alt}*
}

pub rule alt {
  symbol symbol*
}

pub rule symbol {
  nonterminal <not '->'> | terminal
}

ast {
  node grammar {
    productions prod*
  }

  node prod {
    head nonterminal
    alts alt*
  }

  node alt {
    symbols symbol*
  }

  node terminal {
  }

  node nonterminal {
  }

  class symbol {
    terminal nonterminal
  }
}".
Definition bnf_rest : parser_file := mkParserFile [((t "WHITESPACE"), true); ((t "ARROW"), false); ((t "PIPE"), false); ((t "TERMINAL"), false); ((t "NONTERMINAL"), false); ((t "GRAMMAR"), false); ((t "PROD"), false); ((t "PROD_BODY"), false); ((t "ALT"), false); ((t "SYMBOL"), false)]
  [mkCtxLex (t "WHITESPACE") (t "\s+") None; mkCtxLex (t "ARROW") (t "\->") None; mkCtxLex (t "PIPE") (t "\|") None; mkCtxLex (t "TERMINAL") (t "'[^']+'") None; mkCtxLex (t "NONTERMINAL") (t "\w+") None]
  None
  (Some (mkCtxAst
    [mkCtxNode (t "Grammar") (t "GRAMMAR") [(mkMethod (t "productions") (AChild Many (t "Prod")))];
     mkCtxNode (t "Prod") (t "PROD") [(mkMethod (t "head") (AChild Single (t "Nonterminal"))); (mkMethod (t "alts") (AChild Many (t "Alt")))];
     mkCtxNode (t "Alt") (t "ALT") [(mkMethod (t "symbols") (AChild Many (t "Symbol")))];
     mkCtxNode (t "Terminal") (t "TERMINAL") [];
     mkCtxNode (t "Nonterminal") (t "NONTERMINAL") []]
    [mkCtxClass (t "Symbol") [([], (t "Terminal")); ([], (t "Nonterminal"))]]
    [])).
Example bnf_shipped : ships bnf_source bnf_grammar bnf_rest.
Proof. apply (ships_check (5000)). vm_compute. reflexivity. Qed.
Print Assumptions bnf_shipped.
