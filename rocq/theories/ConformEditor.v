(** The model does what the unit tests of the editors expect.

    The inputs and expectations are those of lang/fall/src/editor/{highlighting,structure,formatter,references/mod,mod}.rs,
    lang/rust/src/editor/{mod,line_index}.rs and the test [incremental] of lang/rust/syntax/tests/test.rs (the tests of the
    actions are in PropsActionTest.v, those of the analysis in PropsDiagTest.v).  These are checks of the model, not claims
    about all inputs. *)
From Coq Require Import List Arith Bool String NArith.
From Verif Require Import Base TextModel EditModel TreeModel SearchModel LexModel GrammarModel GrammarData ParserModel ConvertModel ReparseModel TickModel MetricsModel
  EditorModel FallLang DbModel AnalysisModel AnalysisProofs RefModel FallEditModel FormatModel RustEditModel IndexModel ScanModel HarnessModel PropsHarness
  RegexModel RegexSpec LexData PropsRegex PropsRelex RustLang PropsRustEdit.
Import ListNotations.
Open Scope list_scope.
Open Scope string_scope.
Open Scope nat_scope.
Open Scope list_scope.


Definition on_fall {A} (s : bytes) (g : file -> res A) : res A := r <- parse_file fall_lang 1000 s ;; g (fst r).
Definition on_rust {A} (s : bytes) (g : file -> res A) : res A := r <- parse_file rust_lang 1000 s ;; g (fst r).

(** fall/editor/src/hl.rs 8-16: the names of the tags *)
Definition tag_name (t : hl_tag) : bytes :=
  FallLang.text_of match t with
  | HError => "error" | HComment => "comment" | HString => "string" | HKeyword => "keyword" | HFunction => "function" | HParameter => "parameter"
  | HBuiltin => "builtin" | HAttribute => "attribute" | HLiteral => "literal"
  end%string.
Definition colon : bytes := [58; 32].
Fixpoint by_lines (l : list bytes) : bytes := match l with [] => [] | [x] => x | x :: r => x ++ [10] ++ by_lines r end.

(** highlighting.rs 66-105 *)
Definition hl_code := FallLang.text_of "
tokenizer { number r""\d+""}
pub rule foo { bar <eof> <abracadabra> }
rule bar { number <m foo> }

rule m(f) {}
".
Definition hl_expected := FallLang.text_of "tokenizer: keyword
r""\d+"": string
number: literal
pub: keyword
rule: keyword
bar: function
eof: builtin
<: builtin
>: builtin
abracadabra: function
<: function
>: function
foo: function
rule: keyword
number: literal
foo: function
m: function
<: function
>: function
bar: function
rule: keyword
f: parameter
m: function".
Example highlighting_conforms :
  on_fall hl_code (fun f => l <- fall_highlight f (direct 4 f) ;;
    Ok (by_lines (map (fun x : range * hl_tag => Base.sub (rstart (fst x)) (rend (fst x)) hl_code ++ colon ++ tag_name (snd x)) l))) = Ok hl_expected.
Proof. vm_compute. reflexivity. Qed.

(** structure.rs 38-55 *)
Definition outline_code := FallLang.text_of "
tokenizer { number r""\d+""}
pub rule foo { bar }
rule bar { number }
ast {
  node foo { }
}
".
Example structure_conforms : on_fall outline_code structure =
  Ok [(FallLang.text_of "tokenizer", mkRange 1 27); (FallLang.text_of "foo", mkRange 28 48); (FallLang.text_of "bar", mkRange 49 68); (FallLang.text_of "ast", mkRange 69 91)].
Proof. vm_compute. reflexivity. Qed.

(** formatter.rs 81-114 *)
Definition loose0 := FallLang.text_of "rule foo { x|y }".
Definition tidy0 := FallLang.text_of "rule foo { x | y }".
Definition loose1 := FallLang.text_of "rule foo {
             x
           | y
           }".
Definition tidy1 := FallLang.text_of "rule foo {
             x
           | y
           }".
Definition reformatted (s : bytes) : res bytes := on_fall s (fun f => ops <- reformat f ;; apply ops (as_text s)).
Example formatter_conforms : reformatted loose0 = Ok tidy0 /\ reformatted loose1 = Ok tidy1.
Proof. vm_compute. auto. Qed.

(** references/mod.rs 123-176 *)
Definition usages_code := FallLang.text_of "
tokenizer {
  #[skip] whitespace r""\s+""

  number r""\d+""
  plus '+'
  minus '-'
  star '*'
  slash '/'
  bang '!'
  lparen '('
  rparen ')'
}

pub rule file { expr }

#[pratt]
rule expr {
  sum_expr | product_expr
  | factorial_expr
  | negate_expr
  | constant_expr | paren_expr
}

#[bin(2)]
pub rule product_expr { expr {'*' | '/'} expr }

#[bin(1)]
pub rule sum_expr { expr {'+' | '-'} expr }

#[atom]
pub rule constant_expr { number }

#[atom]
pub rule paren_expr { '(' expr ')' }

#[postfix]
pub rule factorial_expr { expr '!' }

#[prefix]
pub rule negate_expr { '-' expr }

test r""
  1 + --1! - -2!
""
".
Example references_conform : on_fall usages_code (fun f => find_usages f (direct 4 f) fall_ws 309) = Ok [mkRange 202 214].
Proof. vm_compute. reflexivity. Qed.

(** mod.rs 105-122 *)
Definition selection_code := FallLang.text_of "
tokenizer { number r""\d+""}
pub rule foo { bar }
rule bar { number }
".
Example selection_conforms : on_fall selection_code (fun f =>
    s1 <- (o <- extend_selection f fall_ws (mkRange 44 44) ;; unwrap o) ;;
    s2 <- (o <- extend_selection f fall_ws s1 ;; unwrap o) ;;
    s3 <- (o <- extend_selection f fall_ws s2 ;; unwrap o) ;;
    Ok (s1, s2, s3)) = Ok (mkRange 43 46, mkRange 41 48, mkRange 28 48).
Proof. vm_compute. reflexivity. Qed.

(** lang/rust/src/editor/mod.rs 170-183 *)
Definition impl_code := FallLang.text_of "
impl S {

^^    fn foo() {

    }
}".
Example rust_selection_conforms :
  (x <- extract_range impl_code [94] ;; on_rust (fst x) (fun f => extend_selection f rust_ws (snd x))) = Ok (Some (mkRange 15 32)).
Proof. vm_compute. reflexivity. Qed.

(** lang/rust/src/editor/mod.rs 185-214 *)
Definition let_codes := [FallLang.text_of "
fn main() {
    let ^
}";
  FallLang.text_of "
fn main() {
    if let ^
}";
  FallLang.text_of "
fn main() {
    let ^;
}";
  FallLang.text_of "
fn main() {
    if let ^x = 92;
}"].
Example space_after_let_conforms :
  map (fun s => x <- extract_offset s [94] ;; on_rust (fst x) (fun f => after_space_typed f (snd x))) let_codes =
  [Ok (Some [59]); Ok None; Ok None; Ok None].
Proof. vm_compute. reflexivity. Qed.

(** line_index.rs 36-61 *)
Example line_index_conforms :
  map (translate (line_index_new (FallLang.text_of "hello
world"))) [0; 1; 5; 6; 7; 8; 10; 11; 12] =
  [Ok (0, 0); Ok (0, 1); Ok (0, 5); Ok (1, 0); Ok (1, 1); Ok (1, 2); Ok (1, 4); Ok (1, 5); Ok (1, 6)] /\
  map (translate (line_index_new (FallLang.text_of "
hello
world"))) [0; 1; 2; 6; 7] =
  [Ok (0, 0); Ok (1, 0); Ok (1, 1); Ok (1, 5); Ok (2, 0)].
Proof. vm_compute. auto. Qed.

(** lang/rust/syntax/tests/test.rs 185-216: parsing takes between 800 and 1200 ticks, parsing again after the name was changed fewer
    than 800. *)
Definition ticks_code := FallLang.text_of "
struct Foo {
    foo: u32
}

#[test]
fn bar() {}

trait T {

}
    ".
Definition rename : list edit_op :=
  let i := match Base.find_sub (FallLang.text_of "bar") ticks_code with Some i => i | None => 0 end in
  [Copy (mkRange 0 i); Insert (FallLang.text_of "baz"); Copy (mkRange (i + 3) (List.length ticks_code))].
Definition no_time := mkClock (mkDuration 0 0) (mkDuration 0 0) (mkDuration 0 0).
Notation rust_shipped := (shipped_lang ascii_U one_char rust_rules rust_grammar rust_ws rust_binder).
Example incremental_conforms :
  match metered_parse rust_shipped 1000 no_time ticks_code with
  | Ok (f, inc, ms) =>
      match metered_reparse rust_shipped 1000 no_time f inc rename with
      | Ok (_, _, ms') =>
          match get ms "parsing ticks", get ms' "parsing ticks" with
          | Some full, Some again => ((800 <? full) && (full <? 1200) && (again <? 800))%N
          | _, _ => false
          end
      | _ => false
      end
  | _ => false
  end = true.
Proof. vm_compute. reflexivity. Qed.
