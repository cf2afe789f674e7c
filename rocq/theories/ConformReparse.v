(** The model does what the tests of incremental parsing and of edits expect.

    The inputs are those of [relex_test] and [reparse_test] in lang/fall/tests/test.rs 14-68 and of [test_edits] in
    fall/text/src/text_edit.rs 96-115.  These are checks of the model, not claims about all inputs. *)
From Coq Require Import List Arith Bool String.
From Verif Require Import Base TextModel EditModel TreeModel LexModel GrammarModel GrammarData ParserModel ConvertModel ReparseModel DumpModel NameModel NameData
  HarnessModel PropsHarness RegexModel RegexSpec LexData FallLang PropsRegex PropsRelex.
Import ListNotations.
Open Scope string_scope.
Open Scope nat_scope.
Open Scope list_scope.

Notation fall_shipped := (shipped_lang ascii_U one_char fall_rules fall_grammar fall_ws (fun _ _ _ => 0)).

(** test.rs 27-38 and 57-67: every edit is made on the text and on the file; the file is the one parsed from the new text,
    with its whitespace (report_diff is the comparison of HarnessModel.v). *)
Fixpoint edited_as_parsed (text : bytes) (f : file) (inc : incremental) (edits : list (list edit_call)) : res unit :=
  match edits with
  | [] => Ok tt
  | calls :: r =>
      ops <- build_edit (as_text text) calls ;;
      text' <- apply ops (as_text text) ;;
      x <- reparse_file fall_shipped 1000 f inc ops ;;
      y <- parse_file fall_shipped 1000 text' ;;
      a <- dump_file_ws (info_of fall_names) quoted (fst y) ;;
      b <- dump_file_ws (info_of fall_names) quoted (fst x) ;;
      if bytes_eqb a b then edited_as_parsed text' (fst x) (snd x) r else Panic
  end.
Definition edited_test (text : string) (edits : list (list edit_call)) : res unit :=
  x <- parse_file fall_shipped 1000 (FallLang.text_of text) ;; edited_as_parsed (FallLang.text_of text) (fst x) (snd x) edits.

Example relex_conforms :
  edited_test "tokenizer { foo 'foo' bar 'bar' }"
    [[CInsert 21 (FallLang.text_of " ")]; [CReplace (mkRange 23 26) (FallLang.text_of "meh")]] = Ok tt.
Proof. vm_compute. reflexivity. Qed.

Example reparse_conforms :
  edited_test "pub rule foo { bar }  pub rule bar { }"
    [[CReplace (mkRange 15 18) (FallLang.text_of "baz")]; [CReplace (mkRange 15 18) (FallLang.text_of "baz")]] = Ok tt.
Proof. vm_compute. reflexivity. Qed.

Example edits_conform :
  (ops <- build_edit (as_text (FallLang.text_of "Hello, World!"))
     [CReplace (mkRange 0 5) (FallLang.text_of "Goodbye"); CInsert 7 (FallLang.text_of "cruel "); CDelete (mkRange 12 13)] ;;
   apply ops (as_text (FallLang.text_of "Hello, World!"))) = Ok (FallLang.text_of "Goodbye, cruel World").
Proof. vm_compute. reflexivity. Qed.
