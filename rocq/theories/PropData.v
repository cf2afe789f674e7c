(** The texts and edits written in lang/fall/syntax/tests/prop.rs. *)
From Coq Require Import List NArith String.
From Verif Require Import Base FallLang PropModel.
Import ListNotations.
Open Scope list_scope.
Open Scope string_scope.

(** lang/fall/syntax/tests/prop.rs 16-18 *)
Definition regression1_text : bytes := FallLang.text_of "
        tokenizer { }
    ".
(** lang/fall/syntax/tests/prop.rs 33-61; 84-112 is the same *)
Definition regression2_text : bytes := FallLang.text_of "
        tokenizer { }

        rule comma_list(el) {
          {el <commit> {<eof> | ','}}*
        }

        // comment
        #[cached]
        pub rule syn_rule {
          attributes?
          'rule' <commit>
          parameters?
          <layer
            { '{' in_braces '}' | '{' {<not file_form_first> <any>}* }
            block_expr
          >
        }

        ast {
         node fall_file {
            tokenizer_def tokenizer_def?
            syn_rules syn_rule*
            verbatim_def verbatim_def?
            ast_def ast_def?
            tests test_def*
          }
        }
    ".
(** lang/fall/syntax/tests/prop.rs 141-143 *)
Definition simple_text : bytes := FallLang.text_of "
            tokenizer { }
        ".
(** lang/fall/syntax/tests/prop.rs 151-179 *)
Definition complex_text : bytes := FallLang.text_of "
            tokenizer { }

            rule comma_list(el) {
              {el <commit> {<eof> | ','}}*
            }

            // comment
            #[cached]
            pub rule syn_rule {
              attributes?
              'rule' <commit>
              parameters?
              <layer
                { '{' in_braces '}' | '{' {<not file_form_first> <any>}* }
                block_expr
              >
            }

            ast {
             node fall_file {
                tokenizer_def tokenizer_def?
                syn_rules syn_rule*
                verbatim_def verbatim_def?
                ast_def ast_def?
                tests test_def*
              }
            }
        ".
(** lang/fall/syntax/tests/prop.rs 19-27 *)
Definition regression1_edits : list (list arb_op) :=
  [[(false, (0%N, 2761050404%N)); (true, (0%N, 306783379%N))];
   []].
(** lang/fall/syntax/tests/prop.rs 63-78 *)
Definition regression2_edits : list (list arb_op) :=
  [[(false, (3166362751%N, 3417163761%N)); (true, (135850548%N, 689702778%N)); (true, (762853072%N, 2664760731%N))];
   [(true, (0%N, 0%N)); (true, (0%N, 1426128137%N)); (true, (1442711022%N, 1459293908%N))]].
(** lang/fall/syntax/tests/prop.rs 114-134 *)
Definition regression3_edits : list (list arb_op) :=
  [[(true, (679252736%N, 1421205723%N)); (true, (1786957196%N, 2340809426%N)); (true, (2476659974%N, 2591610436%N))];
   [(true, (0%N, 540847734%N)); (true, (2036132644%N, 3149642683%N))];
   [(true, (0%N, 4129776246%N)); (false, (0%N, 1817101548%N))]].
