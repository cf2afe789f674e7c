(** Generated by tools/lexers.py: the lexical rules of each language. *)
From Coq Require Import List.
From Verif Require Import Base TextModel ScanModel RegexModel.
Import ListNotations.

(** lang/fall/syntax/src/fall.rs 61-82 *)
Definition fall_rules : list lex_rule :=
  [ mkRule 100 (Plus (Chr (Cls Space))) None;
    mkRule 101 (Seq (Chr (Lit 47)) (Seq (Chr (Lit 47)) (Star (Chr (Not [10]))))) None;
    mkRule 111 (Chr (Lit 61)) None;
    mkRule 112 (Chr (Lit 124)) None;
    mkRule 113 (Chr (Lit 42)) None;
    mkRule 114 (Chr (Lit 63)) None;
    mkRule 115 (Chr (Lit 46)) None;
    mkRule 116 (Chr (Lit 44)) None;
    mkRule 117 (Chr (Lit 58)) None;
    mkRule 118 (Chr (Lit 35)) None;
    mkRule 119 (Chr (Lit 123)) None;
    mkRule 120 (Chr (Lit 125)) None;
    mkRule 121 (Chr (Lit 91)) None;
    mkRule 122 (Chr (Lit 93)) None;
    mkRule 123 (Chr (Lit 60)) None;
    mkRule 124 (Chr (Lit 62)) None;
    mkRule 125 (Chr (Lit 40)) None;
    mkRule 126 (Chr (Lit 41)) None;
    mkRule 127 (Plus (Chr (Cls Digit))) None;
    mkRule 128 (Seq (Chr (Lit 39)) (Seq (Star (Alt (Chr (Not [39; 92])) (Seq (Chr (Lit 92)) (Chr (Not [10]))))) (Chr (Lit 39)))) None;
    mkRule 129 (Seq (Chr (Lit 114)) (Seq (Star (Chr (Lit 35))) (Chr (Lit 34)))) (Some parse_raw_string);
    mkRule 130 (Plus (Chr (Cls Word))) None ].

(** lang/rust/syntax/src/rust.rs 210-294 *)
Definition rust_rules : list lex_rule :=
  [ mkRule 100 (Plus (Chr (Cls Space))) None;
    mkRule 101 (Seq (Chr (Lit 47)) (Seq (Chr (Lit 47)) (Seq (Star (Chr (Not [10]))) (Opt (Chr (Lit 10)))))) None;
    mkRule 102 (Seq (Chr (Lit 47)) (Chr (Lit 42))) (Some parse_block_comment);
    mkRule 104 (Seq (Chr (Lit 97)) (Chr (Lit 115))) None;
    mkRule 105 (Seq (Chr (Lit 99)) (Seq (Chr (Lit 114)) (Seq (Chr (Lit 97)) (Seq (Chr (Lit 116)) (Chr (Lit 101)))))) None;
    mkRule 106 (Seq (Chr (Lit 101)) (Seq (Chr (Lit 120)) (Seq (Chr (Lit 116)) (Seq (Chr (Lit 101)) (Seq (Chr (Lit 114)) (Chr (Lit 110))))))) None;
    mkRule 107 (Seq (Chr (Lit 102)) (Chr (Lit 110))) None;
    mkRule 108 (Seq (Chr (Lit 108)) (Seq (Chr (Lit 101)) (Chr (Lit 116)))) None;
    mkRule 109 (Seq (Chr (Lit 112)) (Seq (Chr (Lit 117)) (Chr (Lit 98)))) None;
    mkRule 110 (Seq (Chr (Lit 115)) (Seq (Chr (Lit 116)) (Seq (Chr (Lit 114)) (Seq (Chr (Lit 117)) (Seq (Chr (Lit 99)) (Chr (Lit 116))))))) None;
    mkRule 111 (Seq (Chr (Lit 117)) (Seq (Chr (Lit 115)) (Chr (Lit 101)))) None;
    mkRule 112 (Seq (Chr (Lit 109)) (Seq (Chr (Lit 111)) (Chr (Lit 100)))) None;
    mkRule 113 (Seq (Chr (Lit 105)) (Chr (Lit 102))) None;
    mkRule 114 (Seq (Chr (Lit 101)) (Seq (Chr (Lit 108)) (Seq (Chr (Lit 115)) (Chr (Lit 101))))) None;
    mkRule 115 (Seq (Chr (Lit 101)) (Seq (Chr (Lit 110)) (Seq (Chr (Lit 117)) (Chr (Lit 109))))) None;
    mkRule 116 (Seq (Chr (Lit 105)) (Seq (Chr (Lit 109)) (Seq (Chr (Lit 112)) (Chr (Lit 108))))) None;
    mkRule 117 (Seq (Chr (Lit 115)) (Seq (Chr (Lit 101)) (Seq (Chr (Lit 108)) (Chr (Lit 102))))) None;
    mkRule 118 (Seq (Chr (Lit 115)) (Seq (Chr (Lit 117)) (Seq (Chr (Lit 112)) (Seq (Chr (Lit 101)) (Chr (Lit 114)))))) None;
    mkRule 119 (Seq (Chr (Lit 116)) (Seq (Chr (Lit 121)) (Seq (Chr (Lit 112)) (Chr (Lit 101))))) None;
    mkRule 120 (Seq (Chr (Lit 99)) (Seq (Chr (Lit 111)) (Seq (Chr (Lit 110)) (Seq (Chr (Lit 115)) (Chr (Lit 116)))))) None;
    mkRule 121 (Seq (Chr (Lit 115)) (Seq (Chr (Lit 116)) (Seq (Chr (Lit 97)) (Seq (Chr (Lit 116)) (Seq (Chr (Lit 105)) (Chr (Lit 99))))))) None;
    mkRule 122 (Seq (Chr (Lit 102)) (Seq (Chr (Lit 111)) (Chr (Lit 114)))) None;
    mkRule 123 (Seq (Chr (Lit 108)) (Seq (Chr (Lit 111)) (Seq (Chr (Lit 111)) (Chr (Lit 112))))) None;
    mkRule 124 (Seq (Chr (Lit 119)) (Seq (Chr (Lit 104)) (Seq (Chr (Lit 105)) (Seq (Chr (Lit 108)) (Chr (Lit 101)))))) None;
    mkRule 125 (Seq (Chr (Lit 109)) (Seq (Chr (Lit 111)) (Seq (Chr (Lit 118)) (Chr (Lit 101))))) None;
    mkRule 126 (Seq (Chr (Lit 109)) (Seq (Chr (Lit 117)) (Chr (Lit 116)))) None;
    mkRule 127 (Seq (Chr (Lit 114)) (Seq (Chr (Lit 101)) (Chr (Lit 102)))) None;
    mkRule 128 (Seq (Chr (Lit 116)) (Seq (Chr (Lit 114)) (Seq (Chr (Lit 97)) (Seq (Chr (Lit 105)) (Chr (Lit 116)))))) None;
    mkRule 129 (Seq (Chr (Lit 109)) (Seq (Chr (Lit 97)) (Seq (Chr (Lit 116)) (Seq (Chr (Lit 99)) (Chr (Lit 104)))))) None;
    mkRule 130 (Seq (Chr (Lit 114)) (Seq (Chr (Lit 101)) (Seq (Chr (Lit 116)) (Seq (Chr (Lit 117)) (Seq (Chr (Lit 114)) (Chr (Lit 110))))))) None;
    mkRule 131 (Seq (Chr (Lit 99)) (Seq (Chr (Lit 111)) (Seq (Chr (Lit 110)) (Seq (Chr (Lit 116)) (Seq (Chr (Lit 105)) (Seq (Chr (Lit 110)) (Seq (Chr (Lit 117)) (Chr (Lit 101))))))))) None;
    mkRule 132 (Seq (Chr (Lit 98)) (Seq (Chr (Lit 114)) (Seq (Chr (Lit 101)) (Seq (Chr (Lit 97)) (Chr (Lit 107)))))) None;
    mkRule 133 (Seq (Chr (Lit 105)) (Chr (Lit 110))) None;
    mkRule 134 (Seq (Chr (Lit 117)) (Seq (Chr (Lit 110)) (Seq (Chr (Lit 115)) (Seq (Chr (Lit 97)) (Seq (Chr (Lit 102)) (Chr (Lit 101))))))) None;
    mkRule 135 (Seq (Chr (Lit 119)) (Seq (Chr (Lit 104)) (Seq (Chr (Lit 101)) (Seq (Chr (Lit 114)) (Chr (Lit 101)))))) None;
    mkRule 136 (Chr (Lit 40)) None;
    mkRule 137 (Chr (Lit 41)) None;
    mkRule 138 (Chr (Lit 123)) None;
    mkRule 139 (Chr (Lit 125)) None;
    mkRule 140 (Chr (Lit 60)) None;
    mkRule 141 (Chr (Lit 62)) None;
    mkRule 142 (Chr (Lit 91)) None;
    mkRule 143 (Chr (Lit 93)) None;
    mkRule 150 (Seq (Chr (Lit 45)) (Chr (Lit 62))) None;
    mkRule 151 (Seq (Chr (Lit 61)) (Chr (Lit 62))) None;
    mkRule 152 (Chr (Lit 61)) None;
    mkRule 153 (Seq (Chr (Lit 61)) (Chr (Lit 61))) None;
    mkRule 154 (Seq (Chr (Lit 33)) (Chr (Lit 61))) None;
    mkRule 155 (Seq (Chr (Lit 62)) (Chr (Lit 61))) None;
    mkRule 156 (Seq (Chr (Lit 60)) (Chr (Lit 61))) None;
    mkRule 157 (Chr (Lit 59)) None;
    mkRule 158 (Chr (Lit 58)) None;
    mkRule 159 (Seq (Chr (Lit 58)) (Chr (Lit 58))) None;
    mkRule 160 (Chr (Lit 44)) None;
    mkRule 161 (Chr (Lit 46)) None;
    mkRule 162 (Seq (Chr (Lit 46)) (Chr (Lit 46))) None;
    mkRule 163 (Seq (Chr (Lit 46)) (Seq (Chr (Lit 46)) (Chr (Lit 46)))) None;
    mkRule 164 (Chr (Lit 35)) None;
    mkRule 165 (Chr (Lit 36)) None;
    mkRule 166 (Chr (Lit 42)) None;
    mkRule 167 (Seq (Chr (Lit 42)) (Chr (Lit 61))) None;
    mkRule 168 (Chr (Lit 47)) None;
    mkRule 169 (Seq (Chr (Lit 47)) (Chr (Lit 61))) None;
    mkRule 170 (Chr (Lit 37)) None;
    mkRule 171 (Seq (Chr (Lit 37)) (Chr (Lit 61))) None;
    mkRule 172 (Chr (Lit 43)) None;
    mkRule 173 (Seq (Chr (Lit 43)) (Chr (Lit 61))) None;
    mkRule 174 (Chr (Lit 45)) None;
    mkRule 175 (Seq (Chr (Lit 45)) (Chr (Lit 61))) None;
    mkRule 176 (Chr (Lit 38)) None;
    mkRule 177 (Seq (Chr (Lit 38)) (Chr (Lit 61))) None;
    mkRule 178 (Chr (Lit 124)) None;
    mkRule 179 (Seq (Chr (Lit 124)) (Chr (Lit 61))) None;
    mkRule 180 (Chr (Lit 95)) None;
    mkRule 181 (Chr (Lit 33)) None;
    mkRule 182 (Chr (Lit 63)) None;
    mkRule 183 (Chr (Lit 94)) None;
    mkRule 184 (Seq (Chr (Lit 94)) (Chr (Lit 61))) None;
    mkRule 185 (Alt (Seq (Chr (Lit 39)) (Seq (Chr (Lit 92)) (Seq (Chr (Lit 39)) (Chr (Lit 39))))) (Alt (Seq (Chr (Lit 39)) (Seq (Chr (Not [39])) (Chr (Lit 39)))) (Seq (Chr (Lit 39)) (Seq (Star (Alt (Chr (Lit 92)) (Alt (Chr (Cls XidContinue)) (Alt (Chr (Lit 123)) (Chr (Lit 125)))))) (Chr (Lit 39)))))) None;
    mkRule 186 (Seq (Chr (Lit 39)) (Star (Chr (Cls XidContinue)))) None;
    mkRule 187 (Alt (Seq (Chr (Lit 116)) (Seq (Chr (Lit 114)) (Seq (Chr (Lit 117)) (Chr (Lit 101))))) (Seq (Chr (Lit 102)) (Seq (Chr (Lit 97)) (Seq (Chr (Lit 108)) (Seq (Chr (Lit 115)) (Chr (Lit 101))))))) None;
    mkRule 188 (Plus (Chr (Cls Digit))) None;
    mkRule 189 (Seq (Chr (Lit 34)) (Seq (Star (Alt (Seq (Chr (Lit 92)) (Chr (Lit 34))) (Chr (Not [34])))) (Chr (Lit 34)))) None;
    mkRule 190 (Seq (Chr (Lit 114)) (Seq (Star (Chr (Lit 35))) (Chr (Lit 34)))) (Some parse_raw_string);
    mkRule 191 (Seq (Alt (Chr (Cls XidStart)) (Chr (Lit 95))) (Star (Chr (Cls XidContinue)))) None ].

(** fall/test/src/sexp.rs 15-18 *)
Definition sexp_rules : list lex_rule :=
  [ mkRule 100 (Plus (Chr (Cls Space))) None;
    mkRule 101 (Chr (Lit 40)) None;
    mkRule 102 (Chr (Lit 41)) None;
    mkRule 103 (Plus (Chr (Cls Word))) None ].

(** lang/bnf/src/bnf.rs 16-20 *)
Definition bnf_rules : list lex_rule :=
  [ mkRule 100 (Plus (Chr (Cls Space))) None;
    mkRule 101 (Seq (Chr (Lit 45)) (Chr (Lit 62))) None;
    mkRule 102 (Chr (Lit 124)) None;
    mkRule 103 (Seq (Chr (Lit 39)) (Seq (Plus (Chr (Not [39]))) (Chr (Lit 39)))) None;
    mkRule 104 (Plus (Chr (Cls Word))) None ].

(** lang/json/src/json.rs 25-35 *)
Definition json_rules : list lex_rule :=
  [ mkRule 100 (Plus (Chr (Cls Space))) None;
    mkRule 101 (Chr (Lit 123)) None;
    mkRule 102 (Chr (Lit 125)) None;
    mkRule 103 (Chr (Lit 91)) None;
    mkRule 104 (Chr (Lit 93)) None;
    mkRule 105 (Chr (Lit 58)) None;
    mkRule 106 (Chr (Lit 44)) None;
    mkRule 107 (Seq (Chr (Lit 110)) (Seq (Chr (Lit 117)) (Seq (Chr (Lit 108)) (Chr (Lit 108))))) None;
    mkRule 108 (Alt (Seq (Chr (Lit 116)) (Seq (Chr (Lit 114)) (Seq (Chr (Lit 117)) (Chr (Lit 101))))) (Seq (Chr (Lit 102)) (Seq (Chr (Lit 97)) (Seq (Chr (Lit 108)) (Seq (Chr (Lit 115)) (Chr (Lit 101))))))) None;
    mkRule 109 (Seq (Chr (Lit 34)) (Seq (Star (Chr (Not [34]))) (Chr (Lit 34)))) None;
    mkRule 110 (Plus (Chr (Cls Digit))) None ].

(** fall/test/src/arith.rs 25-33 *)
Definition arith_rules : list lex_rule :=
  [ mkRule 100 (Plus (Chr (Cls Space))) None;
    mkRule 101 (Plus (Chr (Cls Digit))) None;
    mkRule 102 (Chr (Lit 43)) None;
    mkRule 103 (Chr (Lit 45)) None;
    mkRule 104 (Chr (Lit 42)) None;
    mkRule 105 (Chr (Lit 47)) None;
    mkRule 106 (Chr (Lit 33)) None;
    mkRule 107 (Chr (Lit 40)) None;
    mkRule 108 (Chr (Lit 41)) None ].

(** fall/test/src/weird.rs 24-34 *)
Definition weird_rules : list lex_rule :=
  [ mkRule 100 (Plus (Chr (Cls Space))) None;
    mkRule 101 (Seq (Chr (Lit 114)) (Seq (Plus (Chr (Lit 35))) (Chr (Lit 34)))) (Some parse_raw_string);
    mkRule 102 (Seq (Chr (Lit 102)) (Seq (Chr (Lit 111)) (Chr (Lit 111)))) None;
    mkRule 103 (Seq (Chr (Lit 98)) (Seq (Chr (Lit 97)) (Chr (Lit 114)))) None;
    mkRule 104 (Seq (Chr (Lit 95)) (Chr (Lit 49))) None;
    mkRule 105 (Seq (Chr (Lit 95)) (Chr (Lit 50))) None;
    mkRule 106 (Seq (Chr (Lit 95)) (Chr (Lit 51))) None;
    mkRule 107 (Seq (Chr (Lit 95)) (Chr (Lit 52))) None;
    mkRule 108 (Chr (Lit 123)) None;
    mkRule 109 (Chr (Lit 125)) None;
    mkRule 110 (Plus (Chr (Cls Word))) None ].
