(** The grammars of the shipped languages, copied from the [parser_json] literals in /repo by tools/grammars.py,
    with certificates for the check of WellFormed.v. Do not edit. *)
From Coq Require Import List NArith.
From Verif Require Import Base LexModel GrammarModel WellFormed.
Import ListNotations.

Local Notation "# n" := (N.to_nat n%N) (at level 0, n at level 0, only parsing).

(** lang/fall/syntax/src/fall.rs:86 [parser_json]; node types from the [ParserDefinition] below it *)
Definition fall_grammar : grammar := mkGrammar
  [#0; #100; #101; #102; #103; #104; #105; #106; #107; #108; #109; #110; #111; #112; #113; #114; #115; #116; #117; #118; #119; #120; #121; #122; #123; #124; #125; #126; #127; #128; #129; #130; #131; #132; #133; #134; #135; #136; #137; #138; #139; #140; #141; #142; #143; #144; #145; #146; #147; #148; #149; #150; #151; #152; #153; #154]
  [EPub #32 #37 false;
   EOr [#39; #41; #43; #45; #47; #49; #51];
   EOr [#52; #53; #54; #55; #56];
   EPub #33 #77 false;
   EPub #34 #83 false;
   EPub #35 #86 false;
   EPratt (mkPratt [#12; #7; #9] [] [mkInfix #39 #87 #999 false; mkInfix #40 #88 #999 false]);
   EPub #36 #93 false;
   EPub #37 #96 false;
   EPub #38 #106 false;
   EPub #39 #109 false;
   EPub #40 #112 false;
   EPub #41 #118 false;
   EPub #42 #123 false;
   EPub #43 #128 false;
   EPub #44 #132 false;
   EPub #45 #139 false;
   EPub #46 #147 false;
   EPub #47 #152 false;
   EPub #48 #157 false;
   EOr [#167];
   EOr [#172];
   EOr [#176];
   EOr [#180];
   EOr [#184];
   EOr [#199];
   EPub #49 #203 false;
   EPub #50 #221 false;
   EPub #51 #242 false;
   EPub #52 #249 false;
   EPub #53 #255 false;
   EPub #54 #258 false;
   EPub #55 #262 false;
   EOr [#266; #269; #271; #273];
   EWithSkip #1 #2;
   ERep #34;
   EAnd [#35] None;
   EOr [#36];
   EContextual #6 [#116; #111; #107; #101; #110; #105; #122; #101; #114];
   EAnd [#38] None;
   EContextual #10 [#112; #117; #98];
   EAnd [#40] None;
   EContextual #7 [#114; #117; #108; #101];
   EAnd [#42] None;
   EToken #19;
   EAnd [#44] None;
   EContextual #8 [#118; #101; #114; #98; #97; #116; #105; #109];
   EAnd [#46] None;
   EContextual #9 [#97; #115; #116];
   EAnd [#48] None;
   EContextual #11 [#116; #101; #115; #116];
   EAnd [#50] None;
   EAnd [#13] None;
   EAnd [#3] None;
   EAnd [#26] None;
   EAnd [#27] None;
   EAnd [#15] None;
   EOpt #16;
   EContextual #10 [#112; #117; #98];
   EOpt #58;
   EContextual #7 [#114; #117; #108; #101];
   EToken #31;
   EOpt #4;
   EToken #20;
   EToken #21;
   EAnd [#63; #22; #64] None;
   EToken #20;
   ENot #1;
   EAny;
   EAnd [#67; #68] None;
   EOr [#69];
   ERep #70;
   EAnd [#66; #71] None;
   EOr [#65; #72];
   ELayer #73 #9;
   EAnd [#57; #59; #60; #61; #62; #74] (Some #3);
   EOr [#75];
   ECached #76;
   EToken #26;
   ECall #20 [(#0, #5)];
   ELayer #23 #79;
   EToken #27;
   EAnd [#78; #80; #81] None;
   EOr [#82];
   EToken #31;
   EAnd [#84] None;
   EOr [#85];
   EToken #15;
   EToken #14;
   EToken #31;
   EAnd [#89] None;
   EToken #29;
   EAnd [#91] None;
   EOr [#90; #92];
   ERep #6;
   EAnd [#94] None;
   EOr [#95];
   EOpt #8;
   EToken #13;
   EAnd [#98; #8] None;
   EOr [#99];
   ERep #100;
   EAnd [#97; #101] None;
   EOr [#102];
   ECall #21 [(#1, #103)];
   EAnd [#104] None;
   EOr [#105];
   EToken #15;
   EAnd [#6; #107] None;
   EOr [#108];
   EToken #14;
   EAnd [#6; #110] None;
   EOr [#111];
   EToken #24;
   EToken #31;
   ERep #6;
   EToken #25;
   EAnd [#113; #114; #115; #116] None;
   EOr [#117];
   EContextual #6 [#116; #111; #107; #101; #110; #105; #122; #101; #114];
   ERep #14;
   ECall #21 [(#1, #120)];
   EAnd [#119; #121] (Some #1);
   EOr [#122];
   EOpt #16;
   EToken #31;
   EOpt #19;
   EAnd [#124; #125; #19; #126] (Some #2);
   EOr [#127];
   EContextual #11 [#116; #101; #115; #116];
   EToken #30;
   EAnd [#129; #130] (Some #1);
   EOr [#131];
   EToken #19;
   EToken #22;
   ECall #20 [(#0, #17)];
   ELayer #24 #135;
   EToken #23;
   EAnd [#133; #134; #136; #137] None;
   EOr [#138];
   EToken #31;
   EToken #26;
   EToken #27;
   EAnd [#141; #18; #142] None;
   EOr [#143];
   EOpt #144;
   EAnd [#140; #145] None;
   EOr [#146];
   EToken #28;
   EAnd [#148] None;
   EToken #31;
   EAnd [#150] None;
   EOr [#149; #151];
   EToken #29;
   EAnd [#153] None;
   EToken #30;
   EAnd [#155] None;
   EOr [#154; #156];
   EVar #0;
   EEof;
   EAnd [#159] None;
   EToken #17;
   EAnd [#161] None;
   EOr [#160; #162];
   EAnd [#158; #163] (Some #1);
   EOr [#164];
   ERep #165;
   EAnd [#166] None;
   EToken #20;
   EVar #1;
   ELayer #22 #169;
   EToken #21;
   EAnd [#168; #170; #171] (Some #1);
   EToken #20;
   EToken #21;
   ECall #25 [(#2, #173); (#3, #174)];
   EAnd [#175] None;
   EToken #26;
   EToken #27;
   ECall #25 [(#2, #177); (#3, #178)];
   EAnd [#179] None;
   EToken #22;
   EToken #23;
   ECall #25 [(#2, #181); (#3, #182)];
   EAnd [#183] None;
   EVar #2;
   EVar #2;
   EVar #3;
   ECall #25 [(#2, #186); (#3, #187)];
   EVar #3;
   EAnd [#185; #188; #189] None;
   EVar #3;
   ENot #191;
   EAny;
   EAnd [#192; #193] None;
   EOr [#194];
   EAnd [#195] None;
   EOr [#190; #196];
   ERep #197;
   EAnd [#198] None;
   EContextual #8 [#118; #101; #114; #98; #97; #116; #105; #109];
   EToken #30;
   EAnd [#200; #201] (Some #1);
   EOr [#202];
   EContextual #9 [#97; #115; #116];
   EToken #20;
   EContextual #3 [#110; #111; #100; #101];
   EAnd [#206] None;
   EContextual #4 [#99; #108; #97; #115; #115];
   EAnd [#208] None;
   EContextual #5 [#116; #114; #97; #105; #116];
   EAnd [#210] None;
   EOr [#207; #209; #211];
   EAnd [#28] None;
   EAnd [#29] None;
   EAnd [#30] None;
   EOr [#213; #214; #215];
   EWithSkip #212 #216;
   ERep #217;
   EToken #21;
   EAnd [#204; #205; #218; #219] (Some #1);
   EOr [#220];
   EContextual #3 [#110; #111; #100; #101];
   EToken #31;
   EToken #18;
   EToken #31;
   EToken #17;
   EAnd [#226] None;
   EToken #20;
   ENot #228;
   ENot #229;
   EAnd [#230] None;
   EOr [#227; #231];
   EAnd [#225; #232] None;
   EOr [#233];
   ERep #234;
   EAnd [#224; #235] None;
   EOr [#236];
   EOpt #237;
   ERep #31;
   ECall #21 [(#1, #239)];
   EAnd [#222; #223; #238; #240] (Some #1);
   EOr [#241];
   EContextual #4 [#99; #108; #97; #115; #115];
   EToken #31;
   EToken #31;
   ERep #245;
   ECall #21 [(#1, #246)];
   EAnd [#243; #244; #247] (Some #1);
   EOr [#248];
   EContextual #5 [#116; #114; #97; #105; #116];
   EToken #31;
   ERep #31;
   ECall #21 [(#1, #252)];
   EAnd [#250; #251; #253] (Some #1);
   EOr [#254];
   EToken #31;
   EAnd [#256; #32] None;
   EOr [#257];
   EToken #31;
   EOpt #33;
   EAnd [#259; #260] None;
   EOr [#261];
   EToken #15;
   EToken #16;
   EToken #31;
   EAnd [#263; #264; #265] None;
   EToken #16;
   EToken #31;
   EAnd [#267; #268] None;
   EToken #14;
   EAnd [#270] None;
   EToken #15;
   EAnd [#272] None].

(** lang/fall/syntax/src/fall.rs, the types with [whitespace_like: true] *)
Definition fall_ws (ty : nat) : bool := memb ty [#100; #101].

Definition fall_cert : cert := mkCert
  [mkInfo #15 [] [] true (mkShape false true false false) false true;
   mkInfo #2 [] [] false (mkShape false false false true) true false;
   mkInfo #10 [] [] false (mkShape false true false false) false false;
   mkInfo #8 [] [] false (mkShape false true false false) false false;
   mkInfo #3 [] [] false (mkShape false true false false) true false;
   mkInfo #3 [] [] false (mkShape false true false false) true false;
   mkInfo #7 [] [] false (mkShape false true true false) false false;
   mkInfo #3 [] [] false (mkShape false true false false) true false;
   mkInfo #11 [] [] true (mkShape false true false false) false true;
   mkInfo #6 [] [] false (mkShape false true false false) false false;
   mkInfo #10 [] [] false (mkShape false true false false) false false;
   mkInfo #10 [] [] false (mkShape false true false false) false false;
   mkInfo #3 [] [] false (mkShape false true false false) false false;
   mkInfo #3 [] [] false (mkShape false true false false) false false;
   mkInfo #7 [] [] false (mkShape false true false false) true false;
   mkInfo #3 [] [] false (mkShape false true false false) true false;
   mkInfo #3 [] [] false (mkShape false true false false) true false;
   mkInfo #3 [] [] false (mkShape false true false false) true false;
   mkInfo #3 [] [] false (mkShape false true false false) true false;
   mkInfo #3 [] [] false (mkShape false true false false) true false;
   mkInfo #6 [#0] [#0] true (mkShape true true false false) true true;
   mkInfo #2 [#1] [] false (mkShape false false false true) false false;
   mkInfo #12 [] [] true (mkShape true false false true) true true;
   mkInfo #12 [] [] true (mkShape true false false true) true true;
   mkInfo #12 [] [] true (mkShape true false false true) true true;
   mkInfo #9 [#2; #3] [#2; #3] true (mkShape true false false true) true true;
   mkInfo #3 [] [] false (mkShape false true false false) true false;
   mkInfo #3 [] [] false (mkShape false true false false) false false;
   mkInfo #3 [] [] false (mkShape false true false false) false false;
   mkInfo #3 [] [] false (mkShape false true false false) false false;
   mkInfo #3 [] [] false (mkShape false true false false) false false;
   mkInfo #3 [] [] false (mkShape false true false false) true false;
   mkInfo #3 [] [] false (mkShape false true false false) true false;
   mkInfo #2 [] [] false (mkShape false false false true) true false;
   mkInfo #11 [] [] false (mkShape false true false false) false false;
   mkInfo #12 [] [] true (mkShape true true false false) false true;
   mkInfo #13 [] [] true (mkShape true true false false) false true;
   mkInfo #14 [] [] true (mkShape true true false false) false true;
   mkInfo #0 [] [] false (mkShape false false false true) true false;
   mkInfo #1 [] [] false (mkShape false false false true) true false;
   mkInfo #0 [] [] false (mkShape false false false true) true false;
   mkInfo #1 [] [] false (mkShape false false false true) true false;
   mkInfo #0 [] [] false (mkShape false false false true) true false;
   mkInfo #1 [] [] false (mkShape false false false true) true false;
   mkInfo #0 [] [] false (mkShape false false false true) true false;
   mkInfo #1 [] [] false (mkShape false false false true) true false;
   mkInfo #0 [] [] false (mkShape false false false true) true false;
   mkInfo #1 [] [] false (mkShape false false false true) true false;
   mkInfo #0 [] [] false (mkShape false false false true) true false;
   mkInfo #1 [] [] false (mkShape false false false true) true false;
   mkInfo #0 [] [] false (mkShape false false false true) true false;
   mkInfo #1 [] [] false (mkShape false false false true) true false;
   mkInfo #4 [] [] false (mkShape false true false false) false false;
   mkInfo #9 [] [] false (mkShape false true false false) false false;
   mkInfo #4 [] [] false (mkShape false true false false) true false;
   mkInfo #4 [] [] false (mkShape false true false false) false false;
   mkInfo #4 [] [] false (mkShape false true false false) true false;
   mkInfo #4 [] [] true (mkShape true true false false) true true;
   mkInfo #0 [] [] false (mkShape false false false true) true false;
   mkInfo #1 [] [] true (mkShape true false false true) true true;
   mkInfo #0 [] [] false (mkShape false false false true) true false;
   mkInfo #0 [] [] false (mkShape false false false true) true false;
   mkInfo #4 [] [] true (mkShape true true false false) true true;
   mkInfo #0 [] [] false (mkShape false false false true) true false;
   mkInfo #0 [] [] false (mkShape false false false true) true false;
   mkInfo #1 [] [] false (mkShape false false false true) true false;
   mkInfo #0 [] [] false (mkShape false false false true) true false;
   mkInfo #3 [] [] true (mkShape true false false false) true false;
   mkInfo #0 [] [] false (mkShape false false false true) true false;
   mkInfo #4 [] [] false (mkShape false false false true) true false;
   mkInfo #5 [] [] false (mkShape false false false true) true false;
   mkInfo #6 [] [] true (mkShape true false false true) true true;
   mkInfo #1 [] [] false (mkShape false false false true) true false;
   mkInfo #2 [] [] false (mkShape false false false true) true false;
   mkInfo #7 [] [] false (mkShape true true false false) false false;
   mkInfo #5 [] [] false (mkShape false true false true) false false;
   mkInfo #6 [] [] false (mkShape false true false true) false false;
   mkInfo #7 [] [] false (mkShape false false false true) false false;
   mkInfo #0 [] [] false (mkShape false false false true) true false;
   mkInfo #10 [] [] true (mkShape true true false false) true true;
   mkInfo #13 [] [] true (mkShape true true false false) true true;
   mkInfo #0 [] [] false (mkShape false false false true) true false;
   mkInfo #1 [] [] false (mkShape false false false true) true false;
   mkInfo #2 [] [] false (mkShape false false false true) true false;
   mkInfo #0 [] [] false (mkShape false false false true) true false;
   mkInfo #1 [] [] false (mkShape false false false true) true false;
   mkInfo #2 [] [] false (mkShape false false false true) true false;
   mkInfo #0 [] [] false (mkShape false false false true) true false;
   mkInfo #0 [] [] false (mkShape false false false true) true false;
   mkInfo #0 [] [] false (mkShape false false false true) true false;
   mkInfo #1 [] [] false (mkShape false false false true) true false;
   mkInfo #0 [] [] false (mkShape false false false true) true false;
   mkInfo #1 [] [] false (mkShape false false false true) true false;
   mkInfo #2 [] [] false (mkShape false false false true) true false;
   mkInfo #8 [] [] true (mkShape true true true false) false true;
   mkInfo #9 [] [] true (mkShape true true true false) false true;
   mkInfo #10 [] [] true (mkShape true true true false) false true;
   mkInfo #12 [] [] true (mkShape true true false false) false true;
   mkInfo #0 [] [] false (mkShape false false false true) true false;
   mkInfo #1 [] [] false (mkShape false false false true) false false;
   mkInfo #2 [] [] false (mkShape false false false true) false false;
   mkInfo #3 [] [] true (mkShape true false false true) false true;
   mkInfo #13 [] [] true (mkShape true true false true) false true;
   mkInfo #14 [] [] true (mkShape true true false true) false true;
   mkInfo #3 [] [] false (mkShape false false false true) false false;
   mkInfo #4 [] [] false (mkShape false false false true) false false;
   mkInfo #5 [] [] false (mkShape false false false true) false false;
   mkInfo #0 [] [] false (mkShape false false false true) true false;
   mkInfo #8 [] [] false (mkShape false true true false) false false;
   mkInfo #9 [] [] false (mkShape false true true false) false false;
   mkInfo #0 [] [] false (mkShape false false false true) true false;
   mkInfo #8 [] [] false (mkShape false true true false) false false;
   mkInfo #9 [] [] false (mkShape false true true false) false false;
   mkInfo #0 [] [] false (mkShape false false false true) true false;
   mkInfo #0 [] [] false (mkShape false false false true) true false;
   mkInfo #8 [] [] true (mkShape true true true false) false true;
   mkInfo #0 [] [] false (mkShape false false false true) true false;
   mkInfo #1 [] [] false (mkShape false false false true) false false;
   mkInfo #2 [] [] false (mkShape false false false true) false false;
   mkInfo #0 [] [] false (mkShape false false false true) true false;
   mkInfo #8 [] [] true (mkShape true true false false) true true;
   mkInfo #3 [] [] false (mkShape false false false true) false false;
   mkInfo #1 [] [] false (mkShape false false false true) false false;
   mkInfo #2 [] [] false (mkShape false false false true) false false;
   mkInfo #4 [] [] true (mkShape true true false false) true true;
   mkInfo #0 [] [] false (mkShape false false false true) true false;
   mkInfo #4 [] [] true (mkShape true true false false) true true;
   mkInfo #5 [] [] false (mkShape false true false true) true false;
   mkInfo #6 [] [] false (mkShape false true false true) true false;
   mkInfo #0 [] [] false (mkShape false false false true) true false;
   mkInfo #0 [] [] false (mkShape false false false true) true false;
   mkInfo #1 [] [] false (mkShape false false false true) true false;
   mkInfo #2 [] [] false (mkShape false false false true) true false;
   mkInfo #0 [] [] false (mkShape false false false true) true false;
   mkInfo #0 [] [] false (mkShape false false false true) true false;
   mkInfo #10 [] [] true (mkShape true true false false) true true;
   mkInfo #13 [] [] true (mkShape true true false false) true true;
   mkInfo #0 [] [] false (mkShape false false false true) true false;
   mkInfo #1 [] [] false (mkShape false false false true) true false;
   mkInfo #2 [] [] false (mkShape false false false true) true false;
   mkInfo #0 [] [] false (mkShape false false false true) true false;
   mkInfo #0 [] [] false (mkShape false false false true) true false;
   mkInfo #0 [] [] false (mkShape false false false true) true false;
   mkInfo #1 [] [] false (mkShape false false false true) true false;
   mkInfo #2 [] [] false (mkShape false false false true) true false;
   mkInfo #3 [] [] true (mkShape true false false true) true true;
   mkInfo #1 [] [] false (mkShape false false false true) true false;
   mkInfo #2 [] [] false (mkShape false false false true) true false;
   mkInfo #0 [] [] false (mkShape false false false true) true false;
   mkInfo #1 [] [] false (mkShape false false false true) true false;
   mkInfo #0 [] [] false (mkShape false false false true) true false;
   mkInfo #1 [] [] false (mkShape false false false true) true false;
   mkInfo #2 [] [] false (mkShape false false false true) true false;
   mkInfo #0 [] [] false (mkShape false false false true) true false;
   mkInfo #1 [] [] false (mkShape false false false true) true false;
   mkInfo #0 [] [] false (mkShape false false false true) true false;
   mkInfo #1 [] [] false (mkShape false false false true) true false;
   mkInfo #2 [] [] false (mkShape false false false true) true false;
   mkInfo #1 [#0] [#0] false (mkShape false true false false) true false;
   mkInfo #0 [] [] true (mkShape true false false false) true false;
   mkInfo #1 [] [] true (mkShape true false false false) true false;
   mkInfo #0 [] [] false (mkShape false false false true) true false;
   mkInfo #1 [] [] false (mkShape false false false true) true false;
   mkInfo #2 [] [] true (mkShape true false false true) true false;
   mkInfo #2 [#0] [#0] false (mkShape false true false false) true false;
   mkInfo #3 [#0] [#0] false (mkShape false true false false) true false;
   mkInfo #4 [#0] [#0] true (mkShape true true false false) true true;
   mkInfo #5 [#0] [#0] true (mkShape true true false false) true true;
   mkInfo #0 [] [] false (mkShape false false false true) true false;
   mkInfo #1 [#1] [#1] true (mkShape true true false true) false true;
   mkInfo #13 [#1] [#1] true (mkShape true true false true) false true;
   mkInfo #0 [] [] false (mkShape false false false true) true false;
   mkInfo #1 [#1] [] false (mkShape false false false true) false false;
   mkInfo #0 [] [] false (mkShape false false false true) true false;
   mkInfo #0 [] [] false (mkShape false false false true) true false;
   mkInfo #10 [] [] true (mkShape true false false true) true true;
   mkInfo #11 [] [] true (mkShape true false false true) true true;
   mkInfo #0 [] [] false (mkShape false false false true) true false;
   mkInfo #0 [] [] false (mkShape false false false true) true false;
   mkInfo #10 [] [] true (mkShape true false false true) true true;
   mkInfo #11 [] [] true (mkShape true false false true) true true;
   mkInfo #0 [] [] false (mkShape false false false true) true false;
   mkInfo #0 [] [] false (mkShape false false false true) true false;
   mkInfo #10 [] [] true (mkShape true false false true) true true;
   mkInfo #11 [] [] true (mkShape true false false true) true true;
   mkInfo #1 [#2] [#2] false (mkShape false false false true) true false;
   mkInfo #1 [#2] [#2] false (mkShape false false false true) true false;
   mkInfo #1 [#3] [#3] false (mkShape false false false true) true false;
   mkInfo #10 [#2; #3] [#2; #3] true (mkShape true false false true) true true;
   mkInfo #1 [#3] [#3] false (mkShape false false false true) true false;
   mkInfo #2 [#2; #3] [#2] false (mkShape false false false true) true false;
   mkInfo #1 [#3] [#3] false (mkShape false false false true) true false;
   mkInfo #2 [#3] [#3] true (mkShape true false false false) true false;
   mkInfo #0 [] [] false (mkShape false false false true) true false;
   mkInfo #3 [#3] [#3] false (mkShape false false false true) true false;
   mkInfo #4 [#3] [#3] false (mkShape false false false true) true false;
   mkInfo #5 [#3] [#3] false (mkShape false false false true) true false;
   mkInfo #6 [#2; #3] [#2; #3] false (mkShape false false false true) true false;
   mkInfo #7 [#2; #3] [#2; #3] true (mkShape true false false true) true true;
   mkInfo #8 [#2; #3] [#2; #3] true (mkShape true false false true) true true;
   mkInfo #0 [] [] false (mkShape false false false true) true false;
   mkInfo #0 [] [] false (mkShape false false false true) true false;
   mkInfo #1 [] [] false (mkShape false false false true) true false;
   mkInfo #2 [] [] false (mkShape false false false true) true false;
   mkInfo #0 [] [] false (mkShape false false false true) true false;
   mkInfo #0 [] [] false (mkShape false false false true) true false;
   mkInfo #0 [] [] false (mkShape false false false true) true false;
   mkInfo #1 [] [] false (mkShape false false false true) true false;
   mkInfo #0 [] [] false (mkShape false false false true) true false;
   mkInfo #1 [] [] false (mkShape false false false true) true false;
   mkInfo #0 [] [] false (mkShape false false false true) true false;
   mkInfo #1 [] [] false (mkShape false false false true) true false;
   mkInfo #2 [] [] false (mkShape false false false true) true false;
   mkInfo #4 [] [] false (mkShape false true false false) false false;
   mkInfo #4 [] [] false (mkShape false true false false) false false;
   mkInfo #4 [] [] false (mkShape false true false false) false false;
   mkInfo #5 [] [] false (mkShape false true false false) false false;
   mkInfo #6 [] [] false (mkShape false true false false) false false;
   mkInfo #7 [] [] true (mkShape true true false false) false true;
   mkInfo #0 [] [] false (mkShape false false false true) true false;
   mkInfo #1 [] [] false (mkShape false false false true) false false;
   mkInfo #2 [] [] false (mkShape false false false true) false false;
   mkInfo #0 [] [] false (mkShape false false false true) true false;
   mkInfo #0 [] [] false (mkShape false false false true) true false;
   mkInfo #0 [] [] false (mkShape false false false true) true false;
   mkInfo #0 [] [] false (mkShape false false false true) true false;
   mkInfo #0 [] [] false (mkShape false false false true) true false;
   mkInfo #1 [] [] false (mkShape false false false true) true false;
   mkInfo #0 [] [] false (mkShape false false false true) true false;
   mkInfo #1 [] [] true (mkShape true false false false) true false;
   mkInfo #2 [] [] true (mkShape true false false false) true false;
   mkInfo #3 [] [] true (mkShape true false false false) true false;
   mkInfo #4 [] [] true (mkShape true false false true) true false;
   mkInfo #1 [] [] false (mkShape false false false true) true false;
   mkInfo #2 [] [] false (mkShape false false false true) true false;
   mkInfo #3 [] [] true (mkShape true false false true) true true;
   mkInfo #1 [] [] false (mkShape false false false true) true false;
   mkInfo #2 [] [] false (mkShape false false false true) true false;
   mkInfo #3 [] [] true (mkShape true false false true) true true;
   mkInfo #4 [] [] true (mkShape true true false false) true true;
   mkInfo #3 [] [] false (mkShape false false false true) false false;
   mkInfo #1 [] [] false (mkShape false false false true) false false;
   mkInfo #2 [] [] false (mkShape false false false true) false false;
   mkInfo #0 [] [] false (mkShape false false false true) true false;
   mkInfo #0 [] [] false (mkShape false false false true) true false;
   mkInfo #0 [] [] false (mkShape false false false true) true false;
   mkInfo #1 [] [] true (mkShape true false false true) true true;
   mkInfo #3 [] [] false (mkShape false false false true) false false;
   mkInfo #1 [] [] false (mkShape false false false true) false false;
   mkInfo #2 [] [] false (mkShape false false false true) false false;
   mkInfo #0 [] [] false (mkShape false false false true) true false;
   mkInfo #0 [] [] false (mkShape false false false true) true false;
   mkInfo #4 [] [] true (mkShape true true false false) true true;
   mkInfo #3 [] [] false (mkShape false false false true) false false;
   mkInfo #1 [] [] false (mkShape false false false true) false false;
   mkInfo #2 [] [] false (mkShape false false false true) false false;
   mkInfo #0 [] [] false (mkShape false false false true) true false;
   mkInfo #1 [] [] false (mkShape false false false true) true false;
   mkInfo #2 [] [] false (mkShape false false false true) true false;
   mkInfo #0 [] [] false (mkShape false false false true) true false;
   mkInfo #3 [] [] true (mkShape true false false true) true true;
   mkInfo #1 [] [] false (mkShape false false false true) true false;
   mkInfo #2 [] [] false (mkShape false false false true) true false;
   mkInfo #0 [] [] false (mkShape false false false true) true false;
   mkInfo #0 [] [] false (mkShape false false false true) true false;
   mkInfo #0 [] [] false (mkShape false false false true) true false;
   mkInfo #1 [] [] false (mkShape false false false true) true false;
   mkInfo #0 [] [] false (mkShape false false false true) true false;
   mkInfo #0 [] [] false (mkShape false false false true) true false;
   mkInfo #1 [] [] false (mkShape false false false true) true false;
   mkInfo #0 [] [] false (mkShape false false false true) true false;
   mkInfo #1 [] [] false (mkShape false false false true) true false;
   mkInfo #0 [] [] false (mkShape false false false true) true false;
   mkInfo #1 [] [] false (mkShape false false false true) true false]
  [[#5; #17]; [#103; #120; #239; #246; #252]; [#173; #177; #181]; [#174; #178; #182]].

(** lang/rust/syntax/src/rust.rs:298 [parser_json]; node types from the [ParserDefinition] below it *)
Definition rust_grammar : grammar := mkGrammar
  [#0; #100; #101; #102; #103; #104; #105; #106; #107; #108; #109; #110; #111; #112; #113; #114; #115; #116; #117; #118; #119; #120; #121; #122; #123; #124; #125; #126; #127; #128; #129; #130; #131; #132; #133; #134; #135; #136; #137; #138; #139; #140; #141; #142; #143; #144; #145; #146; #147; #148; #149; #150; #151; #152; #153; #154; #155; #156; #157; #158; #159; #160; #161; #162; #163; #164; #165; #166; #167; #168; #169; #170; #171; #172; #173; #174; #175; #176; #177; #178; #179; #180; #181; #182; #183; #184; #185; #186; #187; #188; #189; #190; #191; #192; #193; #194; #195; #196; #197; #198; #199; #200; #201; #202; #203; #204; #205; #206; #207; #208; #209; #210; #211; #212; #213; #214; #215; #216; #217; #218; #219; #220; #221; #222; #223; #224; #225; #226; #227; #228; #229; #230; #231; #232; #233; #234; #235; #236; #237; #238; #239; #240; #241; #242; #243; #244; #245; #246; #247; #248; #249; #250; #251; #252; #253; #254; #255; #256; #257; #258; #259; #260; #261; #262; #263; #264; #265; #266; #267; #268; #269; #270; #271; #272; #273; #274; #275; #276; #277; #278; #279; #280; #281; #282; #283; #284; #285; #286; #287; #288; #289; #290; #291; #292; #293; #294; #295; #296; #297; #298; #299; #300; #301; #302; #303]
  [EPub #93 #158 false;
   EOr [#161];
   EOr [#163; #165; #167; #169; #171; #173; #175; #176];
   ECached #193;
   EPub #94 #209 false;
   EPub #95 #215 false;
   EPub #96 #221 false;
   EPub #97 #228 false;
   EPub #98 #244 false;
   EOr [#246];
   EPub #99 #251 false;
   EOr [#257];
   EPub #100 #260 false;
   EPub #101 #266 false;
   EPub #102 #283 false;
   EPub #103 #302 false;
   EPub #104 #307 false;
   EPub #105 #310 false;
   EPub #106 #317 false;
   EPub #107 #330 false;
   EPub #108 #339 false;
   EPub #109 #352 false;
   EPub #110 #360 false;
   EPub #111 #372 false;
   EOr [#373; #374; #375; #376];
   EOr [#378; #380; #382; #384; #386; #388; #390; #392; #397];
   EPub #112 #407 false;
   EPub #113 #421 false;
   EPub #114 #425 false;
   EPub #115 #429 false;
   EOr [#437];
   EPub #116 #444 false;
   EPub #117 #448 false;
   EOr [#468];
   EPub #118 #473 false;
   EPub #119 #493 false;
   EPub #120 #503 false;
   EPub #121 #518 false;
   EOr [#519];
   EOr [#521];
   EOr [#523];
   EPratt (mkPratt [#42; #44] [] [mkInfix #122 #526 #999 false]);
   EPub #122 #530 false;
   EPub #122 #535 false;
   EPub #123 #542 false;
   EPub #124 #556 false;
   EPub #125 #582 false;
   EPub #126 #587 false;
   EPub #127 #591 false;
   EPub #128 #597 false;
   EOr [#598; #599; #600; #601; #602; #603; #604; #605; #606; #607];
   EPub #129 #609 false;
   EPub #130 #611 false;
   EPub #131 #619 false;
   EPub #132 #622 false;
   EPub #133 #626 false;
   EPub #134 #632 true;
   EPubReplace #135 #636;
   EPub #136 #639 false;
   EPub #137 #648 false;
   EPub #138 #655 false;
   EPub #100 #661 false;
   EPub #139 #664 false;
   EOr [#665; #666; #667; #668; #669; #670; #671];
   EPub #140 #674 false;
   EPub #141 #680 true;
   EPubReplace #142 #692;
   EPubReplace #143 #704;
   EPub #144 #711 false;
   EPub #145 #718 false;
   EPub #146 #720 false;
   EPub #147 #724 false;
   EPub #148 #730 true;
   EPubReplace #149 #734;
   EPub #150 #739 false;
   EPratt (mkPratt [#79; #80; #83; #84; #86; #87; #89; #90; #91; #98; #99; #102; #103; #105; #109; #110; #138] [mkPrefix #184 #120 #999; mkPrefix #185 #768 #999; mkPrefix #186 #769 #999; mkPrefix #187 #770 #999; mkPrefix #197 #140 #2] [mkInfix #177 #745 #999 false; mkInfix #178 #754 #999 false; mkInfix #180 #762 #999 false; mkInfix #181 #763 #999 false; mkInfix #182 #764 #999 false; mkInfix #183 #767 #999 false; mkInfix #188 #778 #11 true; mkInfix #189 #784 #10 true; mkInfix #190 #790 #9 true; mkInfix #191 #796 #8 true; mkInfix #192 #798 #7 true; mkInfix #193 #804 #6 true; mkInfix #194 #805 #5 true; mkInfix #195 #807 #4 true; mkInfix #196 #809 #3 true; mkInfix #197 #810 #2 true; mkInfix #197 #139 #2 false; mkInfix #198 #834 #1 true]);
   EOr [#835; #837; #839; #841; #843; #845; #847; #849; #851; #853; #855; #857; #859; #861; #863; #865; #867; #869; #871; #873; #875; #877; #879; #881; #883; #885];
   EOr [#887];
   EOr [#891];
   EPub #152 #902 false;
   EPub #153 #910 true;
   EPubReplace #154 #923;
   EPub #155 #930 false;
   EPub #156 #934 false;
   EPub #157 #941 true;
   EPubReplace #158 #946;
   EPub #159 #959 false;
   EPub #160 #971 false;
   EOr [#979];
   EPub #161 #983 false;
   EPub #162 #992 false;
   EPub #163 #1002 false;
   EOr [#1003; #1004; #1005; #1006];
   EOr [#1008; #1010; #1011; #1012];
   EPub #164 #1021 false;
   EPub #165 #1024 false;
   EPub #166 #1027 false;
   EPub #167 #1038 false;
   EPub #168 #1048 false;
   EPub #169 #1052 false;
   EOr [#1058];
   EOr [#1060];
   EPub #170 #1064 false;
   EPub #171 #1069 false;
   EOr [#1072];
   EPub #172 #1077 false;
   EPub #173 #1087 false;
   EOr [#1093];
   EPub #174 #1096 false;
   EPub #175 #1098 false;
   EPub #176 #1100 false;
   EPub #177 #1108 false;
   EPub #178 #1119 false;
   EOr [#1123];
   EPub #179 #1125 false;
   EPub #180 #1135 false;
   EPub #181 #1138 false;
   EPub #182 #1141 false;
   EPub #183 #1146 false;
   EPub #184 #1148 false;
   EOr [#1154];
   EPub #185 #1157 false;
   EPub #186 #1160 false;
   EPub #187 #1163 false;
   EPub #188 #1173 false;
   EPub #189 #1181 false;
   EPub #190 #1189 false;
   EOr [#1193; #1197];
   EPub #191 #1205 false;
   EPub #192 #1209 false;
   EPub #193 #1217 false;
   EPub #194 #1220 false;
   EOr [#1222; #1224; #1226; #1228; #1230; #1232];
   EPub #195 #1236 false;
   EPub #196 #1240 false;
   EPub #197 #1243 false;
   EPub #197 #1245 false;
   EPub #197 #1247 false;
   EPub #197 #1251 false;
   EOr [#1253; #1255];
   EOr [#1263];
   EPub #198 #1289 false;
   EPub #199 #1292 false;
   EPub #200 #1296 false;
   EOr [#1299];
   EOr [#1301];
   EPub #201 #1311 false;
   EPub #202 #1319 false;
   EPub #203 #1334 false;
   EPub #204 #1363 false;
   EOr [#1373];
   EOr [#1378];
   EOr [#1383];
   EOr [#1388];
   EOr [#1393];
   EOr [#1401];
   EOr [#1416];
   EAnd [#1] None;
   EOr [#157];
   EWithSkip #2 #3;
   ERep #159;
   EAnd [#160] None;
   EToken #11;
   EAnd [#162] None;
   EContextual #4 [#117; #110; #105; #111; #110];
   EAnd [#164] None;
   EToken #16;
   EAnd [#166] None;
   EToken #12;
   EAnd [#168] None;
   EToken #13;
   EAnd [#170] None;
   EToken #17;
   EAnd [#172] None;
   EToken #29;
   EAnd [#174] None;
   EAnd [#25] None;
   EOpt #36;
   EAnd [#145; #177] None;
   EOr [#178];
   EAnd [#24] None;
   EAnd [#4] None;
   EAnd [#7] None;
   EAnd [#15] None;
   EAnd [#18] None;
   EAnd [#20] None;
   EAnd [#21] None;
   EAnd [#22] None;
   EAnd [#29] None;
   EOr [#180; #181; #182; #183; #184; #185; #186; #187; #188];
   EInject #179 #189;
   EAnd [#190] None;
   EAnd [#28] None;
   EOr [#191; #192];
   EToken #12;
   EAnd [#48] None;
   EToken #60;
   EAnd [#196; #5] None;
   EOr [#197];
   EOpt #198;
   EAnd [#199] None;
   EOr [#195; #200];
   EAnd [#38; #201] None;
   EToken #60;
   EOpt #203;
   EAnd [#204; #5] None;
   EOr [#202; #205];
   EToken #58;
   EAnd [#194; #206; #207] (Some #1);
   EOr [#208];
   EToken #67;
   EAnd [#210] None;
   ECall #150 [(#2, #6)];
   ECall #151 [(#3, #212)];
   EAnd [#213] None;
   EOr [#211; #214];
   EToken #18;
   EAnd [#216] None;
   EToken #92;
   EOpt #48;
   EAnd [#218; #219] (Some #1);
   EOr [#217; #220];
   EToken #7;
   EToken #6;
   EToken #92;
   EOpt #48;
   EToken #58;
   EAnd [#222; #223; #224; #225; #226] (Some #2);
   EOr [#227];
   EToken #21;
   EOpt #229;
   EToken #35;
   EOpt #231;
   EOpt #10;
   EToken #8;
   EToken #92;
   EOpt #31;
   EOpt #9;
   EOpt #37;
   EAnd [#91] None;
   EToken #58;
   EAnd [#240] None;
   EOr [#239; #241];
   EAnd [#230; #232; #233; #234; #235; #236; #11; #237; #238; #242] (Some #4);
   EOr [#243];
   EToken #51;
   EAnd [#245; #49] None;
   EToken #7;
   EToken #90;
   EOpt #248;
   EAnd [#247; #249] None;
   EOr [#250];
   EOpt #14;
   ECall #150 [(#2, #12)];
   EAnd [#252; #253] None;
   EOr [#254];
   ECall #152 [(#4, #255)];
   EAnd [#256] None;
   EToken #59;
   EAnd [#63; #258; #49] (Some #1);
   EOr [#259];
   EToken #59;
   EAnd [#261; #49] None;
   EOr [#262];
   EOpt #263;
   EAnd [#63; #264] None;
   EOr [#265];
   EAnd [#120] None;
   EToken #27;
   EAnd [#268] None;
   EOr [#267; #269];
   EOpt #270;
   EToken #18;
   EToken #59;
   EAnd [#273; #49] None;
   EOr [#274];
   EOpt #275;
   EToken #61;
   EAnd [#277] None;
   EEof;
   EAnd [#279] None;
   EOr [#278; #280];
   EAnd [#271; #272; #276; #281] (Some #2);
   EOr [#282];
   EToken #11;
   EAnd [#284] None;
   EContextual #4 [#117; #110; #105; #111; #110];
   EAnd [#286] None;
   EOr [#285; #287];
   EToken #92;
   EOpt #31;
   ECall #150 [(#2, #16)];
   ECall #151 [(#3, #291)];
   EAnd [#292] None;
   EToken #58;
   EAnd [#294] None;
   ECall #150 [(#2, #17)];
   ECall #152 [(#4, #296)];
   EToken #58;
   EAnd [#297; #298] None;
   EOr [#293; #295; #299];
   EAnd [#288; #289; #290; #300] (Some #1);
   EOr [#301];
   EOpt #36;
   EToken #92;
   EToken #59;
   EAnd [#303; #304; #305; #49] (Some #2);
   EOr [#306];
   EOpt #36;
   EAnd [#308; #49] None;
   EOr [#309];
   EToken #16;
   EToken #92;
   EOpt #31;
   ECall #150 [(#2, #19)];
   ECall #151 [(#3, #314)];
   EAnd [#311; #312; #313; #315] (Some #1);
   EOr [#316];
   EToken #92;
   EToken #53;
   EAnd [#319; #75] None;
   ECall #150 [(#2, #17)];
   ECall #152 [(#4, #321)];
   EAnd [#322] None;
   ECall #150 [(#2, #16)];
   ECall #151 [(#3, #324)];
   EAnd [#325] None;
   EOr [#320; #323; #326];
   EOpt #327;
   EAnd [#318; #328] (Some #1);
   EOr [#329];
   EToken #13;
   EToken #92;
   EToken #58;
   EAnd [#333] None;
   ECall #151 [(#3, #1)];
   EAnd [#335] None;
   EOr [#334; #336];
   EAnd [#331; #332; #337] (Some #1);
   EOr [#338];
   EToken #35;
   EOpt #340;
   EToken #17;
   EOpt #31;
   EToken #23;
   EAnd [#344; #49] None;
   EOr [#345];
   EOpt #346;
   EAnd [#49; #347] None;
   EOr [#348];
   EOpt #37;
   EAnd [#341; #342; #343; #349; #350; #23] (Some #2);
   EOr [#351];
   EOpt #36;
   EToken #29;
   EToken #92;
   EOpt #31;
   EOpt #33;
   EOpt #37;
   EAnd [#145; #353; #354; #355; #356; #357; #358; #23] (Some #3);
   EOr [#359];
   EOpt #36;
   EAnd [#145; #361] None;
   EOr [#362];
   EInject #363 #24;
   EAnd [#364] None;
   EAnd [#28] None;
   EOr [#365; #366];
   EWithSkip #25 #367;
   ERep #368;
   ECall #151 [(#3, #369)];
   EAnd [#370] None;
   EOr [#371];
   EAnd [#8] None;
   EAnd [#26] None;
   EAnd [#27] None;
   EAnd [#143] None;
   EToken #10;
   EAnd [#377] None;
   EToken #8;
   EAnd [#379] None;
   EToken #20;
   EAnd [#381] None;
   EToken #21;
   EAnd [#383] None;
   EToken #22;
   EAnd [#385] None;
   EToken #35;
   EAnd [#387] None;
   EToken #65;
   EAnd [#389] None;
   EToken #7;
   EAnd [#391] None;
   EToken #92;
   EToken #82;
   EAnd [#393; #394] None;
   EOr [#395];
   EAnd [#396] None;
   EToken #20;
   EToken #92;
   EOpt #31;
   EToken #53;
   EAnd [#401; #49] None;
   EOr [#402];
   EOpt #403;
   EToken #58;
   EAnd [#398; #399; #400; #404; #405] (Some #1);
   EOr [#406];
   EToken #21;
   EAnd [#408] None;
   EToken #22;
   EAnd [#410] None;
   EOr [#409; #411];
   EToken #92;
   EToken #59;
   EToken #53;
   EAnd [#415; #75] None;
   EOr [#416];
   EOpt #417;
   EToken #58;
   EAnd [#412; #413; #414; #49; #418; #419] (Some #1);
   EOr [#420];
   EAnd [#147] None;
   EToken #58;
   EAnd [#148; #423] None;
   EOr [#422; #424];
   ERep #30;
   ECall #151 [(#3, #426)];
   EAnd [#10; #427] None;
   EOr [#428];
   EOpt #36;
   EAnd [#145; #430] None;
   EOr [#431];
   EAnd [#8] None;
   EAnd [#27] None;
   EOr [#433; #434];
   EInject #432 #435;
   EAnd [#436] None;
   ECall #150 [(#2, #35)];
   ECall #150 [(#2, #32)];
   EAnd [#438; #439] None;
   EOr [#440];
   ECall #153 [(#5, #441)];
   EAnd [#442] None;
   EOr [#443];
   EToken #92;
   EOpt #33;
   EAnd [#445; #446] (Some #1);
   EOr [#447];
   EToken #59;
   EToken #73;
   EAnd [#450] None;
   EEof;
   EAnd [#452] None;
   EToken #61;
   EAnd [#454] None;
   EToken #39;
   EAnd [#456] None;
   EToken #36;
   EAnd [#458] None;
   EOr [#455; #457; #459];
   ENot #460;
   ENot #461;
   EAnd [#462] None;
   EOr [#451; #453; #463];
   EAnd [#34; #464] (Some #1);
   EOr [#465];
   ERep #466;
   EAnd [#449; #467] None;
   EToken #87;
   EAnd [#469] None;
   EAnd [#51] None;
   EAnd [#62] None;
   EOr [#470; #471; #472];
   EToken #87;
   EToken #59;
   EToken #87;
   EToken #73;
   EAnd [#477] None;
   EEof;
   EAnd [#479] None;
   EToken #61;
   ENot #481;
   ENot #482;
   EAnd [#483] None;
   EOr [#478; #480; #484];
   EAnd [#476; #485] (Some #1);
   EOr [#486];
   ERep #487;
   EAnd [#475; #488] None;
   EOr [#489];
   EOpt #490;
   EAnd [#474; #491] (Some #1);
   EOr [#492];
   EToken #10;
   EToken #6;
   EAnd [#495] None;
   EToken #19;
   EAnd [#497] None;
   EOr [#496; #498];
   ECall #152 [(#4, #499)];
   EOpt #500;
   EAnd [#494; #501] None;
   EOr [#502];
   EToken #36;
   EToken #61;
   EAnd [#505] None;
   EEof;
   EAnd [#507] None;
   EToken #39;
   ENot #509;
   ENot #510;
   EAnd [#511] None;
   EOr [#506; #508; #512];
   EAnd [#49; #33; #513] None;
   EOr [#514];
   ERep #515;
   EAnd [#504; #516] (Some #1);
   EOr [#517];
   EAnd [#41] None;
   EEnter #3 #41;
   EAnd [#520] None;
   EEnter #1 #41;
   EAnd [#522] None;
   EToken #60;
   EAnd [#524; #45] None;
   EOr [#525];
   EToken #60;
   EOpt #527;
   EAnd [#528; #45] None;
   EOr [#529];
   EToken #60;
   EAnd [#531; #45] None;
   EOr [#532];
   EAnd [#41; #533] None;
   EOr [#534];
   EToken #5;
   EAnd [#49; #536; #49] None;
   EOr [#537];
   ECall #153 [(#5, #538)];
   EToken #60;
   EAnd [#539; #540; #45] None;
   EOr [#541];
   EToken #92;
   EAnd [#543] None;
   EToken #18;
   EAnd [#545] None;
   EToken #19;
   EAnd [#547] None;
   EOr [#544; #546; #548];
   EAnd [#46] None;
   EIsIn #3;
   EAnd [#551; #47] None;
   EOr [#550; #552];
   EOpt #553;
   EAnd [#549; #554] None;
   EOr [#555];
   EIsIn #3;
   EAnd [#557] None;
   EIsIn #1;
   EToken #60;
   EAnd [#559; #560] None;
   EOr [#558; #561];
   EToken #87;
   ECall #150 [(#2, #563)];
   EToken #92;
   EToken #53;
   EAnd [#565; #566] None;
   EOr [#567];
   ENot #568;
   EAnd [#569; #49] None;
   EOr [#570];
   ECall #150 [(#2, #571)];
   EToken #92;
   EToken #53;
   EAnd [#573; #574; #49] None;
   EOr [#575];
   ECall #150 [(#2, #576)];
   EAnd [#564; #572; #577] None;
   EOr [#578];
   ECall #153 [(#5, #579)];
   EAnd [#562; #580] None;
   EOr [#581];
   ECall #150 [(#2, #49)];
   ECall #152 [(#4, #583)];
   EOpt #9;
   EAnd [#584; #585] None;
   EOr [#586];
   EToken #5;
   EToken #92;
   EAnd [#588; #589] None;
   EOr [#590];
   EToken #73;
   EAnd [#592; #34] None;
   EOr [#593];
   ERep #594;
   EAnd [#50; #595] None;
   EOr [#596];
   EAnd [#51] None;
   EAnd [#52] None;
   EAnd [#53] None;
   EAnd [#54] None;
   EAnd [#55] None;
   EAnd [#56] None;
   EAnd [#58] None;
   EAnd [#59] None;
   EAnd [#60] None;
   EAnd [#62] None;
   EAnd [#39] None;
   EOr [#608];
   EAnd [#120; #49] None;
   EOr [#610];
   EToken #67;
   EToken #21;
   EAnd [#613] None;
   EToken #27;
   EAnd [#615] None;
   EOr [#614; #616];
   EAnd [#612; #617; #49] None;
   EOr [#618];
   EToken #81;
   EAnd [#620] None;
   EOr [#621];
   EToken #37;
   EToken #38;
   EAnd [#623; #624] None;
   EOr [#625];
   EOpt #57;
   EAnd [#49; #627] None;
   EOr [#628];
   ECall #152 [(#4, #629)];
   EAnd [#630] None;
   EOr [#631];
   EToken #61;
   ECall #150 [(#2, #49)];
   EAnd [#633; #634] None;
   EOr [#635];
   EToken #82;
   EAnd [#637] None;
   EOr [#638];
   EToken #58;
   EAnd [#640; #75] None;
   EOr [#641];
   EOpt #642;
   EAnd [#49; #643] None;
   EOr [#644];
   ECall #154 [(#6, #645)];
   EAnd [#646] None;
   EOr [#647];
   EOpt #10;
   EToken #8;
   ECall #150 [(#2, #61)];
   ECall #152 [(#4, #651)];
   EOpt #9;
   EAnd [#649; #650; #652; #653] (Some #2);
   EOr [#654];
   EToken #59;
   EAnd [#63; #656] None;
   EOr [#657];
   EOpt #658;
   EAnd [#659; #49] None;
   EOr [#660];
   EToken #23;
   EAnd [#662; #31; #49] (Some #1);
   EOr [#663];
   EAnd [#64] None;
   EAnd [#65] None;
   EAnd [#69] None;
   EAnd [#70] None;
   EAnd [#71] None;
   EAnd [#72] None;
   EAnd [#74] None;
   EToken #81;
   EAnd [#672] None;
   EOr [#673];
   EAnd [#66] None;
   EAnd [#67] None;
   EOr [#675; #676];
   EOpt #677;
   EAnd [#40; #678] None;
   EOr [#679];
   ECall #150 [(#2, #63)];
   EToken #63;
   EToken #61;
   EOpt #683;
   EAnd [#682; #684] None;
   EOr [#685];
   EOpt #686;
   EAnd [#681; #687] None;
   EOr [#688];
   ECall #152 [(#4, #689)];
   EAnd [#690] None;
   EOr [#691];
   ECall #150 [(#2, #68)];
   EToken #63;
   EToken #61;
   EOpt #695;
   EAnd [#694; #696] None;
   EOr [#697];
   EOpt #698;
   EAnd [#693; #699] None;
   EOr [#700];
   ECall #151 [(#3, #701)];
   EAnd [#702] None;
   EOr [#703];
   EToken #59;
   ENot #705;
   EAnd [#69; #706] None;
   EToken #92;
   EToken #59;
   EAnd [#708; #709; #63] (Some #2);
   EOr [#707; #710];
   EToken #28;
   EOpt #712;
   EToken #27;
   EOpt #714;
   EToken #92;
   EAnd [#713; #715; #716] None;
   EOr [#717];
   EAnd [#79] None;
   EOr [#719];
   EToken #37;
   EToken #38;
   EAnd [#721; #722] None;
   EOr [#723];
   EOpt #73;
   EAnd [#63; #725] None;
   EOr [#726];
   ECall #152 [(#4, #727)];
   EAnd [#728] None;
   EOr [#729];
   EToken #61;
   ECall #150 [(#2, #63)];
   EAnd [#731; #732] None;
   EOr [#733];
   EToken #77;
   EToken #27;
   EOpt #736;
   EAnd [#735; #737; #63] None;
   EOr [#738];
   EToken #62;
   EToken #92;
   EEnter #1 #46;
   EOpt #742;
   EAnd [#740; #741; #743; #113] None;
   EOr [#744];
   EIsIn #2;
   ENot #77;
   EAnd [#746; #747] None;
   EIsIn #2;
   ENot #749;
   EAnd [#750] None;
   EOr [#748; #751];
   EAnd [#752; #113] None;
   EOr [#753];
   EToken #62;
   EToken #92;
   EAnd [#756] None;
   EToken #89;
   EAnd [#758] None;
   EOr [#757; #759];
   EAnd [#755; #760] None;
   EOr [#761];
   ECall #154 [(#6, #75)];
   EToken #83;
   EToken #5;
   EAnd [#765; #49] None;
   EOr [#766];
   EToken #67;
   EToken #75;
   EToken #82;
   EToken #67;
   EAnd [#771] None;
   EToken #69;
   EAnd [#773] None;
   EToken #71;
   EAnd [#775] None;
   EOr [#772; #774; #776];
   ECall #127 [(#1, #777)];
   EToken #73;
   EAnd [#779] None;
   EToken #75;
   EAnd [#781] None;
   EOr [#780; #782];
   ECall #127 [(#1, #783)];
   EContextual #45 [#60; #60];
   EAnd [#785] None;
   EContextual #47 [#62; #62];
   EAnd [#787] None;
   EOr [#786; #788];
   ECall #127 [(#1, #789)];
   EToken #77;
   EToken #77;
   ENot #792;
   EAnd [#791; #793] None;
   EOr [#794];
   ECall #127 [(#1, #795)];
   EToken #84;
   ECall #127 [(#1, #797)];
   EToken #79;
   EToken #79;
   ENot #800;
   EAnd [#799; #801] None;
   EOr [#802];
   ECall #127 [(#1, #803)];
   ECall #127 [(#1, #132)];
   EContextual #49 [#38; #38];
   ECall #127 [(#1, #806)];
   EContextual #50 [#124; #124];
   ECall #127 [(#1, #808)];
   ECall #127 [(#1, #140)];
   EToken #53;
   EAnd [#811] None;
   EToken #74;
   EAnd [#813] None;
   EToken #76;
   EAnd [#815] None;
   EToken #68;
   EAnd [#817] None;
   EToken #70;
   EAnd [#819] None;
   EToken #72;
   EAnd [#821] None;
   EToken #78;
   EAnd [#823] None;
   EToken #80;
   EAnd [#825] None;
   EToken #85;
   EAnd [#827] None;
   EContextual #48 [#62; #62; #61];
   EAnd [#829] None;
   EContextual #46 [#60; #60; #61];
   EAnd [#831] None;
   EOr [#812; #814; #816; #818; #820; #822; #824; #826; #828; #830; #832];
   ECall #127 [(#1, #833)];
   EAnd [#79] None;
   EToken #92;
   EAnd [#836] None;
   EToken #87;
   EAnd [#838] None;
   EToken #18;
   EAnd [#840] None;
   EToken #19;
   EAnd [#842] None;
   EToken #41;
   EAnd [#844] None;
   EToken #60;
   EAnd [#846] None;
   EToken #37;
   EAnd [#848] None;
   EToken #43;
   EAnd [#850] None;
   EToken #79;
   EAnd [#852] None;
   EToken #31;
   EAnd [#854] None;
   EToken #39;
   EAnd [#856] None;
   EToken #14;
   EAnd [#858] None;
   EToken #25;
   EAnd [#860] None;
   EToken #24;
   EAnd [#862] None;
   EToken #23;
   EAnd [#864] None;
   EToken #30;
   EAnd [#866] None;
   EToken #26;
   EAnd [#868] None;
   EToken #32;
   EAnd [#870] None;
   EToken #33;
   EAnd [#872] None;
   EToken #77;
   EAnd [#874] None;
   EToken #67;
   EAnd [#876] None;
   EToken #75;
   EAnd [#878] None;
   EToken #82;
   EAnd [#880] None;
   EToken #63;
   EAnd [#882] None;
   EToken #64;
   EAnd [#884] None;
   EPrevIs [#163; #168; #169; #170; #171; #172; #175];
   EAnd [#886] None;
   EVar #0;
   EExit #2 #888;
   EExit #0 #889;
   EAnd [#890] None;
   EToken #89;
   EAnd [#892] None;
   EToken #90;
   EAnd [#894] None;
   EToken #91;
   EAnd [#896] None;
   EToken #86;
   EAnd [#898] None;
   EToken #88;
   EAnd [#900] None;
   EOr [#893; #895; #897; #899; #901];
   EToken #92;
   EToken #82;
   EAnd [#903; #904] None;
   EOr [#905];
   ENot #906;
   EOpt #81;
   EAnd [#907; #40; #908] None;
   EOr [#909];
   EIsIn #0;
   ENot #911;
   ECall #150 [(#2, #82)];
   EToken #63;
   ECall #78 [(#0, #75)];
   EAnd [#914; #915] None;
   EOr [#916];
   EOpt #917;
   EAnd [#913; #918] None;
   EOr [#919];
   ECall #151 [(#3, #920)];
   EAnd [#912; #921] None;
   EOr [#922];
   EToken #92;
   EToken #59;
   EAnd [#925; #75] None;
   EOr [#926];
   EOpt #927;
   EAnd [#924; #928] (Some #1);
   EOr [#929];
   EToken #37;
   EToken #38;
   EAnd [#931; #932] None;
   EOr [#933];
   ECall #78 [(#0, #75)];
   EOpt #85;
   EAnd [#935; #936] None;
   EOr [#937];
   ECall #152 [(#4, #938)];
   EAnd [#939] None;
   EOr [#940];
   EToken #61;
   ECall #78 [(#0, #75)];
   ECall #150 [(#2, #943)];
   EAnd [#942; #944] None;
   EOr [#945];
   EToken #58;
   EAnd [#947; #75] None;
   EToken #61;
   ECall #150 [(#2, #75)];
   EAnd [#949; #950] None;
   EOr [#948; #951];
   EOpt #952;
   EAnd [#75; #953] None;
   EOr [#954];
   ECall #78 [(#0, #955)];
   ECall #154 [(#6, #956)];
   EAnd [#957] None;
   EOr [#958];
   EToken #26;
   EOpt #960;
   EToken #79;
   ERep #88;
   EToken #79;
   EToken #51;
   EAnd [#965; #49; #91] None;
   ECall #78 [(#0, #75)];
   EAnd [#967] None;
   EOr [#966; #968];
   EAnd [#961; #962; #963; #964; #969] None;
   EOr [#970];
   EToken #61;
   EAnd [#972] None;
   EToken #79;
   ENot #974;
   ENot #975;
   EAnd [#976] None;
   EOr [#973; #977];
   EAnd [#13; #978] (Some #1);
   EToken #31;
   EOpt #75;
   EAnd [#980; #981] None;
   EOr [#982];
   EToken #33;
   EAnd [#984] None;
   EToken #32;
   EAnd [#986] None;
   EOr [#985; #987];
   EToken #87;
   EOpt #989;
   EAnd [#988; #990] None;
   EOr [#991];
   EToken #35;
   EOpt #993;
   EWithSkip #93 #92;
   ERep #995;
   ECall #151 [(#3, #996)];
   EAnd [#994; #997] None;
   EOr [#998];
   ECall #78 [(#0, #999)];
   EAnd [#1000] None;
   EOr [#1001];
   EAnd [#94] None;
   EAnd [#96] None;
   EAnd [#3] None;
   EAnd [#97] None;
   EToken #9;
   EAnd [#1007] None;
   EToken #58;
   EAnd [#1009] None;
   EAnd [#2] None;
   EAnd [#76] None;
   EToken #9;
   EOpt #95;
   EToken #53;
   EAnd [#1015; #75] (Some #1);
   EOr [#1016];
   EOpt #1017;
   EToken #58;
   EAnd [#1013; #63; #1014; #1018; #1019] (Some #1);
   EOr [#1020];
   EToken #59;
   EAnd [#1022; #49] None;
   EOr [#1023];
   EToken #58;
   EAnd [#1025] None;
   EOr [#1026];
   EAnd [#77] None;
   EEof;
   EAnd [#1029] None;
   EToken #58;
   EAnd [#1031] None;
   EOr [#1028; #1030; #1032];
   EAnd [#75; #1033] (Some #1);
   EOr [#1034];
   EEnter #2 #1035;
   EAnd [#1036] None;
   EOr [#1037];
   EToken #14;
   EToken #15;
   EAnd [#91] None;
   EAnd [#98] None;
   EOr [#1041; #1042];
   EAnd [#1040; #1043] None;
   EOr [#1044];
   EOpt #1045;
   EAnd [#1039; #100; #91; #1046] (Some #1);
   EOr [#1047];
   EOpt #104;
   EToken #25;
   EAnd [#1049; #1050; #100; #91] (Some #2);
   EOr [#1051];
   EToken #9;
   EToken #53;
   EAnd [#1053; #63; #1054] (Some #1);
   EOr [#1055];
   EOpt #1056;
   EAnd [#1057; #101] (Some #1);
   EEnter #0 #75;
   EAnd [#1059] None;
   EOpt #104;
   EToken #24;
   EAnd [#1061; #1062; #91] (Some #2);
   EOr [#1063];
   EOpt #104;
   EToken #23;
   EToken #34;
   EAnd [#1065; #1066; #63; #1067; #101; #91] (Some #2);
   EOr [#1068];
   EToken #87;
   EToken #59;
   EAnd [#1070; #1071] None;
   EToken #30;
   ERep #106;
   ECall #151 [(#3, #1074)];
   EAnd [#1073; #101; #1075] (Some #1);
   EOr [#1076];
   EToken #52;
   EEnter #2 #75;
   EToken #61;
   EAnd [#1080] None;
   EEof;
   EAnd [#1082] None;
   EAnd [#77] None;
   EOr [#1081; #1083; #1084];
   EAnd [#107; #1078; #1079; #1085] (Some #1);
   EOr [#1086];
   EToken #79;
   EAnd [#1088; #63] None;
   EOr [#1089];
   ERep #1090;
   EOpt #108;
   EAnd [#63; #1091; #1092] None;
   EToken #14;
   EAnd [#1094; #75] None;
   EOr [#1095];
   EAnd [#147] None;
   EOr [#1097];
   EAnd [#148] None;
   EOr [#1099];
   EToken #62;
   EToken #92;
   EEnter #1 #46;
   EOpt #1103;
   EAnd [#1101; #1102; #1104; #113] None;
   EOr [#1105];
   EAnd [#75; #1106] None;
   EOr [#1107];
   EIsIn #2;
   ENot #77;
   EAnd [#1109; #1110] None;
   EIsIn #2;
   ENot #1112;
   EAnd [#1113] None;
   EOr [#1111; #1114];
   EAnd [#1115; #113] None;
   EOr [#1116];
   EAnd [#75; #1117] None;
   EOr [#1118];
   ECall #150 [(#2, #114)];
   ECall #152 [(#4, #1120)];
   ECall #78 [(#0, #1121)];
   EAnd [#1122] None;
   EAnd [#75] None;
   EOr [#1124];
   EToken #62;
   EToken #92;
   EAnd [#1127] None;
   EToken #89;
   EAnd [#1129] None;
   EOr [#1128; #1130];
   EAnd [#1126; #1131] None;
   EOr [#1132];
   EAnd [#75; #1133] None;
   EOr [#1134];
   ECall #154 [(#6, #75)];
   EAnd [#75; #1136] None;
   EOr [#1137];
   EToken #83;
   EAnd [#75; #1139] None;
   EOr [#1140];
   EToken #5;
   EAnd [#1142; #49] None;
   EOr [#1143];
   EAnd [#75; #1144] None;
   EOr [#1145];
   EAnd [#120; #75] None;
   EOr [#1147];
   EToken #77;
   EToken #87;
   EOpt #1150;
   EToken #27;
   EOpt #1152;
   EAnd [#1149; #1151; #1153] None;
   EToken #67;
   EAnd [#1155; #75] None;
   EOr [#1156];
   EToken #75;
   EAnd [#1158; #75] None;
   EOr [#1159];
   EToken #82;
   EAnd [#1161; #75] None;
   EOr [#1162];
   EToken #67;
   EAnd [#1164] None;
   EToken #69;
   EAnd [#1166] None;
   EToken #71;
   EAnd [#1168] None;
   EOr [#1165; #1167; #1169];
   ECall #127 [(#1, #1170)];
   EAnd [#75; #1171; #75] None;
   EOr [#1172];
   EToken #73;
   EAnd [#1174] None;
   EToken #75;
   EAnd [#1176] None;
   EOr [#1175; #1177];
   ECall #127 [(#1, #1178)];
   EAnd [#75; #1179; #75] None;
   EOr [#1180];
   EContextual #45 [#60; #60];
   EAnd [#1182] None;
   EContextual #47 [#62; #62];
   EAnd [#1184] None;
   EOr [#1183; #1185];
   ECall #127 [(#1, #1186)];
   EAnd [#75; #1187; #75] None;
   EOr [#1188];
   EIsIn #2;
   ENot #77;
   EVar #1;
   EAnd [#1190; #1191; #1192] None;
   EIsIn #2;
   ENot #1194;
   EVar #1;
   EAnd [#1195; #1196] None;
   EToken #77;
   EToken #77;
   ENot #1199;
   EAnd [#1198; #1200] None;
   EOr [#1201];
   ECall #127 [(#1, #1202)];
   EAnd [#75; #1203; #75] None;
   EOr [#1204];
   EToken #84;
   ECall #127 [(#1, #1206)];
   EAnd [#75; #1207; #75] None;
   EOr [#1208];
   EToken #79;
   EToken #79;
   ENot #1211;
   EAnd [#1210; #1212] None;
   EOr [#1213];
   ECall #127 [(#1, #1214)];
   EAnd [#75; #1215; #75] None;
   EOr [#1216];
   ECall #127 [(#1, #132)];
   EAnd [#75; #1218; #75] None;
   EOr [#1219];
   EToken #54;
   EAnd [#1221] None;
   EToken #55;
   EAnd [#1223] None;
   EToken #41;
   EAnd [#1225] None;
   EToken #42;
   EAnd [#1227] None;
   EToken #57;
   EAnd [#1229] None;
   EToken #56;
   EAnd [#1231] None;
   EContextual #49 [#38; #38];
   ECall #127 [(#1, #1233)];
   EAnd [#75; #1234; #75] None;
   EOr [#1235];
   EContextual #50 [#124; #124];
   ECall #127 [(#1, #1237)];
   EAnd [#75; #1238; #75] None;
   EOr [#1239];
   ECall #127 [(#1, #140)];
   EAnd [#75; #1241; #75] None;
   EOr [#1242];
   EAnd [#140; #75] None;
   EOr [#1244];
   EAnd [#75; #139] None;
   EOr [#1246];
   EToken #63;
   ENot #76;
   EAnd [#1248; #1249] None;
   EOr [#1250];
   EToken #63;
   EAnd [#1252] None;
   EToken #64;
   EAnd [#1254] None;
   ENot #76;
   ENot #1256;
   EToken #39;
   EIsIn #0;
   EAnd [#1258; #1259] None;
   EOr [#1260];
   ENot #1261;
   EAnd [#139; #1257; #1262] None;
   EToken #53;
   EAnd [#1264] None;
   EToken #74;
   EAnd [#1266] None;
   EToken #76;
   EAnd [#1268] None;
   EToken #68;
   EAnd [#1270] None;
   EToken #70;
   EAnd [#1272] None;
   EToken #72;
   EAnd [#1274] None;
   EToken #78;
   EAnd [#1276] None;
   EToken #80;
   EAnd [#1278] None;
   EToken #85;
   EAnd [#1280] None;
   EContextual #48 [#62; #62; #61];
   EAnd [#1282] None;
   EContextual #46 [#60; #60; #61];
   EAnd [#1284] None;
   EOr [#1265; #1267; #1269; #1271; #1273; #1275; #1277; #1279; #1281; #1283; #1285];
   ECall #127 [(#1, #1286)];
   EAnd [#75; #1287; #75] None;
   EOr [#1288];
   EToken #65;
   EAnd [#1290; #144] None;
   EOr [#1291];
   EToken #65;
   EToken #82;
   EAnd [#1293; #1294; #144] None;
   EOr [#1295];
   ECall #150 [(#2, #146)];
   ECall #154 [(#6, #1297)];
   EAnd [#1298] None;
   ERep #142;
   EAnd [#1300] None;
   EToken #92;
   EToken #53;
   EAnd [#1303; #75] None;
   ECall #150 [(#2, #146)];
   ECall #152 [(#4, #1305)];
   EAnd [#1306] None;
   EOr [#1304; #1307];
   EOpt #1308;
   EAnd [#1302; #1309] (Some #1);
   EOr [#1310];
   EToken #92;
   EToken #82;
   EToken #92;
   EOpt #1314;
   ERep #149;
   ECall #151 [(#3, #1316)];
   EAnd [#1312; #1313; #1315; #1317] None;
   EOr [#1318];
   EToken #92;
   EToken #82;
   EToken #92;
   EOpt #1322;
   EToken #37;
   ERep #149;
   EToken #38;
   EAnd [#1324; #1325; #1326] None;
   EToken #43;
   ERep #149;
   EToken #44;
   EAnd [#1328; #1329; #1330] None;
   EOr [#1327; #1331];
   EAnd [#1320; #1321; #1323; #1332] None;
   EOr [#1333];
   EToken #37;
   EAnd [#1335] None;
   EToken #38;
   EAnd [#1337] None;
   EToken #39;
   EAnd [#1339] None;
   EToken #40;
   EAnd [#1341] None;
   EToken #43;
   EAnd [#1343] None;
   EToken #44;
   EAnd [#1345] None;
   EOr [#1336; #1338; #1340; #1342; #1344; #1346];
   ENot #1347;
   EAny;
   EAnd [#1348; #1349] None;
   EToken #37;
   ERep #149;
   EToken #38;
   EAnd [#1351; #1352; #1353] None;
   EToken #43;
   ERep #149;
   EToken #44;
   EAnd [#1355; #1356; #1357] None;
   EToken #39;
   ERep #149;
   EToken #40;
   EAnd [#1359; #1360; #1361] None;
   EOr [#1350; #1354; #1358; #1362];
   EVar #2;
   EEof;
   EAnd [#1365] None;
   EToken #61;
   EAnd [#1367] None;
   EOr [#1366; #1368];
   EAnd [#1364; #1369] (Some #1);
   EOr [#1370];
   ERep #1371;
   EAnd [#1372] None;
   EToken #39;
   EToken #40;
   EVar #3;
   ECall #155 [(#7, #1374); (#8, #1375); (#9, #1376)];
   EAnd [#1377] None;
   EToken #37;
   EToken #38;
   EVar #4;
   ECall #155 [(#7, #1379); (#8, #1380); (#9, #1381)];
   EAnd [#1382] None;
   EToken #41;
   EToken #42;
   EVar #5;
   ECall #155 [(#7, #1384); (#8, #1385); (#9, #1386)];
   EAnd [#1387] None;
   EToken #43;
   EToken #44;
   EVar #6;
   ECall #155 [(#7, #1389); (#8, #1390); (#9, #1391)];
   EAnd [#1392] None;
   EVar #7;
   EVar #7;
   EVar #8;
   ECall #156 [(#10, #1395); (#11, #1396)];
   EVar #9;
   ELayer #1397 #1398;
   EVar #8;
   EAnd [#1394; #1399; #1400] (Some #1);
   EVar #10;
   EVar #10;
   EVar #11;
   ECall #156 [(#10, #1403); (#11, #1404)];
   EVar #11;
   EAnd [#1402; #1405; #1406] (Some #1);
   EVar #11;
   ENot #1408;
   EAny;
   EAnd [#1409; #1410] None;
   EOr [#1411];
   EAnd [#1412] None;
   EOr [#1407; #1413];
   ERep #1414;
   EAnd [#1415] None].

(** lang/rust/syntax/src/rust.rs, the types with [whitespace_like: true] *)
Definition rust_ws (ty : nat) : bool := memb ty [#100; #101; #102].

Definition rust_cert : cert := mkCert
  [mkInfo #22 [] [] true (mkShape false true false false) false true;
   mkInfo #19 [] [] true (mkShape true true false true) false true;
   mkInfo #6 [] [] false (mkShape false false false true) true false;
   mkInfo #15 [] [] false (mkShape false false false true) false false;
   mkInfo #3 [] [] false (mkShape false true false false) false false;
   mkInfo #10 [] [] false (mkShape false true false false) false false;
   mkInfo #3 [] [] false (mkShape false true false false) true false;
   mkInfo #3 [] [] false (mkShape false true false false) true false;
   mkInfo #7 [] [] false (mkShape false true false false) false false;
   mkInfo #2 [] [] false (mkShape false false false true) false false;
   mkInfo #3 [] [] false (mkShape false true false false) true false;
   mkInfo #9 [] [] false (mkShape false false false true) false false;
   mkInfo #22 [] [] false (mkShape false true false false) false false;
   mkInfo #22 [] [] false (mkShape false true false false) false false;
   mkInfo #8 [] [] false (mkShape false true false false) false false;
   mkInfo #5 [] [] false (mkShape false true false false) false false;
   mkInfo #7 [] [] false (mkShape false true false false) false false;
   mkInfo #25 [] [] false (mkShape false true false false) false false;
   mkInfo #3 [] [] false (mkShape false true false false) false false;
   mkInfo #3 [] [] false (mkShape false true false false) false false;
   mkInfo #3 [] [] false (mkShape false true false false) false false;
   mkInfo #4 [] [] false (mkShape false true false false) false false;
   mkInfo #9 [] [] false (mkShape false true false false) false false;
   mkInfo #10 [] [] false (mkShape false true false false) false false;
   mkInfo #9 [] [] false (mkShape false true false false) false false;
   mkInfo #4 [] [] false (mkShape false false false true) true false;
   mkInfo #3 [] [] false (mkShape false true false false) false false;
   mkInfo #5 [] [] false (mkShape false true false false) false false;
   mkInfo #6 [] [] false (mkShape false true false false) false false;
   mkInfo #6 [] [] false (mkShape false true false false) false false;
   mkInfo #12 [] [] false (mkShape false true true false) false false;
   mkInfo #10 [] [] false (mkShape false true false false) false false;
   mkInfo #3 [] [] false (mkShape false true false false) false false;
   mkInfo #2 [] [] false (mkShape false false false true) false false;
   mkInfo #20 [] [] false (mkShape false true false false) false false;
   mkInfo #3 [] [] false (mkShape false true false false) true false;
   mkInfo #3 [] [] false (mkShape false true false false) false false;
   mkInfo #3 [] [] false (mkShape false true false false) false false;
   mkInfo #13 [] [] false (mkShape false true true false) false false;
   mkInfo #14 [] [] false (mkShape false true true false) false false;
   mkInfo #14 [] [] false (mkShape false true true false) false false;
   mkInfo #11 [] [] false (mkShape false true true false) false false;
   mkInfo #8 [] [] false (mkShape false true false false) false false;
   mkInfo #14 [] [] false (mkShape false true false false) false false;
   mkInfo #10 [] [] false (mkShape false true false false) false false;
   mkInfo #5 [] [] false (mkShape false true false false) false false;
   mkInfo #10 [] [] false (mkShape false true false false) false false;
   mkInfo #10 [] [] false (mkShape false true false false) false false;
   mkInfo #3 [] [] false (mkShape false true false false) true false;
   mkInfo #22 [] [] false (mkShape false true false false) false false;
   mkInfo #19 [] [] false (mkShape false true false false) false false;
   mkInfo #17 [] [] false (mkShape false true false false) false false;
   mkInfo #5 [] [] false (mkShape false true false false) false false;
   mkInfo #3 [] [] false (mkShape false true false false) false false;
   mkInfo #3 [] [] false (mkShape false true false false) true false;
   mkInfo #3 [] [] false (mkShape false true false false) true false;
   mkInfo #10 [] [] false (mkShape false true false false) false false;
   mkInfo #3 [] [] false (mkShape false false false true) false false;
   mkInfo #3 [] [] false (mkShape false true false false) true false;
   mkInfo #10 [] [] false (mkShape false true false false) false false;
   mkInfo #7 [] [] false (mkShape false true false false) false false;
   mkInfo #25 [] [] false (mkShape false true false false) false false;
   mkInfo #3 [] [] false (mkShape false true false false) false false;
   mkInfo #19 [] [] false (mkShape false true false false) false false;
   mkInfo #3 [] [] false (mkShape false true false false) true false;
   mkInfo #17 [] [] false (mkShape false true false false) false false;
   mkInfo #10 [] [] false (mkShape false false false true) false false;
   mkInfo #10 [] [] false (mkShape false false false true) false false;
   mkInfo #7 [] [] false (mkShape false true false false) false false;
   mkInfo #4 [] [] false (mkShape false true false false) true false;
   mkInfo #6 [] [] false (mkShape false true false false) true false;
   mkInfo #3 [] [] false (mkShape false true false false) true false;
   mkInfo #10 [] [] false (mkShape false true false false) false false;
   mkInfo #3 [] [] false (mkShape false false false true) false false;
   mkInfo #3 [] [] false (mkShape false true false false) false false;
   mkInfo #19 [] [] false (mkShape false true true false) false false;
   mkInfo #5 [] [] false (mkShape false true false true) true false;
   mkInfo #2 [] [] true (mkShape true false false false) true false;
   mkInfo #5 [#0] [#0] false (mkShape false true true true) false false;
   mkInfo #3 [] [] false (mkShape false true false false) true false;
   mkInfo #17 [] [] false (mkShape false true false false) false false;
   mkInfo #10 [] [] false (mkShape false false false true) false false;
   mkInfo #3 [] [] false (mkShape false true false false) false false;
   mkInfo #3 [] [] false (mkShape false true false false) true false;
   mkInfo #10 [] [] false (mkShape false true false false) false false;
   mkInfo #3 [] [] false (mkShape false false false true) false false;
   mkInfo #10 [] [] false (mkShape false true false false) false false;
   mkInfo #4 [] [] false (mkShape false true false false) false false;
   mkInfo #24 [] [] false (mkShape false true false false) false false;
   mkInfo #3 [] [] false (mkShape false true false false) false false;
   mkInfo #5 [] [] false (mkShape false true false false) true false;
   mkInfo #18 [] [] false (mkShape false true false false) false false;
   mkInfo #27 [] [] false (mkShape false true false true) false false;
   mkInfo #8 [] [] false (mkShape false true false true) true false;
   mkInfo #3 [] [] false (mkShape false true false false) false false;
   mkInfo #3 [] [] false (mkShape false true false false) false false;
   mkInfo #3 [] [] false (mkShape false true false false) true false;
   mkInfo #25 [] [] false (mkShape false true false false) false false;
   mkInfo #3 [] [] false (mkShape false true false false) false false;
   mkInfo #6 [] [] false (mkShape false true false false) false false;
   mkInfo #24 [] [] true (mkShape false true true true) false true;
   mkInfo #22 [] [] false (mkShape false true true false) false false;
   mkInfo #6 [] [] false (mkShape false true false false) false false;
   mkInfo #6 [] [] false (mkShape false true false false) false false;
   mkInfo #2 [] [] false (mkShape false false false true) true false;
   mkInfo #3 [] [] false (mkShape false true false false) false false;
   mkInfo #24 [] [] false (mkShape false true false false) false false;
   mkInfo #21 [] [] false (mkShape false true false false) false false;
   mkInfo #3 [] [] false (mkShape false true false false) false false;
   mkInfo #6 [] [] false (mkShape false true false false) false false;
   mkInfo #6 [] [] false (mkShape false true false false) true false;
   mkInfo #22 [] [] false (mkShape false true false false) false false;
   mkInfo #22 [] [] false (mkShape false true false false) false false;
   mkInfo #15 [] [] false (mkShape false true true true) false false;
   mkInfo #22 [] [] false (mkShape false true false false) false false;
   mkInfo #22 [] [] false (mkShape false true false false) false false;
   mkInfo #22 [] [] false (mkShape false true false false) false false;
   mkInfo #22 [] [] false (mkShape false true false false) false false;
   mkInfo #22 [] [] false (mkShape false true false false) false false;
   mkInfo #5 [] [] false (mkShape false true false false) false false;
   mkInfo #2 [] [] false (mkShape false false false true) true false;
   mkInfo #3 [] [] false (mkShape false true false false) false false;
   mkInfo #3 [] [] false (mkShape false true false false) false false;
   mkInfo #3 [] [] false (mkShape false true false false) false false;
   mkInfo #22 [] [] false (mkShape false true false false) false false;
   mkInfo #22 [] [] false (mkShape false true false false) false false;
   mkInfo #22 [] [] false (mkShape false true false false) false false;
   mkInfo #5 [#1] [#1] false (mkShape false false false true) true false;
   mkInfo #22 [] [] false (mkShape false true false false) false false;
   mkInfo #22 [] [] false (mkShape false true false false) false false;
   mkInfo #22 [] [] false (mkShape false true false false) false false;
   mkInfo #22 [] [] false (mkShape false true false false) false false;
   mkInfo #2 [] [] false (mkShape false false false true) true false;
   mkInfo #22 [] [] false (mkShape false true false false) false false;
   mkInfo #22 [] [] false (mkShape false true false false) false false;
   mkInfo #22 [] [] false (mkShape false true false false) false false;
   mkInfo #7 [] [] false (mkShape false true false false) false false;
   mkInfo #22 [] [] false (mkShape false true false false) false false;
   mkInfo #3 [] [] false (mkShape false true false false) true false;
   mkInfo #2 [] [] false (mkShape false false false true) true false;
   mkInfo #4 [] [] false (mkShape false false false true) true false;
   mkInfo #22 [] [] false (mkShape false true false false) false false;
   mkInfo #3 [] [] false (mkShape false true false false) false false;
   mkInfo #3 [] [] false (mkShape false true false false) false false;
   mkInfo #9 [] [] false (mkShape false false false true) false false;
   mkInfo #6 [] [] true (mkShape true true false false) false true;
   mkInfo #3 [] [] false (mkShape false true false false) false false;
   mkInfo #3 [] [] false (mkShape false true false false) false false;
   mkInfo #3 [] [] false (mkShape false true false false) true false;
   mkInfo #6 [] [] false (mkShape false true false false) true false;
   mkInfo #6 [#2] [#2] true (mkShape true true true true) false true;
   mkInfo #6 [#3] [] false (mkShape false false false true) false false;
   mkInfo #6 [#4] [] false (mkShape false false false true) false false;
   mkInfo #6 [#5] [] false (mkShape false false false true) false false;
   mkInfo #6 [#6] [] false (mkShape false false false true) false false;
   mkInfo #3 [#7; #8; #9] [#7] false (mkShape false false false true) false false;
   mkInfo #9 [#10; #11] [#10; #11] true (mkShape true false false true) true true;
   mkInfo #20 [] [] true (mkShape true true false true) false true;
   mkInfo #21 [] [] true (mkShape true true false true) false true;
   mkInfo #16 [] [] false (mkShape false true false true) false false;
   mkInfo #17 [] [] true (mkShape true true false true) false true;
   mkInfo #18 [] [] true (mkShape true true false true) false true;
   mkInfo #0 [] [] false (mkShape false false false true) true false;
   mkInfo #1 [] [] false (mkShape false false false true) true false;
   mkInfo #0 [] [] false (mkShape false false false true) true false;
   mkInfo #1 [] [] false (mkShape false false false true) true false;
   mkInfo #0 [] [] false (mkShape false false false true) true false;
   mkInfo #1 [] [] false (mkShape false false false true) true false;
   mkInfo #0 [] [] false (mkShape false false false true) true false;
   mkInfo #1 [] [] false (mkShape false false false true) true false;
   mkInfo #0 [] [] false (mkShape false false false true) true false;
   mkInfo #1 [] [] false (mkShape false false false true) true false;
   mkInfo #0 [] [] false (mkShape false false false true) true false;
   mkInfo #1 [] [] false (mkShape false false false true) true false;
   mkInfo #0 [] [] false (mkShape false false false true) true false;
   mkInfo #1 [] [] false (mkShape false false false true) true false;
   mkInfo #5 [] [] false (mkShape false false false true) true false;
   mkInfo #4 [] [] true (mkShape true true false false) false true;
   mkInfo #7 [] [] true (mkShape true true false false) false true;
   mkInfo #8 [] [] true (mkShape true true false false) false true;
   mkInfo #10 [] [] false (mkShape false true false false) false false;
   mkInfo #4 [] [] false (mkShape false true false false) false false;
   mkInfo #4 [] [] false (mkShape false true false false) true false;
   mkInfo #6 [] [] false (mkShape false true false false) false false;
   mkInfo #4 [] [] false (mkShape false true false false) false false;
   mkInfo #4 [] [] false (mkShape false true false false) false false;
   mkInfo #5 [] [] false (mkShape false true false false) false false;
   mkInfo #10 [] [] false (mkShape false true false false) false false;
   mkInfo #7 [] [] false (mkShape false true false false) false false;
   mkInfo #11 [] [] false (mkShape false true false false) false false;
   mkInfo #12 [] [] false (mkShape false true true false) false false;
   mkInfo #13 [] [] false (mkShape false true true false) false false;
   mkInfo #7 [] [] false (mkShape false true false false) false false;
   mkInfo #14 [] [] false (mkShape false true true false) false false;
   mkInfo #0 [] [] false (mkShape false false false true) true false;
   mkInfo #4 [] [] false (mkShape false true false false) true false;
   mkInfo #0 [] [] false (mkShape false false false true) true false;
   mkInfo #1 [] [] false (mkShape false false false true) false false;
   mkInfo #2 [] [] false (mkShape false false false true) false false;
   mkInfo #3 [] [] true (mkShape true false false true) false true;
   mkInfo #4 [] [] true (mkShape true false false true) false true;
   mkInfo #5 [] [] true (mkShape true true false true) false true;
   mkInfo #14 [] [] false (mkShape false true true false) false false;
   mkInfo #0 [] [] false (mkShape false false false true) true false;
   mkInfo #1 [] [] true (mkShape true false false true) true true;
   mkInfo #11 [] [] false (mkShape false true false true) false false;
   mkInfo #15 [] [] false (mkShape false true true true) false false;
   mkInfo #0 [] [] false (mkShape false false false true) true false;
   mkInfo #1 [] [] false (mkShape false false false true) false false;
   mkInfo #2 [] [] false (mkShape false false false true) false false;
   mkInfo #0 [] [] false (mkShape false false false true) true false;
   mkInfo #1 [] [] false (mkShape false false false true) true false;
   mkInfo #10 [] [] true (mkShape true true true true) false true;
   mkInfo #7 [] [] false (mkShape false false false true) false false;
   mkInfo #8 [] [] false (mkShape false false false true) false false;
   mkInfo #9 [] [] false (mkShape false false false true) false false;
   mkInfo #0 [] [] false (mkShape false false false true) true false;
   mkInfo #1 [] [] false (mkShape false false false true) true false;
   mkInfo #0 [] [] false (mkShape false false false true) true false;
   mkInfo #4 [] [] true (mkShape true true false false) true true;
   mkInfo #1 [] [] false (mkShape false false false true) true false;
   mkInfo #2 [] [] false (mkShape false false false true) true false;
   mkInfo #0 [] [] false (mkShape false false false true) true false;
   mkInfo #0 [] [] false (mkShape false false false true) true false;
   mkInfo #0 [] [] false (mkShape false false false true) true false;
   mkInfo #4 [] [] true (mkShape true true false false) true true;
   mkInfo #0 [] [] false (mkShape false false false true) true false;
   mkInfo #1 [] [] false (mkShape false false false true) true false;
   mkInfo #2 [] [] false (mkShape false false false true) true false;
   mkInfo #0 [] [] false (mkShape false false false true) true false;
   mkInfo #1 [] [] true (mkShape true false false true) true true;
   mkInfo #0 [] [] false (mkShape false false false true) true false;
   mkInfo #1 [] [] true (mkShape true false false true) true true;
   mkInfo #4 [] [] true (mkShape true true false false) true true;
   mkInfo #0 [] [] false (mkShape false false false true) true false;
   mkInfo #0 [] [] false (mkShape false false false true) true false;
   mkInfo #11 [] [] true (mkShape true true false false) false true;
   mkInfo #3 [] [] true (mkShape true false false true) false true;
   mkInfo #4 [] [] true (mkShape true true false false) false true;
   mkInfo #19 [] [] false (mkShape false true false false) false false;
   mkInfo #0 [] [] false (mkShape false false false true) true false;
   mkInfo #1 [] [] false (mkShape false false false true) true false;
   mkInfo #20 [] [] false (mkShape false true false true) false false;
   mkInfo #5 [] [] false (mkShape false true false true) false false;
   mkInfo #6 [] [] false (mkShape false true false true) false false;
   mkInfo #0 [] [] false (mkShape false false false true) true false;
   mkInfo #1 [] [] false (mkShape false false false true) false false;
   mkInfo #0 [] [] false (mkShape false false false true) true false;
   mkInfo #0 [] [] false (mkShape false false false true) true false;
   mkInfo #1 [] [] true (mkShape true false false true) true true;
   mkInfo #1 [] [] false (mkShape false false false true) true false;
   mkInfo #2 [] [] false (mkShape false false false true) true false;
   mkInfo #9 [] [] true (mkShape true true false false) false true;
   mkInfo #29 [] [] true (mkShape true true true true) false true;
   mkInfo #30 [] [] true (mkShape true true true true) false true;
   mkInfo #31 [] [] true (mkShape true true true true) false true;
   mkInfo #7 [] [] false (mkShape false false false true) false false;
   mkInfo #8 [] [] false (mkShape false false false true) false false;
   mkInfo #0 [] [] false (mkShape false false false true) true false;
   mkInfo #20 [] [] false (mkShape false true false false) false false;
   mkInfo #21 [] [] false (mkShape false true false false) false false;
   mkInfo #0 [] [] false (mkShape false false false true) true false;
   mkInfo #1 [] [] false (mkShape false false false true) false false;
   mkInfo #2 [] [] false (mkShape false false false true) false false;
   mkInfo #3 [] [] true (mkShape true false false true) false true;
   mkInfo #20 [] [] false (mkShape false true false false) false false;
   mkInfo #21 [] [] false (mkShape false true false false) false false;
   mkInfo #3 [] [] false (mkShape false false false true) true false;
   mkInfo #0 [] [] false (mkShape false false false true) true false;
   mkInfo #1 [] [] false (mkShape false false false true) true false;
   mkInfo #4 [] [] false (mkShape false false false true) true false;
   mkInfo #5 [] [] true (mkShape true false false true) true true;
   mkInfo #0 [] [] false (mkShape false false false true) true false;
   mkInfo #0 [] [] false (mkShape false false false true) true false;
   mkInfo #1 [] [] false (mkShape false false false true) false false;
   mkInfo #2 [] [] false (mkShape false false false true) false false;
   mkInfo #3 [] [] true (mkShape true false false true) false true;
   mkInfo #0 [] [] false (mkShape false false false true) true false;
   mkInfo #1 [] [] false (mkShape false false false true) true false;
   mkInfo #0 [] [] true (mkShape true false false false) true false;
   mkInfo #1 [] [] true (mkShape true false false false) true false;
   mkInfo #2 [] [] true (mkShape true false false true) true false;
   mkInfo #6 [] [] false (mkShape false false false true) false false;
   mkInfo #7 [] [] false (mkShape false false false true) false false;
   mkInfo #0 [] [] false (mkShape false false false true) true false;
   mkInfo #1 [] [] false (mkShape false false false true) true false;
   mkInfo #0 [] [] false (mkShape false false false true) true false;
   mkInfo #1 [] [] false (mkShape false false false true) true false;
   mkInfo #2 [] [] false (mkShape false false false true) true false;
   mkInfo #0 [] [] false (mkShape false false false true) true false;
   mkInfo #11 [] [] true (mkShape true true false false) false true;
   mkInfo #14 [] [] true (mkShape true true true true) false true;
   mkInfo #7 [] [] false (mkShape false false false true) false false;
   mkInfo #8 [] [] false (mkShape false false false true) false false;
   mkInfo #0 [] [] false (mkShape false false false true) true false;
   mkInfo #1 [] [] false (mkShape false false false true) true false;
   mkInfo #32 [] [] true (mkShape true true true true) false true;
   mkInfo #7 [] [] false (mkShape false false false true) false false;
   mkInfo #0 [] [] false (mkShape false false false true) true false;
   mkInfo #8 [] [] false (mkShape false false false true) false false;
   mkInfo #9 [] [] false (mkShape false false false true) false false;
   mkInfo #3 [] [] false (mkShape false false false true) false false;
   mkInfo #4 [] [] false (mkShape false false false true) false false;
   mkInfo #4 [] [] true (mkShape true true false false) false true;
   mkInfo #0 [] [] false (mkShape false false false true) true false;
   mkInfo #0 [] [] false (mkShape false false false true) true false;
   mkInfo #5 [] [] false (mkShape false true false true) false false;
   mkInfo #6 [] [] false (mkShape false true false true) false false;
   mkInfo #4 [] [] true (mkShape true true false false) false true;
   mkInfo #23 [] [] false (mkShape false true false false) false false;
   mkInfo #24 [] [] false (mkShape false true false false) false false;
   mkInfo #0 [] [] false (mkShape false false false true) true false;
   mkInfo #0 [] [] false (mkShape false false false true) true false;
   mkInfo #11 [] [] true (mkShape true true false false) false true;
   mkInfo #10 [] [] true (mkShape true true true true) false true;
   mkInfo #7 [] [] false (mkShape false false false true) false false;
   mkInfo #1 [] [] false (mkShape false false false true) false false;
   mkInfo #2 [] [] false (mkShape false false false true) false false;
   mkInfo #0 [] [] false (mkShape false false false true) true false;
   mkInfo #0 [] [] false (mkShape false false false true) true false;
   mkInfo #1 [] [] false (mkShape false false false true) false false;
   mkInfo #32 [] [] true (mkShape true true true true) false true;
   mkInfo #7 [] [] false (mkShape false false false true) false false;
   mkInfo #8 [] [] false (mkShape false false false true) false false;
   mkInfo #14 [] [] true (mkShape true true true true) false true;
   mkInfo #7 [] [] false (mkShape false false false true) false false;
   mkInfo #8 [] [] false (mkShape false false false true) false false;
   mkInfo #9 [] [] false (mkShape false false false true) false false;
   mkInfo #10 [] [] true (mkShape true false false true) false true;
   mkInfo #1 [] [] false (mkShape false false false true) false false;
   mkInfo #2 [] [] false (mkShape false false false true) false false;
   mkInfo #0 [] [] false (mkShape false false false true) true false;
   mkInfo #0 [] [] false (mkShape false false false true) true false;
   mkInfo #0 [] [] false (mkShape false false false true) true false;
   mkInfo #1 [] [] false (mkShape false false false true) true false;
   mkInfo #7 [] [] false (mkShape false false false true) false false;
   mkInfo #8 [] [] false (mkShape false false false true) false false;
   mkInfo #9 [] [] false (mkShape false false false true) false false;
   mkInfo #1 [] [] false (mkShape false false false true) false false;
   mkInfo #2 [] [] false (mkShape false false false true) false false;
   mkInfo #0 [] [] false (mkShape false false false true) true false;
   mkInfo #1 [] [] true (mkShape true false false true) true true;
   mkInfo #0 [] [] false (mkShape false false false true) true false;
   mkInfo #11 [] [] true (mkShape true true false false) false true;
   mkInfo #0 [] [] false (mkShape false false false true) true false;
   mkInfo #1 [] [] false (mkShape false false false true) false false;
   mkInfo #2 [] [] false (mkShape false false false true) false false;
   mkInfo #3 [] [] true (mkShape true false false true) false true;
   mkInfo #23 [] [] false (mkShape false true false false) false false;
   mkInfo #24 [] [] false (mkShape false true false false) false false;
   mkInfo #4 [] [] true (mkShape true true false false) false true;
   mkInfo #2 [] [] false (mkShape false false false true) false false;
   mkInfo #3 [] [] false (mkShape false false false true) false false;
   mkInfo #4 [] [] true (mkShape true true false false) false true;
   mkInfo #0 [] [] false (mkShape false false false true) true false;
   mkInfo #0 [] [] false (mkShape false false false true) true false;
   mkInfo #11 [] [] true (mkShape true true false false) false true;
   mkInfo #3 [] [] true (mkShape true false false true) false true;
   mkInfo #4 [] [] true (mkShape true true false false) false true;
   mkInfo #7 [] [] false (mkShape false true false true) false false;
   mkInfo #8 [] [] false (mkShape false true false true) false false;
   mkInfo #4 [] [] true (mkShape true true false false) false true;
   mkInfo #7 [] [] true (mkShape true true false false) false true;
   mkInfo #8 [] [] true (mkShape true true false false) false true;
   mkInfo #10 [] [] false (mkShape false true true false) false false;
   mkInfo #11 [] [] false (mkShape false true true false) false false;
   mkInfo #7 [] [] false (mkShape false true false false) false false;
   mkInfo #12 [] [] false (mkShape false true true false) false false;
   mkInfo #13 [] [] false (mkShape false true true false) false false;
   mkInfo #14 [] [] true (mkShape true true true false) false true;
   mkInfo #7 [] [] false (mkShape false false false true) false false;
   mkInfo #8 [] [] false (mkShape false false false true) false false;
   mkInfo #9 [] [] false (mkShape false false false true) false false;
   mkInfo #8 [] [] false (mkShape false true false false) false false;
   mkInfo #4 [] [] false (mkShape false true false false) false false;
   mkInfo #6 [] [] false (mkShape false true false false) false false;
   mkInfo #4 [] [] false (mkShape false true false false) false false;
   mkInfo #0 [] [] false (mkShape false false false true) true false;
   mkInfo #1 [] [] false (mkShape false false false true) true false;
   mkInfo #0 [] [] false (mkShape false false false true) true false;
   mkInfo #1 [] [] false (mkShape false false false true) true false;
   mkInfo #0 [] [] false (mkShape false false false true) true false;
   mkInfo #1 [] [] false (mkShape false false false true) true false;
   mkInfo #0 [] [] false (mkShape false false false true) true false;
   mkInfo #1 [] [] false (mkShape false false false true) true false;
   mkInfo #0 [] [] false (mkShape false false false true) true false;
   mkInfo #1 [] [] false (mkShape false false false true) true false;
   mkInfo #0 [] [] false (mkShape false false false true) true false;
   mkInfo #1 [] [] false (mkShape false false false true) true false;
   mkInfo #0 [] [] false (mkShape false false false true) true false;
   mkInfo #1 [] [] false (mkShape false false false true) true false;
   mkInfo #0 [] [] false (mkShape false false false true) true false;
   mkInfo #1 [] [] false (mkShape false false false true) true false;
   mkInfo #0 [] [] false (mkShape false false false true) true false;
   mkInfo #0 [] [] false (mkShape false false false true) true false;
   mkInfo #1 [] [] false (mkShape false false false true) true false;
   mkInfo #2 [] [] false (mkShape false false false true) true false;
   mkInfo #3 [] [] false (mkShape false false false true) true false;
   mkInfo #0 [] [] false (mkShape false false false true) true false;
   mkInfo #0 [] [] false (mkShape false false false true) true false;
   mkInfo #11 [] [] true (mkShape true true false false) false true;
   mkInfo #0 [] [] false (mkShape false false false true) true false;
   mkInfo #1 [] [] false (mkShape false false false true) false false;
   mkInfo #2 [] [] false (mkShape false false false true) false false;
   mkInfo #3 [] [] true (mkShape true false false true) false true;
   mkInfo #0 [] [] false (mkShape false false false true) true false;
   mkInfo #1 [] [] false (mkShape false false false true) false false;
   mkInfo #2 [] [] false (mkShape false false false true) false false;
   mkInfo #0 [] [] false (mkShape false false false true) true false;
   mkInfo #1 [] [] false (mkShape false false false true) true false;
   mkInfo #0 [] [] false (mkShape false false false true) true false;
   mkInfo #1 [] [] false (mkShape false false false true) true false;
   mkInfo #2 [] [] false (mkShape false false false true) true false;
   mkInfo #0 [] [] false (mkShape false false false true) true false;
   mkInfo #0 [] [] false (mkShape false false false true) true false;
   mkInfo #0 [] [] false (mkShape false false false true) true false;
   mkInfo #1 [] [] false (mkShape false false false true) false false;
   mkInfo #2 [] [] false (mkShape false false false true) false false;
   mkInfo #3 [] [] true (mkShape true false false true) false true;
   mkInfo #0 [] [] false (mkShape false false false true) true false;
   mkInfo #3 [] [] false (mkShape false false false true) false false;
   mkInfo #4 [] [] false (mkShape false false false true) false false;
   mkInfo #4 [] [] false (mkShape false true false false) false false;
   mkInfo #0 [] [] false (mkShape false false false true) true false;
   mkInfo #4 [] [] false (mkShape false true false false) true false;
   mkInfo #5 [] [] false (mkShape false true false false) false false;
   mkInfo #13 [] [] true (mkShape true true true false) false true;
   mkInfo #7 [] [] false (mkShape false false false true) false false;
   mkInfo #4 [] [] false (mkShape false true false false) false false;
   mkInfo #5 [] [] false (mkShape false true false false) false false;
   mkInfo #4 [] [] true (mkShape true true false false) false true;
   mkInfo #7 [] [] true (mkShape true true false false) false true;
   mkInfo #8 [] [] true (mkShape true true false false) false true;
   mkInfo #8 [] [] false (mkShape false true false false) false false;
   mkInfo #6 [] [] false (mkShape false true false false) false false;
   mkInfo #9 [] [] false (mkShape false true false false) false false;
   mkInfo #10 [] [] false (mkShape false true true false) false false;
   mkInfo #11 [] [] false (mkShape false true true false) false false;
   mkInfo #10 [] [] true (mkShape true true true true) false true;
   mkInfo #10 [] [] true (mkShape true true true true) false true;
   mkInfo #11 [] [] true (mkShape true true true true) false true;
   mkInfo #12 [] [] true (mkShape true true true true) false true;
   mkInfo #7 [] [] false (mkShape false false false true) false false;
   mkInfo #8 [] [] false (mkShape false false false true) false false;
   mkInfo #9 [] [] false (mkShape false false false true) false false;
   mkInfo #0 [] [] false (mkShape false false false true) true false;
   mkInfo #3 [] [] true (mkShape true false false true) false true;
   mkInfo #1 [] [] false (mkShape false false false true) false false;
   mkInfo #2 [] [] false (mkShape false false false true) false false;
   mkInfo #0 [] [] false (mkShape false false false true) true false;
   mkInfo #0 [] [] false (mkShape false false false true) true false;
   mkInfo #1 [] [] false (mkShape false false false true) true false;
   mkInfo #0 [] [] true (mkShape true false false false) true false;
   mkInfo #1 [] [] true (mkShape true false false false) true false;
   mkInfo #0 [] [] false (mkShape false false false true) true false;
   mkInfo #1 [] [] false (mkShape false false false true) true false;
   mkInfo #0 [] [] false (mkShape false false false true) true false;
   mkInfo #1 [] [] false (mkShape false false false true) true false;
   mkInfo #0 [] [] false (mkShape false false false true) true false;
   mkInfo #1 [] [] false (mkShape false false false true) true false;
   mkInfo #2 [] [] false (mkShape false false false true) true false;
   mkInfo #3 [] [] true (mkShape true false false false) true false;
   mkInfo #4 [] [] true (mkShape true false false false) true false;
   mkInfo #5 [] [] true (mkShape true false false false) true false;
   mkInfo #6 [] [] true (mkShape true false false true) true false;
   mkInfo #21 [] [] false (mkShape false true false false) false false;
   mkInfo #22 [] [] false (mkShape false true false false) false false;
   mkInfo #23 [] [] true (mkShape true true false false) false true;
   mkInfo #1 [] [] false (mkShape false false false true) false false;
   mkInfo #0 [] [] false (mkShape false false false true) true false;
   mkInfo #1 [] [] false (mkShape false false false true) true false;
   mkInfo #18 [] [] false (mkShape false true false false) false false;
   mkInfo #4 [] [] false (mkShape false true false false) false false;
   mkInfo #19 [] [] false (mkShape false true false true) false false;
   mkInfo #0 [] [] false (mkShape false false false true) true false;
   mkInfo #0 [] [] false (mkShape false false false true) true false;
   mkInfo #0 [] [] false (mkShape false false false true) true false;
   mkInfo #0 [] [] false (mkShape false false false true) true false;
   mkInfo #1 [] [] false (mkShape false false false true) true false;
   mkInfo #0 [] [] true (mkShape true false false false) true false;
   mkInfo #1 [] [] true (mkShape true false false false) true false;
   mkInfo #0 [] [] false (mkShape false false false true) true false;
   mkInfo #1 [] [] true (mkShape true false false false) true false;
   mkInfo #2 [] [] true (mkShape true false false false) true false;
   mkInfo #3 [] [] true (mkShape true false false false) true false;
   mkInfo #4 [] [] true (mkShape true false false true) true false;
   mkInfo #1 [] [] false (mkShape false false false true) true false;
   mkInfo #2 [] [] false (mkShape false false false true) true false;
   mkInfo #3 [] [] true (mkShape true false false true) true true;
   mkInfo #1 [] [] false (mkShape false false false true) true false;
   mkInfo #2 [] [] false (mkShape false false false true) true false;
   mkInfo #3 [] [] true (mkShape true false false true) true true;
   mkInfo #1 [] [] false (mkShape false false false true) true false;
   mkInfo #2 [] [] false (mkShape false false false true) true false;
   mkInfo #0 [] [] false (mkShape false false false true) true false;
   mkInfo #0 [] [] false (mkShape false false false true) true false;
   mkInfo #1 [] [] false (mkShape false false false true) true false;
   mkInfo #0 [] [] false (mkShape false false false true) true false;
   mkInfo #1 [] [] false (mkShape false false false true) true false;
   mkInfo #2 [] [] false (mkShape false false false true) true false;
   mkInfo #7 [] [] false (mkShape false false false true) false false;
   mkInfo #8 [] [] true (mkShape true false false true) false true;
   mkInfo #1 [] [] false (mkShape false false false true) false false;
   mkInfo #2 [] [] false (mkShape false false false true) false false;
   mkInfo #0 [] [] false (mkShape false false false true) true false;
   mkInfo #0 [] [] false (mkShape false false false true) true false;
   mkInfo #1 [] [] false (mkShape false false false true) true false;
   mkInfo #0 [] [] true (mkShape true false false false) true false;
   mkInfo #1 [] [] true (mkShape true false false false) true false;
   mkInfo #0 [] [] false (mkShape false false false true) true false;
   mkInfo #1 [] [] true (mkShape true false false false) true false;
   mkInfo #2 [] [] true (mkShape true false false false) true false;
   mkInfo #3 [] [] true (mkShape true false false false) true false;
   mkInfo #4 [] [] true (mkShape true false false true) true false;
   mkInfo #23 [] [] false (mkShape false true false false) false false;
   mkInfo #24 [] [] false (mkShape false true false false) false false;
   mkInfo #25 [] [] true (mkShape true true false false) false true;
   mkInfo #1 [] [] false (mkShape false false false true) false false;
   mkInfo #2 [] [] false (mkShape false false false true) false false;
   mkInfo #12 [] [] false (mkShape false true true false) false false;
   mkInfo #12 [] [] false (mkShape false true true false) false false;
   mkInfo #13 [] [] false (mkShape false true true false) false false;
   mkInfo #12 [] [] false (mkShape false true true false) false false;
   mkInfo #13 [] [] false (mkShape false true true false) false false;
   mkInfo #0 [] [] false (mkShape false false false true) true false;
   mkInfo #1 [] [] false (mkShape false false false true) false false;
   mkInfo #2 [] [] false (mkShape false false false true) false false;
   mkInfo #0 [] [] false (mkShape false false false true) true false;
   mkInfo #1 [] [] true (mkShape true false false true) true true;
   mkInfo #6 [] [] false (mkShape false true false true) false false;
   mkInfo #7 [] [] false (mkShape false true false true) false false;
   mkInfo #0 [] [] false (mkShape false false false true) true false;
   mkInfo #1 [] [] false (mkShape false false false true) false false;
   mkInfo #2 [] [] false (mkShape false false false true) false false;
   mkInfo #12 [] [] false (mkShape false true true false) false false;
   mkInfo #13 [] [] false (mkShape false true true false) false false;
   mkInfo #0 [] [] false (mkShape false false false true) true false;
   mkInfo #23 [] [] false (mkShape false true false false) false false;
   mkInfo #24 [] [] false (mkShape false true false false) false false;
   mkInfo #7 [] [] false (mkShape false false false true) false false;
   mkInfo #0 [] [] false (mkShape false false false true) true false;
   mkInfo #8 [] [] false (mkShape false false false true) false false;
   mkInfo #9 [] [] false (mkShape false false false true) false false;
   mkInfo #0 [] [] false (mkShape false false false true) true false;
   mkInfo #1 [] [] false (mkShape false false false true) true false;
   mkInfo #0 [] [] false (mkShape false false false true) true false;
   mkInfo #1 [] [] false (mkShape false false false true) true false;
   mkInfo #0 [] [] false (mkShape false false false true) true false;
   mkInfo #1 [] [] false (mkShape false false false true) true false;
   mkInfo #2 [] [] false (mkShape false false false true) true false;
   mkInfo #11 [] [] false (mkShape false true false false) false false;
   mkInfo #0 [] [] true (mkShape true false false false) true false;
   mkInfo #11 [] [] false (mkShape false true false false) false false;
   mkInfo #12 [] [] false (mkShape false true false false) false false;
   mkInfo #13 [] [] true (mkShape true true false false) false true;
   mkInfo #3 [] [] false (mkShape false false false true) false false;
   mkInfo #4 [] [] false (mkShape false false false true) false false;
   mkInfo #0 [] [] true (mkShape true false false false) true false;
   mkInfo #1 [] [] true (mkShape true false false false) true false;
   mkInfo #0 [] [] true (mkShape true false false false) true false;
   mkInfo #0 [] [] false (mkShape false false false true) true false;
   mkInfo #1 [] [] false (mkShape false false false true) true false;
   mkInfo #2 [] [] true (mkShape true false false true) true false;
   mkInfo #0 [] [] false (mkShape false false false true) true false;
   mkInfo #7 [] [] true (mkShape true true true true) false true;
   mkInfo #0 [] [] false (mkShape false false false true) true false;
   mkInfo #0 [] [] false (mkShape false false false true) true false;
   mkInfo #1 [] [] false (mkShape false false false true) true false;
   mkInfo #2 [] [] false (mkShape false false false true) true false;
   mkInfo #3 [] [] true (mkShape true false false false) true false;
   mkInfo #23 [] [] false (mkShape false true false false) false false;
   mkInfo #24 [] [] false (mkShape false true false false) false false;
   mkInfo #31 [] [] true (mkShape true true true true) false true;
   mkInfo #0 [] [] false (mkShape false false false true) true false;
   mkInfo #0 [] [] false (mkShape false false false true) true false;
   mkInfo #1 [] [] false (mkShape false false false true) false false;
   mkInfo #2 [] [] false (mkShape false false false true) false false;
   mkInfo #9 [] [] true (mkShape true true true true) false true;
   mkInfo #32 [] [] true (mkShape true true true true) false true;
   mkInfo #33 [] [] true (mkShape true true true true) false true;
   mkInfo #7 [] [] false (mkShape false false false true) false false;
   mkInfo #8 [] [] false (mkShape false false false true) false false;
   mkInfo #9 [] [] false (mkShape false false false true) false false;
   mkInfo #29 [] [] true (mkShape true true true true) false true;
   mkInfo #7 [] [] false (mkShape false false false true) false false;
   mkInfo #3 [] [] true (mkShape true false false true) false true;
   mkInfo #8 [] [] false (mkShape false false false true) false false;
   mkInfo #9 [] [] false (mkShape false false false true) false false;
   mkInfo #0 [] [] false (mkShape false false false true) true false;
   mkInfo #0 [] [] false (mkShape false false false true) true false;
   mkInfo #1 [] [] false (mkShape false false false true) true false;
   mkInfo #2 [] [] false (mkShape false false false true) true false;
   mkInfo #0 [] [] false (mkShape false false false true) true false;
   mkInfo #1 [] [] false (mkShape false false false true) false false;
   mkInfo #2 [] [] false (mkShape false false false true) false false;
   mkInfo #3 [] [] true (mkShape true false false true) false true;
   mkInfo #20 [] [] false (mkShape false true false false) false false;
   mkInfo #21 [] [] false (mkShape false true false false) false false;
   mkInfo #18 [] [] false (mkShape false true false false) false false;
   mkInfo #6 [] [] false (mkShape false true false false) false false;
   mkInfo #4 [] [] false (mkShape false true false false) false false;
   mkInfo #4 [] [] false (mkShape false true false false) true false;
   mkInfo #4 [] [] false (mkShape false true false false) true false;
   mkInfo #11 [] [] false (mkShape false true false false) false false;
   mkInfo #4 [] [] false (mkShape false true false false) true false;
   mkInfo #11 [] [] false (mkShape false true false false) false false;
   mkInfo #8 [] [] false (mkShape false true false false) false false;
   mkInfo #4 [] [] false (mkShape false true false false) false false;
   mkInfo #15 [] [] false (mkShape false true true false) false false;
   mkInfo #16 [] [] false (mkShape false true true false) false false;
   mkInfo #3 [] [] false (mkShape false false false true) false false;
   mkInfo #4 [] [] false (mkShape false false false true) false false;
   mkInfo #0 [] [] false (mkShape false false false true) true false;
   mkInfo #0 [] [] false (mkShape false false false true) true false;
   mkInfo #1 [] [] false (mkShape false false false true) true false;
   mkInfo #0 [] [] false (mkShape false false false true) true false;
   mkInfo #1 [] [] false (mkShape false false false true) true false;
   mkInfo #2 [] [] false (mkShape false false false true) true false;
   mkInfo #1 [] [] false (mkShape false false false true) false false;
   mkInfo #2 [] [] false (mkShape false false false true) false false;
   mkInfo #0 [] [] false (mkShape false false false true) true false;
   mkInfo #1 [] [] false (mkShape false false false true) true false;
   mkInfo #2 [] [] false (mkShape false false false true) true false;
   mkInfo #0 [] [] false (mkShape false false false true) true false;
   mkInfo #0 [] [] false (mkShape false false false true) true false;
   mkInfo #1 [] [] false (mkShape false false false true) true false;
   mkInfo #2 [] [] false (mkShape false false false true) true false;
   mkInfo #4 [] [] true (mkShape true false false true) false true;
   mkInfo #23 [] [] false (mkShape false true false false) false false;
   mkInfo #24 [] [] false (mkShape false true false false) false false;
   mkInfo #7 [] [] false (mkShape false false false true) false false;
   mkInfo #8 [] [] false (mkShape false false false true) false false;
   mkInfo #9 [] [] false (mkShape false false false true) false false;
   mkInfo #0 [] [] false (mkShape false false false true) true false;
   mkInfo #29 [] [] true (mkShape true true true true) false true;
   mkInfo #1 [] [] false (mkShape false false false true) false false;
   mkInfo #2 [] [] false (mkShape false false false true) false false;
   mkInfo #0 [] [] false (mkShape false false false true) true false;
   mkInfo #1 [] [] false (mkShape false false false true) true false;
   mkInfo #2 [] [] false (mkShape false false false true) true false;
   mkInfo #0 [] [] false (mkShape false false false true) true false;
   mkInfo #1 [] [] false (mkShape false false false true) false false;
   mkInfo #2 [] [] false (mkShape false false false true) false false;
   mkInfo #3 [] [] true (mkShape true false false true) false true;
   mkInfo #23 [] [] false (mkShape false true false false) false false;
   mkInfo #24 [] [] false (mkShape false true false false) false false;
   mkInfo #7 [] [] false (mkShape false false false true) false false;
   mkInfo #8 [] [] false (mkShape false false false true) false false;
   mkInfo #9 [] [] false (mkShape false false false true) false false;
   mkInfo #4 [] [] true (mkShape true true false false) true true;
   mkInfo #0 [] [] false (mkShape false false false true) true false;
   mkInfo #32 [] [] true (mkShape true true true true) false true;
   mkInfo #7 [] [] false (mkShape false false false true) false false;
   mkInfo #3 [] [] true (mkShape true false false true) false true;
   mkInfo #5 [] [] false (mkShape false true false true) false false;
   mkInfo #6 [] [] false (mkShape false true false true) false false;
   mkInfo #0 [] [] false (mkShape false false false true) true false;
   mkInfo #20 [] [] false (mkShape false true false false) false false;
   mkInfo #21 [] [] false (mkShape false true false false) false false;
   mkInfo #22 [] [] true (mkShape true true false false) false true;
   mkInfo #23 [] [] false (mkShape false true false false) false false;
   mkInfo #24 [] [] false (mkShape false true false false) false false;
   mkInfo #0 [] [] false (mkShape false false false true) true false;
   mkInfo #1 [] [] false (mkShape false false false true) false false;
   mkInfo #2 [] [] false (mkShape false false false true) false false;
   mkInfo #4 [] [] false (mkShape false true false false) true false;
   mkInfo #18 [] [] false (mkShape false true false false) false false;
   mkInfo #5 [] [] false (mkShape false true false false) true false;
   mkInfo #7 [] [] false (mkShape false true false false) true false;
   mkInfo #4 [] [] false (mkShape false true false false) true false;
   mkInfo #11 [] [] false (mkShape false true false false) false false;
   mkInfo #4 [] [] false (mkShape false true false false) false false;
   mkInfo #0 [] [] false (mkShape false false false true) true false;
   mkInfo #1 [] [] false (mkShape false false false true) true false;
   mkInfo #2 [] [] false (mkShape false false false true) true false;
   mkInfo #11 [] [] false (mkShape false false false true) false false;
   mkInfo #11 [] [] false (mkShape false false false true) false false;
   mkInfo #12 [] [] false (mkShape false false false true) false false;
   mkInfo #13 [] [] true (mkShape true false false true) false true;
   mkInfo #15 [] [] false (mkShape false true true false) false false;
   mkInfo #16 [] [] false (mkShape false true true false) false false;
   mkInfo #26 [] [] true (mkShape true true true true) false true;
   mkInfo #0 [] [] false (mkShape false false false true) true false;
   mkInfo #0 [] [] false (mkShape false false false true) true false;
   mkInfo #1 [] [] true (mkShape true false false true) true true;
   mkInfo #1 [] [] false (mkShape false false false true) true false;
   mkInfo #2 [] [] false (mkShape false false false true) true false;
   mkInfo #3 [] [] true (mkShape true false false true) true true;
   mkInfo #27 [] [] true (mkShape true true true true) false true;
   mkInfo #28 [] [] true (mkShape true true true true) false true;
   mkInfo #7 [] [] false (mkShape false false false true) false false;
   mkInfo #8 [] [] false (mkShape false false false true) false false;
   mkInfo #9 [] [] false (mkShape false false false true) false false;
   mkInfo #14 [] [] true (mkShape true true true true) false true;
   mkInfo #0 [] [] false (mkShape false false false true) true false;
   mkInfo #0 [] [] false (mkShape false false false true) true false;
   mkInfo #1 [] [] true (mkShape true false false true) true true;
   mkInfo #1 [] [] false (mkShape false false false true) true false;
   mkInfo #2 [] [] false (mkShape false false false true) true false;
   mkInfo #3 [] [] true (mkShape true false false true) true true;
   mkInfo #15 [] [] true (mkShape true true true true) false true;
   mkInfo #16 [] [] true (mkShape true true true true) false true;
   mkInfo #7 [] [] false (mkShape false false false true) false false;
   mkInfo #8 [] [] false (mkShape false false false true) false false;
   mkInfo #9 [] [] false (mkShape false false false true) false false;
   mkInfo #0 [] [] false (mkShape false false false true) true false;
   mkInfo #1 [] [] true (mkShape true false false false) true false;
   mkInfo #5 [] [] false (mkShape false true false false) true false;
   mkInfo #0 [] [] false (mkShape false false false true) true false;
   mkInfo #0 [] [] false (mkShape false false false true) true false;
   mkInfo #1 [] [] false (mkShape false false false true) false false;
   mkInfo #6 [] [] false (mkShape false true false true) false false;
   mkInfo #0 [] [] false (mkShape false false false true) true false;
   mkInfo #1 [] [] true (mkShape true false false true) true true;
   mkInfo #0 [] [] false (mkShape false false false true) true false;
   mkInfo #1 [] [] true (mkShape true false false true) true true;
   mkInfo #0 [] [] false (mkShape false false false true) true false;
   mkInfo #2 [] [] false (mkShape false false false true) true false;
   mkInfo #3 [] [] false (mkShape false false false true) true false;
   mkInfo #4 [] [] false (mkShape false true false false) true false;
   mkInfo #5 [] [] false (mkShape false true false false) true false;
   mkInfo #0 [] [] false (mkShape false false false true) true false;
   mkInfo #0 [] [] false (mkShape false false false true) true false;
   mkInfo #1 [] [] false (mkShape false false false true) true false;
   mkInfo #2 [] [] false (mkShape false false false true) true false;
   mkInfo #4 [] [] true (mkShape true false false true) false true;
   mkInfo #20 [] [] false (mkShape false true false false) false false;
   mkInfo #21 [] [] false (mkShape false true false false) false false;
   mkInfo #7 [] [] false (mkShape false false false true) false false;
   mkInfo #8 [] [] false (mkShape false false false true) false false;
   mkInfo #9 [] [] false (mkShape false false false true) false false;
   mkInfo #0 [] [] false (mkShape false false false true) true false;
   mkInfo #26 [] [] true (mkShape true true true true) false true;
   mkInfo #1 [] [] false (mkShape false false false true) false false;
   mkInfo #2 [] [] false (mkShape false false false true) false false;
   mkInfo #0 [] [] false (mkShape false false false true) true false;
   mkInfo #0 [] [] false (mkShape false false false true) true false;
   mkInfo #1 [] [] true (mkShape true false false true) true true;
   mkInfo #1 [] [] false (mkShape false false false true) false false;
   mkInfo #2 [] [] false (mkShape false false false true) false false;
   mkInfo #0 [] [] false (mkShape false false false true) true false;
   mkInfo #0 [] [] false (mkShape false false false true) true false;
   mkInfo #11 [] [] false (mkShape false true false false) false false;
   mkInfo #12 [] [] true (mkShape true true false false) false true;
   mkInfo #1 [] [] false (mkShape false false false true) false false;
   mkInfo #2 [] [] false (mkShape false false false true) false false;
   mkInfo #0 [] [] true (mkShape true false false false) true false;
   mkInfo #3 [] [] true (mkShape true false false false) true false;
   mkInfo #4 [] [] true (mkShape true false false false) true false;
   mkInfo #0 [] [] true (mkShape true false false false) true false;
   mkInfo #1 [] [] true (mkShape true false false false) true false;
   mkInfo #2 [] [] true (mkShape true false false false) true false;
   mkInfo #5 [] [] true (mkShape true false false false) true false;
   mkInfo #16 [] [] false (mkShape false true true true) false false;
   mkInfo #17 [] [] false (mkShape false true true true) false false;
   mkInfo #0 [] [] false (mkShape false false false true) true false;
   mkInfo #0 [] [] false (mkShape false false false true) true false;
   mkInfo #1 [] [] false (mkShape false false false true) true false;
   mkInfo #0 [] [] false (mkShape false false false true) true false;
   mkInfo #1 [] [] false (mkShape false false false true) true false;
   mkInfo #2 [] [] false (mkShape false false false true) true false;
   mkInfo #1 [] [] false (mkShape false false false true) true false;
   mkInfo #2 [] [] false (mkShape false false false true) true false;
   mkInfo #7 [] [] false (mkShape false false false true) false false;
   mkInfo #0 [] [] false (mkShape false false false true) true false;
   mkInfo #0 [] [] false (mkShape false false false true) true false;
   mkInfo #1 [] [] false (mkShape false false false true) false false;
   mkInfo #2 [] [] false (mkShape false false false true) false false;
   mkInfo #0 [] [] false (mkShape false false false true) true false;
   mkInfo #0 [] [] false (mkShape false false false true) true false;
   mkInfo #0 [] [] false (mkShape false false false true) true false;
   mkInfo #0 [] [] false (mkShape false false false true) true false;
   mkInfo #1 [] [] false (mkShape false false false true) true false;
   mkInfo #0 [] [] false (mkShape false false false true) true false;
   mkInfo #1 [] [] false (mkShape false false false true) true false;
   mkInfo #0 [] [] false (mkShape false false false true) true false;
   mkInfo #1 [] [] false (mkShape false false false true) true false;
   mkInfo #2 [] [] false (mkShape false false false true) true false;
   mkInfo #8 [] [] false (mkShape false false false true) true false;
   mkInfo #0 [] [] false (mkShape false false false true) true false;
   mkInfo #1 [] [] false (mkShape false false false true) true false;
   mkInfo #0 [] [] false (mkShape false false false true) true false;
   mkInfo #1 [] [] false (mkShape false false false true) true false;
   mkInfo #2 [] [] false (mkShape false false false true) true false;
   mkInfo #8 [] [] false (mkShape false false false true) true false;
   mkInfo #0 [] [] false (mkShape false false false true) true false;
   mkInfo #1 [] [] false (mkShape false false false true) true false;
   mkInfo #0 [] [] false (mkShape false false false true) true false;
   mkInfo #1 [] [] false (mkShape false false false true) true false;
   mkInfo #2 [] [] false (mkShape false false false true) true false;
   mkInfo #8 [] [] false (mkShape false false false true) true false;
   mkInfo #0 [] [] false (mkShape false false false true) true false;
   mkInfo #0 [] [] false (mkShape false false false true) true false;
   mkInfo #1 [] [] true (mkShape true false false false) true false;
   mkInfo #1 [] [] false (mkShape false false false true) true false;
   mkInfo #2 [] [] false (mkShape false false false true) true false;
   mkInfo #8 [] [] false (mkShape false false false true) true false;
   mkInfo #0 [] [] false (mkShape false false false true) true false;
   mkInfo #6 [] [] false (mkShape false false false true) true false;
   mkInfo #0 [] [] false (mkShape false false false true) true false;
   mkInfo #0 [] [] false (mkShape false false false true) true false;
   mkInfo #1 [] [] true (mkShape true false false false) true false;
   mkInfo #1 [] [] false (mkShape false false false true) true false;
   mkInfo #2 [] [] false (mkShape false false false true) true false;
   mkInfo #8 [] [] false (mkShape false false false true) true false;
   mkInfo #8 [] [] false (mkShape false false false true) true false;
   mkInfo #0 [] [] false (mkShape false false false true) true false;
   mkInfo #6 [] [] false (mkShape false false false true) true false;
   mkInfo #0 [] [] false (mkShape false false false true) true false;
   mkInfo #6 [] [] false (mkShape false false false true) true false;
   mkInfo #10 [] [] false (mkShape false false false true) true false;
   mkInfo #0 [] [] false (mkShape false false false true) true false;
   mkInfo #1 [] [] false (mkShape false false false true) true false;
   mkInfo #0 [] [] false (mkShape false false false true) true false;
   mkInfo #1 [] [] false (mkShape false false false true) true false;
   mkInfo #0 [] [] false (mkShape false false false true) true false;
   mkInfo #1 [] [] false (mkShape false false false true) true false;
   mkInfo #0 [] [] false (mkShape false false false true) true false;
   mkInfo #1 [] [] false (mkShape false false false true) true false;
   mkInfo #0 [] [] false (mkShape false false false true) true false;
   mkInfo #1 [] [] false (mkShape false false false true) true false;
   mkInfo #0 [] [] false (mkShape false false false true) true false;
   mkInfo #1 [] [] false (mkShape false false false true) true false;
   mkInfo #0 [] [] false (mkShape false false false true) true false;
   mkInfo #1 [] [] false (mkShape false false false true) true false;
   mkInfo #0 [] [] false (mkShape false false false true) true false;
   mkInfo #1 [] [] false (mkShape false false false true) true false;
   mkInfo #0 [] [] false (mkShape false false false true) true false;
   mkInfo #1 [] [] false (mkShape false false false true) true false;
   mkInfo #0 [] [] false (mkShape false false false true) true false;
   mkInfo #1 [] [] false (mkShape false false false true) true false;
   mkInfo #0 [] [] false (mkShape false false false true) true false;
   mkInfo #1 [] [] false (mkShape false false false true) true false;
   mkInfo #2 [] [] false (mkShape false false false true) true false;
   mkInfo #8 [] [] false (mkShape false false false true) true false;
   mkInfo #4 [] [] false (mkShape false true false false) true false;
   mkInfo #0 [] [] false (mkShape false false false true) true false;
   mkInfo #1 [] [] false (mkShape false false false true) true false;
   mkInfo #0 [] [] false (mkShape false false false true) true false;
   mkInfo #1 [] [] false (mkShape false false false true) true false;
   mkInfo #0 [] [] false (mkShape false false false true) true false;
   mkInfo #1 [] [] false (mkShape false false false true) true false;
   mkInfo #0 [] [] false (mkShape false false false true) true false;
   mkInfo #1 [] [] false (mkShape false false false true) true false;
   mkInfo #0 [] [] false (mkShape false false false true) true false;
   mkInfo #1 [] [] false (mkShape false false false true) true false;
   mkInfo #0 [] [] false (mkShape false false false true) true false;
   mkInfo #1 [] [] false (mkShape false false false true) true false;
   mkInfo #0 [] [] false (mkShape false false false true) true false;
   mkInfo #1 [] [] false (mkShape false false false true) true false;
   mkInfo #0 [] [] false (mkShape false false false true) true false;
   mkInfo #1 [] [] false (mkShape false false false true) true false;
   mkInfo #0 [] [] false (mkShape false false false true) true false;
   mkInfo #1 [] [] false (mkShape false false false true) true false;
   mkInfo #0 [] [] false (mkShape false false false true) true false;
   mkInfo #1 [] [] false (mkShape false false false true) true false;
   mkInfo #0 [] [] false (mkShape false false false true) true false;
   mkInfo #1 [] [] false (mkShape false false false true) true false;
   mkInfo #0 [] [] false (mkShape false false false true) true false;
   mkInfo #1 [] [] false (mkShape false false false true) true false;
   mkInfo #0 [] [] false (mkShape false false false true) true false;
   mkInfo #1 [] [] false (mkShape false false false true) true false;
   mkInfo #0 [] [] false (mkShape false false false true) true false;
   mkInfo #1 [] [] false (mkShape false false false true) true false;
   mkInfo #0 [] [] false (mkShape false false false true) true false;
   mkInfo #1 [] [] false (mkShape false false false true) true false;
   mkInfo #0 [] [] false (mkShape false false false true) true false;
   mkInfo #1 [] [] false (mkShape false false false true) true false;
   mkInfo #0 [] [] false (mkShape false false false true) true false;
   mkInfo #1 [] [] false (mkShape false false false true) true false;
   mkInfo #0 [] [] false (mkShape false false false true) true false;
   mkInfo #1 [] [] false (mkShape false false false true) true false;
   mkInfo #0 [] [] false (mkShape false false false true) true false;
   mkInfo #1 [] [] false (mkShape false false false true) true false;
   mkInfo #0 [] [] false (mkShape false false false true) true false;
   mkInfo #1 [] [] false (mkShape false false false true) true false;
   mkInfo #0 [] [] false (mkShape false false false true) true false;
   mkInfo #1 [] [] false (mkShape false false false true) true false;
   mkInfo #0 [] [] false (mkShape false false false true) true false;
   mkInfo #1 [] [] false (mkShape false false false true) true false;
   mkInfo #0 [] [] false (mkShape false false false true) true false;
   mkInfo #1 [] [] false (mkShape false false false true) true false;
   mkInfo #0 [] [] false (mkShape false false false true) true false;
   mkInfo #1 [] [] false (mkShape false false false true) true false;
   mkInfo #0 [] [] false (mkShape false false false true) true false;
   mkInfo #1 [] [] false (mkShape false false false true) true false;
   mkInfo #0 [] [] true (mkShape true false false false) true false;
   mkInfo #1 [] [] true (mkShape true false false false) true false;
   mkInfo #1 [#0] [#0] false (mkShape false true true true) false false;
   mkInfo #2 [#0] [#0] false (mkShape false true true true) false false;
   mkInfo #3 [#0] [#0] false (mkShape false true true true) false false;
   mkInfo #4 [#0] [#0] false (mkShape false true true true) false false;
   mkInfo #0 [] [] false (mkShape false false false true) true false;
   mkInfo #1 [] [] false (mkShape false false false true) true false;
   mkInfo #0 [] [] false (mkShape false false false true) true false;
   mkInfo #1 [] [] false (mkShape false false false true) true false;
   mkInfo #0 [] [] false (mkShape false false false true) true false;
   mkInfo #1 [] [] false (mkShape false false false true) true false;
   mkInfo #0 [] [] false (mkShape false false false true) true false;
   mkInfo #1 [] [] false (mkShape false false false true) true false;
   mkInfo #0 [] [] false (mkShape false false false true) true false;
   mkInfo #1 [] [] false (mkShape false false false true) true false;
   mkInfo #2 [] [] false (mkShape false false false true) true false;
   mkInfo #0 [] [] false (mkShape false false false true) true false;
   mkInfo #0 [] [] false (mkShape false false false true) true false;
   mkInfo #1 [] [] false (mkShape false false false true) true false;
   mkInfo #2 [] [] false (mkShape false false false true) true false;
   mkInfo #3 [] [] true (mkShape true false false false) true false;
   mkInfo #11 [] [] true (mkShape true false false true) false true;
   mkInfo #15 [] [] false (mkShape false true true false) false false;
   mkInfo #16 [] [] false (mkShape false true true false) false false;
   mkInfo #0 [] [] true (mkShape true false false false) true false;
   mkInfo #1 [] [] true (mkShape true false false false) true false;
   mkInfo #10 [] [] true (mkShape true true true true) false true;
   mkInfo #0 [] [] false (mkShape false false false true) true false;
   mkInfo #25 [] [] false (mkShape false true true true) false false;
   mkInfo #1 [] [] false (mkShape false false false true) false false;
   mkInfo #2 [] [] false (mkShape false false false true) false false;
   mkInfo #3 [] [] true (mkShape true false false true) false true;
   mkInfo #11 [] [] true (mkShape true true true true) false true;
   mkInfo #12 [] [] true (mkShape true true true true) false true;
   mkInfo #7 [] [] false (mkShape false false false true) false false;
   mkInfo #8 [] [] false (mkShape false false false true) false false;
   mkInfo #9 [] [] false (mkShape false false false true) false false;
   mkInfo #0 [] [] false (mkShape false false false true) true false;
   mkInfo #0 [] [] false (mkShape false false false true) true false;
   mkInfo #1 [] [] false (mkShape false false false true) false false;
   mkInfo #2 [] [] false (mkShape false false false true) false false;
   mkInfo #3 [] [] true (mkShape true false false true) false true;
   mkInfo #1 [] [] false (mkShape false false false true) false false;
   mkInfo #2 [] [] false (mkShape false false false true) false false;
   mkInfo #0 [] [] false (mkShape false false false true) true false;
   mkInfo #0 [] [] false (mkShape false false false true) true false;
   mkInfo #1 [] [] false (mkShape false false false true) true false;
   mkInfo #2 [] [] false (mkShape false false false true) true false;
   mkInfo #25 [] [] false (mkShape false true true true) false false;
   mkInfo #4 [] [] true (mkShape true false false true) false true;
   mkInfo #26 [] [] false (mkShape false true true true) false false;
   mkInfo #27 [] [] false (mkShape false true true true) false false;
   mkInfo #7 [] [] false (mkShape false false false true) false false;
   mkInfo #8 [] [] false (mkShape false false false true) false false;
   mkInfo #9 [] [] false (mkShape false false false true) false false;
   mkInfo #0 [] [] false (mkShape false false false true) true false;
   mkInfo #25 [] [] false (mkShape false true true true) false false;
   mkInfo #32 [] [] true (mkShape true true true true) false true;
   mkInfo #1 [] [] false (mkShape false false false true) false false;
   mkInfo #2 [] [] false (mkShape false false false true) false false;
   mkInfo #0 [] [] false (mkShape false false false true) true false;
   mkInfo #1 [] [] false (mkShape false false false true) false false;
   mkInfo #0 [] [] false (mkShape false false false true) true false;
   mkInfo #26 [] [] true (mkShape true true true true) false true;
   mkInfo #1 [] [] false (mkShape false false false true) false false;
   mkInfo #2 [] [] false (mkShape false false false true) false false;
   mkInfo #3 [] [] true (mkShape true false false true) false true;
   mkInfo #20 [] [] false (mkShape false true true false) false false;
   mkInfo #21 [] [] false (mkShape false true true false) false false;
   mkInfo #27 [] [] false (mkShape false true true true) false false;
   mkInfo #7 [] [] false (mkShape false false false true) false false;
   mkInfo #8 [] [] false (mkShape false false false true) false false;
   mkInfo #9 [] [] false (mkShape false false false true) false false;
   mkInfo #0 [] [] false (mkShape false false false true) true false;
   mkInfo #1 [] [] true (mkShape true false false true) true true;
   mkInfo #0 [] [] false (mkShape false false false true) true false;
   mkInfo #25 [] [] true (mkShape true true false false) false true;
   mkInfo #0 [] [] false (mkShape false false false true) true false;
   mkInfo #0 [] [] false (mkShape false false false true) true false;
   mkInfo #1 [] [] false (mkShape false false false true) false false;
   mkInfo #25 [] [] false (mkShape false true true true) false false;
   mkInfo #26 [] [] false (mkShape false true true true) false false;
   mkInfo #27 [] [] false (mkShape false true true true) false false;
   mkInfo #2 [] [] false (mkShape false false false true) false false;
   mkInfo #3 [] [] false (mkShape false false false true) false false;
   mkInfo #0 [] [] false (mkShape false false false true) true false;
   mkInfo #1 [] [] false (mkShape false false false true) true false;
   mkInfo #0 [] [] false (mkShape false false false true) true false;
   mkInfo #1 [] [] true (mkShape true false false false) true false;
   mkInfo #2 [] [] true (mkShape true false false false) true false;
   mkInfo #3 [] [] true (mkShape true false false false) true false;
   mkInfo #4 [] [] true (mkShape true false false true) true false;
   mkInfo #23 [] [] false (mkShape false true false false) false false;
   mkInfo #0 [] [] false (mkShape false false false true) true false;
   mkInfo #20 [] [] true (mkShape true true true false) false true;
   mkInfo #1 [] [] false (mkShape false false false true) false false;
   mkInfo #2 [] [] false (mkShape false false false true) false false;
   mkInfo #0 [] [] false (mkShape false false false true) true false;
   mkInfo #1 [] [] false (mkShape false false false true) true false;
   mkInfo #0 [] [] false (mkShape false false false true) true false;
   mkInfo #1 [] [] false (mkShape false false false true) true false;
   mkInfo #2 [] [] false (mkShape false false false true) true false;
   mkInfo #0 [] [] false (mkShape false false false true) true false;
   mkInfo #1 [] [] true (mkShape true false false true) true true;
   mkInfo #3 [] [] false (mkShape false false false true) true false;
   mkInfo #4 [] [] false (mkShape false false false true) true false;
   mkInfo #0 [] [] false (mkShape false false false true) true false;
   mkInfo #1 [] [] true (mkShape true false false true) true true;
   mkInfo #28 [] [] false (mkShape false true false true) false false;
   mkInfo #29 [] [] true (mkShape true true false true) false true;
   mkInfo #7 [] [] false (mkShape false false false true) false false;
   mkInfo #8 [] [] false (mkShape false false false true) false false;
   mkInfo #9 [] [] false (mkShape false false false true) false false;
   mkInfo #15 [] [] false (mkShape false true true true) false false;
   mkInfo #16 [] [] false (mkShape false true true true) false false;
   mkInfo #17 [] [] false (mkShape false true true true) false false;
   mkInfo #4 [] [] false (mkShape false true false false) false false;
   mkInfo #4 [] [] false (mkShape false true false false) true false;
   mkInfo #16 [] [] false (mkShape false false false true) false false;
   mkInfo #26 [] [] false (mkShape false true false false) false false;
   mkInfo #0 [] [] false (mkShape false false false true) true false;
   mkInfo #1 [] [] false (mkShape false false false true) true false;
   mkInfo #0 [] [] false (mkShape false false false true) true false;
   mkInfo #1 [] [] false (mkShape false false false true) true false;
   mkInfo #7 [] [] false (mkShape false false false true) true false;
   mkInfo #6 [] [] false (mkShape false true false true) true false;
   mkInfo #0 [] [] false (mkShape false false false true) true false;
   mkInfo #4 [] [] true (mkShape true true false false) false true;
   mkInfo #0 [] [] false (mkShape false false false true) true false;
   mkInfo #1 [] [] false (mkShape false false false true) false false;
   mkInfo #2 [] [] false (mkShape false false false true) false false;
   mkInfo #3 [] [] true (mkShape true false false true) false true;
   mkInfo #0 [] [] false (mkShape false false false true) true false;
   mkInfo #1 [] [] false (mkShape false false false true) false false;
   mkInfo #2 [] [] false (mkShape false false false true) false false;
   mkInfo #0 [] [] false (mkShape false false false true) true false;
   mkInfo #1 [] [] false (mkShape false false false true) false false;
   mkInfo #2 [] [] false (mkShape false false false true) false false;
   mkInfo #0 [] [] false (mkShape false false false true) true false;
   mkInfo #1 [] [] false (mkShape false false false true) true false;
   mkInfo #2 [] [] false (mkShape false false false true) true false;
   mkInfo #3 [] [] true (mkShape true false false false) true false;
   mkInfo #0 [] [] true (mkShape true false false false) true false;
   mkInfo #1 [] [] true (mkShape true false false false) true false;
   mkInfo #0 [] [] false (mkShape false false false true) true false;
   mkInfo #1 [] [] false (mkShape false false false true) true false;
   mkInfo #4 [] [] true (mkShape true false false true) true false;
   mkInfo #20 [] [] false (mkShape false true true false) false false;
   mkInfo #21 [] [] false (mkShape false true true false) false false;
   mkInfo #22 [] [] false (mkShape false true true false) false false;
   mkInfo #23 [] [] false (mkShape false true true false) false false;
   mkInfo #24 [] [] false (mkShape false true true false) false false;
   mkInfo #0 [] [] false (mkShape false false false true) true false;
   mkInfo #0 [] [] false (mkShape false false false true) true false;
   mkInfo #19 [] [] false (mkShape false true false false) false false;
   mkInfo #4 [] [] false (mkShape false true false false) false false;
   mkInfo #20 [] [] false (mkShape false true false false) false false;
   mkInfo #1 [] [] false (mkShape false false false true) false false;
   mkInfo #2 [] [] false (mkShape false false false true) false false;
   mkInfo #3 [] [] true (mkShape true false false true) false true;
   mkInfo #1 [] [] false (mkShape false false false true) false false;
   mkInfo #2 [] [] false (mkShape false false false true) false false;
   mkInfo #3 [] [] true (mkShape true false false true) true true;
   mkInfo #0 [] [] false (mkShape false false false true) true false;
   mkInfo #4 [] [] false (mkShape false false false true) false false;
   mkInfo #5 [] [] false (mkShape false false false true) false false;
   mkInfo #0 [] [] false (mkShape false false false true) true false;
   mkInfo #0 [] [] false (mkShape false false false true) true false;
   mkInfo #1 [] [] false (mkShape false false false true) false false;
   mkInfo #2 [] [] false (mkShape false false false true) false false;
   mkInfo #3 [] [] true (mkShape true false false true) false true;
   mkInfo #23 [] [] true (mkShape false true true true) false true;
   mkInfo #20 [] [] false (mkShape false true true false) false false;
   mkInfo #21 [] [] false (mkShape false true true false) false false;
   mkInfo #3 [] [] true (mkShape true false false true) true true;
   mkInfo #0 [] [] false (mkShape false false false true) true false;
   mkInfo #4 [] [] false (mkShape false false false true) false false;
   mkInfo #5 [] [] false (mkShape false false false true) false false;
   mkInfo #3 [] [] true (mkShape true false false true) true true;
   mkInfo #0 [] [] false (mkShape false false false true) true false;
   mkInfo #0 [] [] false (mkShape false false false true) true false;
   mkInfo #4 [] [] false (mkShape false false false true) false false;
   mkInfo #5 [] [] false (mkShape false false false true) false false;
   mkInfo #0 [] [] false (mkShape false false false true) true false;
   mkInfo #0 [] [] false (mkShape false false false true) true false;
   mkInfo #1 [] [] false (mkShape false false false true) true false;
   mkInfo #0 [] [] false (mkShape false false false true) true false;
   mkInfo #25 [] [] true (mkShape true true false false) false true;
   mkInfo #7 [] [] false (mkShape false false false true) false false;
   mkInfo #1 [] [] false (mkShape false false false true) false false;
   mkInfo #2 [] [] false (mkShape false false false true) false false;
   mkInfo #0 [] [] false (mkShape false false false true) true false;
   mkInfo #20 [] [] false (mkShape false true true false) false false;
   mkInfo #0 [] [] false (mkShape false false false true) true false;
   mkInfo #1 [] [] false (mkShape false false false true) true false;
   mkInfo #0 [] [] true (mkShape true false false false) true false;
   mkInfo #1 [] [] true (mkShape true false false false) true false;
   mkInfo #3 [] [] true (mkShape true false false false) true false;
   mkInfo #4 [] [] true (mkShape true false false true) true false;
   mkInfo #22 [] [] false (mkShape false true false false) false false;
   mkInfo #23 [] [] false (mkShape false true false false) false false;
   mkInfo #0 [] [] false (mkShape false false false true) true false;
   mkInfo #1 [] [] false (mkShape false false false true) false false;
   mkInfo #2 [] [] false (mkShape false false false true) false false;
   mkInfo #3 [] [] true (mkShape true false false true) false true;
   mkInfo #4 [] [] true (mkShape true true false false) false true;
   mkInfo #20 [] [] false (mkShape false true false false) false false;
   mkInfo #0 [] [] false (mkShape false false false true) true false;
   mkInfo #1 [] [] false (mkShape false false false true) false false;
   mkInfo #2 [] [] false (mkShape false false false true) false false;
   mkInfo #4 [] [] false (mkShape false true false false) false false;
   mkInfo #5 [] [] false (mkShape false true false false) false false;
   mkInfo #4 [] [] false (mkShape false true false false) true false;
   mkInfo #5 [] [] false (mkShape false true false false) true false;
   mkInfo #0 [] [] false (mkShape false false false true) true false;
   mkInfo #0 [] [] false (mkShape false false false true) true false;
   mkInfo #11 [] [] false (mkShape false true false false) false false;
   mkInfo #12 [] [] true (mkShape true true false false) false true;
   mkInfo #1 [] [] false (mkShape false false false true) false false;
   mkInfo #2 [] [] false (mkShape false false false true) false false;
   mkInfo #20 [] [] false (mkShape false true true false) false false;
   mkInfo #21 [] [] false (mkShape false true true false) false false;
   mkInfo #0 [] [] true (mkShape true false false false) true false;
   mkInfo #3 [] [] true (mkShape true false false false) true false;
   mkInfo #4 [] [] true (mkShape true false false false) true false;
   mkInfo #0 [] [] true (mkShape true false false false) true false;
   mkInfo #1 [] [] true (mkShape true false false false) true false;
   mkInfo #2 [] [] true (mkShape true false false false) true false;
   mkInfo #5 [] [] true (mkShape true false false false) true false;
   mkInfo #16 [] [] false (mkShape false true true true) false false;
   mkInfo #17 [] [] false (mkShape false true true true) false false;
   mkInfo #20 [] [] false (mkShape false true true false) false false;
   mkInfo #21 [] [] false (mkShape false true true false) false false;
   mkInfo #29 [] [] true (mkShape true true true true) false true;
   mkInfo #7 [] [] false (mkShape false false false true) false false;
   mkInfo #13 [] [] false (mkShape false true true true) false false;
   mkInfo #14 [] [] false (mkShape false true true true) false false;
   mkInfo #20 [] [] false (mkShape false true true false) false false;
   mkInfo #21 [] [] false (mkShape false true true false) false false;
   mkInfo #0 [] [] false (mkShape false false false true) true false;
   mkInfo #0 [] [] false (mkShape false false false true) true false;
   mkInfo #1 [] [] false (mkShape false false false true) true false;
   mkInfo #0 [] [] false (mkShape false false false true) true false;
   mkInfo #1 [] [] false (mkShape false false false true) true false;
   mkInfo #2 [] [] false (mkShape false false false true) true false;
   mkInfo #1 [] [] false (mkShape false false false true) true false;
   mkInfo #2 [] [] false (mkShape false false false true) true false;
   mkInfo #20 [] [] false (mkShape false true true false) false false;
   mkInfo #21 [] [] false (mkShape false true true false) false false;
   mkInfo #7 [] [] false (mkShape false false false true) false false;
   mkInfo #20 [] [] false (mkShape false true true false) false false;
   mkInfo #21 [] [] false (mkShape false true true false) false false;
   mkInfo #0 [] [] false (mkShape false false false true) true false;
   mkInfo #20 [] [] false (mkShape false true true false) false false;
   mkInfo #21 [] [] false (mkShape false true true false) false false;
   mkInfo #0 [] [] false (mkShape false false false true) true false;
   mkInfo #1 [] [] false (mkShape false false false true) false false;
   mkInfo #2 [] [] false (mkShape false false false true) false false;
   mkInfo #20 [] [] false (mkShape false true true false) false false;
   mkInfo #21 [] [] false (mkShape false true true false) false false;
   mkInfo #3 [] [] false (mkShape false false false true) false false;
   mkInfo #4 [] [] false (mkShape false false false true) false false;
   mkInfo #0 [] [] false (mkShape false false false true) true false;
   mkInfo #0 [] [] false (mkShape false false false true) true false;
   mkInfo #1 [] [] true (mkShape true false false true) true true;
   mkInfo #0 [] [] false (mkShape false false false true) true false;
   mkInfo #1 [] [] true (mkShape true false false true) true true;
   mkInfo #1 [] [] false (mkShape false false false true) true false;
   mkInfo #0 [] [] false (mkShape false false false true) true false;
   mkInfo #1 [] [] false (mkShape false false false true) false false;
   mkInfo #2 [] [] false (mkShape false false false true) false false;
   mkInfo #0 [] [] false (mkShape false false false true) true false;
   mkInfo #1 [] [] false (mkShape false false false true) false false;
   mkInfo #2 [] [] false (mkShape false false false true) false false;
   mkInfo #0 [] [] false (mkShape false false false true) true false;
   mkInfo #1 [] [] false (mkShape false false false true) false false;
   mkInfo #2 [] [] false (mkShape false false false true) false false;
   mkInfo #0 [] [] false (mkShape false false false true) true false;
   mkInfo #1 [] [] false (mkShape false false false true) true false;
   mkInfo #0 [] [] false (mkShape false false false true) true false;
   mkInfo #1 [] [] false (mkShape false false false true) true false;
   mkInfo #0 [] [] false (mkShape false false false true) true false;
   mkInfo #1 [] [] false (mkShape false false false true) true false;
   mkInfo #2 [] [] false (mkShape false false false true) true false;
   mkInfo #8 [] [] false (mkShape false false false true) true false;
   mkInfo #20 [] [] false (mkShape false true true false) false false;
   mkInfo #21 [] [] false (mkShape false true true false) false false;
   mkInfo #0 [] [] false (mkShape false false false true) true false;
   mkInfo #1 [] [] false (mkShape false false false true) true false;
   mkInfo #0 [] [] false (mkShape false false false true) true false;
   mkInfo #1 [] [] false (mkShape false false false true) true false;
   mkInfo #2 [] [] false (mkShape false false false true) true false;
   mkInfo #8 [] [] false (mkShape false false false true) true false;
   mkInfo #20 [] [] false (mkShape false true true false) false false;
   mkInfo #21 [] [] false (mkShape false true true false) false false;
   mkInfo #0 [] [] false (mkShape false false false true) true false;
   mkInfo #1 [] [] false (mkShape false false false true) true false;
   mkInfo #0 [] [] false (mkShape false false false true) true false;
   mkInfo #1 [] [] false (mkShape false false false true) true false;
   mkInfo #2 [] [] false (mkShape false false false true) true false;
   mkInfo #8 [] [] false (mkShape false false false true) true false;
   mkInfo #20 [] [] false (mkShape false true true false) false false;
   mkInfo #21 [] [] false (mkShape false true true false) false false;
   mkInfo #0 [] [] true (mkShape true false false false) true false;
   mkInfo #3 [] [] true (mkShape true false false false) true false;
   mkInfo #1 [#1] [#1] false (mkShape false false false true) true false;
   mkInfo #4 [#1] [#1] false (mkShape false false false true) true false;
   mkInfo #0 [] [] true (mkShape true false false false) true false;
   mkInfo #1 [] [] true (mkShape true false false false) true false;
   mkInfo #1 [#1] [#1] false (mkShape false false false true) true false;
   mkInfo #2 [#1] [#1] false (mkShape false false false true) true false;
   mkInfo #0 [] [] false (mkShape false false false true) true false;
   mkInfo #0 [] [] false (mkShape false false false true) true false;
   mkInfo #1 [] [] true (mkShape true false false false) true false;
   mkInfo #1 [] [] false (mkShape false false false true) true false;
   mkInfo #2 [] [] false (mkShape false false false true) true false;
   mkInfo #8 [] [] false (mkShape false false false true) true false;
   mkInfo #20 [] [] false (mkShape false true true false) false false;
   mkInfo #21 [] [] false (mkShape false true true false) false false;
   mkInfo #0 [] [] false (mkShape false false false true) true false;
   mkInfo #6 [] [] false (mkShape false false false true) true false;
   mkInfo #20 [] [] false (mkShape false true true false) false false;
   mkInfo #21 [] [] false (mkShape false true true false) false false;
   mkInfo #0 [] [] false (mkShape false false false true) true false;
   mkInfo #0 [] [] false (mkShape false false false true) true false;
   mkInfo #1 [] [] true (mkShape true false false false) true false;
   mkInfo #1 [] [] false (mkShape false false false true) true false;
   mkInfo #2 [] [] false (mkShape false false false true) true false;
   mkInfo #8 [] [] false (mkShape false false false true) true false;
   mkInfo #20 [] [] false (mkShape false true true false) false false;
   mkInfo #21 [] [] false (mkShape false true true false) false false;
   mkInfo #8 [] [] false (mkShape false false false true) true false;
   mkInfo #20 [] [] false (mkShape false true true false) false false;
   mkInfo #21 [] [] false (mkShape false true true false) false false;
   mkInfo #0 [] [] false (mkShape false false false true) true false;
   mkInfo #1 [] [] false (mkShape false false false true) true false;
   mkInfo #0 [] [] false (mkShape false false false true) true false;
   mkInfo #1 [] [] false (mkShape false false false true) true false;
   mkInfo #0 [] [] false (mkShape false false false true) true false;
   mkInfo #1 [] [] false (mkShape false false false true) true false;
   mkInfo #0 [] [] false (mkShape false false false true) true false;
   mkInfo #1 [] [] false (mkShape false false false true) true false;
   mkInfo #0 [] [] false (mkShape false false false true) true false;
   mkInfo #1 [] [] false (mkShape false false false true) true false;
   mkInfo #0 [] [] false (mkShape false false false true) true false;
   mkInfo #1 [] [] false (mkShape false false false true) true false;
   mkInfo #0 [] [] false (mkShape false false false true) true false;
   mkInfo #6 [] [] false (mkShape false false false true) true false;
   mkInfo #20 [] [] false (mkShape false true true false) false false;
   mkInfo #21 [] [] false (mkShape false true true false) false false;
   mkInfo #0 [] [] false (mkShape false false false true) true false;
   mkInfo #6 [] [] false (mkShape false false false true) true false;
   mkInfo #20 [] [] false (mkShape false true true false) false false;
   mkInfo #21 [] [] false (mkShape false true true false) false false;
   mkInfo #10 [] [] false (mkShape false false false true) true false;
   mkInfo #20 [] [] false (mkShape false true true false) false false;
   mkInfo #21 [] [] false (mkShape false true true false) false false;
   mkInfo #5 [] [] false (mkShape false false false true) false false;
   mkInfo #6 [] [] false (mkShape false false false true) false false;
   mkInfo #20 [] [] false (mkShape false true true false) false false;
   mkInfo #21 [] [] false (mkShape false true true false) false false;
   mkInfo #0 [] [] false (mkShape false false false true) true false;
   mkInfo #6 [] [] true (mkShape true false false false) true false;
   mkInfo #1 [] [] false (mkShape false false false true) true false;
   mkInfo #2 [] [] false (mkShape false false false true) true false;
   mkInfo #0 [] [] false (mkShape false false false true) true false;
   mkInfo #1 [] [] false (mkShape false false false true) true false;
   mkInfo #0 [] [] false (mkShape false false false true) true false;
   mkInfo #1 [] [] false (mkShape false false false true) true false;
   mkInfo #6 [] [] true (mkShape true false false false) true false;
   mkInfo #7 [] [] true (mkShape true false false false) true false;
   mkInfo #0 [] [] false (mkShape false false false true) true false;
   mkInfo #0 [] [] true (mkShape true false false false) true false;
   mkInfo #1 [] [] false (mkShape false false false true) true false;
   mkInfo #2 [] [] false (mkShape false false false true) true false;
   mkInfo #3 [] [] true (mkShape true false false false) true false;
   mkInfo #3 [] [] false (mkShape false false false true) true false;
   mkInfo #0 [] [] false (mkShape false false false true) true false;
   mkInfo #1 [] [] false (mkShape false false false true) true false;
   mkInfo #0 [] [] false (mkShape false false false true) true false;
   mkInfo #1 [] [] false (mkShape false false false true) true false;
   mkInfo #0 [] [] false (mkShape false false false true) true false;
   mkInfo #1 [] [] false (mkShape false false false true) true false;
   mkInfo #0 [] [] false (mkShape false false false true) true false;
   mkInfo #1 [] [] false (mkShape false false false true) true false;
   mkInfo #0 [] [] false (mkShape false false false true) true false;
   mkInfo #1 [] [] false (mkShape false false false true) true false;
   mkInfo #0 [] [] false (mkShape false false false true) true false;
   mkInfo #1 [] [] false (mkShape false false false true) true false;
   mkInfo #0 [] [] false (mkShape false false false true) true false;
   mkInfo #1 [] [] false (mkShape false false false true) true false;
   mkInfo #0 [] [] false (mkShape false false false true) true false;
   mkInfo #1 [] [] false (mkShape false false false true) true false;
   mkInfo #0 [] [] false (mkShape false false false true) true false;
   mkInfo #1 [] [] false (mkShape false false false true) true false;
   mkInfo #0 [] [] false (mkShape false false false true) true false;
   mkInfo #1 [] [] false (mkShape false false false true) true false;
   mkInfo #0 [] [] false (mkShape false false false true) true false;
   mkInfo #1 [] [] false (mkShape false false false true) true false;
   mkInfo #2 [] [] false (mkShape false false false true) true false;
   mkInfo #8 [] [] false (mkShape false false false true) true false;
   mkInfo #20 [] [] false (mkShape false true true false) false false;
   mkInfo #21 [] [] false (mkShape false true true false) false false;
   mkInfo #0 [] [] false (mkShape false false false true) true false;
   mkInfo #1 [] [] false (mkShape false false false true) false false;
   mkInfo #2 [] [] false (mkShape false false false true) false false;
   mkInfo #0 [] [] false (mkShape false false false true) true false;
   mkInfo #0 [] [] false (mkShape false false false true) true false;
   mkInfo #1 [] [] false (mkShape false false false true) false false;
   mkInfo #2 [] [] false (mkShape false false false true) false false;
   mkInfo #10 [] [] true (mkShape true true true true) false true;
   mkInfo #7 [] [] false (mkShape false false false true) false false;
   mkInfo #8 [] [] false (mkShape false false false true) false false;
   mkInfo #4 [] [] true (mkShape true true false false) false true;
   mkInfo #5 [] [] true (mkShape true true false false) false true;
   mkInfo #0 [] [] false (mkShape false false false true) true false;
   mkInfo #0 [] [] false (mkShape false false false true) true false;
   mkInfo #1 [] [] false (mkShape false false false true) false false;
   mkInfo #10 [] [] true (mkShape true true true true) false true;
   mkInfo #7 [] [] false (mkShape false false false true) false false;
   mkInfo #8 [] [] false (mkShape false false false true) false false;
   mkInfo #9 [] [] false (mkShape false false false true) false false;
   mkInfo #10 [] [] true (mkShape true false false true) false true;
   mkInfo #1 [] [] false (mkShape false false false true) false false;
   mkInfo #2 [] [] false (mkShape false false false true) false false;
   mkInfo #0 [] [] false (mkShape false false false true) true false;
   mkInfo #0 [] [] false (mkShape false false false true) true false;
   mkInfo #0 [] [] false (mkShape false false false true) true false;
   mkInfo #1 [] [] true (mkShape true false false true) true true;
   mkInfo #7 [] [] true (mkShape true true false false) true true;
   mkInfo #7 [] [] false (mkShape false false false true) false false;
   mkInfo #1 [] [] false (mkShape false false false true) false false;
   mkInfo #2 [] [] false (mkShape false false false true) false false;
   mkInfo #0 [] [] false (mkShape false false false true) true false;
   mkInfo #0 [] [] false (mkShape false false false true) true false;
   mkInfo #0 [] [] false (mkShape false false false true) true false;
   mkInfo #1 [] [] true (mkShape true false false true) true true;
   mkInfo #0 [] [] false (mkShape false false false true) true false;
   mkInfo #7 [] [] true (mkShape true true false false) true true;
   mkInfo #0 [] [] false (mkShape false false false true) true false;
   mkInfo #1 [] [] false (mkShape false false false true) true false;
   mkInfo #0 [] [] false (mkShape false false false true) true false;
   mkInfo #7 [] [] true (mkShape true true false false) true true;
   mkInfo #0 [] [] false (mkShape false false false true) true false;
   mkInfo #1 [] [] false (mkShape false false false true) true false;
   mkInfo #2 [] [] false (mkShape false false false true) true false;
   mkInfo #1 [] [] false (mkShape false false false true) true false;
   mkInfo #2 [] [] false (mkShape false false false true) true false;
   mkInfo #0 [] [] false (mkShape false false false true) true false;
   mkInfo #1 [] [] false (mkShape false false false true) true false;
   mkInfo #0 [] [] false (mkShape false false false true) true false;
   mkInfo #1 [] [] false (mkShape false false false true) true false;
   mkInfo #0 [] [] false (mkShape false false false true) true false;
   mkInfo #1 [] [] false (mkShape false false false true) true false;
   mkInfo #0 [] [] false (mkShape false false false true) true false;
   mkInfo #1 [] [] false (mkShape false false false true) true false;
   mkInfo #0 [] [] false (mkShape false false false true) true false;
   mkInfo #1 [] [] false (mkShape false false false true) true false;
   mkInfo #0 [] [] false (mkShape false false false true) true false;
   mkInfo #1 [] [] false (mkShape false false false true) true false;
   mkInfo #2 [] [] false (mkShape false false false true) true false;
   mkInfo #3 [] [] true (mkShape true false false false) true false;
   mkInfo #0 [] [] false (mkShape false false false true) true false;
   mkInfo #4 [] [] false (mkShape false false false true) true false;
   mkInfo #0 [] [] false (mkShape false false false true) true false;
   mkInfo #7 [] [] true (mkShape true true false false) true true;
   mkInfo #0 [] [] false (mkShape false false false true) true false;
   mkInfo #1 [] [] false (mkShape false false false true) true false;
   mkInfo #0 [] [] false (mkShape false false false true) true false;
   mkInfo #7 [] [] true (mkShape true true false false) true true;
   mkInfo #0 [] [] false (mkShape false false false true) true false;
   mkInfo #1 [] [] false (mkShape false false false true) true false;
   mkInfo #0 [] [] false (mkShape false false false true) true false;
   mkInfo #7 [] [] true (mkShape true true false false) true true;
   mkInfo #0 [] [] false (mkShape false false false true) true false;
   mkInfo #1 [] [] false (mkShape false false false true) true false;
   mkInfo #5 [] [] false (mkShape false false false true) true false;
   mkInfo #1 [#2] [#2] false (mkShape false true true true) false false;
   mkInfo #0 [] [] true (mkShape true false false false) true false;
   mkInfo #1 [] [] true (mkShape true false false false) true false;
   mkInfo #0 [] [] false (mkShape false false false true) true false;
   mkInfo #1 [] [] false (mkShape false false false true) true false;
   mkInfo #2 [] [] true (mkShape true false false true) true false;
   mkInfo #2 [#2] [#2] false (mkShape false true true true) false false;
   mkInfo #3 [#2] [#2] false (mkShape false true true true) false false;
   mkInfo #4 [#2] [#2] true (mkShape true true true true) false true;
   mkInfo #5 [#2] [#2] true (mkShape true true true true) false true;
   mkInfo #0 [] [] false (mkShape false false false true) true false;
   mkInfo #0 [] [] false (mkShape false false false true) true false;
   mkInfo #1 [#3] [#3] true (mkShape true true true true) false true;
   mkInfo #4 [#3] [] false (mkShape false false false true) false false;
   mkInfo #5 [#3] [] false (mkShape false false false true) false false;
   mkInfo #0 [] [] false (mkShape false false false true) true false;
   mkInfo #0 [] [] false (mkShape false false false true) true false;
   mkInfo #1 [#4] [#4] true (mkShape true true true true) false false;
   mkInfo #4 [#4] [] false (mkShape false false false true) false false;
   mkInfo #5 [#4] [] false (mkShape false false false true) false false;
   mkInfo #0 [] [] false (mkShape false false false true) true false;
   mkInfo #0 [] [] false (mkShape false false false true) true false;
   mkInfo #1 [#5] [#5] true (mkShape true true true true) false false;
   mkInfo #4 [#5] [] false (mkShape false false false true) false false;
   mkInfo #5 [#5] [] false (mkShape false false false true) false false;
   mkInfo #0 [] [] false (mkShape false false false true) true false;
   mkInfo #0 [] [] false (mkShape false false false true) true false;
   mkInfo #1 [#6] [#6] true (mkShape true true true true) false false;
   mkInfo #4 [#6] [] false (mkShape false false false true) false false;
   mkInfo #5 [#6] [] false (mkShape false false false true) false false;
   mkInfo #1 [#7] [#7] false (mkShape false false false true) true false;
   mkInfo #1 [#7] [#7] false (mkShape false false false true) true false;
   mkInfo #1 [#8] [#8] false (mkShape false false false true) true false;
   mkInfo #10 [#7; #8] [#7; #8] true (mkShape true false false true) true true;
   mkInfo #1 [#9] [#9] true (mkShape true true true true) false false;
   mkInfo #11 [#7; #8; #9] [#7; #8; #9] true (mkShape true true true true) false true;
   mkInfo #1 [#8] [#8] false (mkShape false false false true) true false;
   mkInfo #2 [#7; #8; #9] [#7] false (mkShape false false false true) false false;
   mkInfo #1 [#10] [#10] false (mkShape false false false true) true false;
   mkInfo #1 [#10] [#10] false (mkShape false false false true) true false;
   mkInfo #1 [#11] [#11] false (mkShape false false false true) true false;
   mkInfo #10 [#10; #11] [#10; #11] true (mkShape true false false true) true true;
   mkInfo #1 [#11] [#11] false (mkShape false false false true) true false;
   mkInfo #2 [#10; #11] [#10] false (mkShape false false false true) true false;
   mkInfo #1 [#11] [#11] false (mkShape false false false true) true false;
   mkInfo #2 [#11] [#11] true (mkShape true false false false) true false;
   mkInfo #0 [] [] false (mkShape false false false true) true false;
   mkInfo #3 [#11] [#11] false (mkShape false false false true) true false;
   mkInfo #4 [#11] [#11] false (mkShape false false false true) true false;
   mkInfo #5 [#11] [#11] false (mkShape false false false true) true false;
   mkInfo #6 [#10; #11] [#10; #11] false (mkShape false false false true) true false;
   mkInfo #7 [#10; #11] [#10; #11] true (mkShape true false false true) true true;
   mkInfo #8 [#10; #11] [#10; #11] true (mkShape true false false true) true true]
  [[#75; #955; #999; #1121]; [#132; #140; #777; #783; #789; #795; #797; #803; #806; #808; #833; #1170; #1178; #1186; #1202; #1206; #1214; #1233; #1237; #1286]; [#6; #12; #16; #17; #19; #32; #35; #49; #61; #63; #68; #75; #82; #114; #146; #563; #571; #576; #943]; [#1; #212; #291; #314; #324; #369; #426; #701; #920; #996; #1074; #1316]; [#255; #296; #321; #499; #583; #629; #651; #689; #727; #938; #1120; #1305]; [#441; #538; #579]; [#75; #645; #956; #1297]; [#1374; #1379; #1384; #1389]; [#1375; #1380; #1385; #1390]; [#1; #75; #212; #255; #291; #296; #314; #321; #324; #369; #426; #441; #499; #538; #579; #583; #629; #645; #651; #689; #701; #727; #920; #938; #956; #996; #1074; #1120; #1297; #1305; #1316]; [#1374; #1379; #1384; #1389]; [#1375; #1380; #1385; #1390]].

(** fall/test/src/sexp.rs:24 [parser_json]; node types from the [ParserDefinition] below it *)
Definition sexp_grammar : grammar := mkGrammar
  [#0; #100; #101; #102; #103; #104; #105]
  [EPub #5 #5 false;
   EOr [#7; #8];
   EPub #6 #13 false;
   ERep #1;
   EAnd [#3] None;
   EOr [#4];
   EToken #4;
   EAnd [#6] None;
   EAnd [#2] None;
   EToken #2;
   ERep #1;
   EToken #3;
   EAnd [#9; #10; #11] None;
   EOr [#12]].

(** fall/test/src/sexp.rs, the types with [whitespace_like: true] *)
Definition sexp_ws (ty : nat) : bool := memb ty [#100].

Definition sexp_cert : cert := mkCert
  [mkInfo #9 [] [] true (mkShape false true false false) true true;
   mkInfo #5 [] [] false (mkShape false true false true) true false;
   mkInfo #3 [] [] false (mkShape false true false false) true false;
   mkInfo #6 [] [] true (mkShape true true false true) true true;
   mkInfo #7 [] [] true (mkShape true true false true) true true;
   mkInfo #8 [] [] true (mkShape true true false true) true true;
   mkInfo #0 [] [] false (mkShape false false false true) true false;
   mkInfo #1 [] [] false (mkShape false false false true) true false;
   mkInfo #4 [] [] false (mkShape false true false false) true false;
   mkInfo #0 [] [] false (mkShape false false false true) true false;
   mkInfo #6 [] [] true (mkShape true true false true) true true;
   mkInfo #0 [] [] false (mkShape false false false true) true false;
   mkInfo #1 [] [] false (mkShape false false false true) true false;
   mkInfo #2 [] [] false (mkShape false false false true) true false]
  [].

(** lang/bnf/src/bnf.rs:24 [parser_json]; node types from the [ParserDefinition] below it *)
Definition bnf_grammar : grammar := mkGrammar
  [#0; #100; #101; #102; #103; #104; #105; #106; #107; #108; #109]
  [EPub #6 #9 false;
   EOr [#12];
   EPub #7 #14 false;
   EPub #8 #20 false;
   EPub #9 #23 false;
   EPub #10 #30 false;
   EWithSkip #1 #2;
   ERep #6;
   EAnd [#7] None;
   EOr [#8];
   EToken #5;
   EToken #2;
   EAnd [#10; #11] None;
   EAnd [#1; #3] (Some #1);
   EOr [#13];
   EToken #3;
   EAnd [#15; #4] None;
   EOr [#16];
   ERep #17;
   EAnd [#4; #18] None;
   EOr [#19];
   ERep #5;
   EAnd [#5; #21] None;
   EOr [#22];
   EToken #5;
   EToken #2;
   ENot #25;
   EAnd [#24; #26] None;
   EToken #4;
   EAnd [#28] None;
   EOr [#27; #29]].

(** lang/bnf/src/bnf.rs, the types with [whitespace_like: true] *)
Definition bnf_ws (ty : nat) : bool := memb ty [#100].

Definition bnf_cert : cert := mkCert
  [mkInfo #10 [] [] true (mkShape false true false false) true true;
   mkInfo #2 [] [] false (mkShape false false false true) true false;
   mkInfo #5 [] [] false (mkShape false true false false) true false;
   mkInfo #9 [] [] false (mkShape false true false false) true false;
   mkInfo #6 [] [] false (mkShape false true false false) true false;
   mkInfo #3 [] [] false (mkShape false true false false) true false;
   mkInfo #6 [] [] false (mkShape false true false false) true false;
   mkInfo #7 [] [] true (mkShape true true false false) true true;
   mkInfo #8 [] [] true (mkShape true true false false) true true;
   mkInfo #9 [] [] true (mkShape true true false false) true true;
   mkInfo #0 [] [] false (mkShape false false false true) true false;
   mkInfo #0 [] [] false (mkShape false false false true) true false;
   mkInfo #1 [] [] false (mkShape false false false true) true false;
   mkInfo #3 [] [] false (mkShape false false false true) true false;
   mkInfo #4 [] [] false (mkShape false false false true) true false;
   mkInfo #0 [] [] false (mkShape false false false true) true false;
   mkInfo #1 [] [] false (mkShape false false false true) true false;
   mkInfo #2 [] [] false (mkShape false false false true) true false;
   mkInfo #3 [] [] true (mkShape true false false true) true true;
   mkInfo #7 [] [] false (mkShape false true false false) true false;
   mkInfo #8 [] [] false (mkShape false true false false) true false;
   mkInfo #4 [] [] true (mkShape true true false false) true true;
   mkInfo #4 [] [] false (mkShape false true false false) true false;
   mkInfo #5 [] [] false (mkShape false true false false) true false;
   mkInfo #0 [] [] false (mkShape false false false true) true false;
   mkInfo #0 [] [] false (mkShape false false false true) true false;
   mkInfo #1 [] [] true (mkShape true false false false) true false;
   mkInfo #1 [] [] false (mkShape false false false true) true false;
   mkInfo #0 [] [] false (mkShape false false false true) true false;
   mkInfo #1 [] [] false (mkShape false false false true) true false;
   mkInfo #2 [] [] false (mkShape false false false true) true false]
  [].

(** lang/json/src/json.rs:40 [parser_json]; node types from the [ParserDefinition] below it *)
Definition json_grammar : grammar := mkGrammar
  [#0; #100; #101; #102; #103; #104; #105; #106; #107; #108; #109; #110; #111; #112; #113; #114; #115]
  [EPub #12 #14 false;
   EPub #13 #19 false;
   EOr [#32];
   EPub #14 #36 false;
   EPub #15 #41 false;
   EOr [#66];
   EOr [#67; #68; #69];
   EPub #16 #78 false;
   EOr [#80];
   EOr [#83; #89];
   EOr [#91];
   EOr [#94; #100];
   EAnd [#1] None;
   EAnd [#4] None;
   EOr [#12; #13];
   EToken #2;
   ELayer #8 #2;
   EToken #3;
   EAnd [#15; #16; #17] (Some #1);
   EOr [#18];
   EToken #10;
   EToken #7;
   EEof;
   ENot #22;
   EAnd [#21; #23] None;
   EEof;
   EAnd [#25] None;
   EOr [#24; #26];
   EAnd [#3; #27] (Some #1);
   EOr [#28];
   EWithSkip #20 #29;
   ERep #30;
   EAnd [#31] None;
   EToken #10;
   EToken #6;
   EAnd [#33; #34; #6] (Some #1);
   EOr [#35];
   EToken #4;
   ELayer #10 #5;
   EToken #5;
   EAnd [#37; #38; #39] (Some #1);
   EOr [#40];
   EToken #8;
   EAnd [#42] None;
   EToken #11;
   EAnd [#44] None;
   EToken #10;
   EAnd [#46] None;
   EToken #9;
   EAnd [#48] None;
   EToken #2;
   EAnd [#50] None;
   EToken #4;
   EAnd [#52] None;
   EOr [#43; #45; #47; #49; #51; #53];
   EToken #7;
   EEof;
   ENot #56;
   EAnd [#55; #57] None;
   EEof;
   EAnd [#59] None;
   EOr [#58; #60];
   EAnd [#6; #61] (Some #1);
   EOr [#62];
   EWithSkip #54 #63;
   ERep #64;
   EAnd [#65] None;
   EAnd [#7] None;
   EAnd [#1] None;
   EAnd [#4] None;
   EToken #8;
   EAnd [#70] None;
   EToken #11;
   EAnd [#72] None;
   EToken #10;
   EAnd [#74] None;
   EToken #9;
   EAnd [#76] None;
   EOr [#71; #73; #75; #77];
   ERep #9;
   EAnd [#79] None;
   EToken #2;
   EToken #3;
   EAnd [#81; #8; #82] (Some #1);
   EToken #3;
   ENot #84;
   EAny;
   EAnd [#85; #86] None;
   EOr [#87];
   EAnd [#88] None;
   ERep #11;
   EAnd [#90] None;
   EToken #4;
   EToken #5;
   EAnd [#92; #10; #93] (Some #1);
   EToken #5;
   ENot #95;
   EAny;
   EAnd [#96; #97] None;
   EOr [#98];
   EAnd [#99] None].

(** lang/json/src/json.rs, the types with [whitespace_like: true] *)
Definition json_ws (ty : nat) : bool := memb ty [#100].

Definition json_cert : cert := mkCert
  [mkInfo #6 [] [] false (mkShape false true false false) true false;
   mkInfo #3 [] [] false (mkShape false true false false) true false;
   mkInfo #9 [] [] true (mkShape true true false false) true true;
   mkInfo #3 [] [] false (mkShape false true false false) true false;
   mkInfo #3 [] [] false (mkShape false true false false) true false;
   mkInfo #11 [] [] true (mkShape true true false false) true true;
   mkInfo #5 [] [] false (mkShape false true false false) true false;
   mkInfo #3 [] [] false (mkShape false true false false) true false;
   mkInfo #8 [] [] true (mkShape true false false true) true true;
   mkInfo #5 [] [] false (mkShape false false false true) true false;
   mkInfo #8 [] [] true (mkShape true false false true) true true;
   mkInfo #5 [] [] false (mkShape false false false true) true false;
   mkInfo #4 [] [] false (mkShape false true false false) true false;
   mkInfo #4 [] [] false (mkShape false true false false) true false;
   mkInfo #5 [] [] false (mkShape false true false false) true false;
   mkInfo #0 [] [] false (mkShape false false false true) true false;
   mkInfo #10 [] [] true (mkShape true true false false) true true;
   mkInfo #0 [] [] false (mkShape false false false true) true false;
   mkInfo #1 [] [] false (mkShape false false false true) true false;
   mkInfo #2 [] [] false (mkShape false false false true) true false;
   mkInfo #0 [] [] false (mkShape false false false true) true false;
   mkInfo #0 [] [] false (mkShape false false false true) true false;
   mkInfo #0 [] [] true (mkShape true false false false) true false;
   mkInfo #1 [] [] true (mkShape true false false false) true false;
   mkInfo #1 [] [] false (mkShape false false false true) true false;
   mkInfo #0 [] [] true (mkShape true false false false) true false;
   mkInfo #1 [] [] true (mkShape true false false false) true false;
   mkInfo #2 [] [] true (mkShape true false false true) true false;
   mkInfo #4 [] [] false (mkShape false true false false) true false;
   mkInfo #5 [] [] false (mkShape false true false false) true false;
   mkInfo #6 [] [] false (mkShape false true false false) true false;
   mkInfo #7 [] [] true (mkShape true true false false) true true;
   mkInfo #8 [] [] true (mkShape true true false false) true true;
   mkInfo #0 [] [] false (mkShape false false false true) true false;
   mkInfo #0 [] [] false (mkShape false false false true) true false;
   mkInfo #1 [] [] false (mkShape false false false true) true false;
   mkInfo #2 [] [] false (mkShape false false false true) true false;
   mkInfo #0 [] [] false (mkShape false false false true) true false;
   mkInfo #12 [] [] true (mkShape true true false false) true true;
   mkInfo #0 [] [] false (mkShape false false false true) true false;
   mkInfo #1 [] [] false (mkShape false false false true) true false;
   mkInfo #2 [] [] false (mkShape false false false true) true false;
   mkInfo #0 [] [] false (mkShape false false false true) true false;
   mkInfo #1 [] [] false (mkShape false false false true) true false;
   mkInfo #0 [] [] false (mkShape false false false true) true false;
   mkInfo #1 [] [] false (mkShape false false false true) true false;
   mkInfo #0 [] [] false (mkShape false false false true) true false;
   mkInfo #1 [] [] false (mkShape false false false true) true false;
   mkInfo #0 [] [] false (mkShape false false false true) true false;
   mkInfo #1 [] [] false (mkShape false false false true) true false;
   mkInfo #0 [] [] false (mkShape false false false true) true false;
   mkInfo #1 [] [] false (mkShape false false false true) true false;
   mkInfo #0 [] [] false (mkShape false false false true) true false;
   mkInfo #1 [] [] false (mkShape false false false true) true false;
   mkInfo #2 [] [] false (mkShape false false false true) true false;
   mkInfo #0 [] [] false (mkShape false false false true) true false;
   mkInfo #0 [] [] true (mkShape true false false false) true false;
   mkInfo #1 [] [] true (mkShape true false false false) true false;
   mkInfo #1 [] [] false (mkShape false false false true) true false;
   mkInfo #0 [] [] true (mkShape true false false false) true false;
   mkInfo #1 [] [] true (mkShape true false false false) true false;
   mkInfo #2 [] [] true (mkShape true false false true) true false;
   mkInfo #6 [] [] false (mkShape false true false false) true false;
   mkInfo #7 [] [] false (mkShape false true false false) true false;
   mkInfo #8 [] [] false (mkShape false true false false) true false;
   mkInfo #9 [] [] true (mkShape true true false false) true true;
   mkInfo #10 [] [] true (mkShape true true false false) true true;
   mkInfo #4 [] [] false (mkShape false true false false) true false;
   mkInfo #4 [] [] false (mkShape false true false false) true false;
   mkInfo #4 [] [] false (mkShape false true false false) true false;
   mkInfo #0 [] [] false (mkShape false false false true) true false;
   mkInfo #1 [] [] false (mkShape false false false true) true false;
   mkInfo #0 [] [] false (mkShape false false false true) true false;
   mkInfo #1 [] [] false (mkShape false false false true) true false;
   mkInfo #0 [] [] false (mkShape false false false true) true false;
   mkInfo #1 [] [] false (mkShape false false false true) true false;
   mkInfo #0 [] [] false (mkShape false false false true) true false;
   mkInfo #1 [] [] false (mkShape false false false true) true false;
   mkInfo #2 [] [] false (mkShape false false false true) true false;
   mkInfo #6 [] [] true (mkShape true false false true) true true;
   mkInfo #7 [] [] true (mkShape true false false true) true true;
   mkInfo #0 [] [] false (mkShape false false false true) true false;
   mkInfo #0 [] [] false (mkShape false false false true) true false;
   mkInfo #1 [] [] false (mkShape false false false true) true false;
   mkInfo #0 [] [] false (mkShape false false false true) true false;
   mkInfo #1 [] [] true (mkShape true false false false) true false;
   mkInfo #0 [] [] false (mkShape false false false true) true false;
   mkInfo #2 [] [] false (mkShape false false false true) true false;
   mkInfo #3 [] [] false (mkShape false false false true) true false;
   mkInfo #4 [] [] false (mkShape false false false true) true false;
   mkInfo #6 [] [] true (mkShape true false false true) true true;
   mkInfo #7 [] [] true (mkShape true false false true) true true;
   mkInfo #0 [] [] false (mkShape false false false true) true false;
   mkInfo #0 [] [] false (mkShape false false false true) true false;
   mkInfo #1 [] [] false (mkShape false false false true) true false;
   mkInfo #0 [] [] false (mkShape false false false true) true false;
   mkInfo #1 [] [] true (mkShape true false false false) true false;
   mkInfo #0 [] [] false (mkShape false false false true) true false;
   mkInfo #2 [] [] false (mkShape false false false true) true false;
   mkInfo #3 [] [] false (mkShape false false false true) true false;
   mkInfo #4 [] [] false (mkShape false false false true) true false]
  [].

(** fall/test/src/arith.rs:38 [parser_json]; node types from the [ParserDefinition] below it *)
Definition arith_grammar : grammar := mkGrammar
  [#0; #100; #101; #102; #103; #104; #105; #106; #107; #108; #109; #110; #111; #112; #113; #114; #115]
  [EPub #10 #9 false;
   EPratt (mkPratt [#4; #5] [mkPrefix #16 #21 #999] [mkInfix #12 #14 #1 true; mkInfix #11 #19 #2 true; mkInfix #15 #20 #999 false]);
   EPub #11 #28 false;
   EPub #12 #35 false;
   EPub #13 #38 false;
   EPub #14 #42 false;
   EPub #15 #45 false;
   EPub #16 #48 false;
   EAnd [#1] None;
   EOr [#8];
   EToken #3;
   EAnd [#10] None;
   EToken #4;
   EAnd [#12] None;
   EOr [#11; #13];
   EToken #5;
   EAnd [#15] None;
   EToken #6;
   EAnd [#17] None;
   EOr [#16; #18];
   EToken #7;
   EToken #4;
   EToken #5;
   EAnd [#22] None;
   EToken #6;
   EAnd [#24] None;
   EOr [#23; #25];
   EAnd [#1; #26; #1] None;
   EOr [#27];
   EToken #3;
   EAnd [#29] None;
   EToken #4;
   EAnd [#31] None;
   EOr [#30; #32];
   EAnd [#1; #33; #1] None;
   EOr [#34];
   EToken #2;
   EAnd [#36] None;
   EOr [#37];
   EToken #8;
   EToken #9;
   EAnd [#39; #1; #40] None;
   EOr [#41];
   EToken #7;
   EAnd [#1; #43] None;
   EOr [#44];
   EToken #4;
   EAnd [#46; #1] None;
   EOr [#47]].

(** fall/test/src/arith.rs, the types with [whitespace_like: true] *)
Definition arith_ws (ty : nat) : bool := memb ty [#100].

Definition arith_cert : cert := mkCert
  [mkInfo #7 [] [] false (mkShape false true false false) false false;
   mkInfo #4 [] [] false (mkShape false true true false) false false;
   mkInfo #7 [] [] false (mkShape false true false false) false false;
   mkInfo #7 [] [] false (mkShape false true false false) false false;
   mkInfo #3 [] [] false (mkShape false true false false) true false;
   mkInfo #3 [] [] false (mkShape false true false false) false false;
   mkInfo #7 [] [] false (mkShape false true false false) false false;
   mkInfo #3 [] [] false (mkShape false true false false) false false;
   mkInfo #5 [] [] false (mkShape false true true false) false false;
   mkInfo #6 [] [] false (mkShape false true true false) false false;
   mkInfo #0 [] [] false (mkShape false false false true) true false;
   mkInfo #1 [] [] false (mkShape false false false true) true false;
   mkInfo #0 [] [] false (mkShape false false false true) true false;
   mkInfo #1 [] [] false (mkShape false false false true) true false;
   mkInfo #2 [] [] false (mkShape false false false true) true false;
   mkInfo #0 [] [] false (mkShape false false false true) true false;
   mkInfo #1 [] [] false (mkShape false false false true) true false;
   mkInfo #0 [] [] false (mkShape false false false true) true false;
   mkInfo #1 [] [] false (mkShape false false false true) true false;
   mkInfo #2 [] [] false (mkShape false false false true) true false;
   mkInfo #0 [] [] false (mkShape false false false true) true false;
   mkInfo #0 [] [] false (mkShape false false false true) true false;
   mkInfo #0 [] [] false (mkShape false false false true) true false;
   mkInfo #1 [] [] false (mkShape false false false true) true false;
   mkInfo #0 [] [] false (mkShape false false false true) true false;
   mkInfo #1 [] [] false (mkShape false false false true) true false;
   mkInfo #2 [] [] false (mkShape false false false true) true false;
   mkInfo #5 [] [] false (mkShape false true true false) false false;
   mkInfo #6 [] [] false (mkShape false true true false) false false;
   mkInfo #0 [] [] false (mkShape false false false true) true false;
   mkInfo #1 [] [] false (mkShape false false false true) true false;
   mkInfo #0 [] [] false (mkShape false false false true) true false;
   mkInfo #1 [] [] false (mkShape false false false true) true false;
   mkInfo #2 [] [] false (mkShape false false false true) true false;
   mkInfo #5 [] [] false (mkShape false true true false) false false;
   mkInfo #6 [] [] false (mkShape false true true false) false false;
   mkInfo #0 [] [] false (mkShape false false false true) true false;
   mkInfo #1 [] [] false (mkShape false false false true) true false;
   mkInfo #2 [] [] false (mkShape false false false true) true false;
   mkInfo #0 [] [] false (mkShape false false false true) true false;
   mkInfo #0 [] [] false (mkShape false false false true) true false;
   mkInfo #1 [] [] false (mkShape false false false true) false false;
   mkInfo #2 [] [] false (mkShape false false false true) false false;
   mkInfo #0 [] [] false (mkShape false false false true) true false;
   mkInfo #5 [] [] false (mkShape false true true false) false false;
   mkInfo #6 [] [] false (mkShape false true true false) false false;
   mkInfo #0 [] [] false (mkShape false false false true) true false;
   mkInfo #1 [] [] false (mkShape false false false true) false false;
   mkInfo #2 [] [] false (mkShape false false false true) false false]
  [].

(** fall/test/src/weird.rs:39 [parser_json]; node types from the [ParserDefinition] below it *)
Definition weird_grammar : grammar := mkGrammar
  [#0; #100; #101; #102; #103; #104; #105; #106; #107; #108; #109; #110; #111; #112; #113; #114]
  [EPub #12 #19 false;
   EPub #13 #22 false;
   EOr [#25];
   EOr [#28];
   EPub #14 #31 false;
   EOr [#32];
   EPub #15 #36 false;
   EOr [#38];
   EOr [#41; #47];
   EToken #5;
   EToken #2;
   EAnd [#9; #10] None;
   EToken #6;
   EToken #11;
   EAnd [#12; #4; #13; #4] None;
   EToken #7;
   EAnd [#15; #1] None;
   EToken #8;
   EAnd [#17; #6] None;
   EOr [#11; #14; #16; #18];
   EAnd [#2] None;
   EAnd [#3] None;
   EOr [#20; #21];
   EToken #3;
   EToken #4;
   EAnd [#23; #24] None;
   EToken #3;
   EToken #3;
   EAnd [#26; #27] None;
   EOpt #5;
   EAnd [#29] None;
   EOr [#30];
   EAnd [] None;
   EToken #9;
   EToken #10;
   EAnd [#33; #7; #34] (Some #1);
   EOr [#35];
   ERep #8;
   EAnd [#37] None;
   EToken #9;
   EToken #10;
   EAnd [#39; #7; #40] (Some #1);
   EToken #10;
   ENot #42;
   EAny;
   EAnd [#43; #44] None;
   EOr [#45];
   EAnd [#46] None].

(** fall/test/src/weird.rs, the types with [whitespace_like: true] *)
Definition weird_ws (ty : nat) : bool := memb ty [#100].

Definition weird_cert : cert := mkCert
  [mkInfo #3 [] [] false (mkShape false true false false) true false;
   mkInfo #5 [] [] false (mkShape false true false false) true false;
   mkInfo #2 [] [] false (mkShape false false false true) true false;
   mkInfo #2 [] [] false (mkShape false false false true) true false;
   mkInfo #5 [] [] true (mkShape false true false false) true true;
   mkInfo #1 [] [] true (mkShape true false false false) true true;
   mkInfo #3 [] [] false (mkShape false true false false) true false;
   mkInfo #8 [] [] true (mkShape true false false true) true true;
   mkInfo #5 [] [] false (mkShape false false false true) true false;
   mkInfo #0 [] [] false (mkShape false false false true) true false;
   mkInfo #0 [] [] false (mkShape false false false true) true false;
   mkInfo #1 [] [] false (mkShape false false false true) true false;
   mkInfo #0 [] [] false (mkShape false false false true) true false;
   mkInfo #0 [] [] false (mkShape false false false true) true false;
   mkInfo #1 [] [] false (mkShape false false false true) true false;
   mkInfo #0 [] [] false (mkShape false false false true) true false;
   mkInfo #1 [] [] false (mkShape false false false true) true false;
   mkInfo #0 [] [] false (mkShape false false false true) true false;
   mkInfo #1 [] [] false (mkShape false false false true) true false;
   mkInfo #2 [] [] false (mkShape false false false true) true false;
   mkInfo #3 [] [] false (mkShape false false false true) true false;
   mkInfo #3 [] [] false (mkShape false false false true) true false;
   mkInfo #4 [] [] false (mkShape false false false true) true false;
   mkInfo #0 [] [] false (mkShape false false false true) true false;
   mkInfo #0 [] [] false (mkShape false false false true) true false;
   mkInfo #1 [] [] false (mkShape false false false true) true false;
   mkInfo #0 [] [] false (mkShape false false false true) true false;
   mkInfo #0 [] [] false (mkShape false false false true) true false;
   mkInfo #1 [] [] false (mkShape false false false true) true false;
   mkInfo #2 [] [] true (mkShape true false false false) true true;
   mkInfo #3 [] [] true (mkShape true false false false) true true;
   mkInfo #4 [] [] true (mkShape true false false false) true true;
   mkInfo #0 [] [] true (mkShape true false false false) true true;
   mkInfo #0 [] [] false (mkShape false false false true) true false;
   mkInfo #0 [] [] false (mkShape false false false true) true false;
   mkInfo #1 [] [] false (mkShape false false false true) true false;
   mkInfo #2 [] [] false (mkShape false false false true) true false;
   mkInfo #6 [] [] true (mkShape true false false true) true true;
   mkInfo #7 [] [] true (mkShape true false false true) true true;
   mkInfo #0 [] [] false (mkShape false false false true) true false;
   mkInfo #0 [] [] false (mkShape false false false true) true false;
   mkInfo #1 [] [] false (mkShape false false false true) true false;
   mkInfo #0 [] [] false (mkShape false false false true) true false;
   mkInfo #1 [] [] true (mkShape true false false false) true false;
   mkInfo #0 [] [] false (mkShape false false false true) true false;
   mkInfo #2 [] [] false (mkShape false false false true) true false;
   mkInfo #3 [] [] false (mkShape false false false true) true false;
   mkInfo #4 [] [] false (mkShape false false false true) true false]
  [].

