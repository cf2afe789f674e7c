(** C92: tests of diagnostics. *)
From Coq Require Import List Arith Bool NArith Lia String Ascii Permutation.
From Verif Require Import Base BaseFacts TextModel TextSpec TreeModel TreeSpec LexModel LexSpec FileEditSpec ScanSpec GrammarModel GrammarData ParserModel ConvertModel ReparseModel
  DbModel AnalysisModel AnalysisSpec AnalysisFacts ViewProofs PropsComplete PropsAnalysis NestProofs PropsNest PropsFallEdit HarnessModel HarnessSpec HarnessProofs PropsHarness
  RegexModel RegexSpec RegexProofs LexData FallLang PropsRegex PropsRelex PropsCached DiagTestModel DiagTestSpec DiagTestProofs.
Import ListNotations.
Open Scope list_scope.
Open Scope nat_scope.
Local Notation length := List.length.

(** A test of the text [code] with enough steps of the parser and of the analysis: *)
Section Tests.
  Variables (space : bytes -> bool) (L : language) (fuel : nat) (code : bytes) (f : file).
  Hypothesis SO : space_ok space.
  Hypothesis GF : grammar_file L code f.
  Hypothesis PA : exists inc, parse_file L fuel code = Ok (f, inc).

Lemma code_analysed : analysed L fuel code = Ok f.
Proof.
  destruct PA as (inc & P). destruct (grammar_facts L code f GF) as (T & WF & _ & _ & (R0 & _)). unfold analysed, parse_text. rewrite P. cbn [bind fst].
  rewrite (ty_v f root) by exact (root_valid f T WF). cbn [bind]. unfold root. rewrite R0. reflexivity.
Qed.

(** A text that does not parse without errors fails every test, *)
Theorem C92_errors : forall steps expected, ~ no_error_nodes f -> check_diagnostics space L fuel steps code expected = Panic.
Proof.
  intros steps expected NE. destruct (grammar_facts L code f GF) as (T & WF & _). unfold check_diagnostics. rewrite code_analysed. cbn [bind]. rewrite (proj2 (errors_iff f T WF) NE). reflexivity.
Qed.

(** and otherwise the test succeeds exactly with the list of the diagnostics of the text: one line for each, sorted as C36 says, with
    nothing but whitespace around them. *)
Theorem C92_verdict : no_error_nodes f -> exists n ds out ls s,
  collect_returns f ds out /\ Forall2 (described code) out ls /\ lines_joined ls s /\
  forall more expected, let verdict := check_diagnostics space L fuel (n + more) code expected in
    (verdict = Ok tt <-> trim_str space expected = s) /\ (verdict = Panic <-> trim_str space expected <> s).
Proof.
  intros NE. pose proof GF as (SF & _ & WC & fuel' & inc & P). destruct (C52_complete L fuel' code f inc SF WC P NE) as (T & WF & TX & CT & CO & _).
  destruct (fresh_ok f T WF CT CO) as (n & ds & CR & FR). destruct (lines_ok f T WF CT (sort_diags ds) (fun d => collected_node f T WF CT CO _ _ d CR)) as (ls & EL & F).
  rewrite TX in F. exists n, ds, (sort_diags ds), ls, (HarnessModel.join [10] ls). split; [exact CR|]. split; [exact F|]. split; [apply join_lines|]. intros more expected verdict.
  assert (E : verdict = report_diff space expected (HarnessModel.join [10] ls)).
  { unfold verdict, check_diagnostics. rewrite code_analysed. cbn [bind]. rewrite (proj1 (errors_iff f T WF) NE). cbn [bind]. unfold listing. rewrite (FR more). cbn [bind]. rewrite EL. reflexivity. }
  assert (Q : verdict = Ok tt <-> trim_str space expected = HarnessModel.join [10] ls).
  { rewrite E, report_iff, (trim_listing space code (sort_diags ds) ls _ SO F (join_lines ls)). reflexivity. }
  split; [exact Q|]. rewrite <- Q, E. destruct (report_or space expected (HarnessModel.join [10] ls)) as [X|X]; rewrite X; split; try discriminate; try reflexivity. intros H. exfalso. apply H. reflexivity.
Qed.

(** So a test that expects nothing succeeds exactly if there are no diagnostics, whoever collects them. *)
Theorem C92_clean : no_error_nodes f -> exists n, forall more expected, trim_str space expected = [] ->
  (check_diagnostics space L fuel (n + more) code expected = Ok tt <-> forall ds out, collect_returns f ds out -> out = []).
Proof.
  intros NE. pose proof GF as (SF & _ & WC & fuel' & inc & P). destruct (C52_complete L fuel' code f inc SF WC P NE) as (T & WF & TX & CT & CO & _).
  destruct (C92_verdict NE) as (n & ds & out & ls & s & CR & F & J & H). exists n. intros more expected BL. rewrite (proj1 (H more expected)), BL. split.
  - intros <- ds' out' CR'. pose proof (C36_same_diagnostics f T ds out ds' out' WF CT CO CR CR') as PM.
    assert (LS : ls = []).
    { destruct ls as [|l ls]; [reflexivity|]. exfalso. destruct (joined_solid _ _ J ltac:(discriminate)) as ((x & m & X & _) & _); [|discriminate X].
      clear - F. induction F as [|d k ds' ls' D F IH]; constructor; [exact (described_solid _ _ _ D)|exact IH]. }
    subst ls. inversion F; subst. apply Permutation_nil. exact PM.
  - intros E. rewrite (E _ _ CR) in F. inversion F; subst. inversion J. reflexivity.
Qed.

(** After a successful test every diagnostic of the text, whoever collects it, has its line in the expected ones. *)
Theorem C92_lines : no_error_nodes f -> exists n, forall more expected, check_diagnostics space L fuel (n + more) code expected = Ok tt ->
  forall ds out d, collect_returns f ds out -> In d out -> exists a line b, described code d line /\ trim_str space expected = a ++ line ++ b /\
    (a = [] \/ exists a', a = a' ++ [10]) /\ (b = [] \/ exists b', b = 10 :: b').
Proof.
  intros NE. pose proof GF as (SF & _ & WC & fuel' & inc & P). destruct (C52_complete L fuel' code f inc SF WC P NE) as (T & WF & TX & CT & CO & _).
  destruct (C92_verdict NE) as (n & ds & out & ls & s & CR & F & J & H). exists n. intros more expected V ds' out' d CR' I. apply (proj1 (H more expected)) in V. rewrite V. clear V H.
  apply (Permutation_in _ (Permutation_sym (C36_same_diagnostics f T ds out ds' out' WF CT CO CR CR'))) in I.
  clear - F J I. revert out F I. induction J as [|l|l k ls s J IH]; intros out F I.
  - inversion F; subst. destruct I.
  - inversion F as [|e ? out' ? D F' E1 E2]; subst. inversion F'; subst. destruct I as [<-|[]]. exists [], l, []. split; [exact D|]. split; [rewrite app_nil_r; reflexivity|]. auto.
  - inversion F as [|e ? out' ? D F' E1 E2]; subst. destruct I as [<-|I].
    + exists [], l, (10 :: s). split; [exact D|]. split; [reflexivity|]. split; [auto|]. right. exists s. reflexivity.
    + destruct (IH out' F' I) as (a & x & b & DX & -> & A & B). exists (l ++ 10 :: a), x, b. split; [exact DX|]. split; [rewrite <- app_assoc; reflexivity|]. split; [|exact B]. right.
      destruct A as [->|(a' & ->)]; [exists l; reflexivity|]. exists (l ++ 10 :: a'). rewrite <- app_assoc. reflexivity.
Qed.
End Tests.
Print Assumptions C92_errors.
Print Assumptions C92_verdict.
Print Assumptions C92_clean.
Print Assumptions C92_lines.

(** With the shipped lexer every test ends. *)
Theorem C92_ends : forall space U err binder code, space_ok space -> tables_ok U -> err_ok err -> (forall ty sp b, binder ty sp b <= length sp) -> utf8 code ->
  exists fuel steps, forall more more' expected, let verdict := check_diagnostics space (fall_shipped U err binder) (fuel + more) (steps + more') code expected in
    verdict = Ok tt \/ verdict = Panic.
Proof.
  intros space U err binder code SO TO E BO US. destruct (C71_fall U longest err binder TO longest_picks E BO) as (SF & YT & WH).
  destruct (fall_parses U err binder TO E BO code US) as ([f inc] & fuel & P). exists fuel.
  assert (GF : grammar_file (fall_shipped U err binder) code f) by (split; [exact SF|split; [exact YT|split; [exact (WH _ US)|exists (fuel + 0), inc; exact (P 0)]]]).
  assert (DE : no_error_nodes f \/ ~ no_error_nodes f).
  { destruct (no_error_nodes_b f) eqn:B; [left; exact (no_error_nodes_check f B)|]. right. intros NE. unfold no_error_nodes_b in B.
    assert (X : forallb (fun n => negb (ty f n =? ERROR)) (seq 0 (length (f_nodes f))) = true). { apply forallb_forall. intros n J. apply in_seq in J. apply negb_true_iff, Nat.eqb_neq. intros Z. apply (NE n). split; [unfold valid; lia|exact Z]. }
    congruence. }
  destruct DE as [NE|NE].
  - pose proof GF as (_ & _ & WC & _). destruct (C52_complete _ _ code f inc SF WC (P 0) NE) as (T & WF & TX & CT & CO & _). destruct (fresh_ok f T WF CT CO) as (n & ds & CR & FR).
    exists n. intros more more' expected verdict. destruct (lines_ok f T WF CT (sort_diags ds) (fun d => collected_node f T WF CT CO _ _ d CR)) as (ls & EL & F).
    assert (EV : verdict = report_diff space expected (HarnessModel.join [10] ls)).
    { unfold verdict, check_diagnostics. rewrite (code_analysed _ (fuel + more) code f GF (ex_intro _ inc (P more))). cbn [bind]. rewrite (proj1 (errors_iff f T WF) NE). cbn [bind]. unfold listing. rewrite (FR more'). cbn [bind]. rewrite EL. reflexivity. }
    rewrite EV. apply report_or.
  - exists 0. intros more more' expected verdict. right. exact (C92_errors space _ (fuel + more) code f GF (ex_intro _ inc (P more)) _ expected NE).
Qed.
Print Assumptions C92_ends.
(** The tests that are shipped, lang/fall/src/analysis/mod.rs 145-186, query/resolve_call.rs 175-234, query/resolve_pratt_variant.rs 118-158: the code and what is
    expected. *)
Definition shipped_tests : list (string * string) :=
  [("
       pub rule foo { <eof x> }
       rule bar { foo <abracadabra>}
       rule baz { <prev_is foo> <prev_is bar> <prev_is {foo}>}
       rule dupe { dupe }
       rule dupe { dupe }
    ",
    "E <eof x>: Wrong number of arguments, expected 0, got 1
E x: Unresolved reference
E abracadabra: Unresolved reference
E <prev_is bar>: <prev_is> arguments must be public rules
E <prev_is {foo}>: <prev_is> arguments must be public rules
E dupe: Duplicate rule
W baz: Unused rule
W dupe: Unused rule");
   ("
       tokenizer {
           class 'class'
           class 'trait'
       }
    ",
    "E class 'trait': Duplicate token
");
   ("
       ast {
           trait foo {}
           node a: foo {}
           node b: bar {}
       }
    ",
    "E bar: Unresolved trait
");
   ("rule foo { <is_in foo>}",
    "E foo: Context should be a single quoted string");
   ("rule foo { <abracadabra> foo}",
    "E abracadabra: Unresolved reference");
   ("rule foo { <eof foo> }",
    "E <eof foo>: Wrong number of arguments, expected 0, got 1");
   ("rule foo { <any foo foo> }",
    "E <any foo foo>: Wrong number of arguments, expected 0, got 2");
   ("rule foo { <commit foo foo foo> }",
    "E <commit foo foo foo>: Wrong number of arguments, expected 0, got 3");
   ("rule foo { <not> foo }",
    "E <not>: Wrong number of arguments, expected 1, got 0");
   ("rule foo { <bar <eof>>} rule bar(x, y) { }",
    "E <bar <eof>>: Expected 2 arguments, got 1");
   ("#[atom(92)] rule foo { }",
    "E foo: Atom rules don't have priority");
   ("#[postfix] rule foo { foo | foo }",
    "E { foo | foo }: Expression rule requires a single alternative");
   ("#[postfix] rule foo { <eof> <eof> <eof>}",
    "E { <eof> <eof> <eof>}: Postfix rule requires a single expression and an operation");
   ("#[prefix] rule foo { }",
    "E { }: Prefix rule requires an operation and a single expression");
   ("#[bin(92)] rule foo { }",
    "E { }: Binary expression requires a left hand side expression, an operator and a right hand side expression");
   ("#[bin] rule foo { <eof> <eof> <eof> }",
    "E foo: Binary expression requires explicit priority")]%string.

(** All of them succeed. *)
Theorem C92_shipped : Forall (fun x => check_diagnostics ascii_space fall_lang 5000 5000 (FallLang.text_of (fst x)) (FallLang.text_of (snd x)) = Ok tt) shipped_tests.
Proof.
  assert (H : forallb (fun x => match check_diagnostics ascii_space fall_lang 5000 5000 (FallLang.text_of (fst x)) (FallLang.text_of (snd x)) with Ok _ => true | _ => false end) shipped_tests = true) by (vm_compute; reflexivity).
  rewrite forallb_forall in H. apply Forall_forall. intros x J. specialize (H x J). destruct (check_diagnostics _ _ _ _ _ _) as [[]| |]; [reflexivity|discriminate H..].
Qed.
Print Assumptions C92_shipped.

(** ** Cases *)
Example C92_case : exists f inc, let code := FallLang.text_of "rule a { b <eof c> } rule d { }" in
  parse_file real_fall 300 code = Ok (f, inc) /\ grammar_file real_fall code f /\ no_error_nodes f /\ space_ok ascii_space /\
  check_diagnostics ascii_space real_fall 300 2000 code (FallLang.text_of "
E b: Unresolved reference
E <eof c>: Wrong number of arguments, expected 0, got 1
E c: Unresolved reference
W d: Unused rule
") = Ok tt /\
  check_diagnostics ascii_space real_fall 300 2000 code (FallLang.text_of "E b: Unresolved reference") = Panic.
Proof.
  destruct (parse_file real_fall 300 (FallLang.text_of "rule a { b <eof c> } rule d { }")) as [[f inc]| |] eqn:P; [|vm_compute in P; discriminate P..]. exists f, inc. cbv zeta. split; [exact P|].
  destruct (C71_fall ascii_U longest one_char (fun _ _ _ => 0) ascii_U_ok longest_picks one_char_ok (fun _ _ _ => Nat.le_0_l _)) as (SF & YT & WH).
  assert (US : utf8 (FallLang.text_of "rule a { b <eof c> } rule d { }")) by (apply ScanProofs.ascii_utf8; vm_compute; repeat constructor).
  split; [split; [exact SF|split; [exact YT|split; [exact (WH _ US)|exists 300, inc; exact P]]]|].
  split. { apply no_error_nodes_check. assert (X : match parse_file real_fall 300 (FallLang.text_of "rule a { b <eof c> } rule d { }") with Ok (f, _) => no_error_nodes_b f | _ => false end = true) by (vm_compute; reflexivity). rewrite P in X. exact X. }
  split; [exact ascii_space_ok|]. split; vm_compute; reflexivity.
Qed.

(** "The expected lines may be copied from any analysis of the text": not those of an analysis that was asked something before, whose errors at one
    place have another order (C36_same_list_refuted). *)
Theorem C92_copied_refuted : exists code f inc ds out ls s, parse_file fall_lang 300 code = Ok (f, inc) /\ no_error_nodes f /\ collect_returns f ds out /\ Forall2 (described code) out ls /\ lines_joined ls s /\
  check_diagnostics ascii_space fall_lang 300 2000 code s = Panic.
Proof.
  destruct same_spot_complete as (W & C & CO).
  assert (B : exists ds, collect_returns same_spot ds [mkDiag (mkRange 16 19) Error MContextString; mkDiag (mkRange 16 19) Error MUnresolvedReference]).
  { apply (lone_case same_spot (FallCheck.tree_of same_spot) [QCall 10] 2000); [exact W| |vm_compute; reflexivity].
    intros k [<-|[]]. split; [apply Nat.ltb_lt; vm_compute; reflexivity|vm_compute; reflexivity]. }
  destruct B as (ds & B). exists (FallLang.text_of "rule a { <is_in foo> }"), same_spot.
  destruct (parse_file fall_lang 300 (FallLang.text_of "rule a { <is_in foo> }")) as [[f inc]| |] eqn:P; [|vm_compute in P; discriminate P..].
  assert (E : f = same_spot). { assert (X : match parse_file fall_lang 300 (FallLang.text_of "rule a { <is_in foo> }") with Ok (f, _) => f | _ => no_file end = same_spot) by (vm_compute; reflexivity). rewrite P in X. exact X. }
  exists inc, ds.
  eexists _, [FallLang.text_of "E foo: Context should be a single quoted string"; FallLang.text_of "E foo: Unresolved reference"], _.
  split; [rewrite E; reflexivity|]. split; [apply no_error_nodes_check; vm_compute; reflexivity|]. split; [exact B|].
  assert (PT : FallLang.text_of "rule a { <is_in foo> }" = FallLang.text_of "rule a { <is_in " ++ FallLang.text_of "foo" ++ FallLang.text_of "> }") by reflexivity.
  split.
  { constructor; [|constructor; [|constructor]].
    - exists (FallLang.text_of "rule a { <is_in "), (FallLang.text_of "foo"), (FallLang.text_of "> }"), (message_text MContextString). split; [exact PT|]. split; [reflexivity|]. split; [reflexivity|]. split; [apply message_worded|reflexivity].
    - exists (FallLang.text_of "rule a { <is_in "), (FallLang.text_of "foo"), (FallLang.text_of "> }"), (message_text MUnresolvedReference). split; [exact PT|]. split; [reflexivity|]. split; [reflexivity|]. split; [apply message_worded|reflexivity]. }
  split; [apply join_lines|]. vm_compute. reflexivity.
Qed.
Print Assumptions C92_copied_refuted.
