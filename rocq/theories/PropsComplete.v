(** C52: a grammar text that parses without error nodes is complete, so the analysis and the generator handle it. *)
From Coq Require Import List Arith Bool Lia String.
From Verif Require Import Base BaseFacts TextModel TextSpec TreeModel TreeSpec TreeProofs LexModel LexSpec LexProofs ConvertModel GrammarData ScanModel FallLang
  FileEditSpec DbModel DbSpec AnalysisModel AnalysisSpec RefModel RefSpec AnalysisFacts RefProofs CodegenModel CodegenSpec AstGenSpec PropsCheck PropsAnalysis PropsRefs PropsCodegen FallCheck CompleteProofs.
Import ListNotations.
Open Scope list_scope.

(** What is used about the language of grammar files: its grammar, its whitespace types, and four facts about its lexer
    and its whitespace binder.  A lexer makes progress and does not read past the end; whitespace and comments start with
    a blank, a slash or a byte outside ASCII; a token of type [simple_string] stands between single quotes; and a binder
    takes no more than there is. *)
Record speaks_fall (L : language) : Prop := {
  sf_grammar : l_g L = fall_grammar;
  sf_ws : forall t, l_ws L t = fall_ws t;
  sf_progress : progressing (l_lexer L);
  sf_blank : forall b r, l_ws L (tk_ty (l_lexer L (b :: r))) = true -> b <= 32 \/ b = 47 \/ 128 <= b;
  sf_quotes : forall s, s <> [] -> tk_ty (l_lexer L s) = SIMPLE_STRING -> exists b, firstn (tk_len (l_lexer L s)) s = 39 :: b ++ [39];
  sf_binder : forall ty sp b, l_binder L ty sp b <= List.length sp
}.

(** The tokens of the text start and end between characters. *)
Definition whole_characters (L : language) (txt : bytes) : Prop :=
  forall toks k, lex (l_lexer L) txt = Ok toks -> aligned txt (lens (firstn k toks)).

(** No node of the file is an error. *)
Definition no_error_nodes (f : file) : Prop := forall n, ~ is_a f ERROR n.

Lemma blank_is : forall b, b <= 32 \/ b = 47 \/ 128 <= b -> blank b = true.
Proof.
  intros b H. unfold blank. rewrite !orb_true_iff, !Nat.leb_le, Nat.eqb_eq. tauto.
Qed.

(** * C52 *)

(** Nothing that the analysis and the generator look for is missing from an error-free file. *)
Theorem C52_complete : forall L fuel txt f inc,
  speaks_fall L -> whole_characters L txt -> parse_file L fuel txt = Ok (f, inc) -> no_error_nodes f ->
  exists T, wf_file f T /\ f_text f = txt /\ char_tree (f_text f) T /\ complete f /\ block_bodies f.
Proof.
  intros L fuel txt f inc [G W P B Q I] AL H NE. apply (error_free L fuel txt f inc); auto. intros b r E. apply blank_is. exact (B b r E).
Qed.
Print Assumptions C52_complete.

(** Every grammar text has a tree, and unless there is an error in it no query of any client ever panics, under any
    schedule; the diagnostics can be collected, each time the same ones up to the order of those at one place. *)
Theorem C52_analysis : forall L txt, speaks_fall L -> whole_characters L txt ->
  exists f inc fuel, (forall more, parse_file L (fuel + more) txt = Ok (f, inc)) /\
    (no_error_nodes f -> forall cs, api_clients f cs ->
      (forall c, exists cl, collect_all_diagnostics f c = Ok cl) /\
      (forall l t, In t (st_threads (run_schedule key_eqb key_kind (fall_exec f) l (start cs))) -> t_ctl t <> Dead) /\
      (~ exists r, r 0 = start cs /\ forall n, exists i, step_at key_eqb key_kind (fall_exec f) i (r n) = Some (r (S n))) /\
      (exists ds out, collect_returns f ds out) /\
      (forall ds out ds' out', collect_returns f ds out -> collect_returns f ds' out' -> Permutation.Permutation out out')).
Proof.
  intros L txt SF AL. pose proof SF as [G W P B Q I].
  destruct (C28_shipped_parse L txt ltac:(rewrite G; exact sh_fall) P (fun b r E => blank_is b (B b r E)) I AL) as (f & inc & fuel & H).
  - exists f, inc, fuel. split; [exact H|]. intros NE cs A.
    destruct (C52_complete L _ txt f inc SF AL (H 0) NE) as (T & WF & _ & CT & CO & _).
    destruct (C48_answers f T cs WF CT CO A) as (X & Y & _ & Z). split; [|split; [exact Y|split; [exact Z|split]]].
    + intros c. destruct (X c) as (cl & E & _). exists cl. exact E.
    + exact (C36_returns f T WF CT CO).
    + intros ds out ds' out'. exact (C36_same_diagnostics f T ds out ds' out' WF CT CO).
Qed.
Print Assumptions C52_analysis.

(** The generator on an error-free text: it succeeds exactly on the files that can be translated, never for lack of
    something the syntax promises, and then it writes what the file says. *)
Theorem C52_generator : forall L fuel txt f inc escape debug trim,
  speaks_fall L -> whole_characters L txt -> parse_file L fuel txt = Ok (f, inc) -> no_error_nodes f ->
  ((exists c, generate f (direct 4 f) escape debug trim = Ok (Some c)) <-> accepted f escape trim) /\
  forall c, generate f (direct 4 f) escape debug trim = Ok (Some c) ->
    cx_types c = type_list f /\ table_of_file f (cx_rules c) /\
    Forall2 (lex_rule_is f escape debug) (matched_tokens f) (cx_lex c) /\ verbatim_is f trim (cx_verbatim c) /\
    closed f (cx_rules c) /\
    match kid f AST_DEF 0, cx_ast c with Some a, Some x => ast_is f a x | None, None => True | _, _ => False end.
Proof.
  intros L fuel txt f inc escape debug trim SF AL H NE. destruct (C52_complete L fuel txt f inc SF AL H NE) as (T & WF & _ & CT & CO & BB).
  pose proof (direct_honest f T WF CT CO) as HO. split; [exact (proj1 (C38_accepts f T _ escape debug trim WF CT CO BB HO))|].
  intros c E. destruct (C38_faithful f T _ escape debug trim c WF CT CO BB HO E) as (A & B & C & D & F & _).
  do 5 (split; [assumption|]). exact (C50_accessors f T _ escape debug trim c WF CT CO BB HO E).
Qed.
Print Assumptions C52_generator.

(** Go to definition and find usages return for every cursor in an error-free text. *)
Theorem C52_references : forall L fuel txt f inc o,
  speaks_fall L -> whole_characters L txt -> parse_file L fuel txt = Ok (f, inc) -> no_error_nodes f -> o <= List.length txt ->
  (exists r, resolve_reference f (direct 4 f) fall_ws o = Ok r) /\ (exists us, find_usages f (direct 4 f) fall_ws o = Ok us).
Proof.
  intros L fuel txt f inc o SF AL H NE LE. destruct (C52_complete L fuel txt f inc SF AL H NE) as (T & WF & TX & CT & CO & _).
  pose proof (direct_honest f T WF CT CO) as HO. rewrite <- TX in LE. split.
  - destruct (C40_definition f T _ fall_ws o WF CT CO HO LE) as (r & E & _). exists r. exact E.
  - destruct (usages_ok f T WF CT CO _ HO fall_ws o LE) as (us & E & _). exists us. exact E.
Qed.
Print Assumptions C52_references.

(** ** The lexer of the concrete cases is such a lexer. *)
Lemma span_le : forall p s, span p s <= List.length s.
Proof. intros p s. induction s as [|b s IH]; cbn [span List.length]; [lia|]. destruct (p b); lia. Qed.
Lemma simple_string_ends : forall n s k, List.length s <= n -> simple_string s = Some k -> k <= List.length s /\ exists b, firstn k s = b ++ [39].
Proof.
  induction n as [|n IH]; intros s k LE H; (destruct s as [|b s]; [discriminate H|]); cbn [List.length] in LE; [lia|].
  assert (D : b = 39 \/ b = 92 \/ (b <> 39 /\ b <> 92)) by lia. destruct D as [->|[->|(N1 & N2)]].
  - cbn in H. injection H as <-. split; [cbn; lia|]. exists []. reflexivity.
  - destruct s as [|c s]; [discriminate H|]. cbn [List.length] in LE.
    assert (R : exists j, simple_string s = Some j /\ k = 2 + j).
    { destruct (Nat.eq_dec c 10) as [->|N]; [discriminate H|].
      assert (X : simple_string (92 :: c :: s) = option_map (fun n => 2 + n) (simple_string s)).
      { do 10 (destruct c as [|c]; [reflexivity|]). destruct c as [|c]; [congruence|reflexivity]. }
      rewrite X in H. destruct (simple_string s) as [j|]; [|discriminate H]. injection H as <-. exists j. auto. }
    destruct R as (j & E & ->). destruct (IH s j ltac:(lia) E) as (A & x & F). split; [cbn [List.length]; lia|].
    exists (92 :: c :: x). cbn [Nat.add firstn app]. rewrite F. reflexivity.
  - assert (X : simple_string (b :: s) = option_map S (simple_string s)).
    { clear - N1 N2. do 39 (destruct b as [|b]; [reflexivity|]). destruct b as [|b]; [congruence|]. do 52 (destruct b as [|b]; [reflexivity|]). destruct b as [|b]; [congruence|reflexivity]. }
    rewrite X in H. destruct (simple_string s) as [j|] eqn:E; [|discriminate H]. injection H as <-.
    destruct (IH s j ltac:(lia) E) as (A & x & F). split; [cbn [List.length]; lia|]. exists (b :: x). cbn [firstn app]. rewrite F. reflexivity.
Qed.
Lemma is_prefix_le : forall p s, is_prefix p s = true -> List.length p <= List.length s.
Proof.
  induction p as [|a p IH]; intros [|b s] H; cbn [is_prefix List.length] in *; try lia; try discriminate H. apply andb_true_iff in H. destruct H as (_ & H). apply IH in H. lia.
Qed.
Lemma raw_string_le : forall s n, parse_raw_string s = Ok (Some n) -> 0 < n <= List.length s.
Proof.
  intros s n H. unfold parse_raw_string, unwrap in H. destruct (find_sub [34] s) as [q|] eqn:F; [|discriminate H]. cbn [bind] in H.
  destruct (upto q_hashes q) as [cl| |]; try discriminate H. cbn [bind] in H.
  destruct (suffix s (q + 1)) as [r| |] eqn:R; try discriminate H. cbn [bind] in H.
  destruct (find_sub cl r) as [i|] eqn:FI; [|discriminate H]. cbn [option_map] in H. injection H as <-.
  apply find_sub_some in FI. destruct FI as (A & B & _). apply is_prefix_le in B. rewrite skipn_length in B.
  apply find_sub_some in F. destruct F as (A' & B' & _). apply is_prefix_le in B'. rewrite skipn_length in B'. cbn [List.length] in B'.
  unfold suffix, str_index, guard in R. destruct (_ <=? _) in R; [|discriminate R]. destruct (_ && _) in R; [|discriminate R]. injection R as <-. unfold sub in *. cbn [rstart rend] in *.
  rewrite firstn_length, skipn_length in *. lia.
Qed.
Lemma word_token_ok : forall s, s <> [] -> 0 < tk_len (word_token s) <= List.length s /\ tk_ty (word_token s) <> SIMPLE_STRING /\ fall_ws (tk_ty (word_token s)) = false.
Proof.
  intros s NE. unfold word_token. pose proof (span_le is_word s) as L. destruct (span is_word s =? 0) eqn:Z.
  - cbn. split; [|split; [discriminate|reflexivity]]. destruct s; [congruence|cbn; lia].
  - apply Nat.eqb_neq in Z. destruct (span is_digit s =? span is_word s); cbn [tk_len tk_ty]; (split; [lia|split; [vm_compute; discriminate|reflexivity]]).
Qed.

Lemma fall_lexer_ok : forall b r, let t := fall_lexer (b :: r) in
  0 < tk_len t <= S (List.length r) /\ (tk_ty t = SIMPLE_STRING -> exists x, firstn (tk_len t) (b :: r) = 39 :: x ++ [39]) /\
  (fall_ws (tk_ty t) = true -> b <= 32 \/ b = 47 \/ 128 <= b).
Proof.
  intros b r. unfold fall_lexer. cbv zeta. pose proof (word_token_ok (b :: r) ltac:(discriminate)) as (W1 & W2 & W3). cbn [List.length] in W1.
  destruct (is_space b) eqn:SP.
  { cbn [tk_len tk_ty]. pose proof (span_le is_space (b :: r)) as L. cbn [List.length] in L. split; [split; [|exact L]|split].
    - cbn [span]. rewrite SP. lia.
    - vm_compute. discriminate.
    - intros _. left. unfold is_space in SP. apply orb_true_iff in SP. destruct SP as [SP|SP]; [apply andb_true_iff in SP; destruct SP as (_ & SP); apply Nat.leb_le in SP|apply Nat.eqb_eq in SP]; lia. }
  destruct (is_prefix [47; 47] (b :: r)) eqn:CM.
  { cbn [tk_len tk_ty]. pose proof (span_le (fun c => negb (c =? 10)) (b :: r)) as L. cbn [List.length] in L.
    cbn [is_prefix] in CM. apply andb_true_iff in CM. destruct CM as (B & _). apply Nat.eqb_eq in B. subst b. split; [split; [cbn; lia|exact L]|split].
    - vm_compute. discriminate.
    - intros _. right. left. reflexivity. }
  destruct (find_first (fun x => fst x =? b) punctuation) as [[p ty]|] eqn:PU.
  { cbn [tk_len tk_ty]. assert (J : In (p, ty) punctuation).
    { clear - PU. induction punctuation as [|x l IH]; [discriminate PU|]. cbn [find_first] in PU. destruct (fst x =? b); [injection PU as ->; left; reflexivity|right; exact (IH PU)]. }
    split; [lia|]. split.
    - intros ->. cbn in J. repeat (destruct J as [J|J]; [discriminate J|]). destruct J.
    - intros E. exfalso. cbn in J. repeat (destruct J as [J|J]; [injection J as <- <-; discriminate E|]). destruct J. }
  destruct (b =? 39) eqn:Q.
  { apply Nat.eqb_eq in Q. subst b. destruct (simple_string r) as [n|] eqn:S1; cbn [tk_len tk_ty].
    - destruct (simple_string_ends _ r n (le_n _) S1) as (A & x & F). split; [lia|]. split; [|discriminate]. intros _. exists x. cbn [firstn]. rewrite F. reflexivity.
    - split; [lia|]. split; [vm_compute; discriminate|discriminate]. }
  destruct ((b =? 114) && is_prefix [34] (skipn (count_hashes r) r)).
  { destruct (parse_raw_string (b :: r)) as [[n|]| |] eqn:RS; try (split; [exact W1|]; split; [contradiction|rewrite W3; discriminate]).
    cbn [tk_len tk_ty]. apply raw_string_le in RS. cbn [List.length] in RS. split; [exact RS|]. split; [vm_compute; discriminate|discriminate]. }
  split; [exact W1|]. split; [contradiction|rewrite W3; discriminate].
Qed.

Theorem C52_fall_lang : speaks_fall fall_lang.
Proof.
  constructor.
  - reflexivity.
  - reflexivity.
  - intros [|b r] NE; [congruence|]. exact (proj1 (fall_lexer_ok b r)).
  - intros b r. exact (proj2 (proj2 (fall_lexer_ok b r))).
  - intros [|b r] NE; [congruence|]. exact (proj1 (proj2 (fall_lexer_ok b r))).
  - intros. cbn. lia.
Qed.
Print Assumptions C52_fall_lang.

(** Tokens of ASCII texts are always between characters. *)
Lemma ascii_whole : forall txt, Forall (fun b => b < 128) txt -> whole_characters fall_lang txt.
Proof.
  intros txt F toks k LX. pose proof (sf_progress _ C52_fall_lang) as P. destruct (lex_ok (l_lexer fall_lang) txt P) as (ts & LX' & TK). rewrite LX in LX'. injection LX' as <-.
  pose proof (tokenizes_lens _ P _ _ TK) as LEN. apply ascii_aligned; [exact F|]. rewrite <- LEN. rewrite <- (firstn_skipn k toks) at 2. rewrite lens_app. lia.
Qed.

(** A grammar text without errors. *)
Definition no_error_nodes_b (f : file) : bool := forallb (fun n => negb (ty f n =? ERROR)) (seq 0 (List.length (f_nodes f))).
Lemma no_error_nodes_check : forall f, no_error_nodes_b f = true -> no_error_nodes f.
Proof.
  intros f H n (V & E). unfold no_error_nodes_b in H. rewrite forallb_forall in H. specialize (H n). rewrite E in H. discriminate H. apply in_seq. unfold valid in V. lia.
Qed.
Definition calc_text := FallLang.text_of "tokenizer { plus '+' number r""\d+"" } pub rule file { <commit> {expr '+'}* } #[pratt] rule expr { atom } #[atom] pub rule atom { number } ast { node atom { num number? } }".
Definition parses_clean (s : bytes) : bool :=
  match parse_file fall_lang 5000 s with Ok (f, _) => no_error_nodes_b f && (3 <? List.length (f_nodes f)) | _ => false end && forallb (fun b => b <? 128) s.
Example C52_case : speaks_fall fall_lang /\ whole_characters fall_lang calc_text /\
  exists f inc, parse_file fall_lang 5000 calc_text = Ok (f, inc) /\ no_error_nodes f /\ 3 < List.length (f_nodes f).
Proof.
  split; [exact C52_fall_lang|]. assert (C : parses_clean calc_text = true) by (vm_compute; reflexivity). unfold parses_clean in C. apply andb_true_iff in C. destruct C as (C & A). split.
  - apply ascii_whole. apply Forall_forall. intros x J. rewrite forallb_forall in A. apply Nat.ltb_lt. exact (A x J).
  - destruct (parse_file fall_lang 5000 calc_text) as [(f & inc)| |]; try discriminate C. apply andb_true_iff in C. destruct C as (C & D). exists f, inc. split; [reflexivity|].
    split; [exact (no_error_nodes_check f C)|]. apply Nat.ltb_lt. exact D.
Qed.

(** "Every grammar text is complete" is false: with an error in it, something may be missing. *)
Theorem C52_with_errors_refuted : exists txt f inc, whole_characters fall_lang txt /\ parse_file fall_lang 5000 txt = Ok (f, inc) /\ ~ complete f.
Proof.
  exists (FallLang.text_of "rule { }"). assert (C : (match parse_file fall_lang 5000 (FallLang.text_of "rule { }") with
    Ok (f, _) => (0 <? List.length (filter (fun n => (ty f n =? SYN_RULE) && match exprs f n with [] => true | _ => false end) (seq 0 (List.length (f_nodes f))))) | _ => false end) = true) by (vm_compute; reflexivity).
  destruct (parse_file fall_lang 5000 (FallLang.text_of "rule { }")) as [(f & inc)| |]; try discriminate C. exists f, inc.
  split; [apply ascii_whole; apply Forall_forall; intros x J; cbn in J; repeat (destruct J as [<-|J]; [lia|]); destruct J|]. split; [reflexivity|]. intros CO.
  destruct (filter _ _) as [|n l] eqn:F in C; [discriminate C|]. assert (J : In n (n :: l)) by (left; reflexivity). rewrite <- F in J. apply filter_In in J. destruct J as (J & X).
  apply andb_true_iff in X. destruct X as (E & X). apply Nat.eqb_eq in E. apply in_seq in J. assert (A : is_a f SYN_RULE n) by (split; [unfold valid; lia|exact E]).
  apply (co_body _ CO n A). destruct (exprs f n); [reflexivity|discriminate X].
Qed.
Print Assumptions C52_with_errors_refuted.
