(** C83: navigation, symbols, actions and tests in the editor. *)
From Coq Require Import List Arith NArith Bool Lia String.
From Verif Require Import Base BaseFacts TextModel TextSpec EditModel LexModel LexSpec ScanSpec TreeModel TreeSpec TreeProofs SearchModel FileEditSpec FileEditProofs EditorModel
  GrammarModel GrammarData ParserModel ConvertModel ReparseModel DbModel AnalysisModel AnalysisSpec TraversalProofs RefModel RefSpec RefProofs PropsRefs PropsCheck PropsComplete PropsNest
  FallEditModel FallEditSpec PropsFallEdit RegexModel RegexSpec RegexProofs LexData FallLang PropsRegex PropsRelex PropsCached SessionModel SessionSpec SessionProofs PropsSession
  DumpModel DumpSpec HarnessModel HarnessSpec PropsHarness ClientModel ClientSpec ClientProofs ScreenProofs PropsScreen NameModel NameData PropsDump FeatureModel FeatureProofs.
Import ListNotations.
Open Scope list_scope.
Open Scope nat_scope.

Section Features.
  Variables (U : tables) (err : bytes -> nat) (binder : nat -> list (nat * bytes) -> bool -> nat) (known : nat -> bool).
  Variables (ask : file -> key -> res value) (check : file -> res (list diagnostic)).
  Hypothesis TO : tables_ok U.
  Hypothesis ER : err_ok err.
  Hypothesis BO : forall ty sp b, binder ty sp b <= List.length sp.
  Let L := fall_shipped U err binder.
  Variables (tx : nat -> document) (evs : list (event * option nat)) (u : nat) (active : option nat).
  Hypothesis C : forall w, characters (tx w).
  Hypothesis PL : plain (no_bare_raw (l_lexer L)) known tx evs.
  Hypothesis K : known u = true.
  Hypothesis AS : ascii_document (current tx evs u).

(** "Go to definition" after any events, in a grammar without errors: at every position the editor goes exactly to the definition of the reference
    the cursor is on, as C40 says for the current text. *)
Theorem C83_definition : forall o, o <= List.length (List.concat (current tx evs u)) ->
  exists fuel, forall more, exists s s' f inc,
    handle_all L (Some FALL_FILE) known (fuel + more) (mkSession tx (fun _ => None)) evs = Ok s /\
    parse_file L (fuel + more) (List.concat (current tx evs u)) = Ok (f, inc) /\
    (drawable U err binder known ask check (fuel + more) (current tx evs) active -> no_error_nodes f -> honest f (ask f) ->
     exists r, provide_definition L (Some FALL_FILE) known (fuel + more) ask check active s u o = Ok (s', r) /\
       forall p q, r = Some (p, q) <-> exists n x, reference_under f fall_ws o n /\ refers f n x /\ target f x = mkRange p q).
Proof.
  intros o LE. destruct (fetched U err binder known ask check TO ER BO tx evs u active C PL K) as (fuel & H). exists fuel. intros more.
  destruct (H more) as (s & s' & f & inc & R & P & T & FE). exists s, s', f, inc. split; [exact R|]. split; [exact P|]. intros DR NE HON.
  destruct (fetched_file U err binder known TO ER BO (fuel + more) tx evs u f inc C PL P) as ((SF & YT & WC & _) & TX).
  destruct (C52_complete L (fuel + more) _ f inc SF WC P NE) as (T0 & WF & _ & CT & CO & _).
  destruct (C40_definition f T0 (ask f) fall_ws o WF CT CO HON) as (r & E & IR); [rewrite TX; exact LE|].
  exists (option_map (fun x => (rstart x, rend x)) r). split.
  - unfold provide_definition, L. rewrite (FE DR). cbn [bind fst]. change (l_ws (fall_shipped U err binder)) with fall_ws. rewrite E. cbn [bind]. rewrite T. destruct r as [r|]; [|reflexivity].
    cbn [option_map]. rewrite (range_fits f _ r AS TX); [reflexivity|]. destruct (proj1 (IR r) eq_refl) as (n & x & _ & _ & ->). unfold target.
    destruct ((ty f x =? LEX_RULE) || (ty f x =? PARAMETER)); [apply (rng_fits f T0 _ WF)|]. destruct (kid f IDENT x); apply (rng_fits f T0 _ WF).
  - intros p q. split.
    + intros X. destruct r as [[p' q']|]; [|discriminate X]. cbn in X. injection X as -> ->. destruct (proj1 (IR _) eq_refl) as (n & x & A & B & E'). exists n, x. auto.
    + intros (n & x & A & B & E'). rewrite (proj2 (IR (mkRange p q))); [reflexivity|]. exists n, x. auto.
Qed.

(** "Find references" after any events, in a grammar without errors: exactly the references to the definition the cursor is on or refers to. *)
Theorem C83_references : forall o, o <= List.length (List.concat (current tx evs u)) ->
  exists fuel, forall more, exists s s' f inc,
    handle_all L (Some FALL_FILE) known (fuel + more) (mkSession tx (fun _ => None)) evs = Ok s /\
    parse_file L (fuel + more) (List.concat (current tx evs u)) = Ok (f, inc) /\
    (drawable U err binder known ask check (fuel + more) (current tx evs) active -> no_error_nodes f -> honest f (ask f) ->
     exists l, provide_references L (Some FALL_FILE) known (fuel + more) ask check active s u o = Ok (s', l) /\
       (forall x, asked_about f fall_ws o x -> exists ps, NoDup ps /\ (forall p, In p ps <-> refers f p x) /\
          l = map (fun p => (rstart (rng f (place f p)), rend (rng f (place f p)))) ps) /\
       ((forall x, ~ asked_about f fall_ws o x) -> l = [])).
Proof.
  intros o LE. destruct (fetched U err binder known ask check TO ER BO tx evs u active C PL K) as (fuel & H). exists fuel. intros more.
  destruct (H more) as (s & s' & f & inc & R & P & T & FE). exists s, s', f, inc. split; [exact R|]. split; [exact P|]. intros DR NE HON.
  destruct (fetched_file U err binder known TO ER BO (fuel + more) tx evs u f inc C PL P) as ((SF & YT & WC & _) & TX).
  destruct (C52_complete L (fuel + more) _ f inc SF WC P NE) as (T0 & WF & _ & CT & CO & _).
  assert (LE' : o <= List.length (f_text f)) by (rewrite TX; exact LE).
  destruct (usages_ok f T0 WF CT CO (ask f) HON fall_ws o LE') as (out & E & IR).
  assert (FI : forall r, In r out -> fits f r).
  { intros r J. destruct IR as [(x & ps & _ & -> & _)|(_ & ->)]; [|destruct J]. apply in_map_iff in J. destruct J as (p & <- & _). exact (rng_fits f T0 _ WF). }
  exists (map (fun r => (rstart r, rend r)) out). split.
  - unfold provide_references, L. rewrite (FE DR). cbn [bind fst]. change (l_ws (fall_shipped U err binder)) with fall_ws. rewrite E. cbn [bind]. rewrite T. f_equal. f_equal. apply map_ext_in. intros r J. exact (range_fits f _ r AS TX (FI r J)).
  - destruct (C40_usages f T0 (ask f) fall_ws o WF CT CO HON LE') as (U1 & U2). split.
    + intros x A. destruct (U1 x A) as (ps & E' & ND & IN & _). exists ps. split; [exact ND|]. split; [exact IN|]. rewrite E in E'. injection E' as ->. rewrite map_map. reflexivity.
    + intros N. rewrite (U2 N) in E. injection E as <-. reflexivity.
Qed.

(** The symbols of a grammar after any events, with errors in it or not: its outline (C57), in order. *)
Theorem C83_symbols : exists fuel, forall more, exists s s' f inc,
    handle_all L (Some FALL_FILE) known (fuel + more) (mkSession tx (fun _ => None)) evs = Ok s /\
    parse_file L (fuel + more) (List.concat (current tx evs u)) = Ok (f, inc) /\
    (drawable U err binder known ask check (fuel + more) (current tx evs) active ->
     provide_symbols L (Some FALL_FILE) known (fuel + more) ask check active s u = Ok (s', map (fun y => (fst y, (rstart (snd y), rend (snd y)))) (outline f))).
Proof.
  destruct (fetched U err binder known ask check TO ER BO tx evs u active C PL K) as (fuel & H). exists fuel. intros more.
  destruct (H more) as (s & s' & f & inc & R & P & T & FE). exists s, s', f, inc. split; [exact R|]. split; [exact P|]. intros DR.
  destruct (fetched_file U err binder known TO ER BO (fuel + more) tx evs u f inc C PL P) as (G & TX). destruct (grammar_facts _ _ _ G) as (T0 & WF & _ & CT & _).
  unfold provide_symbols, L. rewrite (FE DR). cbn [bind fst]. rewrite (C57_outline _ _ _ G). cbn [bind]. rewrite T. f_equal. f_equal. apply map_ext_in. intros (name & r) J. cbn [fst snd]. f_equal.
  apply (range_fits f _ r AS TX). unfold outline in J. apply in_flat_map in J. destruct J as (n & _ & J). unfold outline_entry in J.
  destruct (ty f n =? SYN_RULE); [destruct (AnalysisSpec.name_of f n); [|destruct J]|destruct (ty f n =? TOKENIZER_DEF); [|destruct (ty f n =? AST_DEF); [|destruct J]]];
    destruct J as [J|[]]; injection J as _ <-; exact (rng_fits f T0 _ WF).
Qed.

(** Context actions. Offered after the events [evs] for the selection from [a] to [b]; applied after further events [evs2], when this document is
    active and has the same text: exactly the actions offered can be applied, each edits this document, and the text becomes the one the action
    says (C54, C55, C56). *)
Theorem C83_actions : forall evs2 a b, plain (no_bare_raw (l_lexer L)) known tx (evs ++ evs2) -> current tx (evs ++ evs2) u = current tx evs u ->
  a <= b -> b <= List.length (List.concat (current tx evs u)) ->
  exists fuel, forall more, exists s s' t t' f inc,
    handle_all L (Some FALL_FILE) known (fuel + more) (mkSession tx (fun _ => None)) evs = Ok s /\
    handle_all L (Some FALL_FILE) known (fuel + more) (mkSession tx (fun _ => None)) (evs ++ evs2) = Ok t /\
    parse_file L (fuel + more) (List.concat (current tx evs u)) = Ok (f, inc) /\
    (drawable U err binder known ask check (fuel + more) (current tx evs) active -> drawable U err binder known ask check (fuel + more) (current tx (evs ++ evs2)) (Some u) ->
     exists ids, provide_actions L (Some FALL_FILE) known (fuel + more) ask check active s u (a, b) = Ok (s', ids) /\
       (In swap_alternatives_id ids <-> exists l r, swappable f a l r) /\ (In extract_rule_id ids <-> exists e, extractable f (mkRange a b) e) /\
       (forall id, ~ In id ids -> run_action L (Some FALL_FILE) known (fuel + more) ask check (Some u) t (a, b) id = Panic) /\
       forall id, In id ids -> exists ops js out, run_action L (Some FALL_FILE) known (fuel + more) ask check (Some u) t (a, b) id = Ok (t', Some (u, js)) /\
         apply_context_action f fall_ws (mkRange a b) id = Ok (Some ops) /\ apply ops (as_text (List.concat (current tx evs u))) = Ok out /\
         after_edits (current tx evs u) js = out /\
         (id = swap_alternatives_id -> forall l r, swappable f a l r -> out = exchanged f l r) /\
         (id = extract_rule_id -> exists e m rule, extractable f (mkRange a b) e /\ moved f (mkRange a b) e m /\ enclosing_rule f e rule /\ out = extracted f m rule)).
Proof.
  intros evs2 a b PL2 SAME AB LE.
  destruct (fetched U err binder known ask check TO ER BO tx evs u active C PL K) as (f1 & H1).
  destruct (fetched U err binder known ask check TO ER BO tx (evs ++ evs2) u (Some u) C PL2 K) as (f2 & H2).
  exists (f1 + f2). intros more. destruct (H1 (f2 + more)) as (s & s' & f & inc & R & P & T & FE). destruct (H2 (f1 + more)) as (t & t' & f' & inc' & R2 & P2 & T2 & FE2).
  replace (f1 + (f2 + more)) with (f1 + f2 + more) in * by lia. replace (f2 + (f1 + more)) with (f1 + f2 + more) in * by lia. set (F := f1 + f2 + more) in *.
  rewrite SAME in P2. assert (X : (f', inc') = (f, inc)) by (unfold L in *; congruence). injection X as -> ->.
  exists s, s', t, t', f, inc. split; [exact R|]. split; [exact R2|]. split; [exact P|]. intros DR DR2.
  destruct (fetched_file U err binder known TO ER BO F tx evs u f inc C PL P) as (G & TX). destruct (grammar_facts _ _ _ G) as (T0 & WF & _ & CT & _).
  destruct (C56_actions _ _ f fall_ws (mkRange a b) G AB LE) as (ids & E & ND & IDS & SWP & EXT & ALL). exists ids. split; [|split; [exact SWP|split; [exact EXT|split]]].
  - unfold provide_actions, L. rewrite (FE DR). cbn [bind fst]. unfold from_vs_range. cbn [fst snd]. change (l_ws (fall_shipped U err binder)) with fall_ws. rewrite E. reflexivity.
  - intros id N. destruct (ALL id) as [(I & _)|(_ & EN)]; [contradiction|]. unfold run_action, L. rewrite (FE2 DR2). cbn [bind fst]. unfold from_vs_range. cbn [fst snd]. change (l_ws (fall_shipped U err binder)) with fall_ws. rewrite EN. reflexivity.
  - intros id I. destruct (ALL id) as [(_ & ops & out & EA & AP)|(N & _)]; [|contradiction].
    destruct (action_client (current tx evs u) f T0 fall_ws (mkRange a b) id ops out AS TX WF CT EA AP) as (js & EJ & AJ). exists ops, js, out.
    split. { unfold run_action, L. rewrite (FE2 DR2). cbn [bind fst]. unfold from_vs_range. cbn [fst snd]. change (l_ws (fall_shipped U err binder)) with fall_ws. rewrite EA. cbn [bind]. rewrite T2, SAME, EJ. reflexivity. }
    split; [exact EA|]. split; [exact AP|]. split; [exact AJ|].
    assert (N12 : bytes_eqb swap_id swap_alternatives_id = false) by (vm_compute; reflexivity). assert (N13 : bytes_eqb swap_id extract_rule_id = false) by (vm_compute; reflexivity).
    assert (N23 : bytes_eqb swap_alternatives_id extract_rule_id = false) by (vm_compute; reflexivity).
    assert (D2 : bytes_eqb swap_alternatives_id swap_alternatives_id = true) by (vm_compute; reflexivity). assert (D3 : bytes_eqb extract_rule_id extract_rule_id = true) by (vm_compute; reflexivity).
    unfold apply_context_action, apply_default_context_action, apply_action, default_actions, fall_actions in EA. cbn [find_first fst] in EA. split.
    + intros -> l r SW. rewrite N12 in EA. cbn [bind] in EA. rewrite D2 in EA. cbn [rstart] in EA.
      destruct (proj1 (proj2 (C54_swap _ _ f a G (Nat.le_trans _ _ _ AB LE))) l r SW) as (ops' & ES & AE). rewrite ES in EA. cbn [bind into_edit] in EA. injection EA as ->. congruence.
    + intros ->. rewrite N13 in EA. cbn [bind] in EA. rewrite N23, D3 in EA. destruct (proj1 EXT I) as (e & EE).
      destruct (proj1 (proj2 (C55_extract _ _ f (mkRange a b) G AB LE)) e EE) as (m & rule & ops' & MV & EN & _ & _ & _ & _ & ES & AE). rewrite ES in EA. cbn [bind into_edit] in EA. injection EA as ->.
      exists e, m, rule. split; [exact EE|]. split; [exact MV|]. split; [exact EN|]. congruence.
Qed.

(** "Render test". Offered after the events [evs] exactly when the selection starts in a test; if the document is still active and has the same text
    when the rendering is asked for, after [evs2], then what is shown is the tree of that test, parsed with the language made from the grammar.
    [generated] makes that language. *)
Theorem C83_test : forall space names debug generated gfuel evs2 a b, plain (no_bare_raw (l_lexer L)) known tx (evs ++ evs2) -> current tx (evs ++ evs2) u = current tx evs u ->
  a <= List.length (List.concat (current tx evs u)) ->
  exists fuel, forall more, exists s s' t t' f inc,
    handle_all L (Some FALL_FILE) known (fuel + more) (mkSession tx (fun _ => None)) evs = Ok s /\
    handle_all L (Some FALL_FILE) known (fuel + more) (mkSession tx (fun _ => None)) (evs ++ evs2) = Ok t /\
    parse_file L (fuel + more) (List.concat (current tx evs u)) = Ok (f, inc) /\
    (drawable U err binder known ask check (fuel + more) (current tx evs) active -> drawable U err binder known ask check (fuel + more) (current tx (evs ++ evs2)) (Some u) ->
     exists o, provide_test L (Some FALL_FILE) known (fuel + more) ask check active s u (a, b) = Ok (s', o) /\ (forall i, o = Some i <-> in_test f a i) /\
       forall i, o = Some i -> exists n, nth_error (kids_of f TEST_DEF 0) i = Some n /\
         forall txt d, test_text space f n (Some txt) -> (forall j, ~ occurs stars txt j) -> tree_of (names f) debug (generated f) gfuel txt d ->
           provide_rendering L (Some FALL_FILE) known (fuel + more) ask check (fun g => render_one space (names g) debug (generated g) gfuel g) (Some u) t i = Ok (t', d ++ [10; 10])).
Proof.
  intros space names debug generated gfuel evs2 a b PL2 SAME LE.
  destruct (fetched U err binder known ask check TO ER BO tx evs u active C PL K) as (f1 & H1).
  destruct (fetched U err binder known ask check TO ER BO tx (evs ++ evs2) u (Some u) C PL2 K) as (f2 & H2).
  exists (f1 + f2). intros more. destruct (H1 (f2 + more)) as (s & s' & f & inc & R & P & T & FE). destruct (H2 (f1 + more)) as (t & t' & f' & inc' & R2 & P2 & T2 & FE2).
  replace (f1 + (f2 + more)) with (f1 + f2 + more) in * by lia. replace (f2 + (f1 + more)) with (f1 + f2 + more) in * by lia. set (F := f1 + f2 + more) in *.
  rewrite SAME in P2. assert (X : (f', inc') = (f, inc)) by (unfold L in *; congruence). injection X as -> ->.
  exists s, s', t, t', f, inc. split; [exact R|]. split; [exact R2|]. split; [exact P|]. intros DR DR2.
  destruct (fetched_file U err binder known TO ER BO F tx evs u f inc C PL P) as (G & TX).
  destruct (C58_test _ _ f a G LE) as (o & E & IO). exists o. split; [|split; [exact IO|]].
  - unfold provide_test, L. rewrite (FE DR). cbn [bind fst]. rewrite E. reflexivity.
  - intros i ->. destruct (C76_one space (names f) debug (generated f) gfuel _ _ f a i G LE E) as (n & _ & N & RO). exists n. split; [exact N|].
    intros txt d TT NS TR. unfold provide_rendering, L. rewrite (FE2 DR2). cbn [bind fst]. rewrite (RO txt d TT NS TR). reflexivity.
Qed.
End Features.
Print Assumptions C83_definition.
Print Assumptions C83_references.
Print Assumptions C83_symbols.
Print Assumptions C83_actions.
Print Assumptions C83_test.

(** ** A session *)

(** A grammar is opened, the editor is switched to it, and a test is added at its end. There are two grammars, 0 and 1; the renderer parses tests
    with the language of grammars itself. *)
Definition typed : bytes := FallLang.text_of "rule a { b | a b } rule b { }".
Definition added : bytes := FallLang.text_of " test r""x""".
Definition editing : list (event * option nat) := [(Opened 0 (chars_of typed), None); (Switched, Some 0); (Changed 0 29 29 (chars_of added), Some 0)].
Definition grammars (u : nat) : bool := u <? 2.
Definition calm (f : file) : res (list diagnostic) := direct_check 0 f.
Definition says (f : file) : key -> res value := direct 4 f.
Definition render_fall (f : file) (n : nat) : res bytes := render_one ascii_space (info_of fall_names) quoted fall_lang 300 f n.
Definition session_after (tx : nat -> document) (evs : list (event * option nat)) : res session := handle_all real_fall (Some FALL_FILE) grammars 300 (mkSession tx (fun _ => None)) evs.
(** What the editor gets, [None] if something panics. *)
Definition obtained {A} (r : res session) (k : session -> res (session * A)) : option A := match r with Ok s => match k s with Ok (_, a) => Some a | _ => None end | _ => None end.
Definition empty_texts : nat -> document := fun _ => [].

Lemma error_free_case : forall txt f inc, utf8 txt -> parse_file real_fall 300 txt = Ok (f, inc) -> no_error_nodes_b f = true -> (match direct_check 0 f with Ok _ => true | _ => false end) = true ->
  grammar_file real_fall txt f /\ (no_error_nodes f /\ honest f (says f)) /\ exists out, calm f = Ok out.
Proof.
  intros txt f inc CU P NB CK. pose proof (no_error_nodes_check f NB) as NE.
  destruct (C71_fall ascii_U longest one_char (fun _ _ _ => 0) ascii_U_ok longest_picks one_char_ok (fun _ _ _ => Nat.le_0_l _)) as (SF & YT & WH).
  destruct (C52_complete real_fall 300 _ f inc SF (WH _ CU) P NE) as (T & WF & _ & CT & CO & _).
  split. { split; [exact SF|]. split; [exact YT|]. split; [exact (WH _ CU)|]. exists 300, inc. exact P. }
  split; [split; [exact NE|exact (direct_honest f T WF CT CO)]|]. unfold calm. destruct (direct_check 0 f); [eexists; reflexivity|discriminate CK..].
Qed.

Example C83_case : tables_ok ascii_U /\ err_ok one_char /\ plain (no_bare_raw (l_lexer real_fall)) grammars empty_texts editing /\ grammars 0 = true /\
  ascii_document (current empty_texts editing 0) /\ List.concat (current empty_texts editing 0) = FallLang.text_of "rule a { b | a b } rule b { } test r""x""" /\
  (exists f inc, parse_file real_fall 300 (List.concat (current empty_texts editing 0)) = Ok (f, inc) /\ no_error_nodes f /\ honest f (says f) /\
     drawable ascii_U one_char (fun _ _ _ => 0) grammars says calm 300 (current empty_texts editing) (Some 0) /\
     (exists l r, swappable f 11 l r) /\ (exists e, extractable f (mkRange 11 14) e) /\ in_test f 33 0) /\
  obtained (session_after empty_texts editing) (fun s => provide_definition real_fall (Some FALL_FILE) grammars 300 says calm (Some 0) s 0 9) = Some (Some (24, 25)) /\
  obtained (session_after empty_texts editing) (fun s => provide_references real_fall (Some FALL_FILE) grammars 300 says calm (Some 0) s 0 24) = Some [(9, 10); (15, 16)] /\
  obtained (session_after empty_texts editing) (fun s => provide_symbols real_fall (Some FALL_FILE) grammars 300 says calm (Some 0) s 0) = Some [([97], (0, 18)); ([98], (19, 29))] /\
  obtained (session_after empty_texts editing) (fun s => provide_actions real_fall (Some FALL_FILE) grammars 300 says calm (Some 0) s 0 (11, 14)) = Some [swap_alternatives_id; extract_rule_id] /\
  obtained (session_after empty_texts editing) (fun s => run_action real_fall (Some FALL_FILE) grammars 300 says calm (Some 0) s (11, 14) swap_alternatives_id)
    = Some (Some (0, [((9, 9), FallLang.text_of "a b"); ((9, 10), []); ((13, 13), FallLang.text_of "b"); ((13, 16), [])])) /\
  obtained (session_after empty_texts editing) (fun s => provide_test real_fall (Some FALL_FILE) grammars 300 says calm (Some 0) s 0 (33, 33)) = Some (Some 0) /\
  obtained (session_after empty_texts editing) (fun s => provide_rendering real_fall (Some FALL_FILE) grammars 300 says calm render_fall (Some 0) s 0)
    = Some (lines ["FALL_FILE"; "  ERROR"; "    IDENT ""x"""; ""; ""]%string).
Proof.
  split; [exact ascii_U_ok|]. split; [exact one_char_ok|].
  split. { cbn [plain]. split; [unfold typed; cbn; are_characters|]. split; [exact I|]. split; [|exact I]. cbn. split; [lia|]. split; [unfold added; cbn; are_characters|]. intros _. split; [are_ascii|no_raw]. }
  split; [reflexivity|].
  split. { unfold ascii_document. match goal with |- Forall _ ?l => let v := eval vm_compute in l in change l with v end. repeat (apply Forall_cons; [reflexivity|]). apply Forall_nil. }
  split; [vm_compute; reflexivity|].
  split.
  { destruct (parse_file real_fall 300 (List.concat (current empty_texts editing 0))) as [[f inc]| |] eqn:P; [|vm_compute in P; discriminate P..].
    assert (CU : utf8 (List.concat (current empty_texts editing 0))).
    { apply characters_utf8. unfold characters. match goal with |- Forall _ ?l => let v := eval vm_compute in l in change l with v end. are_characters. }
    destruct (error_free_case _ f inc CU P) as (G & HON & out & CK).
    { assert (X : (match parse_file real_fall 300 (List.concat (current empty_texts editing 0)) with Ok (f, _) => no_error_nodes_b f | _ => false end) = true) by (vm_compute; reflexivity). rewrite P in X. exact X. }
    { assert (X : (match parse_file real_fall 300 (List.concat (current empty_texts editing 0)) with Ok (f, _) => match direct_check 0 f with Ok _ => true | _ => false end | _ => false end) = true) by (vm_compute; reflexivity). rewrite P in X. exact X. }
    exists f, inc. split; [reflexivity|]. destruct HON as (NE & HON). split; [exact NE|]. split; [exact HON|].
    split. { intros a g incg A _ PG. injection A as <-. assert (E : (g, incg) = (f, inc)) by (change (fall_shipped ascii_U one_char (fun _ _ _ => 0)) with real_fall in PG; congruence). injection E as -> ->. split; [exact NE|]. split; [exact HON|]. exists out. exact CK. }
    assert (LE : 33 <= List.length (List.concat (current empty_texts editing 0))) by (apply Nat.leb_le; vm_compute; reflexivity).
    destruct (C56_actions _ _ f fall_ws (mkRange 11 14) G ltac:(cbn; lia) ltac:(cbn [rend]; lia)) as (ids & E & _ & _ & SW & EX & _).
    assert (IDS : ids = [swap_alternatives_id; extract_rule_id]).
    { assert (X : (match parse_file real_fall 300 (List.concat (current empty_texts editing 0)) with Ok (f, _) => context_actions f fall_ws (mkRange 11 14) | _ => Panic end) = Ok [swap_alternatives_id; extract_rule_id]) by (vm_compute; reflexivity). rewrite P in X. congruence. }
    split; [apply (proj1 SW); rewrite IDS; left; reflexivity|]. split; [apply (proj1 EX); rewrite IDS; right; left; reflexivity|].
    destruct (C58_test _ _ f 33 G LE) as (o & ET & IT). apply IT.
    assert (X : (match parse_file real_fall 300 (List.concat (current empty_texts editing 0)) with Ok (f, _) => test_at_offset f 33 | _ => Panic end) = Ok (Some 0)) by (vm_compute; reflexivity). rewrite P in X. congruence. }
  repeat (split; [vm_compute; reflexivity|]). vm_compute. reflexivity.
Qed.

(** ** When the answer is about something else *)

Definition panics {A} (r : res session) (k : session -> res (session * A)) : bool := match r with Ok s => match k s with Panic => true | _ => false end | _ => false end.

(** An action is offered, the text changes, and the action is chosen: the backend no longer knows it, and the command throws. *)
Theorem C83_action_gone_refuted : exists ev id,
  obtained (session_after empty_texts editing) (fun s => provide_actions real_fall (Some FALL_FILE) grammars 300 says calm (Some 0) s 0 (11, 14)) = Some [id; extract_rule_id] /\
  plain (no_bare_raw (l_lexer real_fall)) grammars empty_texts (editing ++ [(ev, Some 0)]) /\
  panics (session_after empty_texts (editing ++ [(ev, Some 0)])) (fun s => run_action real_fall (Some FALL_FILE) grammars 300 says calm (Some 0) s (11, 14) id) = true.
Proof.
  exists (Rewritten 0 (chars_of (FallLang.text_of "rule a { b c }"))), swap_alternatives_id. split; [vm_compute; reflexivity|]. split; [|vm_compute; reflexivity].
  cbn [plain editing app]. split; [unfold typed; cbn; are_characters|]. split; [exact I|]. split; [cbn; split; [lia|]; split; [unfold added; cbn; are_characters|]; intros _; split; [are_ascii|no_raw]|].
  split; [cbn; are_characters|exact I].
Qed.
Print Assumptions C83_action_gone_refuted.

(** An action offered for one document and chosen when another grammar is active edits that one. *)
Definition two_grammars : list (event * option nat) :=
  [(Opened 0 (chars_of (FallLang.text_of "rule a { b | c } test r""x""")), Some 0); (Opened 1 (chars_of (FallLang.text_of "rule q { z | y } test r""pub""")), Some 0)].
Theorem C83_other_editor_refuted : exists ids js,
  obtained (session_after empty_texts two_grammars) (fun s => provide_actions real_fall (Some FALL_FILE) grammars 300 says calm (Some 0) s 0 (11, 11)) = Some ids /\ In swap_alternatives_id ids /\
  obtained (session_after empty_texts two_grammars) (fun s => run_action real_fall (Some FALL_FILE) grammars 300 says calm (Some 1) s (11, 11) swap_alternatives_id) = Some (Some (1, js)) /\
  after_edits (current empty_texts two_grammars 1) js = FallLang.text_of "rule q { y | z } test r""pub""".
Proof. do 2 eexists. split; [vm_compute; reflexivity|]. split; [left; reflexivity|]. split; vm_compute; reflexivity. Qed.
Print Assumptions C83_other_editor_refuted.

(** Likewise "Render test": the number of the test is remembered, but not its file. The test chosen is the text "x" in the first document. *)
Theorem C83_other_test_refuted :
  obtained (session_after empty_texts two_grammars) (fun s => provide_test real_fall (Some FALL_FILE) grammars 300 says calm (Some 0) s 0 (22, 22)) = Some (Some 0) /\
  obtained (session_after empty_texts two_grammars) (fun s => provide_rendering real_fall (Some FALL_FILE) grammars 300 says calm render_fall (Some 1) s 0)
    = Some (lines ["FALL_FILE"; "  ERROR"; "    IDENT ""pub"""; ""; ""]%string).
Proof. split; vm_compute; reflexivity. Qed.
Print Assumptions C83_other_test_refuted.

(** When no editor or an editor with a document of another language is active, rendering throws, for instance when a document is saved there. *)
Theorem C83_no_grammar_refuted :
  panics (session_after empty_texts editing) (fun s => provide_rendering real_fall (Some FALL_FILE) grammars 300 says calm render_fall None s 0) = true /\
  panics (session_after empty_texts editing) (fun s => provide_rendering real_fall (Some FALL_FILE) grammars 300 says calm render_fall (Some 2) s 0) = true.
Proof. split; vm_compute; reflexivity. Qed.
Print Assumptions C83_no_grammar_refuted.

(** The first question about a grammar without errors has no answer while the active editor shows one with errors: highlighting that one panics
    first (C59). *)
Theorem C83_first_question_refuted : exists tx, (forall w, characters (tx w)) /\ tx 1 = chars_of typed /\
  panics (session_after tx []) (fun s => provide_symbols real_fall (Some FALL_FILE) grammars 300 says calm (Some 0) s 1) = true /\
  obtained (session_after tx []) (fun s => provide_symbols real_fall (Some FALL_FILE) grammars 300 says calm (Some 1) s 1) = Some [([97], (0, 18)); ([98], (19, 29))].
Proof.
  exists (fun w => if w =? 0 then erring else chars_of typed).
  split. { intros w. destruct (w =? 0); [unfold erring|unfold typed]; cbn; are_characters. }
  split; [reflexivity|]. split; vm_compute; reflexivity.
Qed.
Print Assumptions C83_first_question_refuted.
