(** Grammars that pass the static check never crash the parser and never make it loop; the shipped grammars. *)
From Coq Require Import List Arith Bool Lia.
From Verif Require Import Base BaseFacts TextSpec LexModel LexSpec LexProofs GrammarModel ParserModel ForestSpec SemSpec PegSpec PegProofs
  RefineProofs ReshuffleProofs SpanSpec SpanProofs ConvertModel FileProofs MonoProofs WellFormed CheckProofs GrammarData ExampleLang
  PropsPeg.
Import ListNotations.

(** * C28: well-formed grammars *)

(** Any grammar with a certificate, any tokens of any text: the parser comes back with a stream of events, whatever
    the fuel it does not panic, and the events make one tree. *)
Theorem C28_returns : forall g c is_ws txt toks, well_formed g c = true -> lens toks = length txt ->
  let E := new_env None g is_ws txt toks in
  exists t, (exists enough evs, forall more, parse_events E (enough + more) = Ok evs)
    /\ forall fuel, match parse_events E fuel with
                    | Ok evs => reshuffle evs = Ok (flats [t])
                    | Panic => False
                    | OutOfFuel => True
                    end.
Proof.
  intros g c is_ws txt toks WF LEN E. destruct (well_formed_tree g c is_ws txt toks LEN WF) as (t & P). fold E in P. exists t.
  destruct (C23_file E t eq_refl P) as ((fuel & evs & R) & ALL). split; [|exact ALL]. exists fuel, evs. intros more.
  destruct (events_mono E fuel (fuel + more) ltac:(lia)) as [Q|Q]; congruence.
Qed.
Print Assumptions C28_returns.

(** No whitespace token starts with a byte of a keyword that is recognised by its spelling. *)
Definition blank (b : nat) : bool := (b <=? 32) || (b =? 47) || (128 <=? b).
Definition plain_spellings (g : grammar) : bool :=
  forallb (fun x => match x with EContextual _ t => forallb (fun b => negb (blank b)) t | _ => true end) (g_rules g).

Lemma plain_no_ws_byte : forall lx g is_ws txt toks, progressing lx -> tokenizes lx txt toks ->
  (forall b r, is_ws (tk_ty (lx (b :: r))) = true -> blank b = true) -> plain_spellings g = true -> no_ws_byte g is_ws txt toks.
Proof.
  intros lx g is_ws txt toks PR TK BL PL i ty ctx R j t b TJ WS NB IN.
  unfold plain_spellings in PL. rewrite forallb_forall in PL. apply nth_error_In in R. apply PL in R. rewrite forallb_forall in R. apply R in IN.
  assert (B : blank b = true); [|rewrite B in IN; discriminate]. clear - PR TK BL TJ WS NB. revert j TJ NB.
  induction TK as [|txt t0 ts NE L TK IH]; intros j TJ NB; [destruct j; discriminate|]. destruct j as [|j].
  - cbn in TJ. injection TJ as ->. cbn in NB. destruct txt as [|x r]; [discriminate|]. injection NB as ->. apply (BL b r). rewrite L. exact WS.
  - apply (IH j); [exact TJ|]. cbn [firstn] in NB. rewrite nth_error_skipn. exact NB.
Qed.

(** The whole way from text to tree, for a language with a well-formed grammar. The lexer consumes something, the
    hook that places whitespace stays within the whitespace it is shown, and tokens end between characters. *)
Theorem C28_parse : forall L c txt,
  well_formed (l_g L) c = true -> plain_spellings (l_g L) = true ->
  progressing (l_lexer L) -> (forall b r, l_ws L (tk_ty (l_lexer L (b :: r))) = true -> blank b = true) ->
  (forall ty sp b, l_binder L ty sp b <= length sp) ->
  (forall toks k, lex (l_lexer L) txt = Ok toks -> aligned txt (lens (firstn k toks))) ->
  exists f inc fuel, forall more, parse_file L (fuel + more) txt = Ok (f, inc).
Proof.
  intros L c txt WF PL PR BL LB AL. destruct (lex_ok (l_lexer L) txt PR) as (toks & LX & TK).
  pose proof (tokenizes_lens _ PR _ _ TK) as LEN. pose proof WF as WF'. unfold well_formed in WF'. rewrite !andb_true_iff in WF'. destruct WF' as [[_ HS] _].
  unfold has_start in HS. destruct (g_rules (l_g L)) as [|x rules] eqn:RS; [discriminate|].
  destruct x as [ty body [|]| | | | | | | | | | | | | | | | | | | | |]; try discriminate.
  apply (C20_returns L txt toks ty body); auto.
  - rewrite RS. reflexivity.
  - eapply plain_no_ws_byte; eauto.
  - exact (well_formed_tree (l_g L) c (l_ws L) txt toks LEN WF).
Qed.
Print Assumptions C28_parse.

(** The shipped languages whose start rule takes anything: fall itself, rust, s-expressions and bnf. *)
Inductive shipped : grammar -> Prop :=
| sh_fall : shipped fall_grammar
| sh_rust : shipped rust_grammar
| sh_sexp : shipped sexp_grammar
| sh_bnf : shipped bnf_grammar.

Theorem C28_shipped : forall g, shipped g -> (exists c, well_formed g c = true) /\ plain_spellings g = true.
Proof.
  intros g [| | |]; (split; [|vm_compute; reflexivity]); [exists fall_cert|exists rust_cert|exists sexp_cert|exists bnf_cert]; vm_compute; reflexivity.
Qed.
Print Assumptions C28_shipped.

Theorem C28_shipped_parse : forall L txt, shipped (l_g L) ->
  progressing (l_lexer L) -> (forall b r, l_ws L (tk_ty (l_lexer L (b :: r))) = true -> blank b = true) ->
  (forall ty sp b, l_binder L ty sp b <= length sp) ->
  (forall toks k, lex (l_lexer L) txt = Ok toks -> aligned txt (lens (firstn k toks))) ->
  exists f inc fuel, forall more, parse_file L (fuel + more) txt = Ok (f, inc).
Proof. intros L txt SH PR BL LB AL. destruct (C28_shipped _ SH) as ((c & WF) & PL). eapply C28_parse; eauto. Qed.
Print Assumptions C28_shipped_parse.

(** Without the condition on the start rule, parsing still ends: in a tree, or in the panic of [parse] when the start
    rule does not match. *)
Theorem C28_ends : forall g c is_ws txt toks, runnable g c = true -> has_start g c = true -> lens toks = length txt ->
  let E := new_env None g is_ws txt toks in
  exists enough, (exists evs, forall more, parse_events E (enough + more) = Ok evs)
    \/ ((forall more, parse_events E (enough + more) = Panic)
        /\ exists h, peg E (mkRd false (repeat false 16) (repeat None 16)) 0 (new_pos E) (mkRg None None) None h).
Proof.
  intros g c is_ws txt toks RB HS LEN E. destruct (start_runs g c is_ws txt toks LEN RB HS) as [(t & P)|(_ & h & P)]; fold E in P.
  - destruct (C23_file E t eq_refl P) as ((fuel & evs & R) & _). exists fuel. left. exists evs. intros more.
    destruct (events_mono E fuel (fuel + more) ltac:(lia)) as [Q|Q]; congruence.
  - destruct (C23_expression E 0 (new_pos E) new_st None h eq_refl P) as (fuel & R). exists fuel. right. split; [|exists h; exact P].
    intros more. destruct (R more) as (s' & Q & _). unfold parse_events. rewrite Q. reflexivity.
Qed.
Print Assumptions C28_ends.

(** The other shipped grammars have such a start rule. *)
Theorem C28_other_grammars : forall g, In g [json_grammar; arith_grammar; weird_grammar] ->
  exists c, runnable g c = true /\ has_start g c = true.
Proof.
  intros g [<-|[<-|[<-|[]]]]; [exists json_cert|exists arith_cert|exists weird_cert]; split; vm_compute; reflexivity.
Qed.
Print Assumptions C28_other_grammars.

(** ** json: a text is parsed exactly when its first token is a bracket; on all others the parser panics. *)
Definition opens (is_ws : nat -> bool) (toks : list token) : Prop :=
  match filter (fun t => negb (is_ws (tk_ty t))) toks with
  | t :: _ => tk_ty t = 101 \/ tk_ty t = 103
  | [] => False
  end.

Section Json.
  Variable is_ws : nat -> bool.
  Variable txt : bytes.
  Variable toks : list token.
  Hypothesis LEN : lens toks = length txt.
  Let E := new_env None json_grammar is_ws txt toks.

  Lemma first_token : forall t, tok_at E 0 t <-> exists r, filter (fun t => negb (is_ws (tk_ty t))) toks = t :: r.
  Proof.
    intros t. split.
    - intros (o & raw & I & T). destruct (idx_split E is_ws eq_refl LEN 0 o raw I) as (a & u & b & EQ & -> & _ & W & FA).
      rewrite EQ, nth_error_app2, Nat.sub_diag in T by lia. injection T as ->. cbn in EQ. rewrite EQ, filter_app. cbn [filter]. rewrite W. cbn [negb].
      destruct (filter _ a); [|discriminate]. eexists. reflexivity.
    - intros (r & FQ). assert (L : 0 < length (e_idx E)).
      { cbn [E new_env e_idx]. unfold non_ws. rewrite non_ws_length. rewrite FQ. cbn. lia. }
      destruct (env_tokens json_grammar is_ws txt toks LEN 0 L) as (o & raw & u & I & T & _).
      destruct (idx_split E is_ws eq_refl LEN 0 o raw I) as (a & v & b & EQ & -> & _ & W & FA).
      assert (V : nth_error (e_toks E) (length a) = Some v) by (rewrite EQ, nth_error_app2, Nat.sub_diag by lia; reflexivity).
      exists o, (length a). split; [exact I|]. rewrite V. cbn in EQ. rewrite EQ, filter_app in FQ. cbn [filter] in FQ. rewrite W in FQ. cbn [negb] in FQ.
      destruct (filter _ a); [|discriminate]. cbn in FQ. congruence.
  Qed.

  Lemma not_there : forall e ty t rd h, rule E e (EToken ty) -> type E ty t -> (forall u, tok_at E 0 u -> tk_ty u <> t) -> peg E rd e (new_pos E) h None h.
  Proof.
    intros e ty t rd h R T N. destruct (eat_ok E (env_tokens json_grammar is_ws txt toks LEN) (new_pos E)) as [Q|(u & q & Q)].
    - unfold in_range, new_pos. cbn [p_cur p_end]. lia.
    - eapply peg_token_end; eauto.
    - eapply peg_token_other; eauto. destruct Q as (_ & (v & V & <-) & _). apply N. exact V.
  Qed.

  Lemma json_fails : ~ opens is_ws toks -> exists h, peg E (mkRd false (repeat false 16) (repeat None 16)) 0 (new_pos E) (mkRg None None) None h.
  Proof.
    intros NO. assert (NT : forall u, tok_at E 0 u -> tk_ty u <> 101 /\ tk_ty u <> 103).
    { intros u U. apply first_token in U. destruct U as (r & U). unfold opens in NO. rewrite U in NO. lia. }
    eexists. eapply peg_pub_fail with (ty := 12) (body := 14) (rp := false) (t := 111); [reflexivity|reflexivity|].
    eapply peg_or with (l := [12; 13]); [reflexivity|]. eapply fo_later; [|eapply fo_later; [|apply fo_none]].
    - eapply peg_and_fail with (l := [1]) (c := None) (n := 0); [reflexivity|cbn; lia|]. apply io_stop.
      eapply peg_pub_fail with (ty := 13) (body := 19) (rp := false) (t := 112); [reflexivity|reflexivity|].
      eapply peg_or with (l := [18]); [reflexivity|]. eapply fo_later; [|apply fo_none].
      eapply peg_and_fail with (l := [15; 16; 17]) (c := Some 1) (n := 0); [reflexivity|cbn; lia|]. apply io_stop.
      eapply not_there with (ty := 2) (t := 101); [reflexivity|reflexivity|]. intros u U. apply NT. exact U.
    - eapply peg_and_fail with (l := [4]) (c := None) (n := 0); [reflexivity|cbn; lia|]. apply io_stop.
      eapply peg_pub_fail with (ty := 15) (body := 41) (rp := false) (t := 114); [reflexivity|reflexivity|].
      eapply peg_or with (l := [40]); [reflexivity|]. eapply fo_later; [|apply fo_none].
      eapply peg_and_fail with (l := [37; 38; 39]) (c := Some 1) (n := 0); [reflexivity|cbn; lia|]. apply io_stop.
      eapply not_there with (ty := 4) (t := 103); [reflexivity|reflexivity|]. intros u U. apply NT. exact U.
  Qed.

  Ltac by_rule H R := inversion H; subst; match goal with X : rule _ _ _ |- _ => unfold rule in X, R; rewrite R in X; try discriminate X; injection X; intros; subst end.

  Lemma none_pub : forall rd e ty b p h h1, rule E e (EPub ty b false) -> peg E rd e p h None h1 -> peg E rd b p h None h1.
  Proof. intros rd e ty b p h h1 R H. by_rule H R. assumption. Qed.
  Lemma none_or : forall rd l p h h1, first_of E rd l p h None h1 -> forall a, In a l -> exists h' h2, peg E rd a p h' None h2.
  Proof.
    intros rd. induction l as [|x l IH]; intros p h h1 H a IN; [destruct IN|]. inversion H; subst. destruct IN as [<-|IN]; eauto.
  Qed.
  Lemma none_choice : forall rd e l p h h1, rule E e (EOr l) -> peg E rd e p h None h1 -> forall a, In a l -> exists h' h2, peg E rd a p h' None h2.
  Proof. intros rd e l p h h1 R H. by_rule H R. eapply none_or; eauto. Qed.
  Lemma none_head : forall rd e a l c p h h1, rule E e (EAnd (a :: l) c) -> match c with Some k => k | None => length (a :: l) end = 1 ->
    peg E rd e p h None h1 -> exists h2, peg E rd a p h None h2.
  Proof.
    intros rd e a l c p h h1 R K H. by_rule H R. assert (n = 0) by lia. subst n.
    match goal with X : in_order _ _ _ _ _ _ _ _ _ |- _ => inversion X; subst end. eauto.
  Qed.
  Lemma none_token : forall rd e ty t p h h1, rule E e (EToken ty) -> type E ty t -> peg E rd e p h None h1 ->
    at_end p \/ exists u, tok_at E (p_cur p) u /\ tk_ty u <> t.
  Proof.
    intros rd e ty t p h h1 R T H. by_rule H R.
    - right. match goal with X : eat _ _ _ _ |- _ => destruct X as (_ & (v & V & <-) & _) end. exists v. split; [exact V|]. unfold type in *. congruence.
    - left. assumption.
  Qed.

  Lemma json_matches : opens is_ws toks -> forall h, ~ peg E (mkRd false (repeat false 16) (repeat None 16)) 0 (new_pos E) (mkRg None None) None h.
  Proof.
    intros O h P. unfold opens in O. destruct (filter _ toks) as [|t r] eqn:FQ; [exact O|].
    assert (T0 : tok_at E 0 t) by (apply first_token; eauto).
    assert (ONLY : forall e ty rd h h', rule E e (EToken ty) -> type E ty (tk_ty t) -> peg E rd e (new_pos E) h None h' -> False).
    { intros e ty rd h0 h' R T Q. destruct (none_token _ _ _ _ _ _ _ R T Q) as [AE|(u & U & NU)].
      - destruct T0 as (o & raw & I & _). unfold at_end, new_pos in AE. cbn [p_cur p_end] in AE. assert (nth_error (e_idx E) 0 <> None) by congruence.
        apply nth_error_Some in H. lia.
      - cbn [new_pos p_cur] in U. destruct T0 as (o & raw & I & T1), U as (o' & raw' & I' & T2). congruence. }
    apply (none_pub _ 0 12 14) in P; [|reflexivity].
    destruct O as [O|O].
    - destruct (none_choice _ 14 [12; 13] _ _ _ eq_refl P 12 (or_introl eq_refl)) as (h1 & h2 & Q).
      destruct (none_head _ 12 1 [] None _ _ _ eq_refl eq_refl Q) as (h3 & Q1). apply (none_pub _ 1 13 19) in Q1; [|reflexivity].
      destruct (none_choice _ 19 [18] _ _ _ eq_refl Q1 18 (or_introl eq_refl)) as (h4 & h5 & Q2).
      destruct (none_head _ 18 15 [16; 17] (Some 1) _ _ _ eq_refl eq_refl Q2) as (h6 & Q3).
      apply (ONLY 15 2 _ _ _ eq_refl) in Q3; [exact Q3|]. rewrite O. reflexivity.
    - destruct (none_choice _ 14 [12; 13] _ _ _ eq_refl P 13 (or_intror (or_introl eq_refl))) as (h1 & h2 & Q).
      destruct (none_head _ 13 4 [] None _ _ _ eq_refl eq_refl Q) as (h3 & Q1). apply (none_pub _ 4 15 41) in Q1; [|reflexivity].
      destruct (none_choice _ 41 [40] _ _ _ eq_refl Q1 40 (or_introl eq_refl)) as (h4 & h5 & Q2).
      destruct (none_head _ 40 37 [38; 39] (Some 1) _ _ _ eq_refl eq_refl Q2) as (h6 & Q3).
      apply (ONLY 37 4 _ _ _ eq_refl) in Q3; [exact Q3|]. rewrite O. reflexivity.
  Qed.
End Json.

Theorem C28_json : forall is_ws txt toks, lens toks = length txt ->
  let E := new_env None json_grammar is_ws txt toks in
  (opens is_ws toks -> exists enough evs, forall more, parse_events E (enough + more) = Ok evs)
  /\ (~ opens is_ws toks -> exists enough, forall more, parse_events E (enough + more) = Panic).
Proof.
  intros is_ws txt toks LEN E. destruct (C28_other_grammars json_grammar (or_introl eq_refl)) as (c & RB & HS).
  destruct (C28_ends json_grammar c is_ws txt toks RB HS LEN) as (enough & [(evs & R)|(R & h & P)]); (split; intros O; [|exists enough]).
  - exists enough, evs. exact R.
  - destruct (json_fails is_ws txt toks LEN O) as (h & P).
    destruct (C23_expression E 0 (new_pos E) new_st None h eq_refl P) as (fuel & Q). destruct (Q enough) as (s' & Q' & _).
    specialize (R fuel). rewrite Nat.add_comm in Q'. fold E in R. unfold parse_events in R. rewrite Q' in R. discriminate.
  - destruct (json_matches is_ws txt toks LEN O h P).
  - exact R.
Qed.
Print Assumptions C28_json.

(** "1" and "[1]". *)
Example C28_json_example :
  parse_events (new_env None json_grammar json_ws [49] [mkTok 110 1]) 40 = Panic
  /\ exists evs, parse_events (new_env None json_grammar json_ws [91; 49; 93] [mkTok 103 1; mkTok 110 1; mkTok 104 1]) 40 = Ok evs
     /\ reshuffle evs = Ok (flats [PNode 111 [] [PNode 114 [] [PTok 103 1; PNode 115 [] [PTok 110 1]; PTok 104 1]]]).
Proof. split; [vm_compute; reflexivity|]. eexists. split; vm_compute; reflexivity. Qed.

(** The running example passes the check, and so its parser always returns. *)
Definition calc_cert : cert := mkCert
  [mkInfo 9 [] [] true sh_node false true; mkInfo 8 [] [] true (mkShape true true true false) false true;
   mkInfo 7 [] [] false (mkShape false true true false) false false;
   mkInfo 2 [] [] false sh_node true false; mkInfo 3 [] [] false sh_node false false;
   mkInfo 0 [] [] false (mkShape false false false true) true false; mkInfo 2 [] [] false (mkShape false true false true) false false;
   mkInfo 0 [] [] false (mkShape false false false true) true false; mkInfo 0 [] [] false (mkShape false false false true) true false;
   mkInfo 0 [] [] false (mkShape false false false true) true false; mkInfo 0 [] [] false (mkShape false false false true) true false;
   mkInfo 0 [] [] false (mkShape false false false true) true false] [].

Example C28_calc : well_formed calc_grammar calc_cert = true /\ plain_spellings calc_grammar = true.
Proof. split; vm_compute; reflexivity. Qed.

(** ** The conditions are needed *)

(** An empty repetition never ends: [file { {digit?}* }], on any text. *)
Definition empty_rep : grammar := mkGrammar (seq 0 14) [EPub 7 1 false; ERep 2; EOpt 3; EToken 2].

Lemma opt_again : forall E fuel p s, e_g E = empty_rep -> p_empty p = true ->
  parse_expr E fuel 2 p s = OutOfFuel \/ parse_expr E fuel 2 p s = Ok (Some p, s).
Proof.
  intros E [|[|fuel]] p s G PE; [left; reflexivity| |right].
  - left. cbn [parse_expr]. unfold parse_step, parse_inner. rewrite G. reflexivity.
  - cbn [parse_expr]. unfold parse_step at 1, parse_inner at 1. rewrite G. cbn [empty_rep g_rules index nth_error unwrap bind]. unfold parse_opt.
    unfold parse_step, parse_inner. rewrite G. cbn [empty_rep g_rules index nth_error unwrap bind]. unfold parse_token, bump. rewrite PE. cbn [bind].
    unfold rollback, mark. rewrite Nat.leb_refl. cbn [guard bind]. rewrite firstn_all. destruct s; reflexivity.
Qed.

Theorem C28_empty_repetition_diverges : forall is_ws fuel, parse_events (new_env None empty_rep is_ws [] []) fuel = OutOfFuel.
Proof.
  intros is_ws fuel. set (E := new_env None empty_rep is_ws [] []).
  assert (L : forall f n p s, p_empty p = true -> rep_loop (parse_expr E f) n 2 p s = OutOfFuel).
  { intros f. induction n as [|n IH]; intros p s PE; [reflexivity|]. cbn [rep_loop]. destruct (opt_again E f p s eq_refl PE) as [Q|Q]; rewrite Q; [reflexivity|].
    cbn [bind]. apply IH. exact PE. }
  destruct fuel as [|[|fuel]]; [reflexivity|reflexivity|]. unfold parse_events. cbn [parse_expr]. unfold parse_step at 1, parse_inner at 1.
  cbn [E new_env e_g empty_rep g_rules index nth_error unwrap bind]. unfold parse_pub. change (start _ new_st 7) with (Ok (emit new_st (EvStart 7 None))). cbn [bind].
  unfold parse_step, parse_inner. cbn [E new_env e_g empty_rep g_rules index nth_error unwrap bind]. fold E. rewrite L by reflexivity. reflexivity.
Qed.
Print Assumptions C28_empty_repetition_diverges.

(** A rule that starts with itself never ends: [file { file }], on any text. *)
Theorem C28_left_recursion_diverges : forall is_ws txt toks fuel,
  parse_events (new_env None (mkGrammar (seq 0 14) [EPub 7 0 false]) is_ws txt toks) fuel = OutOfFuel.
Proof.
  intros is_ws txt toks fuel. set (E := new_env None (mkGrammar (seq 0 14) [EPub 7 0 false]) is_ws txt toks).
  assert (L : forall f p s, parse_expr E f 0 p s = OutOfFuel).
  { induction f as [|f IH]; intros p s; [reflexivity|]. cbn [parse_expr]. unfold parse_step, parse_inner.
    cbn [E new_env e_g g_rules index nth_error unwrap bind]. unfold parse_pub. change (start E s 7) with (Ok (emit s (EvStart 7 None))). cbn [bind].
    fold E. rewrite IH. reflexivity. }
  unfold parse_events. rewrite L. reflexivity.
Qed.
Print Assumptions C28_left_recursion_diverges.

(** Operators inside a predicate crash: [file { !expr }] with the operators of the running example, on "1+1". *)
Theorem C28_operator_in_predicate_refuted :
  let g := mkGrammar (seq 0 14) [EPub 7 1 false; ENot 2; EPratt calc_table; EPub 8 5 false; EPub 11 6 false; EToken 2; EAnd [10; 2; 11] (Some 1);
     EToken 3; EToken 4; EToken 13; EToken 5; EToken 6] in
  forall more, parse_events (new_env None g calc_ws [49; 43; 49] (calc_toks [49; 43; 49])) (20 + more) = Panic.
Proof.
  intros g more. assert (P : parse_events (new_env None g calc_ws [49; 43; 49] (calc_toks [49; 43; 49])) 20 = Panic) by (vm_compute; reflexivity).
  destruct (events_mono (new_env None g calc_ws [49; 43; 49] (calc_toks [49; 43; 49])) 20 (20 + more) ltac:(lia)) as [Q|Q]; congruence.
Qed.
Print Assumptions C28_operator_in_predicate_refuted.

(** So does an unbound parameter, and a reference to a rule that is not there. *)
Theorem C28_unbound_refuted : forall is_ws txt toks more,
  parse_events (new_env None (mkGrammar (seq 0 14) [EPub 7 1 false; EVar 3]) is_ws txt toks) (2 + more) = Panic
  /\ parse_events (new_env None (mkGrammar (seq 0 14) [EPub 7 1 false]) is_ws txt toks) (2 + more) = Panic.
Proof. intros is_ws txt toks more. split; reflexivity. Qed.
Print Assumptions C28_unbound_refuted.


(** None of these has a certificate. *)
Theorem C28_rejected : forall c, well_formed empty_rep c = false
  /\ well_formed (mkGrammar (seq 0 14) [EPub 7 0 false]) c = false
  /\ well_formed (mkGrammar (seq 0 14) [EPub 7 1 false; EVar 3]) c = false.
Proof.
  intros c. split; [|split].
  - destruct (well_formed empty_rep c) eqn:W; [|reflexivity]. destruct (C28_returns _ c (fun _ => false) [] [] W eq_refl) as (t & (n & evs & R) & _).
    specialize (R 0). rewrite C28_empty_repetition_diverges in R. discriminate.
  - destruct (well_formed _ c) eqn:W; [|reflexivity]. destruct (C28_returns _ c (fun _ => false) [] [] W eq_refl) as (t & (n & evs & R) & _).
    specialize (R 0). rewrite C28_left_recursion_diverges in R. discriminate.
  - destruct (well_formed _ c) eqn:W; [|reflexivity]. destruct (C28_returns _ c (fun _ => false) [] [] W eq_refl) as (t & _ & R).
    specialize (R (2 + 0)). rewrite (proj1 (C28_unbound_refuted (fun _ => false) [] [] 0)) in R. destruct R.
Qed.
Print Assumptions C28_rejected.
