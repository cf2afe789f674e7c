(** C60: what stands before the commit point of a rule is in every node of the rule, however broken the text is. *)
From Coq Require Import List Arith Bool Lia String.
From Verif Require Import Base BaseFacts TextModel TextSpec TreeModel TreeSpec LexModel LexSpec LexProofs GrammarModel GrammarData TextProofs ConvertModel FallCheck LeafSpec WellFormed CheckProofs PropsCheck
  DeriveSpec CompleteProofs NestProofs AnalysisModel AnalysisSpec AlwaysSpec AlwaysProofs FallLang PropsComplete PropsNest RustEditModel RustLang.
Import ListNotations.
Open Scope list_scope.

(** * C60 *)

(** For every language whose grammar passes the check of C28 and every text: if the rules that make nodes of type [t] have a
    token of type [k] before their commit points (see AlwaysSpec.v), then each [t] in the tree has a child of type [k],
    with errors in the text or without. *)
Theorem C60_before_commit : forall L c fuel txt f inc t k,
  well_formed (l_g L) c = true -> plain_spellings (l_g L) = true -> proper_spellings (l_g L) (l_ws L) ->
  progressing (l_lexer L) -> (forall b r, l_ws L (tk_ty (l_lexer L (b :: r))) = true -> b <= 32 \/ b = 47 \/ 128 <= b) ->
  (forall ty sp b, l_binder L ty sp b <= List.length sp) ->
  parse_file L fuel txt = Ok (f, inc) ->
  guaranteed (l_g L) t k ->
  (forall s, s <> [] -> tk_ty (l_lexer L s) <> t) -> (forall e ty text, grule (l_g L) e (EContextual ty text) -> ~ gtype (l_g L) ty t) ->
  forall n, is_a f t n -> exists x, In x (kids f n) /\ ty f x = k.
Proof.
  intros L c fuel txt f inc t k WFG PL PS PR BL LB H GA NL NC n A.
  destruct (parsed L c fuel txt f inc WFG PL PS PR (fun b r E => blank_is b (BL b r E)) LB H) as (T & d & toks & WF & TX & B & DV & LX & TK & SP).
  apply (always_child (l_g L) t k GA f T (l_ws L) d n WF B (always_tree (l_g L) t k GA false d DV) A).
  intros l J. apply (spells_types (l_g L) txt (fun u => u <> t)) with (off := 0) (l := leaves T) (ts := toks) (t := t) (n := l); auto.
  - intros i j ctx u R TY E. subst u. exact (NC _ _ _ R TY).
  - intros u JU. destruct (tokenizes_types _ _ _ _ TK JU) as (s & NE & ->). exact (NL s NE).
Qed.
Print Assumptions C60_before_commit.

(** ** Rust *)

(** What the theorems about Rust files need to know about the language: the grammar, which tokens are whitespace and the
    binder are those of the source.  The lexer always makes progress, it produces the tokens of the language only, and
    whitespace and comments start with a byte that no token spelled in the grammar has. *)
Record speaks_rust (L : language) : Prop := {
  sr_grammar : l_g L = rust_grammar;
  sr_ws : forall t, l_ws L t = rust_ws t;
  sr_binder : forall ty sp b, l_binder L ty sp b = rust_binder ty sp b;
  sr_progress : progressing (l_lexer L);
  sr_blank : forall b r, l_ws L (tk_ty (l_lexer L (b :: r))) = true -> b <= 32 \/ b = 47 \/ 128 <= b;
  sr_tokens : forall s, s <> [] -> tk_ty (l_lexer L s) <= RS_IDENT
}.

Lemma take_while_length : forall A (p : A -> bool) l, List.length (take_while p l) <= List.length l.
Proof. intros A p l. induction l as [|x l IH]; cbn [take_while]; [lia|]. destruct (p x); cbn [List.length]; lia. Qed.
Lemma rust_binder_le : forall ty sp b, rust_binder ty sp b <= List.length sp.
Proof.
  intros ty sp b. unfold rust_binder. destruct b; cbn [negb]; [|lia]. destruct (ty =? RS_STRUCT_DEF); [|lia]. rewrite <- (rev_length sp). apply take_while_length.
Qed.

Lemma rust_spellings : forall ws, (forall t, ws t = rust_ws t) -> proper_spellings rust_grammar ws.
Proof.
  intros ws EW e ty text R.
  assert (C : forallb (fun x => match x with EContextual ty text => negb (List.length text =? 0) && match nth_error (g_types rust_grammar) ty with Some t => negb (rust_ws t) | None => true end | _ => true end) (g_rules rust_grammar) = true) by (vm_compute; reflexivity).
  rewrite forallb_forall in C. apply nth_error_In in R. apply C in R. apply andb_true_iff in R. destruct R as (A & B). split; [intros ->; discriminate A|].
  intros t N. unfold gtype in N. rewrite N in B. rewrite EW. apply negb_true_iff. exact B.
Qed.

Lemma rust_contextual : forall e ty text t, grule rust_grammar e (EContextual ty text) -> gtype rust_grammar ty t -> t <= RS_IDENT.
Proof.
  intros e ty text t R T.
  assert (C : forallb (fun x => match x with EContextual ty _ => match nth_error (g_types rust_grammar) ty with Some t => t <=? RS_IDENT | None => true end | _ => true end) (g_rules rust_grammar) = true) by (vm_compute; reflexivity).
  rewrite forallb_forall in C. apply nth_error_In in R. apply C in R. unfold gtype in T. rewrite T in R. apply Nat.leb_le. exact R.
Qed.

(** A node type, with the type of a token that each of these nodes has; the names are in the comments. *)
Definition rust_guarantees : list (nat * nat) :=
  [(193, 111) (* USE_DECL: use *); (196, 105) (* EXTERN_CRATE_DECL: crate *); (196, 106) (* extern *); (197, 107) (* FN_DEF: fn *);
   (198, 106) (* LINKAGE: extern *); (201, 117) (* SELF_PARAMETER: self *); (203, 191) (* STRUCT_FIELD: an identifier *); (205, 115) (* ENUM_DEF: enum *);
   (206, 191) (* ENUM_VARIANT: an identifier *); (207, 112) (* MOD_DEF: mod *); (208, 116) (* IMPL_DEF: impl *); (209, 128) (* TRAIT_DEF: trait *);
   (211, 119) (* TYPE_DEF: type *); (216, 191) (* TYPE_PARAMETER: an identifier *); (218, 186) (* LIFETIME_PARAMETER: a lifetime *);
   (219, 109) (* VISIBILITY: pub *); (220, 135) (* WHERE_CLAUSE: where *); (226, 104) (* ALIAS: as *); (226, 191) (* an identifier *);
   (254, 191) (* STRUCT_LITERAL_FIELD: an identifier *); (263, 108) (* LET_STMT: let *); (267, 113) (* IF_EXPR: if *); (268, 124) (* WHILE_EXPR: while *);
   (269, 123) (* LOOP_EXPR: loop *); (270, 122) (* FOR_EXPR: for *); (271, 129) (* MATCH_EXPR: match *); (298, 164) (* ATTRIBUTE: a hash sign *)].

Theorem C60_rust : forall L fuel txt f inc t k n, speaks_rust L -> parse_file L fuel txt = Ok (f, inc) ->
  In (t, k) rust_guarantees -> is_a f t n -> exists x, In x (kids f n) /\ ty f x = k.
Proof.
  intros L fuel txt f inc t k n [G W B P BL TK] H J A. destruct (C28_shipped rust_grammar sh_rust) as ((c & WFG) & PL).
  assert (C : forallb (fun x => guaranteed_b rust_grammar (fst x) (snd x) && (RS_IDENT <? fst x)) rust_guarantees = true) by (vm_compute; reflexivity).
  rewrite forallb_forall in C. specialize (C _ J). cbn [fst snd] in C. apply andb_true_iff in C. destruct C as (C1 & C2). apply Nat.ltb_lt in C2.
  apply (C60_before_commit L c fuel txt f inc t k); auto; try (rewrite G); auto.
  - apply rust_spellings. exact W.
  - intros u sp b. rewrite B. apply rust_binder_le.
  - exact (guaranteed_check _ _ _ C1).
  - intros s NE E. pose proof (TK s NE). lia.
  - intros e u text R T. pose proof (rust_contextual _ _ _ _ R T). lia.
Qed.
Print Assumptions C60_rust.

(** ** The example language is one of these. *)
Lemma find_in : forall A (p : A -> bool) l x, find_first p l = Some x -> In x l /\ p x = true.
Proof.
  intros A p l x. induction l as [|y l IH]; intros F; [discriminate F|]. cbn [find_first] in F. destruct (p y) eqn:E; [injection F as <-; split; [left; reflexivity|exact E]|].
  destruct (IH F). split; [right|]; assumption.
Qed.

Lemma rust_word_ok : forall s, s <> [] -> 0 < tk_len (rust_word s) <= List.length s /\ tk_ty (rust_word s) <= RS_IDENT /\ rust_ws (tk_ty (rust_word s)) = false.
Proof.
  intros s NE. unfold rust_word. pose proof (span_le is_word s) as L. cbv zeta. destruct (span is_word s =? 0) eqn:Z.
  - cbn [tk_len tk_ty]. split; [|split; [unfold ERROR; lia|reflexivity]]. destruct s; [congruence|cbn; lia].
  - apply Nat.eqb_neq in Z. destruct (find_first _ keywords) as [(w & u)|] eqn:F; cbn [tk_len tk_ty].
    + apply find_in in F. destruct F as (J & _). assert (C : forallb (fun x => (snd x <=? RS_IDENT) && negb (rust_ws (snd x))) keywords = true) by (vm_compute; reflexivity).
      rewrite forallb_forall in C. apply C in J. cbn [snd] in J. apply andb_true_iff in J. rewrite Nat.leb_le, negb_true_iff in J. split; [lia|exact J].
    + split; [lia|]. split; [lia|reflexivity].
Qed.

Lemma rust_lexer_ok : forall b r, let t := rust_lexer (b :: r) in
  0 < tk_len t <= S (List.length r) /\ tk_ty t <= RS_IDENT /\ (rust_ws (tk_ty t) = true -> b <= 32 \/ b = 47 \/ 128 <= b).
Proof.
  intros b r. unfold rust_lexer. cbv zeta. pose proof (rust_word_ok (b :: r) ltac:(discriminate)) as (W1 & W2 & W3). cbn [List.length] in W1.
  destruct (is_space b) eqn:SP.
  { cbn [tk_len tk_ty]. pose proof (span_le is_space (b :: r)) as L. cbn [List.length] in L. split; [split; [|exact L]|split].
    - cbn [span]. rewrite SP. lia.
    - unfold RS_WHITESPACE, RS_IDENT. lia.
    - intros _. left. unfold is_space in SP. apply orb_true_iff in SP. destruct SP as [SP|SP]; [apply andb_true_iff in SP; destruct SP as (_ & SP); apply Nat.leb_le in SP|apply Nat.eqb_eq in SP]; lia. }
  destruct (is_prefix [47; 47] (b :: r)) eqn:CM.
  { cbn [is_prefix] in CM. apply andb_true_iff in CM. destruct CM as (B & _). apply Nat.eqb_eq in B. subst b. pose proof (span_le (fun c => negb (c =? 10)) (47 :: r)) as L.
    assert (P : 0 < span (fun c => negb (c =? 10)) (47 :: r)) by (cbn; lia). cbn [List.length] in L. cbn [tk_len tk_ty]. change (List.length (47 :: r)) with (S (List.length r)).
    split; [|split; [unfold RS_LINE_COMMENT, RS_IDENT; lia|intros _; right; left; reflexivity]]. destruct (_ <? _) eqn:Q; [apply Nat.ltb_lt in Q|]; lia. }
  destruct (is_digit b) eqn:DG.
  { cbn [tk_len tk_ty]. pose proof (span_le is_digit (b :: r)) as L. cbn [List.length] in L. split; [split; [cbn [span]; rewrite DG; lia|exact L]|]. split; [unfold RS_IDENT; lia|discriminate]. }
  destruct (b =? 39) eqn:Q1.
  { cbn [tk_len tk_ty]. pose proof (span_le is_word r) as L. split; [lia|]. split; [unfold RS_LIFETIME, RS_IDENT; lia|discriminate]. }
  destruct (b =? 34) eqn:Q2.
  { pose proof (span_le (fun c => negb (c =? 34)) r) as L. destruct (_ <? _) eqn:Q; cbn [tk_len tk_ty].
    - apply Nat.ltb_lt in Q. split; [lia|]. split; [unfold RS_IDENT; lia|discriminate].
    - split; [lia|]. split; [unfold ERROR; lia|discriminate]. }
  destruct (find_first _ signs) as [(w & u)|] eqn:F; cbn [tk_len tk_ty].
  - apply find_in in F. destruct F as (J & PX). cbn [fst] in PX. apply is_prefix_le in PX. cbn [List.length] in PX.
    assert (C : forallb (fun x => (0 <? List.length (fst x)) && (snd x <=? RS_IDENT) && negb (rust_ws (snd x))) signs = true) by (vm_compute; reflexivity).
    rewrite forallb_forall in C. apply C in J. cbn [fst snd] in J. rewrite !andb_true_iff, Nat.ltb_lt, Nat.leb_le, negb_true_iff in J. destruct J as ((J1 & J2) & J3).
    split; [lia|]. split; [exact J2|]. rewrite J3. discriminate.
  - split; [exact W1|]. split; [exact W2|]. rewrite W3. discriminate.
Qed.

Theorem C60_rust_lang : speaks_rust rust_lang.
Proof.
  constructor; try reflexivity.
  - intros [|b r] NE; [congruence|]. exact (proj1 (rust_lexer_ok b r)).
  - intros b r. exact (proj2 (proj2 (rust_lexer_ok b r))).
  - intros [|b r] NE; [congruence|]. exact (proj1 (proj2 (rust_lexer_ok b r))).
Qed.
Print Assumptions C60_rust_lang.

Lemma rust_ascii : forall txt, Forall (fun b => b < 128) txt -> whole_characters rust_lang txt.
Proof.
  intros txt F toks k LX. pose proof (sr_progress _ C60_rust_lang) as P. destruct (lex_ok (l_lexer rust_lang) txt P) as (ts & LX' & TK). rewrite LX in LX'. injection LX' as <-.
  pose proof (tokenizes_lens _ P _ _ TK) as LEN. apply ascii_aligned; [exact F|]. rewrite <- LEN. rewrite <- (firstn_skipn k toks) at 2. rewrite lens_app. lia.
Qed.

(** A text with errors which has such nodes. *)
Definition has_kid (f : file) (t k : nat) (n : nat) : bool := (ty f n =? t) && existsb (fun c => ty f c =? k) (kids f n).
Definition lacks_kid (f : file) (t k : nat) (n : nat) : bool := (ty f n =? t) && negb (existsb (fun c => ty f c =? k) (kids f n)).
Definition some_node (f : file) (p : nat -> bool) : bool := existsb p (seq 0 (List.length (f_nodes f))).
Definition rust_check (s : string) (p : file -> bool) : bool := match parse_file rust_lang 5000 (FallLang.text_of s) with Ok (f, _) => p f | _ => false end.
Example C60_case : speaks_rust rust_lang /\
  rust_check "struct S<'a, T: > fn ( impl enum X<," (fun f => negb (no_error_nodes_b f) && some_node f (has_kid f 216 191) && some_node f (has_kid f 218 186)
    && some_node f (has_kid f 197 107) && some_node f (has_kid f 208 116)) = true.
Proof. split; [exact C60_rust_lang|]. vm_compute. reflexivity. Qed.

(** "Each function has a name" is false: the name is after the commit point. *)
Theorem C60_after_commit_refuted : exists f inc n, parse_file rust_lang 5000 (FallLang.text_of "fn") = Ok (f, inc) /\ is_a f RS_FN_DEF n /\
  forall x, In x (kids f n) -> ty f x <> RS_IDENT.
Proof.
  assert (C : match parse_file rust_lang 5000 (FallLang.text_of "fn") with Ok (f, _) => lacks_kid f RS_FN_DEF RS_IDENT 1 && (1 <? List.length (f_nodes f)) | _ => false end = true) by (vm_compute; reflexivity).
  destruct (parse_file rust_lang 5000 (FallLang.text_of "fn")) as [(f & inc)| |]; try discriminate C. exists f, inc, 1. split; [reflexivity|].
  apply andb_true_iff in C. destruct C as (C & V). apply Nat.ltb_lt in V. apply andb_true_iff in C. destruct C as (C1 & C2). apply Nat.eqb_eq in C1. split; [split; assumption|].
  intros x J E. apply negb_true_iff in C2. assert (X : existsb (fun c => ty f c =? RS_IDENT) (kids f 1) = true) by (apply existsb_exists; exists x; split; [exact J|apply Nat.eqb_eq; exact E]). congruence.
Qed.
Print Assumptions C60_after_commit_refuted.

(** ** Grammar files *)
Definition fall_guarantees : list (nat * nat) :=
  [(133, 125) (* PARAMETERS: an opening parenthesis *); (133, 126) (* a closing one *); (134, 130) (* PARAMETER: an identifier *);
   (140, 123) (* CALL_EXPR: an opening angle bracket *); (140, 124) (* a closing one *); (140, 130) (* an identifier *);
   (141, 105) (* TOKENIZER_DEF: tokenizer *); (142, 130) (* LEX_RULE: an identifier *); (143, 110) (* TEST_DEF: test *);
   (144, 118) (* ATTRIBUTES: a hash sign *); (144, 121) (* an opening bracket *); (144, 122) (* a closing one *); (145, 130) (* ATTRIBUTE: an identifier *);
   (148, 107) (* VERBATIM_DEF: verbatim *); (149, 108) (* AST_DEF: ast *); (150, 102) (* AST_NODE_DEF: node *); (151, 103) (* AST_CLASS_DEF: class *);
   (152, 104) (* AST_TRAIT_DEF: trait *); (153, 130) (* METHOD_DEF: an identifier *); (154, 130) (* AST_SELECTOR: an identifier *)].

Theorem C60_fall : forall L fuel txt f inc t k n, speaks_fall L -> yields_tokens L -> parse_file L fuel txt = Ok (f, inc) ->
  In (t, k) fall_guarantees -> is_a f t n -> exists x, In x (kids f n) /\ ty f x = k.
Proof.
  intros L fuel txt f inc t k n [G W P BL QU LB] YT H J A. destruct (C28_shipped fall_grammar sh_fall) as ((c & WFG) & PL).
  assert (C : forallb (fun x => guaranteed_b fall_grammar (fst x) (snd x) && (IDENT <? fst x)) fall_guarantees = true) by (vm_compute; reflexivity).
  rewrite forallb_forall in C. specialize (C _ J). cbn [fst snd] in C. apply andb_true_iff in C. destruct C as (C1 & C2). apply Nat.ltb_lt in C2.
  apply (C60_before_commit L c fuel txt f inc t k); auto; try (rewrite G); auto.
  - intros e ty text R. assert (C : forallb (fun x => match x with EContextual ty text => negb (List.length text =? 0) && match nth_error (g_types fall_grammar) ty with Some t => negb (fall_ws t) | None => true end | _ => true end) (g_rules fall_grammar) = true) by (vm_compute; reflexivity).
    rewrite forallb_forall in C. apply nth_error_In in R. apply C in R. apply andb_true_iff in R. destruct R as (X & Y). split; [intros ->; discriminate X|].
    intros u N. unfold gtype in N. rewrite N in Y. rewrite W. apply negb_true_iff. exact Y.
  - exact (guaranteed_check _ _ _ C1).
  - intros s NE E. pose proof (YT s NE) as T. unfold token_type, IDENT, ERROR in *. lia.
  - intros e u text R T.
    assert (C : forallb (fun x => match x with EContextual ty _ => match nth_error (g_types fall_grammar) ty with Some t => t <=? IDENT | None => true end | _ => true end) (g_rules fall_grammar) = true) by (vm_compute; reflexivity).
    rewrite forallb_forall in C. apply nth_error_In in R. apply C in R. unfold gtype in T. rewrite T in R. apply Nat.leb_le in R. lia.
Qed.
Print Assumptions C60_fall.

Example C60_fall_case : speaks_fall fall_lang /\ yields_tokens fall_lang /\
  match parse_file fall_lang 5000 (FallLang.text_of "tokenizer rule (x) # test r") with
  | Ok (f, _) => negb (no_error_nodes_b f) && some_node f (has_kid f 141 105) | _ => false end = true.
Proof. split; [exact C52_fall_lang|]. split; [exact fall_yields|]. vm_compute. reflexivity. Qed.
