(** C53: where the nodes of a grammar file are, for every text, with errors or not. *)
From Coq Require Import List Arith Bool Lia String.
From Verif Require Import Base BaseFacts TextModel TextSpec TreeModel TreeSpec TreeProofs LexModel LexSpec LexProofs ConvertModel GrammarData ScanModel FallLang
  FileEditSpec AnalysisModel AnalysisSpec ViewProofs NestCheck FallNest NestProofs PropsCheck PropsComplete.
Import ListNotations.
Open Scope list_scope.

(** The lexer yields tokens: the types 100 (whitespace) to 130 (ident) of lang/fall/syntax/src/fall.rs:5-35, or errors. *)
Definition yields_tokens (L : language) : Prop := forall s, s <> [] -> token_type (tk_ty (l_lexer L s)).

(** * C53 *)

(** Every text has a tree, and in the tree the nodes are inside each other as [fall_nesting] lists them. *)
Theorem C53_nesting : forall L txt, speaks_fall L -> yields_tokens L -> whole_characters L txt ->
  exists f inc fuel, (forall more, parse_file L (fuel + more) txt = Ok (f, inc)) /\ f_text f = txt /\ nested_file f.
Proof.
  intros L txt SF YT AL. pose proof SF as [G W P B Q I].
  destruct (C28_shipped_parse L txt ltac:(rewrite G; exact sh_fall) P (fun b r E => blank_is b (B b r E)) I AL) as (f & inc & fuel & H).
  exists f, inc, fuel. split; [exact H|].
  destruct (nest_file L _ txt f inc G W P (fun b r E => blank_is b (B b r E)) YT I (H 0)) as (T & _ & TX & N & _). auto.
Qed.
Print Assumptions C53_nesting.

(** The same for whatever the parser returns, with the facts about its file the other theorems ask for. *)
Theorem C53_parsed : forall L fuel txt f inc, speaks_fall L -> yields_tokens L -> whole_characters L txt ->
  parse_file L fuel txt = Ok (f, inc) ->
  exists T, wf_file f T /\ f_text f = txt /\ char_tree (f_text f) T /\ nested_file f.
Proof.
  intros L fuel txt f inc [G W P B Q I] YT AL H.
  destruct (nest_file L fuel txt f inc G W P (fun b r E => blank_is b (B b r E)) YT I H) as (T & WF & TX & N & C).
  exists T. split; [exact WF|]. split; [exact TX|]. split; [exact (C AL)|exact N].
Qed.
Print Assumptions C53_parsed.

(** ** Consequences *)
Lemma nested_parent : forall f T n, wf_file f T -> nested_file f -> valid f n -> 130 < ty f n ->
  n = 0 \/ exists p, par f n = Some p /\ p < n /\ valid f p /\ may_hold fall_nesting (ty f p) (ty f n).
Proof.
  intros f T n WF (_ & N) V BIG. destruct (par f n) as [p|] eqn:E.
  - right. exists p. destruct (par_in f T WF n p V E) as (VP & LT & _). split; [reflexivity|]. split; [exact LT|]. split; [exact VP|].
    destruct (N n p V E) as [(_ & [X|X])|(_ & [X|X])]; [| |exfalso|exact X]; try lia; rewrite X in BIG; unfold ERROR in BIG; lia.
  - left. destruct (valid_at f T WF n V) as (a & b & c & AT & ND). unfold par, at_node in E. rewrite ND in E. cbn in E. subst b.
    apply SearchProofs.At_no_parent in AT. tauto.
Qed.

Definition top_level : list nat := [TOKENIZER_DEF; SYN_RULE; VERBATIM_DEF; AST_DEF; TEST_DEF].
Definition expressions : list nat := [BLOCK_EXPR; SEQ_EXPR; REF_EXPR; CALL_EXPR; OPT_EXPR; REP_EXPR].

Lemma parents_of : forall p c, may_hold fall_nesting p c ->
  c <> FALL_FILE /\ (In c top_level -> p = FALL_FILE) /\ (In c expressions -> p = SYN_RULE \/ In p expressions).
Proof.
  intros p c (l & J & K). assert (C : forallb (fun x => forallb (fun c => negb (c =? FALL_FILE)
     && (negb (existsb (Nat.eqb c) top_level) || (fst x =? FALL_FILE))
     && (negb (existsb (Nat.eqb c) expressions) || (fst x =? SYN_RULE) || existsb (Nat.eqb (fst x)) expressions)) (snd x)) fall_nesting = true) by (vm_compute; reflexivity).
  rewrite forallb_forall in C. specialize (C _ J). cbn [fst snd] in C. rewrite forallb_forall in C. specialize (C _ K).
  apply andb_true_iff in C. destruct C as (C & C3). apply andb_true_iff in C. destruct C as (C1 & C2).
  split; [intros ->; rewrite Nat.eqb_refl in C1; discriminate C1|]. split.
  - intros I. apply orb_true_iff in C2. destruct C2 as [C2|C2]; [|apply Nat.eqb_eq; exact C2]. exfalso. apply negb_true_iff in C2.
    assert (X : existsb (Nat.eqb c) top_level = true) by (apply existsb_exists; exists c; split; [exact I|apply Nat.eqb_refl]). congruence.
  - intros I. apply orb_true_iff in C3. destruct C3 as [C3|C3]; [apply orb_true_iff in C3; destruct C3 as [C3|C3]|].
    + exfalso. apply negb_true_iff in C3. assert (X : existsb (Nat.eqb c) expressions = true) by (apply existsb_exists; exists c; split; [exact I|apply Nat.eqb_refl]). congruence.
    + left. apply Nat.eqb_eq. exact C3.
    + right. apply existsb_exists in C3. destruct C3 as (x & X & E). apply Nat.eqb_eq in E. subst x. exact X.
Qed.

Lemma big : forall t, In t top_level \/ In t expressions -> 130 < t /\ t <> FALL_FILE.
Proof.
  intros t H. assert (C : forallb (fun t => (130 <? t) && negb (t =? FALL_FILE)) (top_level ++ expressions) = true) by (vm_compute; reflexivity).
  rewrite forallb_forall in C. apply in_or_app in H. apply C in H. apply andb_true_iff in H. destruct H as (A & B). apply Nat.ltb_lt in A. split; [exact A|].
  intros ->. rewrite Nat.eqb_refl in B. discriminate B.
Qed.

Lemma file_is_root : forall f T n, wf_file f T -> nested_file f -> valid f n -> ty f n = FALL_FILE -> n = 0.
Proof.
  intros f T n WF N V E. destruct (nested_parent f T n WF N V) as [->|(p & _ & _ & _ & M)]; [rewrite E; vm_compute; lia|reflexivity|].
  exfalso. apply (proj1 (parents_of _ _ M)). exact E.
Qed.

(** The definitions of a grammar file are the children of its root. *)
Theorem C53_top_level : forall f T n t, wf_file f T -> nested_file f -> In t top_level -> is_a f t n -> In n (kids_of f t 0).
Proof.
  intros f T n t WF N J (V & E). destruct (big t (or_introl J)) as (BG & NF). destruct (nested_parent f T n WF N V ltac:(rewrite E; exact BG)) as [->|(p & PA & _ & VP & M)].
  - exfalso. apply NF. rewrite <- E. exact (proj1 N).
  - rewrite E in M. pose proof (file_is_root f T p WF N VP (proj1 (proj2 (parents_of _ _ M)) J)) as ->.
    destruct (par_in f T WF n 0 V PA) as (_ & _ & I). apply filter_In. split; [exact I|]. rewrite E. apply Nat.eqb_refl.
Qed.
Print Assumptions C53_top_level.

(** Every expression is inside a rule of the file. *)
Theorem C53_in_rule : forall f T n t, wf_file f T -> nested_file f -> In t expressions -> is_a f t n ->
  exists r, enclosing_rule f n r /\ In r (rules f).
Proof.
  intros f T n t WF N. revert t. induction n as [n IH] using lt_wf_ind. intros t J (V & E). destruct (big t (or_intror J)) as (BG & NF).
  destruct (nested_parent f T n WF N V ltac:(rewrite E; exact BG)) as [->|(p & PA & LT & VP & M)].
  - exfalso. apply NF. rewrite <- E. exact (proj1 N).
  - rewrite E in M. assert (NS : ty f n <> SYN_RULE).
    { rewrite E. intros ->. cbn in J. repeat (destruct J as [J|J]; [discriminate J|]). destruct J. }
    destruct (proj2 (proj2 (parents_of _ _ M)) J) as [ES|EX].
    + exists p. split; [apply er_up with (p := p); [exact NS|exact PA|apply er_here; exact ES]|].
      apply (C53_top_level f T p SYN_RULE WF N); [right; left; reflexivity|split; assumption].
    + destruct (IH p LT (ty f p) EX (conj VP eq_refl)) as (r & ER & IR). exists r. split; [apply er_up with (p := p); assumption|exact IR].
Qed.
Print Assumptions C53_in_rule.

(** ** A text with errors in it, and the lexer of the concrete cases. *)
Lemma word_token_type : forall s, token_type (tk_ty (word_token s)).
Proof. intros s. unfold word_token, token_type. destruct (_ =? 0); [left; reflexivity|]. right. destruct (_ =? _); cbn; lia. Qed.
Lemma fall_yields : yields_tokens fall_lang.
Proof.
  intros s _. change (l_lexer fall_lang) with fall_lexer. destruct s as [|b r]; [left; reflexivity|]. unfold fall_lexer.
  destruct (is_space b); [right; cbn; lia|]. destruct (is_prefix [47; 47] (b :: r)); [right; cbn; lia|].
  destruct (find_first (fun x => fst x =? b) punctuation) as [(p & ty)|] eqn:F.
  - right. assert (C : forallb (fun x => (100 <=? snd x) && (snd x <=? 130)) punctuation = true) by reflexivity. rewrite forallb_forall in C.
    assert (J : In (p, ty) punctuation).
    { clear - F. induction punctuation as [|x l IH]; [discriminate F|]. cbn [find_first] in F. destruct (fst x =? b); [injection F as ->; left; reflexivity|right; exact (IH F)]. }
    apply C in J. cbn [snd] in J. apply andb_true_iff in J. rewrite !Nat.leb_le in J. exact J.
  - destruct (b =? 39); [destruct (simple_string r); [right; cbn; lia|left; reflexivity]|].
    destruct (_ && _); [|apply word_token_type]. destruct (parse_raw_string (b :: r)) as [[n|]| |]; try apply word_token_type. right. cbn. lia.
Qed.

Definition broken_text := FallLang.text_of "rule a { b } } rule { <x | } tokenizer { c } rule d { {e f} | }".
Definition parses_with_errors (s : bytes) : bool :=
  match parse_file fall_lang 5000 s with
  | Ok (f, _) => negb (no_error_nodes_b f) && (5 <? List.length (filter (fun n => existsb (Nat.eqb (ty f n)) expressions) (seq 0 (List.length (f_nodes f)))))
  | _ => false
  end && forallb (fun b => b <? 128) s.
Example C53_case : speaks_fall fall_lang /\ yields_tokens fall_lang /\ whole_characters fall_lang broken_text /\
  exists f inc, parse_file fall_lang 5000 broken_text = Ok (f, inc) /\ no_error_nodes_b f = false /\
    5 < List.length (filter (fun n => existsb (Nat.eqb (ty f n)) expressions) (seq 0 (List.length (f_nodes f)))).
Proof.
  split; [exact C52_fall_lang|]. split; [exact fall_yields|]. assert (C : parses_with_errors broken_text = true) by (vm_compute; reflexivity).
  unfold parses_with_errors in C. apply andb_true_iff in C. destruct C as (C & A). split.
  - apply ascii_whole. apply Forall_forall. intros x J. rewrite forallb_forall in A. apply Nat.ltb_lt. exact (A x J).
  - destruct (parse_file fall_lang 5000 broken_text) as [(f & inc)| |]; try discriminate C. apply andb_true_iff in C. destruct C as (C & D). exists f, inc.
    split; [reflexivity|]. split; [apply negb_true_iff; exact C|apply Nat.ltb_lt; exact D].
Qed.

(** The table lists nothing that does not occur: one text has all its pairs. *)
Definition all_pairs_text := FallLang.text_of "tokenizer { #[skip] ws r'x' #[f(y)] c 'z' n r""d"" } verbatim r""v"" test r""t"" #[a] pub rule x(p, q) { {a <b> {c} c? c*} | <a b <b> {c} c? c*> | <a b>? {a}? a?? a*? {<a>*}? | {a}* <a>* a?* a** } ast { node a { b c c d } class k { a b } trait t { m a? } }".
Definition pair_occurs (f : file) (p c : nat) : bool :=
  existsb (fun n => (ty f n =? c) && match par f n with Some q => ty f q =? p | None => false end) (seq 0 (List.length (f_nodes f))).
Definition missing_pairs (s : bytes) :=
  match parse_file fall_lang 5000 s with
  | Ok (f, _) => flat_map (fun x => map (fun c => (fst x, c)) (filter (fun c => negb (pair_occurs f (fst x) c)) (snd x))) fall_nesting
  | _ => [(0, 0)]
  end.
Theorem C53_table_is_tight : missing_pairs all_pairs_text = [].
Proof. vm_compute. reflexivity. Qed.
Print Assumptions C53_table_is_tight.
