(** C54 to C59: what the editor does with grammar files: swapping alternatives, extracting a rule, the list of actions, the
    outline, the test under the cursor and highlighting. *)
From Coq Require Import List Arith Bool Lia String.
From Verif Require Import Base BaseFacts TextModel TextSpec EditModel TreeModel TreeSpec TreeProofs SearchModel FileEditSpec EditorModel EditorSpec EditorProofs
  LexModel ConvertModel FallLang TraversalProofs
  DbModel AnalysisModel AnalysisSpec RefModel RefSpec RefProofs ViewProofs AnalysisProofs PropsEditor NestCheck NestProofs PropsComplete PropsNest
  FallEditModel FallEditSpec FallHlSpec FallEditProofs ExtractProofs FallHlProofs GrammarData.
Import ListNotations.
Open Scope list_scope.

(** [f] is the file of the grammar text [txt], with errors in it or not. *)
Definition grammar_file (L : language) (txt : bytes) (f : file) : Prop :=
  speaks_fall L /\ yields_tokens L /\ whole_characters L txt /\ exists fuel inc, parse_file L fuel txt = Ok (f, inc).

Lemma grammar_facts : forall L txt f, grammar_file L txt f -> exists T, wf_file f T /\ f_text f = txt /\ char_tree (f_text f) T /\ nested_file f.
Proof. intros L txt f (SF & YT & WC & fuel & inc & P). exact (C53_parsed L fuel txt f inc SF YT WC P). Qed.

(** * C54: swapping alternatives *)

(** At every offset: the action is offered exactly when a bar at the offset stands between two alternatives of a block, it is
    applied exactly when it is offered, and then the text is the old one with the two alternatives exchanged. *)
Theorem C54_swap : forall L txt f o, grammar_file L txt f -> o <= List.length txt ->
  (swap_alternatives f o false = Ok (Some Available) <-> exists l r, swappable f o l r)
  /\ (forall l r, swappable f o l r -> exists ops, swap_alternatives f o true = Ok (Some (Applied ops)) /\ apply ops (as_text txt) = Ok (exchanged f l r))
  /\ ((forall l r, ~ swappable f o l r) -> swap_alternatives f o false = Ok None /\ swap_alternatives f o true = Ok None).
Proof.
  intros L txt f o G LE. destruct (grammar_facts L txt f G) as (T & WF & <- & CT & NF).
  destruct (swap_alternatives_ok f T WF CT o LE) as [(l & r & ops & S & E1 & E2 & A)|(N & E1 & E2)]; rewrite E1, E2.
  - split; [split; [intros _; exists l, r; exact S|reflexivity]|]. split.
    + intros l' r' S'. destruct (swappable_fun f T WF o l r l' r' S S') as (<- & <-). exists ops. auto.
    + intros N. destruct (N l r S).
  - split; [split; [discriminate|intros (l & r & S); destruct (N l r S)]|]. split; [intros l r S; destruct (N l r S)|auto].
Qed.
Print Assumptions C54_swap.

(** The two texts have the same length, and nothing outside of the two alternatives changes. *)
Theorem C54_same_length : forall L txt f o l r, grammar_file L txt f -> swappable f o l r ->
  List.length (exchanged f l r) = List.length txt /\
  rend (rng f l) <= rstart (rng f r) /\ rend (rng f r) <= List.length txt.
Proof.
  intros L txt f o l r G S. destruct (grammar_facts L txt f G) as (T & WF & <- & CT & NF). destruct S as (p & _ & b & pre & m1 & m2 & post & _ & _ & K & _).
  assert (K' : kids f b = pre ++ l :: (m1 ++ p :: m2) ++ r :: post) by (rewrite K, <- app_assoc; reflexivity).
  destruct (kids_before f T WF b pre l (m1 ++ p :: m2) r post K') as (LR & _).
  assert (VL : valid f l) by (apply (kids_valid f T WF b); rewrite K'; apply in_or_app; right; left; reflexivity).
  assert (VR : valid f r) by (apply (kids_valid f T WF b); rewrite K'; apply in_or_app; right; right; apply in_or_app; right; left; reflexivity).
  pose proof (rng_in f T WF l VL). pose proof (rng_in f T WF r VR). split; [|lia]. unfold exchanged. rewrite !app_length. unfold str.
  rewrite !sub_length by lia. lia.
Qed.
Print Assumptions C54_same_length.

(** ** The concrete cases *)
Definition after (s : bytes) (act : file -> res (option action_result)) : option bytes :=
  match parse_file fall_lang 5000 s with
  | Ok (f, _) => match act f with
      | Ok (Some (Applied ops)) => match apply ops (as_text s) with Ok b => Some b | _ => None end
      | _ => None
      end
  | _ => None
  end.
Definition same_bytes (o : option bytes) (s : string) : bool :=
  match o with Some b => list_eqb Nat.eqb b (FallLang.text_of s) | None => false end.

Lemma grammar_case : forall s, forallb (fun b => b <? 128) s = true -> (match parse_file fall_lang 5000 s with Ok _ => true | _ => false end) = true ->
  exists f inc, parse_file fall_lang 5000 s = Ok (f, inc) /\ grammar_file fall_lang s f.
Proof.
  intros s A P. destruct (parse_file fall_lang 5000 s) as [(f & inc)| |] eqn:E; try discriminate P. exists f, inc. split; [reflexivity|].
  split; [exact C52_fall_lang|]. split; [exact fall_yields|]. split; [|exists 5000, inc; exact E].
  apply ascii_whole. apply Forall_forall. intros x J. rewrite forallb_forall in A. apply Nat.ltb_lt. exact (A x J).
Qed.

Definition alt_text := FallLang.text_of "rule a { b | c d | }".
Example C54_case : (exists f inc, parse_file fall_lang 5000 alt_text = Ok (f, inc) /\ grammar_file fall_lang alt_text f) /\
  same_bytes (after alt_text (fun f => swap_alternatives f 11 true)) "rule a { c d | b | }" = true /\
  same_bytes (after alt_text (fun f => swap_alternatives f 12 true)) "rule a { c d | b | }" = true /\
  same_bytes (after alt_text (fun f => swap_alternatives f 17 true)) "rule a { b |  | c d}" = true /\ after alt_text (fun f => swap_alternatives f 9 true) = None.
Proof. split; [apply grammar_case; vm_compute; reflexivity|]. vm_compute. auto. Qed.

(** * C55: extracting a rule *)

(** For every selection inside the text: the action is offered exactly when the selection is not empty and lies in an
    expression whose innermost one is not a reference, it is applied exactly when it is offered, and it never panics.  The
    moved text holds the selection, it is replaced by [new_rule], and a rule of this name with the moved text as its body
    follows after the rule around the selection. *)
Theorem C55_extract : forall L txt f r, grammar_file L txt f -> rstart r <= rend r -> rend r <= List.length txt ->
  (extract_rule f r false = Ok (Some Available) <-> exists e, extractable f r e)
  /\ (forall e, extractable f r e -> exists m rule ops, moved f r e m /\ enclosing_rule f e rule /\ In rule (rules f)
        /\ rstart m <= rstart r /\ rend r <= rend m /\ rend m <= rend (rng f rule)
        /\ extract_rule f r true = Ok (Some (Applied ops)) /\ apply ops (as_text txt) = Ok (extracted f m rule))
  /\ ((forall e, ~ extractable f r e) -> extract_rule f r false = Ok None /\ extract_rule f r true = Ok None).
Proof.
  intros L txt f r G P LE. destruct (grammar_facts L txt f G) as (T & WF & <- & CT & NF).
  destruct (extract_rule_ok f T WF CT NF r P LE) as [(e & m & rule & ops & X & MV & ER & IR & M1 & M2 & M3 & E1 & E2 & A)|(N & E1 & E2)]; rewrite E1.
  - split; [split; [intros _; exists e; exact X|reflexivity]|]. split.
    + intros e' X'. pose proof (selected_fun f T WF r e e' (proj1 (proj2 X)) (proj1 (proj2 X'))) as <-. exists m, rule, ops. auto 10.
    + intros N. destruct (N e X).
  - split; [split; [discriminate|intros (e & X); destruct (N e X)]|]. split; [intros e X; destruct (N e X)|rewrite E2; auto].
Qed.
Print Assumptions C55_extract.

(** There is at most one way to read the theorem: the moved range, the rule and the expression are unique. *)
Theorem C55_unique : forall L txt f r e e' m m' rule rule', grammar_file L txt f ->
  extractable f r e -> extractable f r e' -> moved f r e m -> moved f r e' m' -> enclosing_rule f e rule -> enclosing_rule f e' rule' ->
  e = e' /\ m = m' /\ rule = rule'.
Proof.
  intros L txt f r e e' m m' rule rule' G X X' M M' R R'. destruct (grammar_facts L txt f G) as (T & WF & <- & CT & NF).
  pose proof (selected_fun f T WF r e e' (proj1 (proj2 X)) (proj1 (proj2 X'))) as <-. split; [reflexivity|]. split; [exact (moved_fun f r e m m' M M')|exact (enclosing_fun f e rule rule' R R')].
Qed.
Print Assumptions C55_unique.

Definition extract_text := FallLang.text_of "rule a { b c d } rule e { }".
Example C55_case : (exists f inc, parse_file fall_lang 5000 extract_text = Ok (f, inc) /\ grammar_file fall_lang extract_text f) /\
  same_bytes (after extract_text (fun f => extract_rule f (mkRange 11 14) true)) "rule a { b new_rule }

rule new_rule {
  c d
} rule e { }" = true /\
  after extract_text (fun f => extract_rule f (mkRange 9 10) true) = None /\ after extract_text (fun f => extract_rule f (mkRange 9 9) true) = None /\
  after extract_text (fun f => extract_rule f (mkRange 3 12) true) = None.
Proof. split; [apply grammar_case; vm_compute; reflexivity|]. vm_compute. auto. Qed.

(** "The new text has no errors if the old one has none" is false: the body of a rule can be extracted, and the rule is left
    without one. *)
Definition error_free_text (s : bytes) : bool := match parse_file fall_lang 5000 s with Ok (f, _) => no_error_nodes_b f | _ => false end.
Theorem C55_whole_body_refuted : exists s r, error_free_text s = true /\
  match after s (fun f => extract_rule f r true) with Some s' => error_free_text s' | None => true end = false.
Proof. exists (FallLang.text_of "rule a { b }"), (mkRange 7 12). split; vm_compute; reflexivity. Qed.
Print Assumptions C55_whole_body_refuted.

(** "The extracted expression means the same as before" is false: if there is already a rule [new_rule], the reference to the
    new rule means that one. *)
Definition rule_names (s : bytes) : list (option bytes) := match parse_file fall_lang 5000 s with Ok (f, _) => map (name_of f) (rules f) | _ => [] end.
Theorem C55_name_taken_refuted : exists s r, error_free_text s = true /\
  match after s (fun f => extract_rule f r true) with
  | Some s' => error_free_text s' = true /\ rule_names s' = [Some s_new_rule; Some (FallLang.text_of "a"); Some s_new_rule]
  | None => False
  end.
Proof. exists (FallLang.text_of "rule new_rule { b } rule a { b c d }"), (mkRange 31 34). split; vm_compute; auto. Qed.
Print Assumptions C55_name_taken_refuted.

(** * C56: the list of actions *)

(** The list of the actions for a selection and the application of an action by its name agree: an action is listed exactly
    when applying it gives an edit, every edit can be applied to the text, and nothing panics. *)
Theorem C56_actions : forall L txt f ws r, grammar_file L txt f -> rstart r <= rend r -> rend r <= List.length txt ->
  exists ids, context_actions f ws r = Ok ids /\ NoDup ids
    /\ (forall id, In id ids -> In id [swap_id; swap_alternatives_id; extract_rule_id])
    /\ (In swap_alternatives_id ids <-> exists a b, swappable f (rstart r) a b)
    /\ (In extract_rule_id ids <-> exists e, extractable f r e)
    /\ (forall id, (In id ids /\ exists ops out, apply_context_action f ws r id = Ok (Some ops) /\ apply ops (as_text txt) = Ok out)
                   \/ (~ In id ids /\ apply_context_action f ws r id = Ok None)).
Proof.
  intros L txt f ws r G P LE. destruct (grammar_facts L txt f G) as (T & WF & <- & CT & NF).
  unfold context_actions, apply_context_action, fall_actions, default_context_actions, apply_default_context_action, apply_action, default_actions.
  cbn [offered_actions find_first fst snd filter_res].
  assert (D1 : bytes_eqb swap_id swap_id = true) by (vm_compute; reflexivity). assert (D2 : bytes_eqb swap_alternatives_id swap_alternatives_id = true) by (vm_compute; reflexivity).
  assert (D3 : bytes_eqb extract_rule_id extract_rule_id = true) by (vm_compute; reflexivity).
  assert (N12 : swap_id <> swap_alternatives_id) by discriminate. assert (N13 : swap_id <> extract_rule_id) by discriminate. assert (N23 : swap_alternatives_id <> extract_rule_id) by discriminate.
  assert (EQ : forall x y, bytes_eqb x y = true \/ bytes_eqb x y = false) by (intros x y; destruct (bytes_eqb x y); auto).
  assert (A : exists a, ((a = true /\ exists ops out, swap f ws (rstart r) false = Ok (Some Available) /\ swap f ws (rstart r) true = Ok (Some (Applied ops)) /\ apply ops (as_text (f_text f)) = Ok out)
     \/ (a = false /\ swap f ws (rstart r) false = Ok None /\ swap f ws (rstart r) true = Ok None))).
  { destruct (swap_ok f T ws WF CT (rstart r) ltac:(lia)) as [(c & l & x & l1 & l2 & r1 & r2 & ops & S & E1 & E2 & _ & _ & _ & _ & _ & _ & A)|(N & E1 & E2)].
    - exists true. left. split; [reflexivity|]. exists ops. eexists. split; [exact E1|]. split; [exact E2|exact A].
    - exists false. right. auto. }
  assert (B : exists b, ((b = true /\ exists ops out, swap_alternatives f (rstart r) false = Ok (Some Available) /\ swap_alternatives f (rstart r) true = Ok (Some (Applied ops)) /\ apply ops (as_text (f_text f)) = Ok out)
     \/ (b = false /\ swap_alternatives f (rstart r) false = Ok None /\ swap_alternatives f (rstart r) true = Ok None)) /\ (b = true <-> exists x y, swappable f (rstart r) x y)).
  { destruct (swap_alternatives_ok f T WF CT (rstart r) ltac:(lia)) as [(x & y & ops & S & E1 & E2 & A')|(N & E1 & E2)].
    - exists true. split; [left; split; [reflexivity|]; exists ops; eexists; split; [exact E1|]; split; [exact E2|exact A']|]. split; [intros _; exists x, y; exact S|reflexivity].
    - exists false. split; [right; auto|]. split; [discriminate|]. intros (x & y & S). destruct (N x y S). }
  assert (C : exists c, ((c = true /\ exists ops out, extract_rule f r false = Ok (Some Available) /\ extract_rule f r true = Ok (Some (Applied ops)) /\ apply ops (as_text (f_text f)) = Ok out)
     \/ (c = false /\ extract_rule f r false = Ok None /\ extract_rule f r true = Ok None)) /\ (c = true <-> exists e, extractable f r e)).
  { destruct (extract_rule_ok f T WF CT NF r P LE) as [(e & m & rule & ops & X & _ & _ & _ & _ & _ & _ & E1 & E2 & A')|(N & E1 & E2)].
    - exists true. split; [left; split; [reflexivity|]; exists ops; eexists; split; [exact E1|]; split; [exact E2|exact A']|]. split; [intros _; exists e; exact X|reflexivity].
    - exists false. split; [right; auto|]. split; [discriminate|]. intros (e & S). destruct (N e S). }
  destruct A as (a & A). destruct B as (b & B & BS). destruct C as (c & C & CS).
  exists ((if a then [swap_id] else []) ++ (if b then [swap_alternatives_id] else []) ++ (if c then [extract_rule_id] else [])). split.
  { destruct A as [(-> & ? & ? & -> & _)|(-> & -> & _)]; destruct B as [(-> & ? & ? & -> & _)|(-> & -> & _)]; destruct C as [(-> & ? & ? & -> & _)|(-> & -> & _)]; reflexivity. }
  split; [destruct a, b, c; cbn [app]; repeat constructor; cbn [In]; intuition congruence|].
  split; [intros id; rewrite !in_app_iff; destruct a, b, c; cbn [In]; tauto|].
  split; [rewrite <- BS, !in_app_iff; destruct a, b, c; cbn [In]; intuition congruence|].
  split; [rewrite <- CS, !in_app_iff; destruct a, b, c; cbn [In]; intuition congruence|].
  intros id. rewrite !in_app_iff. destruct (EQ swap_id id) as [E|E]; rewrite E.
  { apply bytes_eqb_spec in E. subst id. destruct A as [(-> & ops & out & _ & -> & AO)|(-> & _ & ->)]; cbn [bind into_edit].
    - left. split; [left; left; reflexivity|]. exists ops, out. auto.
    - right. split; [|reflexivity]. destruct b, c; cbn [In]; intuition congruence. }
  assert (NE : swap_id <> id) by (intros <-; congruence). cbn [bind]. destruct (EQ swap_alternatives_id id) as [E'|E']; rewrite E'.
  { apply bytes_eqb_spec in E'. subst id. destruct B as [(-> & ops & out & _ & -> & AO)|(-> & _ & ->)]; cbn [bind into_edit].
    - left. split; [right; left; left; reflexivity|]. exists ops, out. auto.
    - right. split; [|reflexivity]. destruct a, c; cbn [In]; intuition congruence. }
  assert (NE' : swap_alternatives_id <> id) by (intros <-; congruence). destruct (EQ extract_rule_id id) as [E''|E'']; rewrite E''.
  { apply bytes_eqb_spec in E''. subst id. destruct C as [(-> & ops & out & _ & -> & AO)|(-> & _ & ->)]; cbn [bind into_edit].
    - left. split; [right; right; left; reflexivity|]. exists ops, out. auto.
    - right. split; [|reflexivity]. destruct a, b; cbn [In]; intuition congruence. }
  assert (NE'' : extract_rule_id <> id) by (intros <-; congruence). right. split; [|reflexivity]. destruct a, b, c; cbn [In]; intuition congruence.
Qed.
Print Assumptions C56_actions.

Definition names_listed (s : bytes) (r : range) : list bytes :=
  match parse_file fall_lang 5000 s with Ok (f, _) => match context_actions f fall_ws r with Ok l => l | _ => [] end | _ => [] end.
Example C56_case : names_listed alt_text (mkRange 11 14) = [swap_alternatives_id; extract_rule_id] /\ names_listed alt_text (mkRange 9 9) = [] /\
  names_listed (FallLang.text_of "rule a(p, q) { }") (mkRange 8 8) = [swap_id].
Proof. vm_compute. auto. Qed.

(** * C57: the outline *)

(** The outline lists the rules that have a name, the tokenizer and the AST definition, in the order of the file, with their
    ranges.  This holds for texts with errors, too. *)
Theorem C57_outline : forall L txt f, grammar_file L txt f -> structure f = Ok (outline f).
Proof. intros L txt f G. destruct (grammar_facts L txt f G) as (T & WF & <- & CT & NF). exact (structure_ok f T WF CT NF). Qed.
Print Assumptions C57_outline.

(** Every named rule of the file, wherever its node is, is in the outline. *)
Theorem C57_all_rules : forall L txt f n s, grammar_file L txt f -> is_a f SYN_RULE n -> named f s n ->
  exists l, structure f = Ok l /\ In (s, rng f n) l.
Proof.
  intros L txt f n s G A N. exists (outline f). split; [exact (C57_outline L txt f G)|]. destruct (grammar_facts L txt f G) as (T & WF & <- & CT & NF).
  pose proof (C53_top_level f T n SYN_RULE WF NF ltac:(cbn; auto) A) as I. apply filter_In in I. destruct I as (I & E). apply in_flat_map. exists n. split; [exact I|].
  unfold outline_entry. rewrite E. unfold named in N. rewrite N. left. reflexivity.
Qed.
Print Assumptions C57_all_rules.

Definition outlined (s : bytes) : list (bytes * (nat * nat)) :=
  match parse_file fall_lang 5000 s with
  | Ok (f, _) => match structure f with Ok l => map (fun x => (fst x, (rstart (snd x), rend (snd x)))) l | _ => [] end
  | _ => []
  end.
Example C57_case : outlined (FallLang.text_of "tokenizer { } rule a { } } rule { } rule b { c } ast { }")
  = [(s_tokenizer, (0, 13)); ([97], (14, 24)); ([98], (36, 48)); (s_ast, (49, 56))].
Proof. vm_compute. reflexivity. Qed.

(** * C58: the test under the cursor *)

(** At every offset the number of the test around the token right of the cursor, if there is one.  It never panics. *)
Theorem C58_test : forall L txt f o, grammar_file L txt f -> o <= List.length txt ->
  exists a, test_at_offset f o = Ok a /\ forall i, a = Some i <-> in_test f o i.
Proof. intros L txt f o G LE. destruct (grammar_facts L txt f G) as (T & WF & <- & CT & NF). exact (test_at_offset_ok f T WF NF o LE). Qed.
Print Assumptions C58_test.

Definition test_found (s : bytes) (o : nat) : option nat :=
  match parse_file fall_lang 5000 s with Ok (f, _) => match test_at_offset f o with Ok a => a | _ => None end | _ => None end.
Definition two_tests := FallLang.text_of "rule a { } test r""x"" rule b { } } test r""y""".
Example C58_case : map (test_found two_tests) [0; 10; 11; 15; 19; 20; 34; 40; 42] = [None; None; Some 0; Some 0; Some 0; None; Some 1; Some 1; Some 1].
Proof. vm_compute. reflexivity. Qed.

(** * C59: highlighting *)

(** On a text without errors highlighting does not panic; each node is marked as its type and the meaning of the names say,
    and the nodes come bottom up (the order of [subtree], C11). *)
Theorem C59_highlight : forall L txt f ask, grammar_file L txt f -> no_error_nodes f -> honest f ask ->
  exists l mss, subtree (f_nodes f) root = Ok l /\ Forall2 (colors f) l mss /\ fall_highlight f ask = Ok (List.concat mss).
Proof.
  intros L txt f ask (SF & YT & WC & fuel & inc & P) NE HON. destruct (C52_complete L fuel txt f inc SF WC P NE) as (T & WF & _ & CT & CO & _).
  destruct (highlight_colors f T WF CT CO ask HON) as (mss & F & E). exists (post T 0), mss. split; [exact (subtree_ok _ T (proj1 WF) T 0 0 None (At_root T))|]. auto.
Qed.
Print Assumptions C59_highlight.

(** A reference has the colour of what it means, in the whole list. *)
Theorem C59_reference : forall L txt f ask n k, grammar_file L txt f -> no_error_nodes f -> honest f ask ->
  is_a f REF_EXPR n -> resolves f n (Some k) ->
  exists hs, fall_highlight f ask = Ok hs /\ In (rng f n, reference_color k) hs.
Proof.
  intros L txt f ask n k (SF & YT & WC & fuel & inc & P) NE HON (V & E) R. destruct (C52_complete L fuel txt f inc SF WC P NE) as (T & WF & _ & CT & CO & _).
  destruct (ask_ref f T WF CT CO ask HON n (conj V E)) as (o & EA & RO).
  unfold fall_highlight, root. rewrite (bottom_up_ok _ T (proj1 WF) _ _ _ _ _ _ _ (At_root T)).
  destruct (highlight_colors f T WF CT CO ask HON) as (mss & F & EH). unfold fall_highlight, root in EH. rewrite (bottom_up_ok _ T (proj1 WF) _ _ _ _ _ _ _ (At_root T)) in EH.
  exists (List.concat mss). split; [exact EH|].
  assert (I : In n (post T 0)). { apply post_in. destruct (valid_at f T WF n V) as (p & q & t & A & _). apply At_bound in A. pose proof (tsize_pos t). lia. }
  clear - F I R E WF CT CO. induction F as [|x ms l mss C F IH]; [destruct I|]. cbn [List.concat]. apply in_or_app. destruct I as [->|I]; [left|right; exact (IH I)].
  destruct C as (names & NM & ->). apply in_or_app. right.
  inversion NM as [H|H|k' H R'|H R'|k' a sel H|o H|k' ds H|o ds H|H]; subst; try (rewrite E in H; discriminate H).
  - rewrite E in H. cbn in H. repeat (destruct H as [H|H]; [discriminate H|]). destruct H.
  - pose proof (resolves_fun f n _ _ R R') as X. injection X as <-. left. reflexivity.
  - pose proof (resolves_fun f n _ _ R R') as X. discriminate X.
  - exfalso. apply H. rewrite E. cbn. auto 10.
Qed.
Print Assumptions C59_reference.

(** The answers of the analysis computed directly are honest, so the hypotheses can be met. *)
Definition marked (s : bytes) : list (nat * nat * hl_tag) :=
  match parse_file fall_lang 5000 s with
  | Ok (f, _) => if no_error_nodes_b f then match fall_highlight f (direct 4 f) with Ok l => map (fun x => (rstart (fst x), rend (fst x), snd x)) l | _ => [] end else []
  | _ => []
  end.
Definition hl_text := FallLang.text_of "tokenizer { n r""d"" } rule a(p) { <not p> <a q> n } // c
rule q { <x> } ast { node q { m n } }".
Example C59_case : (exists f inc, parse_file fall_lang 5000 hl_text = Ok (f, inc) /\ grammar_file fall_lang hl_text f /\ no_error_nodes f /\ honest f (direct 4 f)) /\
  marked hl_text =
  [(0, 9, HKeyword); (14, 18, HString); (12, 13, HLiteral); (21, 25, HKeyword); (28, 29, HParameter); (38, 39, HParameter); (34, 37, HBuiltin); (33, 34, HBuiltin); (39, 40, HBuiltin);
   (44, 45, HFunction); (42, 43, HFunction); (41, 42, HFunction); (45, 46, HFunction); (47, 48, HLiteral); (26, 27, HFunction); (51, 55, HComment); (56, 60, HKeyword);
   (66, 67, HFunction); (65, 66, HFunction); (67, 68, HFunction); (61, 62, HFunction); (71, 74, HKeyword); (77, 81, HKeyword); (88, 89, HLiteral); (82, 83, HFunction)].
Proof.
  split; [|vm_compute; reflexivity].
  destruct (grammar_case hl_text) as (f & inc & P & G); [vm_compute; reflexivity..|]. exists f, inc. split; [exact P|]. split; [exact G|].
  assert (NE : no_error_nodes f).
  { apply no_error_nodes_check. assert (C : (match parse_file fall_lang 5000 hl_text with Ok (f, _) => no_error_nodes_b f | _ => false end) = true) by (vm_compute; reflexivity). rewrite P in C. exact C. }
  split; [exact NE|]. destruct G as (SF & YT & WC & _). destruct (C52_complete fall_lang 5000 hl_text f inc SF WC P NE) as (T & WF & _ & CT & CO & _).
  exact (direct_honest f T WF CT CO).
Qed.

(** "Highlighting never panics" is false: without a name after [class], looking for the meaning of a method panics. *)
Theorem C59_with_errors_refuted : exists s f, grammar_file fall_lang s f /\ fall_highlight f (direct 4 f) = Panic.
Proof.
  exists (FallLang.text_of "ast { node a { x y } class").
  destruct (grammar_case (FallLang.text_of "ast { node a { x y } class")) as (f & inc & P & G); [vm_compute; reflexivity..|]. exists f. split; [exact G|].
  assert (C : (match parse_file fall_lang 5000 (FallLang.text_of "ast { node a { x y } class") with Ok (f, _) => match fall_highlight f (direct 4 f) with Panic => true | _ => false end | _ => false end) = true) by (vm_compute; reflexivity).
  rewrite P in C. destruct (fall_highlight f (direct 4 f)); [discriminate C|reflexivity|discriminate C].
Qed.
Print Assumptions C59_with_errors_refuted.
