(** C94: the slots of a generated parser. *)
From Coq Require Import List Arith Bool Lia String.
From Verif Require Import Base BaseFacts TextModel TreeModel SearchModel DbModel LexModel GrammarModel ParserModel AnalysisModel RefModel CodegenModel TextSpec TreeSpec FileEditSpec IndexSpec
  AnalysisSpec RefSpec CodegenSpec AstGenSpec ViewProofs MeansFacts TraversalProofs AnalysisProofs CollectProofs AnalysisFacts RefProofs CodegenProofs AstGenProofs FallLang FallCheck GrammarData PropsAnalysis
  PropsCodegen PropsParser SlotSpec SlotProofs.
Import ListNotations.
Open Scope list_scope.

(** The numbers in a generated table are those of the contexts the grammar names, and those of the parameters of its rules,
    counted through the whole file; two contexts have two numbers. *)
Theorem C94_numbers : forall f T ask escape debug trim c x,
  wf_file f T -> char_tree (f_text f) T -> complete f -> block_bodies f -> honest f ask ->
  generate f ask escape debug trim = Ok (Some c) -> In x (cx_rules c) ->
  (forall i, In i (contexts_in x) -> exists b, context_number f b i /\ forall b', context_number f b' i -> b' = b) /\
  (forall i, In i (CodegenSpec.params_in x) -> exists p, param_number f p i).
Proof.
  intros f T ask escape debug trim c x WF CT CO BB HON E J. split; intros i JI.
  - destruct (context_slots f T ask escape debug trim c x WF CT CO HON E J i JI) as (b & l & CL & N). exists b. split; [exists l; auto|].
    intros b' (l' & CL' & N'). rewrite (context_list_fun f _ _ CL' CL), N in N'. injection N' as <-. reflexivity.
  - apply In_nth_error in J. destruct J as (q & N). destruct (C38_faithful f T ask escape debug trim c WF CT CO BB HON E) as (_ & _ & _ & _ & CLO & _).
    destruct (CLO q x N) as (_ & _ & PB & _). pose proof (PB i JI) as LT. unfold param_number.
    destruct (nth_error (flat_map (params f) (rules f)) i) as [p|] eqn:NP; [exists p; reflexivity|]. apply nth_error_None in NP. lia.
Qed.
Print Assumptions C94_numbers.

(** The parser starts with 16 slots for either and keeps them.  So a grammar that names at most 16 contexts, and whose rules
    have at most 16 parameters in all, makes a parser that never looks for a slot that is not there: whenever an instruction
    panics, there is another reason. *)
Theorem C94_enough : forall f T ask escape debug trim c E fuel e x p s,
  wf_file f T -> char_tree (f_text f) T -> complete f -> block_bodies f -> honest f ask ->
  generate f ask escape debug trim = Ok (Some c) -> few_names 16 f ->
  e_g E = grammar_of c -> nth_error (cx_rules c) e = Some x -> slots 16 s ->
  (parse_expr E (S fuel) e p s = Panic -> other_reason E fuel p s x) /\
  (forall r s', parse_expr E (S fuel) e p s = Ok (r, s') -> slots 16 s').
Proof.
  intros f T ask escape debug trim c E fuel e x p s WF CT CO BB HON G FN EG N SL.
  assert (R : g_rules (e_g E) = cx_rules c) by (rewrite EG; reflexivity).
  assert (FIT := fun y J => few_fit f T ask escape debug trim c y 16 WF CT CO BB HON G FN J). split.
  - apply (reasons E 16).
    + rewrite R. exact N.
    + exact SL.
    + exact (proj1 (FIT x (nth_error_In _ _ N))).
    + exact (proj2 (FIT x (nth_error_In _ _ N))).
    + intros b l v e' -> J. rewrite R. destruct (C38_faithful f T ask escape debug trim c WF CT CO BB HON G) as (_ & _ & _ & _ & CLO & LR).
      destruct (CLO e (ECall b l) N) as (MB & _).
      assert (LE : e' < List.length (cx_rules c)).
      { assert (X : e' < if e <? List.length (rules f) then List.length (cx_rules c) else e) by (apply MB; right; apply in_map_iff; exists (v, e'); auto).
        assert (e < List.length (cx_rules c)) by (apply nth_error_Some; congruence). destruct (e <? List.length (rules f)); lia. }
      destruct (nth_error (cx_rules c) e') as [y|] eqn:NY; [|apply nth_error_None in NY; lia]. exists y. split; [reflexivity|exact (proj2 (FIT y (nth_error_In _ _ NY)))].
  - intros r s' Q. destruct (C22_restores E (S fuel) e p s r s' Q) as (_ & A & B & _). destruct SL as (SC & SA). split; congruence.
Qed.
Print Assumptions C94_enough.

Example C94_start : slots 16 new_st.
Proof. split; reflexivity. Qed.

Definition run (c : context) (text : bytes) (toks : list token) : res (list event) :=
  parse_events (new_env None (grammar_of c) (fun _ => false) text toks) 100.

(** Grammars with sixteen and seventeen parameters, in two rules, and one with seventeen contexts. *)
Definition sixteen := "tokenizer { a 'a' } pub rule file { <q 'a'> } rule p(a, b, c, d, e, f, g, h, i, j, k, l, m, n, o) { } rule q(a) { a }"%string.
Definition seventeen := "tokenizer { a 'a' } pub rule file { <q 'a'> } rule p(a, b, c, d, e, f, g, h, i, j, k, l, m, n, o, p) { } rule q(a) { a }"%string.
Definition contexts := "tokenizer { a 'a' } pub rule file { <is_in 'a'>? <is_in 'b'>? <is_in 'c'>? <is_in 'd'>? <is_in 'e'>? <is_in 'f'>? <is_in 'g'>? <is_in 'h'>? <is_in 'i'>? <is_in 'j'>? <is_in 'k'>? <is_in 'l'>? <is_in 'm'>? <is_in 'n'>? <is_in 'o'>? <is_in 'p'>? <is_in 'q'>? 'a' }"%string.

Lemma few_check : forall f k m, wf_file f (tree_of f) /\ char_tree (f_text f) (tree_of f) /\ complete f ->
  all_contexts f = Ok m -> List.length m <= k -> List.length (flat_map (params f) (rules f)) <= k -> few_names k f.
Proof.
  intros f k m (WF & CT & CO) E LM LP. split; [|exact LP]. destruct (contexts_v f (tree_of f) WF CT CO) as (m' & E' & S1 & S2 & _). rewrite E in E'. injection E' as <-.
  exists (map fst m). split; [|rewrite map_length; exact LM]. split; [exact S1|]. intros b. rewrite S2. split.
  - intros (c & I & TC & NC). exists c. split; [split; [apply (order_valid f (tree_of f) WF); exact I|exact TC]|exact NC].
  - intros (c & (VC & TC) & NC). exists c. split; [apply (order_valid f (tree_of f) WF); exact VC|auto].
Qed.

(** A file that meets the hypotheses: it names a context and has two parameters.  One with sixteen parameters. *)
Example C94_case : few_names 16 calc /\ honest calc (direct 4 calc) /\ block_bodies calc /\
  (exists c, generate calc (direct 4 calc) same same same = Ok (Some c) /\ In (EEnter 0 5) (cx_rules c) /\ In (ECall 4 [(0, 1); (1, 7)]) (cx_rules c)).
Proof.
  assert (FN : few_names 16 calc).
  { assert (A : exists m, all_contexts calc = Ok m /\ List.length m = 1) by (eexists; split; [vm_compute; reflexivity|reflexivity]). destruct A as (m & A & L).
    assert (P : List.length (flat_map (params calc) (rules calc)) = 2) by (vm_compute; reflexivity).
    apply (few_check calc 16 m calc_complete A); [rewrite L|rewrite P]; repeat constructor. }
  split; [exact FN|].
  split; [exact (proj1 C38_case)|]. split; [exact (proj1 (proj2 C38_case))|].
  destruct (proj2 (proj2 C38_case)) as (c & E & _ & R & _). exists c. split; [exact E|]. rewrite R. split; [apply nth_error_In with (n := 17); reflexivity|apply nth_error_In with (n := 8); reflexivity].
Qed.
Example C94_sixteen : List.length (flat_map (params (fall_file sixteen)) (rules (fall_file sixteen))) = 16 /\
  exists c, generate (fall_file sixteen) (direct 4 (fall_file sixteen)) same same same = Ok (Some c) /\
    run c [97] [mkTok 100 1] = Ok [EvStart 101 None; EvToken 100 1; EvEnd].
Proof. split; [vm_compute; reflexivity|]. eexists. split; [vm_compute; reflexivity|]. vm_compute. reflexivity. Qed.

(** "A grammar without errors makes a parser that accepts what the grammar says" is false with a seventeenth parameter or
    context: the parser panics. *)
Theorem C94_seventeen_refuted :
  (exists c, generated seventeen c /\ run c [97] [mkTok 100 1] = Panic) /\ (exists c, generated contexts c /\ run c [97] [mkTok 100 1] = Panic).
Proof. split; eexists; (split; [generates|vm_compute; reflexivity]). Qed.
Print Assumptions C94_seventeen_refuted.
