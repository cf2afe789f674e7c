(** C36, C39, C45-C48: the analysis of grammar files, for any number of clients and any schedule. *)
From Coq Require Import List Arith Bool NArith Lia Sorted Permutation Ascii String.
From Verif Require Import Base BaseFacts TextModel TreeModel DbModel DbSpec DbProofs DbTrace AnalysisModel TextSpec TreeSpec FileEditSpec IndexSpec AnalysisSpec
  ViewProofs AnalysisProofs CollectProofs RunProofs MeansFacts AnalysisFacts FallLang FallCheck PropsDb.
Import ListNotations.
Open Scope list_scope.

(** ** C36: the result of [collect_all_diagnostics] *)

(** The result is sorted; it consists of the diagnostics of the queries to be reported, those of each query once;
    and diagnostics at the same place stand in the order in which they were recorded. *)
Theorem C36_collect : forall f T ds out,
  wf_file f T -> char_tree (f_text f) T -> complete f -> collect_returns f ds out ->
  StronglySorted diag_le out /\
  (exists ks dss, NoDup ks /\ (forall k, In k ks <-> reported f k) /\
     Forall2 (fun k d => exists v, says f k v d) ks dss /\ Permutation out (List.concat dss)) /\
  Permutation out ds /\
  (forall P, (forall a b, P a = true -> P b = true -> same_place a b) -> filter P out = filter P ds).
Proof.
  intros f T ds out WF CT CO R. split; [|split; [|split; [exact (out_perm f ds out R)|]]].
  - destruct R as (cs & l & i & c0 & t & before & during & after & g & cl & _ & _ & _ & _ & _ & _ & ->). apply sort_diags_sorted.
  - destruct (collect_spec f T WF CT CO ds out R) as (ks & dss & ND & KS & F & E). exists ks, dss. split; [exact ND|]. split; [exact KS|]. split.
    + clear - F. induction F as [|k d ks dss (v & _ & S1) F IH]; constructor; [exists v; exact S1|exact IH].
    + rewrite <- E. exact (out_perm f ds out R).
  - intros P HP. destruct R as (cs & l & i & c0 & t & before & during & after & g & cl & _ & _ & _ & _ & _ & _ & ->).
    exact (stable_filter P ds HP).
Qed.
Print Assumptions C36_collect.

(** Two calls, in whatever runs, return the same diagnostics. *)
Theorem C36_same_diagnostics : forall f T ds out ds' out',
  wf_file f T -> char_tree (f_text f) T -> complete f -> collect_returns f ds out -> collect_returns f ds' out' ->
  Permutation out out'.
Proof.
  intros f T ds out ds' out' WF CT CO R R'.
  destruct (collect_spec f T WF CT CO ds out R) as (ks & dss & ND & KS & F & E).
  destruct (collect_spec f T WF CT CO ds' out' R') as (ks' & dss' & ND' & KS' & F' & E').
  rewrite (out_perm f ds out R), (out_perm f ds' out' R'), E, E'.
  apply (concat_perm _ _ (fun k d => exists v, evaluates (fall_exec f) k v d /\ says f k v d) ks ks'); try assumption.
  - apply NoDup_Permutation; [exact ND|exact ND'|]. intros k. rewrite KS, KS'. reflexivity.
  - intros k d d' (v & A & _) (v' & A' & _). exact (proj2 (evaluates_det _ _ _ _ _ _ A A')).
Qed.
Print Assumptions C36_same_diagnostics.

(** Every complete file has such a call. *)
Theorem C36_returns : forall f T, wf_file f T -> char_tree (f_text f) T -> complete f ->
  exists ds out, collect_returns f ds out.
Proof. exact collect_exists. Qed.
Print Assumptions C36_returns.

(** ** C39: references *)

(** Whenever a reference is resolved, the answer is what the name means at that place: a parameter of the rule
    around it, else the first rule of that name, else the last token of that name; and there is only one meaning. *)
Theorem C39_resolve : forall f T n v,
  wf_file f T -> char_tree (f_text f) T -> complete f -> is_a f REF_EXPR n -> answers f (QRef n) v ->
  exists o, v = VRef o /\ resolves f n o /\ forall o', resolves f n o' -> o' = o.
Proof.
  intros f T n v WF CT CO A H. destruct (answered_says f T WF CT CO (QRef n) v A H) as (ds & o & -> & R & _).
  exists o. split; [reflexivity|]. split; [exact R|]. intros o' R'. exact (resolves_fun f _ _ _ R' R).
Qed.
Print Assumptions C39_resolve.

(** Errors about references: exactly the references without a meaning that are not names of contexts, and the
    names of calls that call nothing. *)
Theorem C39_unresolved : forall f T ds out d,
  wf_file f T -> char_tree (f_text f) T -> complete f -> collect_returns f ds out ->
  (In d out /\ d_message d = MUnresolvedReference <->
   (exists n, is_a f REF_EXPR n /\ resolves f n None /\ ~ is_context_string f n /\ d = error_at f n MUnresolvedReference) \/
   (exists n s i, is_a f CALL_EXPR n /\ named f s n /\ ~ In s builtins /\ (forall r, ~ calls_rule f n r) /\ kid f IDENT n = Some i /\
      d = error_at f i MUnresolvedReference)).
Proof.
  intros f T ds out d WF CT CO R. rewrite (out_says f T WF CT CO ds out R). split.
  - intros ((k & v & x & K & S1 & J) & M). pose proof (says_message _ _ _ _ _ S1 J) as MK. rewrite M in MK. cbn [message_key] in MK.
    destruct MK as [(n & ->)|(n & ->)].
    + left. destruct S1 as (o & _ & RS & [(-> & NC & ->)|(_ & ->)]); [|destruct J]. destruct J as [<-|[]]. exists n. repeat split; try assumption; apply K.
    + right. destruct S1 as (o & _ & C).
      assert (AR : forall k, In d (arity_error f k n) -> False).
      { intros k X. destruct (arity_message _ _ _ _ X) as (a & b & Y). congruence. }
      destruct C as [| | | | | | | | | | | |rs k N P|r CR|s i N NB NC KI]; try (destruct (AR _ J); fail).
      * apply in_app_iff in J. destruct J as [J|[<-|[]]]; [destruct (AR _ J)|discriminate M].
      * apply repeat_spec in J. subst d. discriminate M.
      * destruct (Nat.eqb (List.length (params f r)) (List.length (exprs f n))); [destruct J|]. destruct J as [<-|[]]. discriminate M.
      * destruct J as [<-|[]]. exists n, s, i. repeat split; try assumption; apply K.
  - intros [(n & A & RS & NC & ->)|(n & s & i & A & N & NB & NC & KI & ->)]; (split; [|reflexivity]).
    + exists (QRef n), (VRef None), [error_at f n MUnresolvedReference]. split; [exact A|]. split; [|left; reflexivity].
      exists None. split; [reflexivity|]. split; [exact RS|]. left. repeat split. exact NC.
    + exists (QCall n), (VCall None), [error_at f i MUnresolvedReference]. split; [exact A|]. split; [|left; reflexivity].
      exists None. split; [reflexivity|]. exact (cm_unknown f n s i N NB NC KI).
Qed.
Print Assumptions C39_unresolved.

(** Every token whose name an earlier token has is reported, and no other. *)
Theorem C39_duplicate_tokens : forall f T ds out d,
  wf_file f T -> char_tree (f_text f) T -> complete f -> collect_returns f ds out ->
  (In d out /\ d_message d = MDuplicateToken <->
   exists pre t post, tokens f = pre ++ t :: post /\ repeated f pre t /\ d = error_at f t MDuplicateToken).
Proof. intros f T ds out d WF CT CO R. exact (out_tokens f T WF CT CO ds out R d). Qed.
Print Assumptions C39_duplicate_tokens.

(** Every rule whose name an earlier rule has is reported, and no other, provided some reference or call makes the
    analysis look for rules. *)
Theorem C39_duplicate_rules : forall f T ds out d,
  wf_file f T -> char_tree (f_text f) T -> complete f -> collect_returns f ds out ->
  (In d out /\ d_message d = MDuplicateRule <->
   looks_for_rules f /\ exists pre r post i, rules f = pre ++ r :: post /\ repeated f pre r /\ kid f IDENT r = Some i /\
     d = error_at f i MDuplicateRule).
Proof. intros f T ds out d WF CT CO R. exact (out_rules f T WF CT CO ds out R d). Qed.
Print Assumptions C39_duplicate_rules.

(** The rules reported as unused are exactly the named rules, other than the first of the file, that no reference
    means and no call calls. *)
Theorem C39_unused : forall f T ds out d,
  wf_file f T -> char_tree (f_text f) T -> complete f -> collect_returns f ds out ->
  (In d out /\ d_message d = MUnusedRule <->
   exists r i, In r (rules f) /\ hd_error (rules f) <> Some r /\ ~ used f r /\ kid f IDENT r = Some i /\
     d = warning_at f i MUnusedRule).
Proof. intros f T ds out d WF CT CO R. exact (out_unused f T WF CT CO ds out R d). Qed.
Print Assumptions C39_unused.

(** ** C45: calls *)

(** Whenever a call is resolved the answer is its one meaning, and what is to be reported about it is in every
    result of [collect_all_diagnostics]. *)
Theorem C45_call : forall f T n v,
  wf_file f T -> char_tree (f_text f) T -> complete f -> is_a f CALL_EXPR n -> answers f (QCall n) v ->
  exists o ds, v = VCall o /\ call_means f n o ds /\
    (forall o' ds', call_means f n o' ds' -> o' = o /\ ds' = ds) /\
    (forall dd out, collect_returns f dd out -> incl ds out).
Proof.
  intros f T n v WF CT CO A H. destruct (answered_says f T WF CT CO (QCall n) v A H) as (ds & S1). pose proof S1 as (o & -> & M).
  exists o, ds. split; [reflexivity|]. split; [exact M|]. split.
  - intros o' ds' M'. exact (call_means_fun f _ _ _ _ _ M' M).
  - intros dd out R. exact (out_about f T WF CT CO dd out R (QCall n) _ ds A S1).
Qed.
Print Assumptions C45_call.

(** A context named by only one call is reported, if the number of any context is needed at all. *)
Theorem C45_contexts : forall f T ds out d b,
  wf_file f T -> char_tree (f_text f) T -> complete f -> collect_returns f ds out ->
  (In d out /\ d_message d = MContextOnce b <->
   needs_contexts f /\ exists c, only_call f c b /\ d = warning_at f c (MContextOnce b)).
Proof. intros f T ds out d b WF CT CO R. exact (out_contexts f T WF CT CO ds out R d b). Qed.
Print Assumptions C45_contexts.

(** ** C46: expression rules *)
Theorem C46_variant : forall f T r v,
  wf_file f T -> char_tree (f_text f) T -> complete f -> is_a f SYN_RULE r -> answers f (QPratt r) v ->
  exists o ds, v = VPratt o /\ pratt_means f r o ds /\
    (forall o' ds', pratt_means f r o' ds' -> o' = o /\ ds' = ds) /\
    (forall dd out, collect_returns f dd out -> incl ds out).
Proof.
  intros f T r v WF CT CO A H. destruct (answered_says f T WF CT CO (QPratt r) v A H) as (ds & S1). pose proof S1 as (o & -> & M).
  exists o, ds. split; [reflexivity|]. split; [exact M|]. split.
  - intros o' ds' M'. exact (pratt_means_fun f _ _ _ _ _ M' M).
  - intros dd out R. exact (out_about f T WF CT CO dd out R (QPratt r) _ ds A S1).
Qed.
Print Assumptions C46_variant.

(** ** C47: traits and methods *)
Theorem C47_traits : forall f T n v,
  wf_file f T -> char_tree (f_text f) T -> complete f -> is_a f AST_NODE_DEF n -> answers f (QTraits n) v ->
  exists refs ts ds, v = VTraits ts /\ trait_refs f n refs /\ traits_mean f refs ts ds /\
    (forall refs' ts' ds', trait_refs f n refs' -> traits_mean f refs' ts' ds' -> refs' = refs /\ ts' = ts /\ ds' = ds) /\
    (forall dd out, collect_returns f dd out -> incl ds out).
Proof.
  intros f T n v WF CT CO A H. destruct (answered_says f T WF CT CO (QTraits n) v A H) as (ds & S1). pose proof S1 as (refs & ts & -> & R & M).
  exists refs, ts, ds. split; [reflexivity|]. split; [exact R|]. split; [exact M|]. split.
  - intros refs' ts' ds' R' M'. pose proof (trait_refs_fun f _ _ _ R' R) as ->. split; [reflexivity|]. exact (traits_mean_fun f _ _ _ _ _ M' M).
  - intros dd out RR. exact (out_about f T WF CT CO dd out RR (QTraits n) _ ds A S1).
Qed.
Print Assumptions C47_traits.

Theorem C47_method : forall f T n v,
  wf_file f T -> char_tree (f_text f) T -> complete f -> is_a f METHOD_DEF n -> answers f (QMethod n) v ->
  exists o, v = VMethod o /\ method_means f n o /\ forall o', method_means f n o' -> o' = o.
Proof.
  intros f T n v WF CT CO A H. destruct (answered_says f T WF CT CO (QMethod n) v A H) as (ds & o & -> & M & _).
  exists o. split; [reflexivity|]. split; [exact M|]. intros o' M'. exact (method_means_fun f _ _ _ M' M).
Qed.
Print Assumptions C47_method.

(** ** C48: the analysis always answers *)

(** On a complete file: [collect_all_diagnostics] can be called; no thread ever panics; as long as some thread has
    something to do some thread can move; and no run goes on forever. *)
Theorem C48_answers : forall f T cs,
  wf_file f T -> char_tree (f_text f) T -> complete f -> api_clients f cs ->
  (forall c, exists cl, collect_all_diagnostics f c = Ok cl /\
     forall k, asks (fall_exec f) cl k -> api_key f k \/ exists ds, asks (fall_exec f) (c ds) k) /\
  (forall l t, In t (st_threads (run_schedule key_eqb key_kind (fall_exec f) l (start cs))) -> t_ctl t <> Dead) /\
  (forall l t, In t (st_threads (run_schedule key_eqb key_kind (fall_exec f) l (start cs))) -> t_ctl t <> Client CRet ->
     exists i s', step_at key_eqb key_kind (fall_exec f) i (run_schedule key_eqb key_kind (fall_exec f) l (start cs)) = Some s') /\
  (~ exists r, r 0 = start cs /\ forall n, exists i, step_at key_eqb key_kind (fall_exec f) i (r n) = Some (r (S n))).
Proof.
  intros f T cs WF CT CO A. split; [|split; [|split]].
  - intros c. destruct (collect_ok f T WF c) as (cl & E). exists cl. split; [exact E|]. intros k X. exact (collect_asks f T WF c cl k E X).
  - intros l t J. exact (api_alive f T WF CT CO cs l t A J).
  - intros l t J NC. apply (C35_no_deadlock _ _ _ key_eqb key_kind (fall_exec f) cs l t key_eqb_spec J).
    intros [X|X]; [exact (NC X)|exact (api_alive f T WF CT CO cs l t A J X)].
  - exact (proj1 (C35_terminates _ _ _ key_eqb key_kind (fall_exec f) cs key_eqb_spec (fun k _ => exec_outcome f k))).
Qed.
Print Assumptions C48_answers.

(** No run goes on forever even if the file is not complete and whatever the clients ask. *)
Theorem C48_terminates : forall f cs,
  ~ exists r, r 0 = start cs /\ forall n, exists i, step_at key_eqb key_kind (fall_exec f) i (r n) = Some (r (S n)).
Proof.
  intros f cs. exact (proj1 (C35_terminates _ _ _ key_eqb key_kind (fall_exec f) cs key_eqb_spec (fun k _ => exec_outcome f k))).
Qed.
Print Assumptions C48_terminates.

(** ** A concrete grammar *)
Definition demo := fall_file "tokenizer { plus '+' number r""\d+"" plus 'x' } pub rule file { <sep expr '+'> unknown } pub rule expr { number <is_in 'stmt'> | '+' } rule sep(expr, s) { expr <rep s expr> } rule sep { } #[bin(1)] pub rule sum { expr '+' expr } #[postfix] rule post { expr } ast { node expr : T, U { num number? txt number.text } trait T { } }".

Example demo_complete : wf_file demo (tree_of demo) /\ char_tree (f_text demo) (tree_of demo) /\ complete demo.
Proof. file_facts. Qed.

(** Its diagnostics.  The second rule [sep] is reported as repeated and as unused. *)
Example C36_case : exists ds, collect_returns demo ds
  [mkDiag (mkRange 35 43) Error MDuplicateToken; mkDiag (mkRange 77 84) Error MUnresolvedReference;
   mkDiag (mkRange 159 162) Error MUnresolvedReference; mkDiag (mkRange 178 181) Error MDuplicateRule;
   mkDiag (mkRange 248 256) Error MPostfix; mkDiag (mkRange 278 279) Error MUnresolvedTrait;
   mkDiag (mkRange 110 124) Warning (MContextOnce (text_of "stmt")); mkDiag (mkRange 178 181) Warning MUnusedRule;
   mkDiag (mkRange 205 208) Warning MUnusedRule; mkDiag (mkRange 243 247) Warning MUnusedRule].
Proof.
  apply (lone_case demo (tree_of demo) [] 5000); [exact (proj1 demo_complete)|intros k []|vm_compute; reflexivity].
Qed.

(** The same name [expr] means the rule in one rule and the parameter in another; a call, an operator, the traits
    of a node and its two methods. *)
Example C39_case :
  is_a demo REF_EXPR 41 /\ answers demo (QRef 41) (VRef (Some (RRule 53))) /\
  is_a demo REF_EXPR 101 /\ answers demo (QRef 101) (VRef (Some (RParam 89))) /\
  is_a demo REF_EXPR 64 /\ answers demo (QRef 64) (VRef (Some (RToken 12))) /\
  is_a demo REF_EXPR 48 /\ answers demo (QRef 48) (VRef None).
Proof.
  repeat match goal with |- _ /\ _ => split end;
    try (split; [apply Nat.ltb_lt; vm_compute; reflexivity|vm_compute; reflexivity]);
    apply (lone_answers _ _ 5000); vm_compute; reflexivity.
Qed.

Example C45_case :
  is_a demo CALL_EXPR 37 /\ answers demo (QCall 37) (VCall (Some (CkRuleCall 83 [(89, 41); (93, 44)]))) /\
  is_a demo CALL_EXPR 67 /\ answers demo (QCall 67) (VCall (Some (CkIsIn 0))) /\
  is_a demo CALL_EXPR 104 /\ answers demo (QCall 104) (VCall None).
Proof.
  repeat match goal with |- _ /\ _ => split end;
    try (split; [apply Nat.ltb_lt; vm_compute; reflexivity|vm_compute; reflexivity]);
    apply (lone_answers _ _ 5000); vm_compute; reflexivity.
Qed.

Example C46_case :
  is_a demo SYN_RULE 128 /\ answers demo (QPratt 128) (VPratt (Some (PBin 153 1%N))) /\
  is_a demo SYN_RULE 161 /\ answers demo (QPratt 161) (VPratt None).
Proof.
  repeat match goal with |- _ /\ _ => split end;
    try (split; [apply Nat.ltb_lt; vm_compute; reflexivity|vm_compute; reflexivity]);
    apply (lone_answers _ _ 5000); vm_compute; reflexivity.
Qed.

Example C47_case :
  is_a demo AST_NODE_DEF 187 /\ answers demo (QTraits 187) (VTraits [218]) /\
  is_a demo METHOD_DEF 201 /\ answers demo (QMethod 201) (VMethod (Some (NodeAccessor (CToken 12) Optional))) /\
  is_a demo METHOD_DEF 208 /\ answers demo (QMethod 208) (VMethod (Some (TextAccessor 12 Single))).
Proof.
  repeat match goal with |- _ /\ _ => split end;
    try (split; [apply Nat.ltb_lt; vm_compute; reflexivity|vm_compute; reflexivity]);
    apply (lone_answers _ _ 5000); vm_compute; reflexivity.
Qed.

(** Two clients that use the API: one collects the diagnostics, one resolves a call. *)
Example C48_case : exists cl, collect_all_diagnostics demo (fun _ => CRet) = Ok cl /\
  api_clients demo [cl; CAsk (QCall 37) (fun _ => CRet)].
Proof.
  destruct (collect_ok demo _ (proj1 demo_complete) (fun _ => CRet)) as (cl & E). exists cl. split; [exact E|].
  intros c k [<-|[<-|[]]] A.
  - destruct (collect_asks demo _ (proj1 demo_complete) _ _ _ E A) as [X|(ds & X)]; [exact X|inversion X].
  - inversion A as [|? ? v ds ? _ X|]; subst; [|inversion X]. split; [apply Nat.ltb_lt; vm_compute; reflexivity|vm_compute; reflexivity].
Qed.

(** ** False readings *)

(** "The diagnostics of a file are always listed in the same order": two errors at the same place are listed as the
    queries happened to be asked. *)
Definition same_spot := fall_file "rule a { <is_in foo> }".
Example same_spot_complete : wf_file same_spot (tree_of same_spot) /\ char_tree (f_text same_spot) (tree_of same_spot) /\ complete same_spot.
Proof. file_facts. Qed.
Theorem C36_same_list_refuted : exists f T ds out ds' out',
  wf_file f T /\ char_tree (f_text f) T /\ complete f /\ collect_returns f ds out /\ collect_returns f ds' out' /\ out <> out'.
Proof.
  destruct same_spot_complete as (W & C & CO).
  assert (A : exists ds, collect_returns same_spot ds [mkDiag (mkRange 16 19) Error MUnresolvedReference; mkDiag (mkRange 16 19) Error MContextString]).
  { apply (lone_case same_spot (tree_of same_spot) [] 2000); [exact W|intros k []|vm_compute; reflexivity]. }
  assert (B : exists ds, collect_returns same_spot ds [mkDiag (mkRange 16 19) Error MContextString; mkDiag (mkRange 16 19) Error MUnresolvedReference]).
  { apply (lone_case same_spot (tree_of same_spot) [QCall 10] 2000); [exact W| |vm_compute; reflexivity].
    intros k [<-|[]]. split; [apply Nat.ltb_lt; vm_compute; reflexivity|vm_compute; reflexivity]. }
  destruct A as (ds & A), B as (ds' & B). eexists same_spot, (tree_of same_spot), ds, _, ds', _.
  split; [exact W|]. split; [exact C|]. split; [exact CO|]. split; [exact A|]. split; [exact B|]. discriminate.
Qed.
Print Assumptions C36_same_list_refuted.

(** "Repeated rules are always reported": not if nothing in the file makes the analysis look for a rule. *)
Definition twice := fall_file "rule foo { } rule foo { }".
Example twice_complete : wf_file twice (tree_of twice) /\ char_tree (f_text twice) (tree_of twice) /\ complete twice.
Proof. file_facts. Qed.
Theorem C39_duplicate_rules_refuted : exists f T, wf_file f T /\ char_tree (f_text f) T /\ complete f /\
  (exists pre r post, rules f = pre ++ r :: post /\ repeated f pre r) /\
  forall ds out d, collect_returns f ds out -> In d out -> d_message d <> MDuplicateRule.
Proof.
  exists twice, (tree_of twice). destruct twice_complete as (W & C & CO). split; [exact W|]. split; [exact C|]. split; [exact CO|]. split.
  - exists [1], 12, []. split; [vm_compute; reflexivity|]. exists 1, (text_of "foo"). split; [left; reflexivity|]. split; vm_compute; reflexivity.
  - intros ds out d R J M. pose proof (proj1 (C39_duplicate_rules twice _ ds out d W C CO R) (conj J M)) as (L & _).
    assert (N : forallb (fun n => negb (Nat.eqb (ty twice n) REF_EXPR || Nat.eqb (ty twice n) CALL_EXPR)) (seq 0 (List.length (f_nodes twice))) = true) by (vm_compute; reflexivity).
    rewrite forallb_forall in N. destruct L as [(n & r & s & (V & E) & _)|(n & s & (V & E) & _)].
    + specialize (N n (proj2 (in_seq _ _ _) (conj (Nat.le_0_l n) V))). rewrite E in N. discriminate N.
    + specialize (N n (proj2 (in_seq _ _ _) (conj (Nat.le_0_l n) V))). rewrite E in N. discriminate N.
Qed.
Print Assumptions C39_duplicate_rules_refuted.

(** "Tokens that cannot be told apart are reported": two tokens with the same text are not; the text means the last. *)
Definition same_text := fall_file "tokenizer { a 'x' b 'x' } pub rule f { 'x' }".
Example same_text_complete : wf_file same_text (tree_of same_text) /\ char_tree (f_text same_text) (tree_of same_text) /\ complete same_text.
Proof. file_facts. Qed.
Theorem C39_same_text_refuted : exists f T ds s t t' n, wf_file f T /\ char_tree (f_text f) T /\ complete f /\
  tokens f = [t; t'] /\ t <> t' /\ token_called f s t /\ token_called f s t' /\
  collect_returns f ds [] /\ ref_name f n = Some s /\ answers f (QRef n) (VRef (Some (RToken t'))).
Proof.
  destruct same_text_complete as (W & C & CO).
  assert (R : exists ds, collect_returns same_text ds []).
  { apply (lone_case same_text (tree_of same_text) [] 2000); [exact W|intros k []|vm_compute; reflexivity]. }
  destruct R as (ds & R). exists same_text, (tree_of same_text), ds, (text_of "'x'"), 6, 12, 31.
  split; [exact W|]. split; [exact C|]. split; [exact CO|]. split; [vm_compute; reflexivity|]. split; [discriminate|].
  split; [vm_compute; reflexivity|]. split; [vm_compute; reflexivity|]. split; [exact R|]. split; [vm_compute; reflexivity|].
  apply (lone_answers _ _ 2000). vm_compute. reflexivity.
Qed.
Print Assumptions C39_same_text_refuted.

(** "The analysis of whatever the parser returns does not panic": it does on a rule without a body. *)
Theorem C48_incomplete_refuted : exists text T cl l t, let f := fall_file text in
  wf_file f T /\ char_tree (f_text f) T /\ collect_all_diagnostics f (fun _ => CRet) = Ok cl /\ api_clients f [cl] /\
  In t (st_threads (run_schedule key_eqb key_kind (fall_exec f) l (start [cl]))) /\ t_ctl t = Dead.
Proof.
  pose (f := fall_file "#[atom] pub rule foo").
  assert (W : wf_file f (tree_of f)) by (apply wf_check; vm_compute; reflexivity).
  assert (C : char_tree (f_text f) (tree_of f)).
  { apply ascii_tree; [exact W|]. assert (F : forallb (fun b => Nat.ltb b 128) (f_text f) = true) by (vm_compute; reflexivity).
    apply Forall_forall. intros x J. apply Nat.ltb_lt. exact (proj1 (forallb_forall _ _) F x J). }
  destruct (collect_ok f _ W (fun _ => CRet)) as (cl & E).
  assert (D : match collect_all_diagnostics f (fun _ => CRet) with
              | Ok cl => match nth_error (st_threads (run_schedule key_eqb key_kind (fall_exec f) (repeat 0 100) (start [cl]))) 0 with
                         | Some t => match t_ctl t with Dead => true | _ => false end
                         | None => false
                         end
              | _ => false
              end = true) by (vm_compute; reflexivity).
  rewrite E in D. destruct (nth_error (st_threads (run_schedule key_eqb key_kind (fall_exec f) (repeat 0 100) (start [cl]))) 0) as [t|] eqn:NT; [|discriminate D].
  exists "#[atom] pub rule foo"%string, (tree_of f), cl, (repeat 0 100), t. split; [exact W|]. split; [exact C|]. split; [exact E|]. split.
  - intros c k [<-|[]] A. destruct (collect_asks f _ W _ _ _ E A) as [X|(ds & X)]; [exact X|inversion X].
  - split; [exact (nth_error_In _ _ NT)|]. destruct (t_ctl t); try discriminate D. reflexivity.
Qed.
Print Assumptions C48_incomplete_refuted.
