(** C40: go to definition and find usages. *)
From Coq Require Import List Arith Bool Lia String.
From Verif Require Import Base BaseFacts TextModel TreeModel SearchModel DbModel AnalysisModel RefModel TextSpec TreeSpec FileEditSpec IndexSpec AnalysisSpec RefSpec
  ViewProofs MeansFacts AnalysisFacts RefProofs FallLang FallCheck GrammarData PropsAnalysis.
Import ListNotations.
Open Scope list_scope.

(** Go to definition: the result is the name of what the reference under the cursor refers to. *)
Theorem C40_definition : forall f T ask ws o,
  wf_file f T -> char_tree (f_text f) T -> complete f -> honest f ask -> o <= List.length (f_text f) ->
  exists r, resolve_reference f ask ws o = Ok r /\
    forall rg, r = Some rg <-> exists p x, reference_under f ws o p /\ refers f p x /\ rg = target f x.
Proof. intros f T ask ws o WF CT CO H L. exact (definition_ok f T WF CT CO ask H ws o L). Qed.
Print Assumptions C40_definition.

(** Find usages: with the cursor on the name of a definition or on a reference to it, the references to this
    definition and nothing else, each once, in the order of the tree walk. *)
Theorem C40_usages : forall f T ask ws o,
  wf_file f T -> char_tree (f_text f) T -> complete f -> honest f ask -> o <= List.length (f_text f) ->
  (forall x, asked_about f ws o x -> exists ps,
     find_usages f ask ws o = Ok (map (fun p => rng f (place f p)) ps) /\ NoDup ps /\ (forall p, In p ps <-> refers f p x) /\
     exists l sel, subtree (f_nodes f) root = Ok l /\ ps = filter sel l) /\
  ((forall x, ~ asked_about f ws o x) -> find_usages f ask ws o = Ok []).
Proof.
  intros f T ask ws o WF CT CO H L. destruct (usages_ok f T WF CT CO ask H ws o L) as (out & E & [(x & ps & A & -> & ND & IN & l & S1 & sel & EP)|(N & ->)]).
  - split; [|intros N; destruct (N x A)]. intros y B. rewrite (asked_fun f ws o y x B A). exists ps. split; [exact E|]. split; [exact ND|]. split; [exact IN|].
    exists l, sel. split; assumption.
  - split; [intros x A; destruct (N x A)|intros _; exact E].
Qed.
Print Assumptions C40_usages.

(** The two agree: a reference is listed among the usages exactly when going to its definition arrives at the
    definition asked about.  [p] is the reference, with cursor at [o'] on it, [x] the definition, asked about at [o]. *)
Theorem C40_agree : forall f T ask ws o o' p x,
  wf_file f T -> char_tree (f_text f) T -> complete f -> honest f ask -> o <= List.length (f_text f) -> o' <= List.length (f_text f) ->
  asked_about f ws o x -> reference_under f ws o' p ->
  exists ps, find_usages f ask ws o = Ok (map (fun p => rng f (place f p)) ps) /\
    (In p ps <-> refers f p x) /\
    (In p ps -> resolve_reference f ask ws o' = Ok (Some (target f x))) /\
    (resolve_reference f ask ws o' = Ok (Some (target f x)) -> (forall y, defines f y -> target f y = target f x -> y = x) -> In p ps).
Proof.
  intros f T ask ws o o' p x WF CT CO H L L' A R. destruct (proj1 (C40_usages f T ask ws o WF CT CO H L) x A) as (ps & E & _ & IN & _).
  destruct (C40_definition f T ask ws o' WF CT CO H L') as (r & ER & IR). exists ps. split; [exact E|]. split; [apply IN|]. split.
  - intros J. rewrite ER. f_equal. apply IR. exists p, x. split; [exact R|]. split; [apply IN; exact J|reflexivity].
  - intros X U. rewrite ER in X. injection X as ->. destruct (proj1 (IR _) eq_refl) as (p' & y & R' & RF & TG).
    assert (E' : p' = p).
    { destruct R as (n & U1 & N1), R' as (n' & U2 & N2). rewrite (cursor_fun f ws o' n' n U2 U1) in N2. exact (nearest_fun f _ _ _ _ N2 N1). }
    subst p'. apply IN. rewrite <- (U y (refers_defines f T WF p y RF) (eq_sym TG)). exact RF.
Qed.
Print Assumptions C40_agree.

(** With the cursor on the name of a definition, that definition is the one asked about. *)
Theorem C40_from_name : forall f T ws o x i,
  wf_file f T -> defines f x -> kid f IDENT x = Some i -> under_cursor f ws o i -> asked_about f ws o x.
Proof. intros f T ws o x i WF. exact (asked_name f T WF ws o x i). Qed.
Print Assumptions C40_from_name.

(** A definition, a reference and the definition of a reference are unique, and so is the leaf under the cursor. *)
Theorem C40_unique : forall f ws o,
  (forall p x y, refers f p x -> refers f p y -> x = y) /\
  (forall x y, asked_about f ws o x -> asked_about f ws o y -> x = y) /\
  (forall p q, reference_under f ws o p -> reference_under f ws o q -> p = q).
Proof.
  intros f ws o. split; [exact (refers_fun f)|]. split; [exact (asked_fun f ws o)|].
  intros p q (n & U & N) (n' & U' & N'). rewrite (cursor_fun f ws o n' n U' U) in N'. exact (nearest_fun f _ _ _ _ N N').
Qed.
Print Assumptions C40_unique.

(** There is such an analysis, and all of them lead to the same results. *)
Theorem C40_analysis : forall f T,
  wf_file f T -> char_tree (f_text f) T -> complete f ->
  honest f (direct 4 f) /\ forall ask, honest f ask -> forall k, api_key f k -> ask k = direct 4 f k.
Proof.
  intros f T WF CT CO. pose proof (direct_honest f T WF CT CO) as D. split; [exact D|]. intros ask H k K.
  destruct (H k K) as (v & -> & A), (D k K) as (v' & -> & A'). rewrite (answers_fun f k v v' A A'). reflexivity.
Qed.
Print Assumptions C40_analysis.

(** On the grammar [demo]: the name of the rule [expr] (96..100) has four usages, none of them the parameter of the
    same name in the rule [sep]; from the usage at 67..71 one gets back to the name. *)
Example C40_case :
  honest demo (direct 4 demo) /\
  find_usages demo (direct 4 demo) fall_ws 98 = Ok [mkRange 67 71; mkRange 211 215; mkRange 220 224; mkRange 250 254] /\
  resolve_reference demo (direct 4 demo) fall_ws 68 = Ok (Some (mkRange 96 100)) /\
  find_usages demo (direct 4 demo) fall_ws 22 = Ok [mkRange 103 109; mkRange 286 293] /\
  resolve_reference demo (direct 4 demo) fall_ws 64 = Ok (Some (mkRange 138 141)) /\
  find_usages demo (direct 4 demo) fall_ws 95 = Ok [].
Proof.
  split; [destruct demo_complete as (A & B & C); exact (direct_honest demo _ A B C)|].
  do 4 (split; [vm_compute; reflexivity|]). vm_compute. reflexivity.
Qed.

(** Not every use of a token is a reference: the method [txt number.text] takes its text from the token [number]
    (21..34), but the usages of this token do not include the method's selector (298..309). *)
Theorem C40_text_accessor_refuted : ~ forall f T ask ws o n t a ps,
  wf_file f T -> char_tree (f_text f) T -> complete f -> honest f ask ->
  is_a f METHOD_DEF n -> answers f (QMethod n) (VMethod (Some (TextAccessor t a))) -> asked_about f ws o t ->
  find_usages f ask ws o = Ok ps -> In (rng f (place f n)) ps.
Proof.
  intros H. destruct demo_complete as (A & B & C).
  specialize (H demo (tree_of demo) (direct 4 demo) fall_ws 22 208 12 Single [mkRange 103 109; mkRange 286 293] A B C (direct_honest demo _ A B C)).
  assert (X : is_a demo METHOD_DEF 208) by (split; [apply Nat.ltb_lt|]; vm_compute; reflexivity).
  specialize (H X). assert (Y : answers demo (QMethod 208) (VMethod (Some (TextAccessor 12 Single)))) by (apply (lone_answers _ _ 5000); vm_compute; reflexivity).
  specialize (H Y).
  assert (U : under_cursor demo fall_ws 22 13).
  { destruct (cursor_ok demo (tree_of demo) A fall_ws 22) as (r & E & R); [apply Nat.leb_le; vm_compute; reflexivity|].
    assert (E' : non_ws_node_at_offset demo fall_ws 22 = Ok (Some 13)) by (vm_compute; reflexivity). rewrite E' in E. injection E as <-. exact R. }
  assert (D : defines demo 12) by (split; [apply Nat.ltb_lt; vm_compute; reflexivity|right; left; vm_compute; reflexivity]).
  assert (K : kid demo IDENT 12 = Some 13) by (vm_compute; reflexivity).
  specialize (H (asked_name demo (tree_of demo) A fall_ws 22 12 13 D K U)).
  assert (F : find_usages demo (direct 4 demo) fall_ws 22 = Ok [mkRange 103 109; mkRange 286 293]) by (vm_compute; reflexivity).
  specialize (H F). assert (R : rng demo (place demo 208) = mkRange 298 309) by (vm_compute; reflexivity). rewrite R in H.
  destruct H as [H|[H|[]]]; discriminate H.
Qed.
Print Assumptions C40_text_accessor_refuted.
