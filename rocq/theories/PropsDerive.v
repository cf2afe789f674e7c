(** Property C51: the tree of a file is a derivation of the grammar; without error nodes, nothing is missing from it. *)
From Coq Require Import List Arith Bool Lia.
From Verif Require Import Base BaseFacts TextModel TreeModel TreeSpec TreeProofs LexModel LexSpec LexProofs GrammarModel ParserModel ForestSpec SemSpec PegSpec PegProofs
  RefineProofs SpanSpec SpanProofs ConvertModel ConvertSpec FileProofs MonoProofs WellFormed CheckProofs GrammarData ExampleLang FallLang
  FallCheck PropsPeg PropsCheck DeriveSpec DeriveProofs.
Import ListNotations.

(** * C51 *)

(** Any language, any text for which the grammar prescribes a tree: without whitespace the tree of the file is a
    derivation of the grammar with errors; if there are no errors in it, a derivation without. *)
Theorem C51_tree : forall L fuel txt f inc toks ty body,
  progressing (l_lexer L) -> (forall ty sp b, l_binder L ty sp b <= length sp) ->
  nth_error (g_rules (l_g L)) 0 = Some (EPub ty body false) -> proper_spellings (l_g L) (l_ws L) ->
  lex (l_lexer L) txt = Ok toks -> no_ws_byte (l_g L) (l_ws L) txt toks ->
  (exists t, peg_file (new_env None (l_g L) (l_ws L) txt toks) t) ->
  parse_file L fuel txt = Ok (f, inc) ->
  exists T d, wf_file f T /\ bare (l_ws L) T = [d] /\ derivation (l_g L) false d /\ (clean d -> derivation (l_g L) true d).
Proof.
  intros L fuel txt f inc toks ty body PR LB R0 PS LX NB (t & PT) H. destruct (file_complete _ _ PT) as (N & SN).
  assert (H' : parse_file L (N + fuel) txt = Ok (f, inc)).
  { destruct (parse_file_mono L fuel (N + fuel) txt ltac:(lia)) as [Q|Q]; congruence. }
  destruct (parse_file_ok L (N + fuel) txt f inc ty body PR LB R0 H' toks LX NB ltac:(rewrite SN by lia; discriminate)) as (t' & T & fty & S1 & _ & _ & _ & WF & _ & _ & CV & _).
  rewrite SN in S1 by lia. injection S1 as <-. destruct (file_derivation _ _ _ _ _ _ _ _ PS R0 PT) as (M & d & B & D).
  exists T, d. split; [exact WF|]. split; [|split; [exact D|exact (derivation_strict _ _ D)]].
  pose proof (covers_bare _ _ _ _ CV M) as X. rewrite B in X. cbn [flat_map] in X. rewrite app_nil_r in X. exact X.
Qed.
Print Assumptions C51_tree.

(** With a well-formed grammar this holds of every text. *)
Theorem C51_well_formed : forall L c fuel txt f inc,
  well_formed (l_g L) c = true -> plain_spellings (l_g L) = true -> proper_spellings (l_g L) (l_ws L) ->
  progressing (l_lexer L) -> (forall b r, l_ws L (tk_ty (l_lexer L (b :: r))) = true -> blank b = true) ->
  (forall ty sp b, l_binder L ty sp b <= length sp) ->
  parse_file L fuel txt = Ok (f, inc) ->
  exists T d, wf_file f T /\ bare (l_ws L) T = [d] /\ derivation (l_g L) false d /\ (clean d -> derivation (l_g L) true d).
Proof.
  intros L c fuel txt f inc WF PL PS PR BL LB H. destruct (lex_ok (l_lexer L) txt PR) as (toks & LX & TK).
  pose proof (tokenizes_lens _ PR _ _ TK) as LEN. pose proof WF as WF'. unfold well_formed in WF'. rewrite !andb_true_iff in WF'. destruct WF' as [[_ HS] _].
  unfold has_start in HS. destruct (g_rules (l_g L)) as [|x rules] eqn:RS; [discriminate|].
  destruct x as [ty body [|]| | | | | | | | | | | | | | | | | | | | |]; try discriminate.
  apply (C51_tree L fuel txt f inc toks ty body); auto.
  - rewrite RS. reflexivity.
  - eapply plain_no_ws_byte; eauto.
  - exact (well_formed_tree (l_g L) c (l_ws L) txt toks LEN WF).
Qed.
Print Assumptions C51_well_formed.

(** Deciding [proper_spellings]. *)
Definition proper_spellings_b (g : grammar) (is_ws : nat -> bool) : bool :=
  forallb (fun x => match x with
    | EContextual ty text => negb (length text =? 0) && match nth_error (g_types g) ty with Some t => negb (is_ws t) | None => true end
    | _ => true end) (g_rules g).
Lemma proper_check : forall g is_ws, proper_spellings_b g is_ws = true -> proper_spellings g is_ws.
Proof.
  intros g is_ws H e ty text R. unfold proper_spellings_b in H. rewrite forallb_forall in H. apply nth_error_In in R. apply H in R. apply andb_true_iff in R. destruct R as (A & B).
  split; [intros ->; discriminate A|]. intros t T. unfold gtype in T. rewrite T in B. apply negb_true_iff in B. exact B.
Qed.

(** The shipped languages. *)
Theorem C51_shipped : forall L fuel txt f inc, shipped (l_g L) -> proper_spellings (l_g L) (l_ws L) ->
  progressing (l_lexer L) -> (forall b r, l_ws L (tk_ty (l_lexer L (b :: r))) = true -> blank b = true) ->
  (forall ty sp b, l_binder L ty sp b <= length sp) ->
  parse_file L fuel txt = Ok (f, inc) ->
  exists T d, wf_file f T /\ bare (l_ws L) T = [d] /\ derivation (l_g L) false d /\ (clean d -> derivation (l_g L) true d).
Proof. intros L fuel txt f inc SH. destruct (C28_shipped _ SH) as ((c & WF) & PL). exact (C51_well_formed L c fuel txt f inc WF PL). Qed.
Print Assumptions C51_shipped.

(** ** Examples *)

(** "1 + 2*-3 " has no errors, so its tree is a derivation; "(1 2" has, and its tree is one only with errors. *)
Definition calc_d : dtree :=
  DNode 7 [DNode 9 [DNode 8 [DLeaf 2]; DLeaf 3; DNode 10 [DNode 8 [DLeaf 2]; DLeaf 4; DNode 12 [DLeaf 13; DNode 8 [DLeaf 2]]]]].
Definition broken_d : dtree := DNode 7 [DNode 11 [DLeaf 5; DNode 8 [DLeaf 2]; DNode 0 []]; DNode 0 [DLeaf 2]].
Example C51_example : exists f inc g jnc T U,
  parse_file calc 40 calc_text = Ok (f, inc) /\ wf_file f T /\ bare calc_ws T = [calc_d] /\ derivation calc_grammar true calc_d
  /\ parse_file calc 40 calc_broken = Ok (g, jnc) /\ wf_file g U /\ bare calc_ws U = [broken_d] /\ derivation calc_grammar false broken_d /\ ~ clean broken_d.
Proof.
  assert (PS : proper_spellings calc_grammar calc_ws) by (apply proper_check; vm_compute; reflexivity).
  destruct C23_example as (P1 & P2).
  destruct (file_derivation _ _ _ _ _ _ _ _ PS eq_refl P1) as (_ & d1 & B1 & D1). vm_compute in B1. injection B1 as <-.
  destruct (file_derivation _ _ _ _ _ _ _ _ PS eq_refl P2) as (_ & d2 & B2 & D2). vm_compute in B2. injection B2 as <-.
  do 4 eexists. exists (Node 7 [Node 9 [Node 8 [Leaf 2 1]; Leaf 1 1; Leaf 3 1; Leaf 1 1; Node 10 [Node 8 [Leaf 2 1]; Leaf 4 1; Node 12 [Leaf 13 1; Node 8 [Leaf 2 1]]]]; Leaf 1 1]),
    (Node 7 [Node 11 [Leaf 5 1; Node 8 [Leaf 2 1]; Leaf 1 1; Node 0 []]; Node 0 [Leaf 2 1]]).
  split; [vm_compute; reflexivity|]. split; [apply wf_check; vm_compute; reflexivity|]. split; [reflexivity|]. split.
  - apply derivation_strict; [exact D1|]. unfold ERROR. repeat (constructor; try discriminate).
  - split; [vm_compute; reflexivity|]. split; [apply wf_check; vm_compute; reflexivity|]. split; [reflexivity|]. split; [exact D2|].
    intros C. inversion C as [|? ? _ L]; subst. inversion L as [|? ? _ L']; subst. exact (clean_error _ _ L').
Qed.

(** ** What is not said *)

(** A layer whose cover takes no token hides that its body is missing: file { <layer> {digit* } { digit } } accepts the
    empty text without an error. *)
Definition layered : language :=
  mkLang calc_lexer (mkGrammar (seq 0 14) [EPub 7 1 false; ELayer 2 3; ERep 3; EToken 2]) calc_ws (fun _ _ _ => 0).
Theorem C51_empty_layer_refuted : exists f inc,
  parse_file layered 10 [] = Ok (f, inc) /\ wf_file f (Node 7 []) /\ clean (DNode 7 [])
  /\ grule (l_g layered) 0 (EPub 7 1 false) /\ grule (l_g layered) 1 (ELayer 2 3)
  /\ forall s a, ~ derives (l_g layered) s a 3 [].
Proof.
  do 2 eexists. split; [vm_compute; reflexivity|]. split; [apply wf_check; vm_compute; reflexivity|]. split; [constructor; [discriminate|constructor]|].
  split; [reflexivity|]. split; [reflexivity|]. intros s a D. remember (@nil dtree) as F eqn:EF. remember 3 as e eqn:EE.
  destruct D; subst; unfold grule in *; cbn in *; congruence.
Qed.
Print Assumptions C51_empty_layer_refuted.
