(** The nesting of the nodes of a parsed grammar file. *)
From Coq Require Import List Arith Bool Lia.
From Verif Require Import Base BaseFacts TextModel TextSpec TreeModel TreeSpec TreeProofs SearchProofs LexModel LexSpec LexProofs GrammarModel ParserModel
  ConvertModel LeafSpec LeafProofs GrammarData FileEditSpec AnalysisModel AnalysisSpec PropsCheck DeriveSpec DeriveProofs ShapeCheck NestCheck FallNest CompleteProofs.
Import ListNotations.

(** Types of tokens. *)
Definition token_type (t : nat) : Prop := t = ERROR \/ 100 <= t <= 130.

(** The root is the file; the nodes below it are tokens, errors, or nodes where [fall_nesting] has them, and in errors there
    are only tokens. *)
Definition nested_file (f : file) : Prop :=
  ty f 0 = FALL_FILE /\
  forall n p, valid f n -> par f n = Some p ->
    (kids f n = [] /\ token_type (ty f n))
    \/ (ty f p <> ERROR /\ (ty f n = ERROR \/ may_hold fall_nesting (ty f p) (ty f n))).

Lemma tokenizes_types : forall lx txt toks t, tokenizes lx txt toks -> In t toks -> exists s, s <> [] /\ t = lx s.
Proof.
  intros lx txt toks t H. induction H as [|txt u ts NE E H IH]; intros J; [destruct J|]. destruct J as [<-|J]; [exists txt; auto|exact (IH J)].
Qed.
Lemma spells_types : forall g txt (P : nat -> Prop), (forall i j ctx t, nth_error (g_rules g) i = Some (EContextual j ctx) -> nth_error (g_types g) j = Some t -> P t) ->
  forall off l ts, spells g txt off l ts -> (forall t, In t ts -> P (tk_ty t)) -> forall t n, In (t, n) l -> P t.
Proof.
  intros g txt P C off l ts H. induction H as [off|off t l ts _ IH|off i j ty ctx gr l ts R T _ _ _ IH]; intros TS u n J; [destruct J| |].
  - destruct J as [J|J]; [injection J as <- <-; apply TS; left; reflexivity|]. apply (IH (fun x I => TS x (or_intror I)) u n J).
  - destruct J as [J|J]; [injection J as <- <-; exact (C i j ctx ty R T)|]. apply (IH (fun x I => TS x (in_or_app _ _ _ (or_intror I))) u n J).
Qed.

Lemma contextual_types : forall i j ctx t, nth_error (g_rules fall_grammar) i = Some (EContextual j ctx) -> nth_error (g_types fall_grammar) j = Some t -> token_type t.
Proof.
  intros i j ctx t R T.
  assert (C : forallb (fun x => match x with EContextual j _ => match nth_error (g_types fall_grammar) j with Some t => (100 <=? t) && (t <=? 130) | None => true end | _ => true end) (g_rules fall_grammar) = true) by (vm_compute; reflexivity).
  rewrite forallb_forall in C. apply nth_error_In in R. apply C in R. rewrite T in R. apply andb_true_iff in R. rewrite !Nat.leb_le in R. right. exact R.
Qed.

Section Nested.
  Variable f : file.
  Variable T : tree.
  Hypothesis WF : wf_file f T.
  Variable ws : nat -> bool.
  Variable A : nesting.
  Hypothesis NS : Forall (nested A) (bare ws T).

  Lemma nested_at : forall n p pa x, At T n p pa x -> Forall (nested A) (bare ws x).
  Proof.
    induction 1 as [|i p pa t pre c post AT IH]; [exact NS|]. cbn [bare] in IH. inversion IH as [|? ? X _]; subst.
    assert (K : Forall (nested A) (flat_map (bare ws) (pre ++ c :: post))).
    { remember (flat_map (bare ws) (pre ++ c :: post)) as W eqn:EW. clear EW. inversion X as [|tys|? ? _ _ K]; subst; [|exact K].
      apply Forall_forall. intros y J. apply in_map_iff in J. destruct J as (u & <- & _). constructor. }
    rewrite flat_map_app in K. apply Forall_app in K. destruct K as (_ & K). cbn [flat_map] in K. apply Forall_app in K. exact (proj1 K).
  Qed.

  (** A child that is a node. *)
  Lemma nested_child : forall n p pa t cs u ks, At T n p pa (Node t cs) -> In (Node u ks) cs -> t <> ERROR /\ (u = ERROR \/ may_hold A t u).
  Proof.
    intros n p pa t cs u ks AT J. pose proof (nested_at _ _ _ _ AT) as X. cbn [bare] in X. inversion X as [|? ? Y _]; subst.
    assert (I : In (DNode u (flat_map (bare ws) ks)) (flat_map (bare ws) cs)) by (apply in_flat_map; exists (Node u ks); split; [exact J|left; reflexivity]).
    remember (flat_map (bare ws) cs) as W eqn:EW. clear EW. inversion Y as [|tys|? ? NE K _]; subst.
    - exfalso. apply in_map_iff in I. destruct I as (v & E & _). discriminate E.
    - split; [exact NE|exact (K _ _ I)].
  Qed.
End Nested.

Lemma nest_file : forall L fuel txt f inc, l_g L = fall_grammar -> (forall t, l_ws L t = fall_ws t) ->
  progressing (l_lexer L) -> (forall b r, l_ws L (tk_ty (l_lexer L (b :: r))) = true -> blank b = true) ->
  (forall s, s <> [] -> token_type (tk_ty (l_lexer L s))) ->
  (forall ty sp b, l_binder L ty sp b <= length sp) ->
  parse_file L fuel txt = Ok (f, inc) ->
  exists T, wf_file f T /\ f_text f = txt /\ nested_file f /\
    ((forall toks k, lex (l_lexer L) txt = Ok toks -> aligned txt (lens (firstn k toks))) -> char_tree (f_text f) T).
Proof.
  intros L fuel txt f inc EG EW PR BL TT LB H. destruct (C28_shipped fall_grammar sh_fall) as ((c & WFG) & PL).
  assert (PS : proper_spellings (l_g L) (l_ws L)).
  { rewrite EG. intros e ty text R. assert (C : forallb (fun x => match x with EContextual ty text => negb (length text =? 0) && match nth_error (g_types fall_grammar) ty with Some t => negb (fall_ws t) | None => true end | _ => true end) (g_rules fall_grammar) = true) by (vm_compute; reflexivity).
    rewrite forallb_forall in C. apply nth_error_In in R. apply C in R. apply andb_true_iff in R. destruct R as (A & B). split; [intros ->; discriminate A|].
    intros t N. unfold gtype in N. rewrite N in B. rewrite EW. apply negb_true_iff. exact B. }
  destruct (parsed L c fuel txt f inc ltac:(rewrite EG; exact WFG) ltac:(rewrite EG; exact PL) PS PR BL LB H) as (T & d & toks & WF & TX & B & DV & LX & TK & SP).
  rewrite EG in *.
  assert (R0 : grule fall_grammar 0 (EPub 32 37 false)) by (vm_compute; reflexivity).
  assert (T0 : gtype fall_grammar 32 FALL_FILE) by (vm_compute; reflexivity).
  assert (K0 : exists l, known fall_nest_table 0 no_args = Some l) by (eexists; vm_compute; reflexivity). destruct K0 as (l0 & K0).
  destruct (nest_tree fall_nesting fall_grammar fall_nest_table fall_nest_ok false d l0 32 37 FALL_FILE R0 T0 K0 DV) as (ND & cs & ED).
  assert (NS : Forall (nested fall_nesting) (bare (l_ws L) T)) by (rewrite B; constructor; [exact ND|constructor]).
  exists T. split; [exact WF|]. split; [exact TX|]. split; [|intros AL; subst txt; exact (parsed_chars _ _ _ _ SP (fun k => AL toks k LX))]. split.
  - rewrite (node_ty f T WF _ _ _ _ (At_root T)). rewrite <- (bare_types (l_ws L) T d); [rewrite ED; reflexivity|rewrite B; left; reflexivity].
  - intros n p V E. destruct (node_at f T WF n V) as (o & pa & x & AT). rewrite (node_par f T WF _ _ _ _ AT) in E. subst pa.
    inversion AT as [|i q qa t pre c' post AP]; subst. pose proof (node_ty f T WF _ _ _ _ AT) as TX. pose proof (node_ty f T WF _ _ _ _ AP) as TP. cbn [t_ty] in TP. rewrite TX, TP.
    destruct x as [u n|u ks].
    + left. split.
      * unfold kids, at_node. rewrite (node_data f T WF _ _ _ _ AT). reflexivity.
      * cbn [t_ty]. destruct (At_leaves _ _ _ _ _ AT) as (l1 & l2 & EL & _). cbn [leaves app] in EL.
        apply (spells_types fall_grammar _ token_type contextual_types _ _ _ SP) with (n := n).
        -- intros t' J. destruct (tokenizes_types _ _ _ _ TK J) as (s & NE & ->). exact (TT s NE).
        -- rewrite EL. apply in_or_app. right. left. reflexivity.
    + right. exact ((nested_child T (l_ws L) fall_nesting NS _ _ _ _ _ u ks AP ltac:(apply in_or_app; right; left; reflexivity))).
Qed.
