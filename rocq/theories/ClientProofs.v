(** The editor's edits and ranges in ASCII documents. *)
From Coq Require Import List Arith Bool Lia.
From Verif Require Import Base BaseFacts EditorSpec TextModel EditModel TextSpec TextProofs LexModel LexSpec LexProofs TreeModel TreeSpec TreeProofs SearchProofs FileEditModel FileEditSpec FileEditProofs
  GrammarModel ParserModel ConvertModel LeafSpec LeafProofs GrammarData AnalysisModel AnalysisSpec WellFormed PropsCheck DeriveSpec DeriveProofs ShapeCheck NestCheck FallNest CompleteProofs NestProofs
  FormatModel FormatSpec FormatProofs ScanSpec SessionModel SessionSpec SessionProofs ClientModel ClientSpec.
Import ListNotations.

Lemma before_ascii : forall d o, ascii_document d -> before d o = firstn o d.
Proof.
  intros d o H. revert o. induction H as [|c d E F IH]; intros o; cbn [before]; [destruct o; reflexivity|]. rewrite E. cbn [Nat.eqb]. destruct o as [|o]; [reflexivity|].
  cbn [Nat.leb firstn]. rewrite Nat.sub_succ, Nat.sub_0_r, IH. reflexivity.
Qed.
Lemma before_length : forall d o, ascii_document d -> o <= length (contents d) -> length (contents (before d o)) = o.
Proof.
  intros d o H LE. rewrite (before_ascii _ _ H). destruct (ascii_lengths _ H) as (_ & EL).
  assert (X : ascii_document (firstn o d)). { unfold ascii_document in *. rewrite <- (firstn_skipn o d) in H. apply Forall_app in H. exact (proj1 H). }
  destruct (ascii_lengths _ X) as (_ & Y). rewrite Y, firstn_length. lia.
Qed.
Lemma position_ascii : forall d o, ascii_document d -> o <= length (contents d) -> position_at d o = o.
Proof. intros d o H LE. unfold position_at. destruct (ascii_lengths _ H) as (U & EL). rewrite U. lia. Qed.
Lemma range_ascii : forall d r, ascii_document d -> rstart r <= rend r -> rend r <= length (contents d) -> to_vs_range d r = (rstart r, rend r).
Proof. intros d r H P LE. unfold to_vs_range. rewrite !position_ascii by (auto; lia). reflexivity. Qed.

Lemma ordered_within : forall rs p n r, ordered p n rs -> In r rs -> r_from r <= n /\ r_to r <= n.
Proof.
  induction rs as [|x rs IH]; intros p n r H J; [destruct J|]. cbn [ordered] in H. destruct H as (H1 & H2 & H3). destruct J as [<-|J]; [|exact (IH _ _ _ H3 J)].
  assert (LE : r_to x <= n). { clear -H3. revert H3. generalize (r_to x) as p. induction rs as [|y rs IH]; intros p H; cbn [ordered] in H; [exact H|]. destruct H as (A & B & C). specialize (IH _ C). lia. }
  lia.
Qed.

(** In an ASCII document the editor does what [apply] does, for any segments whose copies go to the end. *)
Lemma client_ok : forall d ops, ascii_document d -> ops_ordered 0 (length (contents d)) ops -> ops_aligned (contents d) ops ->
  exists js, edits_of d ops = Ok js /\ apply ops (as_text (contents d)) = Ok (after_edits d js).
Proof.
  intros d ops AS O A. destruct (to_vs_ok (contents d) ops 0 O A (or_introl eq_refl)) as (es & E & O' & R & AP). unfold edits_of, to_vs_edits. rewrite E. cbn [bind].
  eexists. split; [reflexivity|]. rewrite AP. f_equal. unfold after_edits, client_edits. fold (contents d). f_equal. rewrite map_map. apply map_ext_in. intros e J. cbn [fst snd].
  destruct (ordered_within _ _ _ (repl_of_vs e) O' (in_map _ _ _ J)) as (L1 & L2). cbn [repl_of_vs r_from r_to] in L1, L2. unfold to_vs_range. cbn [fst snd].
  rewrite !position_ascii by assumption. fold (contents (before d (rstart (vs_delete e)))) (contents (before d (rend (vs_delete e)))). rewrite !before_length by assumption. reflexivity.
Qed.

Lemma leaves_text : forall t, ltext t = flat_map snd (lleaves t).
Proof.
  intros t. induction t as [ty s|ty cs F] using ltree_ind'; cbn [ltext lleaves flat_map snd]; [rewrite app_nil_r; reflexivity|].
  induction F as [|c r H F IH]; [reflexivity|]. cbn [flat_map]. rewrite flat_map_app, H, IH. reflexivity.
Qed.

Lemma has_range_in : forall T n r, EditorSpec.has_range T n r -> rstart r <= rend r /\ rend r <= tlen T.
Proof.
  intros T n r (p & q & t & A & ->). apply AtG_At in A. apply AtG_bounds in A. cbn [rstart rend]. lia.
Qed.

(** ** Whitespace in parsed grammar files is a token *)

Lemma leaves_ws : forall f T, (forall n p pa t cs, At T n p pa (Node t cs) -> t <> F_WHITESPACE) -> forall x n p pa q, At T n p pa x -> ws_leaves (label (f_text f) x q).
Proof.
  intros f T H x. induction x as [ty k|ty ts F] using tree_ind'; intros n p pa q AT; [constructor|]. rewrite label_node. constructor; [exact (H _ _ _ _ _ AT)|].
  assert (G : forall pre post r, ts = pre ++ post -> Forall ws_leaves (labels f post r)); [|exact (G [] ts q eq_refl)].
  intros pre post. revert pre. induction post as [|c post IH]; intros pre r E; cbn [labels]; constructor.
  - rewrite E in AT. rewrite Forall_forall in F. apply (F c ltac:(rewrite E; apply in_or_app; right; left; reflexivity) _ _ _ _ (At_child _ _ _ _ _ _ _ _ AT)).
  - apply (IH (pre ++ [c])). rewrite E, <- app_assoc. reflexivity.
Qed.

Lemma parsed_ws : forall L fuel txt f inc, l_g L = fall_grammar -> (forall t, l_ws L t = fall_ws t) ->
  progressing (l_lexer L) -> (forall b r, l_ws L (tk_ty (l_lexer L (b :: r))) = true -> PropsCheck.blank b = true) ->
  (forall ty sp b, l_binder L ty sp b <= length sp) ->
  parse_file L fuel txt = Ok (f, inc) -> (forall toks k, lex (l_lexer L) txt = Ok toks -> aligned txt (lens (firstn k toks))) ->
  exists T, wf_file f T /\ f_text f = txt /\ char_tree (f_text f) T /\ ws_leaves (label (f_text f) T 0).
Proof.
  intros L fuel txt f inc EG EW PR BL LB H AL. destruct (C28_shipped fall_grammar sh_fall) as ((c & WFG) & PL).
  assert (PS : proper_spellings (l_g L) (l_ws L)).
  { rewrite EG. intros e ty text R. assert (C : forallb (fun x => match x with EContextual ty text => negb (length text =? 0) && match nth_error (g_types fall_grammar) ty with Some t => negb (fall_ws t) | None => true end | _ => true end) (g_rules fall_grammar) = true) by (vm_compute; reflexivity).
    rewrite forallb_forall in C. apply nth_error_In in R. apply C in R. apply andb_true_iff in R. destruct R as (A & B). split; [intros ->; discriminate A|].
    intros t N. unfold gtype in N. rewrite N in B. rewrite EW. apply negb_true_iff. exact B. }
  destruct (parsed L c fuel txt f inc ltac:(rewrite EG; exact WFG) ltac:(rewrite EG; exact PL) PS PR BL LB H) as (T & d & toks & WF & TX & B & DV & LX & TK & SP).
  rewrite EG in *.
  assert (R0 : grule fall_grammar 0 (EPub 32 37 false)) by (vm_compute; reflexivity).
  assert (T0 : gtype fall_grammar 32 FALL_FILE) by (vm_compute; reflexivity).
  assert (K0 : exists l, NestCheck.known fall_nest_table 0 no_args = Some l) by (eexists; vm_compute; reflexivity). destruct K0 as (l0 & K0).
  destruct (nest_tree fall_nesting fall_grammar fall_nest_table fall_nest_ok false d l0 32 37 FALL_FILE R0 T0 K0 DV) as (ND & cs & ED).
  assert (NS : Forall (nested fall_nesting) (bare (l_ws L) T)) by (rewrite B; constructor; [exact ND|constructor]).
  exists T. split; [exact WF|]. split; [exact TX|]. split; [subst txt; exact (parsed_chars _ _ _ _ SP (fun k => AL toks k LX))|].
  apply (leaves_ws f T) with (n := 0) (p := 0) (pa := None); [|apply At_root]. intros n p pa t ks AT. inversion AT as [|i q qa u pre x post AP]; subst.
  - assert (X : t_ty (Node t ks) = FALL_FILE). { rewrite <- (bare_types (l_ws L) (Node t ks) (DNode FALL_FILE cs)); [reflexivity|rewrite B; left; reflexivity]. }
    cbn [t_ty] in X. rewrite X. discriminate.
  - destruct (nested_child T (l_ws L) fall_nesting NS _ _ _ _ _ t ks AP ltac:(apply in_or_app; right; left; reflexivity)) as (_ & [-> | (l & J & K)]); [discriminate|].
    assert (C : forallb (fun x => forallb (fun c => negb (c =? F_WHITESPACE)) (snd x)) fall_nesting = true) by (vm_compute; reflexivity).
    rewrite forallb_forall in C. specialize (C _ J). cbn [snd] in C. rewrite forallb_forall in C. specialize (C _ K). apply negb_true_iff, Nat.eqb_neq in C. exact C.
Qed.
