(** C37: reformatting a grammar file. *)
From Coq Require Import List Arith Bool Lia String.
From Verif Require Import Base TextModel EditModel TreeModel FormatModel TextSpec TreeSpec FileEditSpec FormatSpec FormatProofs FallLang FallCheck.
Import ListNotations.
Open Scope list_scope.

(** The edit the formatter returns turns the text into the text of the formatted tree. *)
Theorem C37_exact : forall f T, wf_file f T -> char_tree (f_text f) T ->
  exists ops, reformat f = Ok ops /\ apply ops (as_text (f_text f)) = Ok (ltext (formatted (label (f_text f) T 0))).
Proof. exact reformat_result. Qed.
Print Assumptions C37_exact.

(** Tokens that are not whitespace and whitespace with a line break survive, in the same order; all that changes is
    whitespace within a line. *)
Theorem C37_content : forall f T, wf_file f T -> char_tree (f_text f) T -> ws_leaves (label (f_text f) T 0) ->
  exists ops T', reformat f = Ok ops /\ apply ops (as_text (f_text f)) = Ok (ltext T') /\
    ltext T' = flat_map snd (lleaves T') /\
    filter solid (lleaves T') = filter solid (lleaves (label (f_text f) T 0)) /\
    flat_map snd (lleaves (label (f_text f) T 0)) = f_text f.
Proof.
  intros f T WF CT W. destruct (C37_exact f T WF CT) as (ops & E & A). exists ops, (formatted (label (f_text f) T 0)).
  assert (LT : forall t, ltext t = flat_map snd (lleaves t)).
  { intros t. induction t as [ty s|ty cs F] using ltree_ind'; cbn [ltext lleaves flat_map snd]; [rewrite app_nil_r; reflexivity|].
    induction F as [|c r H F IH]; [reflexivity|]. cbn [flat_map]. rewrite flat_map_app, H, IH. reflexivity. }
  split; [exact E|]. split; [exact A|]. split; [apply LT|]. split; [apply formatted_solid; exact W|].
  rewrite <- LT, label_text by (rewrite (proj2 WF); lia). rewrite (proj2 WF). unfold sub. cbn [skipn]. rewrite Nat.sub_0_r. apply firstn_all.
Qed.
Print Assumptions C37_content.

(** Where no pipe stands directly inside an angle bracket and whitespace comes in single tokens, the result is spaced as the rules say. *)
Theorem C37_spacing : forall f T, wf_file f T -> char_tree (f_text f) T -> ws_leaves (label (f_text f) T 0) -> calm (label (f_text f) T 0) ->
  exists ops T', reformat f = Ok ops /\ apply ops (as_text (f_text f)) = Ok (ltext T') /\ well_spaced T'.
Proof.
  intros f T WF CT W C. destruct (C37_exact f T WF CT) as (ops & E & A). exists ops, (formatted (label (f_text f) T 0)).
  split; [exact E|]. split; [exact A|]. apply formatted_spaced; assumption.
Qed.
Print Assumptions C37_spacing.

(** A file that is spaced as the rules say is left as it is. *)
Theorem C37_stable : forall f T, wf_file f T -> char_tree (f_text f) T -> well_spaced (label (f_text f) T 0) ->
  exists ops, reformat f = Ok ops /\ apply ops (as_text (f_text f)) = Ok (f_text f).
Proof.
  intros f T WF CT W. destruct (C37_exact f T WF CT) as (ops & E & A). exists ops. split; [exact E|]. rewrite A, (well_spaced_stays _ W). f_equal.
  rewrite label_text by (rewrite (proj2 WF); lia). rewrite (proj2 WF). unfold sub. cbn [skipn]. rewrite Nat.sub_0_r. apply firstn_all.
Qed.
Print Assumptions C37_stable.

(** Formatting twice.  [f'] is the formatted file.  If parsing it gives back the tree that was formatted, with the new whitespace in
    place, the second time changes nothing.  The parser need not give back this tree: see the refutations below. *)
Theorem C37_twice : forall f T f' T', wf_file f T -> char_tree (f_text f) T -> wf_file f' T' -> char_tree (f_text f') T' ->
  ws_leaves (label (f_text f) T 0) -> calm (label (f_text f) T 0) ->
  label (f_text f') T' 0 = formatted (label (f_text f) T 0) ->
  exists ops ops', reformat f = Ok ops /\ apply ops (as_text (f_text f)) = Ok (f_text f') /\
    reformat f' = Ok ops' /\ apply ops' (as_text (f_text f')) = Ok (f_text f').
Proof.
  intros f T f' T' WF CT WF' CT' W C E. destruct (C37_exact f T WF CT) as (ops & R & A). exists ops.
  assert (WS : well_spaced (label (f_text f') T' 0)) by (rewrite E; apply formatted_spaced; assumption).
  destruct (C37_stable f' T' WF' CT' WS) as (ops' & R' & A'). exists ops'. split; [exact R|]. split; [|split; assumption].
  rewrite A, <- E. f_equal. rewrite label_text by (rewrite (proj2 WF'); lia). rewrite (proj2 WF'). unfold sub. cbn [skipn]. rewrite Nat.sub_0_r. apply firstn_all.
Qed.
Print Assumptions C37_twice.

(** *** A file that meets all the hypotheses *)
Definition loose : file := fall_file "tokenizer { number r'\d+' }
rule foo { x|y  |z <  eof  > }
rule bar { foo | bar
  | number }
".
Definition tidy : file := fall_file "tokenizer { number r'\d+' }
rule foo { x | y | z <eof> }
rule bar { foo | bar
  | number }
".

Example C37_case :
  wf_file loose (tree_of loose) /\ char_tree (f_text loose) (tree_of loose) /\
  wf_file tidy (tree_of tidy) /\ char_tree (f_text tidy) (tree_of tidy) /\
  ws_leaves (label (f_text loose) (tree_of loose) 0) /\ calm (label (f_text loose) (tree_of loose) 0) /\
  label (f_text tidy) (tree_of tidy) 0 = formatted (label (f_text loose) (tree_of loose) 0) /\
  f_text tidy <> f_text loose /\ well_spaced (label (f_text tidy) (tree_of tidy) 0).
Proof.
  assert (W1 : wf_file loose (tree_of loose)) by (apply wf_check; vm_compute; reflexivity).
  assert (W2 : wf_file tidy (tree_of tidy)) by (apply wf_check; vm_compute; reflexivity).
  assert (K : calm_b (label (f_text loose) (tree_of loose) 0) = true) by (vm_compute; reflexivity). destruct (calm_check _ K) as (K1 & K2).
  assert (E : label (f_text tidy) (tree_of tidy) 0 = formatted (label (f_text loose) (tree_of loose) 0)) by (vm_compute; reflexivity).
  split; [exact W1|]. split; [apply ascii_tree; [exact W1|vm_compute; repeat constructor]|].
  split; [exact W2|]. split; [apply ascii_tree; [exact W2|vm_compute; repeat constructor]|].
  split; [exact K2|]. split; [exact K1|]. split; [exact E|]. split; [intros X; vm_compute in X; discriminate X|].
  rewrite E. apply formatted_spaced; assumption.
Qed.

(** *** Formatting is not idempotent *)
Definition text_after (f : file) : res bytes := ops <- reformat f ;; apply ops (as_text (f_text f)).

(** A leading pipe: the space before it grows each time, because an empty alternative stands before the pipe. *)
Theorem C37_idempotent_refuted :
  ~ (forall s s', text_after (fall_file s) = Ok (text_of s') -> text_after (fall_file s') = Ok (text_of s')).
Proof.
  intros H. specialize (H "rule foo { | x }" "rule foo {  | x }")%string.
  assert (A : text_after (fall_file "rule foo { | x }") = Ok (text_of "rule foo {  | x }")) by (vm_compute; reflexivity).
  specialize (H A). vm_compute in H. discriminate H.
Qed.
Print Assumptions C37_idempotent_refuted.

(** A pipe directly inside angle brackets: the rules undo each other, and formatting goes back and forth. *)
Theorem C37_clash_refuted :
  let s := "rule foo { < | > }"%string in let s' := "rule foo { <|> }"%string in
  text_after (fall_file s) = Ok (text_of s') /\ text_after (fall_file s') = Ok (text_of s).
Proof. split; vm_compute; reflexivity. Qed.
Print Assumptions C37_clash_refuted.
