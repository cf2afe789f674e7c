(** The providers of the fall plugin work on the file of the current text. *)
From Coq Require Import List Arith Bool Lia.
From Verif Require Import Base BaseFacts TextModel TextSpec TextProofs EditModel LexModel LexSpec ScanSpec TreeModel TreeSpec FileEditModel FileEditSpec FileEditProofs
  GrammarModel GrammarData ParserModel ConvertModel ReparseModel DbModel AnalysisModel AnalysisSpec RefModel RefSpec EditorModel FallEditModel PropsCheck PropsComplete PropsNest
  RegexModel RegexSpec RegexProofs LexData FallLang PropsRegex PropsRelex PropsCached SessionModel SessionSpec SessionProofs PropsSession ClientModel ClientSpec ClientProofs PropsFallEdit ScreenProofs FeatureModel.
Import ListNotations.
Open Scope list_scope.

(** Every edit an action makes is an edit of the tree. *)
Ltac through H := repeat (match type of H with
  | bind ?e _ = _ => let E := fresh "E" in destruct e eqn:E; try discriminate H; cbn [bind] in H
  | match ?o with Some _ => _ | None => _ end = _ => destruct o; try discriminate H
  | (let '(_, _) := ?p in _) = _ => destruct p
  | (if ?c then _ else _) = _ => destruct c; try discriminate H end).
Ltac made X Y := through X; injection X as <-; try discriminate Y; cbn [into_edit] in Y; injection Y as <-; eexists; eassumption.

Lemma action_tree_edit : forall f ws r id ops, apply_context_action f ws r id = Ok (Some ops) -> exists e, into_text_edit f e = Ok ops.
Proof.
  intros f ws r id ops H. unfold apply_context_action in H.
  assert (SW : forall o b a, swap f ws o b = Ok (Some a) -> forall ops, into_edit a = Ok ops -> exists e, into_text_edit f e = Ok ops).
  { intros o b a X ops0 Y. unfold swap in X. made X Y. }
  assert (SA : forall o b a, swap_alternatives f o b = Ok (Some a) -> forall ops, into_edit a = Ok ops -> exists e, into_text_edit f e = Ok ops).
  { intros o b a X ops0 Y. unfold swap_alternatives in X. made X Y. }
  assert (XR : forall o b a, extract_rule f o b = Ok (Some a) -> forall ops, into_edit a = Ok ops -> exists e, into_text_edit f e = Ok ops).
  { intros o b a X ops0 Y. unfold extract_rule in X. made X Y. }
  unfold apply_default_context_action, apply_action, default_actions, fall_actions in H. cbn [find_first fst] in H.
  destruct (bytes_eqb swap_id id).
  { destruct (swap f ws (rstart r) true) as [[a|]| |] eqn:E; try discriminate H; cbn [bind] in H; try discriminate H.
    destruct (into_edit a) as [e| |] eqn:EI; try discriminate H. cbn [bind] in H. injection H as <-. exact (SW _ _ _ E _ EI). }
  cbn [bind] in H. destruct (bytes_eqb swap_alternatives_id id).
  { destruct (swap_alternatives f (rstart r) true) as [[a|]| |] eqn:E; try discriminate H; cbn [bind] in H; try discriminate H.
    destruct (into_edit a) as [e| |] eqn:EI; try discriminate H. cbn [bind] in H. injection H as <-. exact (SA _ _ _ E _ EI). }
  destruct (bytes_eqb extract_rule_id id); [|discriminate H].
  destruct (extract_rule f r true) as [[a|]| |] eqn:E; try discriminate H; cbn [bind] in H; try discriminate H.
  destruct (into_edit a) as [e| |] eqn:EI; try discriminate H. cbn [bind] in H. injection H as <-. exact (XR _ _ _ E _ EI).
Qed.

(** The edits of an action, as the editor makes them. *)
Lemma action_client : forall d f T ws r id ops out, ascii_document d -> f_text f = concat d -> wf_file f T -> char_tree (f_text f) T ->
  apply_context_action f ws r id = Ok (Some ops) -> apply ops (as_text (concat d)) = Ok out -> exists js, edits_of d ops = Ok js /\ after_edits d js = out.
Proof.
  intros d f T ws r id ops out AS TX WF CT H AP. destruct (action_tree_edit f ws r id ops H) as (e & IT). destruct (file_edit_ok f T e WF CT) as (ops' & IT' & _ & O & A).
  assert (ops' = ops) by congruence. subst ops'. rewrite TX in O, A. destruct (client_ok d ops AS O A) as (js & EJ & AJ). exists js. split; [exact EJ|]. unfold contents in AJ. congruence.
Qed.

Lemma range_fits : forall f d r, ascii_document d -> f_text f = concat d -> fits f r -> to_vs_range d r = (rstart r, rend r).
Proof. intros f d r AS TX (P & Q). apply range_ascii; [exact AS|exact P|]. rewrite TX in Q. exact Q. Qed.

Section Fall.
  Variables (U : tables) (err : bytes -> nat) (binder : nat -> list (nat * bytes) -> bool -> nat) (known : nat -> bool).
  Variables (ask : file -> key -> res value) (check : file -> res (list diagnostic)).
  Hypothesis TO : tables_ok U.
  Hypothesis ER : err_ok err.
  Hypothesis BO : forall ty sp b, binder ty sp b <= length sp.
  Let L := fall_shipped U err binder.

  (** The active editor's document, if it is a grammar, has no errors, and its analysis answers. *)
  Definition drawable (fuel : nat) (tx : nat -> document) (active : option nat) : Prop :=
    forall a g inc, active = Some a -> known a = true -> parse_file L fuel (concat (tx a)) = Ok (g, inc) ->
      no_error_nodes g /\ honest g (ask g) /\ exists out, check g = Ok out.

  Lemma draws_fine : forall fuel txt g inc, utf8 txt -> parse_file L fuel txt = Ok (g, inc) -> no_error_nodes g -> honest g (ask g) -> exists hs, fall_highlight g (ask g) = Ok hs.
  Proof.
    intros fuel txt g inc CU P NE HON. destruct (C71_fall U longest err binder TO longest_picks ER BO) as (SF & YT & WH).
    destruct (C59_highlight L txt g (ask g)) as (l & mss & _ & _ & E); [|exact NE|exact HON|exists (concat mss); exact E].
    split; [exact SF|]. split; [exact YT|]. split; [exact (WH _ CU)|]. exists fuel, inc. exact P.
  Qed.

  Lemma fetched : forall tx evs u active, (forall w, characters (tx w)) -> plain (no_bare_raw (l_lexer L)) known tx evs -> known u = true ->
    exists fuel, forall more, exists s s' f inc, handle_all L (Some FALL_FILE) known (fuel + more) (mkSession tx (fun _ => None)) evs = Ok s /\
      parse_file L (fuel + more) (concat (current tx evs u)) = Ok (f, inc) /\ texts s' = current tx evs /\
      (drawable (fuel + more) (current tx evs) active -> fetch L (Some FALL_FILE) known (fuel + more) ask check active s u = Ok (s', Some (f, inc))).
  Proof.
    intros tx evs u active C PL K.
    pose proof (fun fuel0 fuel old f inc ops new x UO FI IU AC P AP PN => C73_total U err binder fuel0 fuel old f inc ops new x TO ER UO FI IU AC P AP PN) as EDITS.
    destruct (handle_all_ok L (Some FALL_FILE) known (no_bare_raw (l_lexer L)) (fall_parses U err binder TO ER BO) (fall_rooted U err binder TO ER BO) EDITS evs tx C PL) as (f1 & H1).
    pose proof (current_characters known (no_bare_raw (l_lexer L)) evs tx C PL) as CC.
    destruct (both_parse L (fall_parses U err binder TO ER BO) _ _ (CC u) (CC (match active with Some a => a | None => 0 end))) as (x & y & f2 & P). exists (f1 + f2). intros more.
    destruct (P (f1 + more)) as (PX & PY). replace (f2 + (f1 + more)) with (f1 + f2 + more) in * by lia. destruct (H1 (f2 + more) (mkSession tx (fun _ => None)) eq_refl) as (s & E & T & F).
    { split; [exact C|]. intros w z Z. discriminate Z. }
    replace (f1 + (f2 + more)) with (f1 + f2 + more) in * by lia. set (F0 := f1 + f2 + more) in *.
    destruct (get_file_ok L (Some FALL_FILE) known (fall_rooted U err binder TO ER BO) F0 active s u F) as (s' & F' & T' & G); [rewrite T; intros a ->; exists y; exact PY|rewrite T; exists x; exact PX|].
    rewrite K in G. destruct G as ([f inc] & PF & G). rewrite T in PF. exists s, s', f, inc. split; [exact E|]. split; [exact PF|]. split; [congruence|]. intros DR. unfold fetch. rewrite G. cbn [bind]. rewrite K.
    destruct (docs s u); [reflexivity|]. destruct active as [a|]; [|reflexivity]. destruct (known a) eqn:KA; [|reflexivity]. destruct (docs s' a) as [[g incg]|] eqn:DA; [|reflexivity].
    destruct (proj2 F' a _ DA) as (_ & PA). rewrite T', T in PA. destruct (DR a g incg eq_refl KA PA) as (NE & HON & out & CK). cbn [fst].
    destruct (draws_fine F0 _ g incg (characters_utf8 _ (CC a)) PA NE HON) as (hs & EH). rewrite EH, CK. reflexivity.
  Qed.

  Lemma fetched_file : forall fuel tx evs u f inc, (forall w, characters (tx w)) -> plain (no_bare_raw (l_lexer L)) known tx evs ->
    parse_file L fuel (concat (current tx evs u)) = Ok (f, inc) -> grammar_file L (concat (current tx evs u)) f /\ f_text f = concat (current tx evs u).
  Proof.
    intros fuel tx evs u f inc C PL P. pose proof (current_characters known (no_bare_raw (l_lexer L)) evs tx C PL) as CC.
    destruct (C71_fall U longest err binder TO longest_picks ER BO) as (SF & YT & WH).
    assert (G : grammar_file L (concat (current tx evs u)) f). { split; [exact SF|]. split; [exact YT|]. split; [exact (WH _ (characters_utf8 _ (CC u)))|]. exists fuel, inc. exact P. }
    split; [exact G|]. destruct (grammar_facts _ _ _ G) as (_ & _ & TX & _). exact TX.
  Qed.
End Fall.
