(** Highlighting a grammar file. *)
From Coq Require Import List Arith Bool Lia.
From Verif Require Import Base BaseFacts TextModel TreeModel SearchModel LexModel EditorModel DbModel AnalysisModel
  TextSpec TreeSpec SearchSpec FileEditSpec EditorSpec AnalysisSpec RefSpec TextProofs TreeProofs SearchProofs TraversalProofs EditorProofs ViewProofs RefProofs
  FallEditModel FallEditProofs FallHlSpec.
Import ListNotations.

Section Proofs.
  Variables (f : file) (T : tree).
  Hypothesis WF : wf_file f T.
  Hypothesis CT : char_tree (f_text f) T.
  Hypothesis CO : complete f.
  Variable ask : key -> res value.
  Hypothesis HON : honest f ask.
  Notation nodes := (f_nodes f).
  Let ST : stores nodes T := proj1 WF.

  Lemma color_of : forall t, tag_of hl_tag fall_hl_map t = type_color t.
  Proof.
    intros t. destruct (Nat.lt_ge_cases t 200) as [L|L].
    - assert (C : forallb (fun t => match tag_of hl_tag fall_hl_map t, type_color t with
          | None, None | Some HComment, Some HComment | Some HString, Some HString | Some HKeyword, Some HKeyword
          | Some HParameter, Some HParameter | Some HAttribute, Some HAttribute => true | _, _ => false end) (seq 0 200) = true) by (vm_compute; reflexivity).
      rewrite forallb_forall in C. specialize (C t ltac:(apply in_seq; lia)). cbv beta in C.
      destruct (tag_of hl_tag fall_hl_map t) as [[]|], (type_color t) as [[]|]; try discriminate C; reflexivity.
    - unfold tag_of, fall_hl_map, type_color. cbn [find_first snd existsb].
      repeat match goal with |- context [t =? ?k] => replace (t =? k) with false by (symmetry; apply Nat.eqb_neq; unfold HASH_STRING, SIMPLE_STRING, PUB, PARAMETER, ATTRIBUTES; lia) end.
      replace (t <=? 110) with false by (symmetry; apply Nat.leb_gt; lia). rewrite andb_false_r. reflexivity.
  Qed.

  Lemma visit_mark : forall n ctx, valid f n -> hl_visit nodes hl_tag HError ERROR fall_hl_map n ctx = Ok (ctx ++ type_mark f n).
  Proof.
    intros n ctx V. unfold hl_visit, type_mark. rewrite (ty_v f n V). cbn [bind]. destruct (ty f n =? ERROR).
    - rewrite (rng_v f n V). cbn [bind]. unfold range_is_empty, from_len. pose proof (rng_in f T WF n V) as R. destruct (rstart (rng f n) =? rend (rng f n)) eqn:E; cbn [bind].
      + apply Nat.eqb_eq in E. rewrite from_to_ok by lia. cbn [bind]. rewrite Nat.max_l by lia. rewrite Nat.add_1_r. reflexivity.
      + apply Nat.eqb_neq in E. rewrite Nat.max_r by lia. destruct (rng f n); reflexivity.
    - rewrite color_of. destruct (type_color (ty f n)); [|rewrite app_nil_r; reflexivity]. unfold hl. rewrite (rng_v f n V). reflexivity.
  Qed.

  Lemma part_ok : forall n t c ctx, valid f n -> colorize_child f n t c ctx = Ok (ctx ++ part_mark f n t c).
  Proof.
    intros n t c ctx V. unfold colorize_child, part_mark. rewrite (child_of_type_v f T WF t n V). cbn [bind]. destruct (kid f t n) as [m|] eqn:K; [|rewrite app_nil_r; reflexivity].
    unfold hl. rewrite (rng_v f m (kid_valid f T WF _ _ _ K)). reflexivity.
  Qed.

  Lemma builtin_kind : forall n k ds, call_means f n (Some k) ds -> (is_builtin f n <-> forall r args, k <> CkRuleCall r args).
  Proof.
    intros n k ds M.
    assert (ID : forall s, named f s n -> In s builtins -> (forall r args, k <> CkRuleCall r args) -> is_builtin f n <-> (forall r args, k <> CkRuleCall r args)).
    { intros s N I X. split; [intros _; exact X|]. intros _. exists s. auto. }
    inversion M; subst; try solve [eapply ID; [eassumption|unfold builtins; cbn; tauto|intros; discriminate]].
    split; [intros (s & N & I)|intros X; exfalso; eapply X; reflexivity].
    match goal with H : calls_rule f n _ |- _ => destruct H as (s' & N' & NI & _) end. unfold named in N. rewrite N in N'. injection N' as <-. contradiction.
  Qed.

  Lemma node_color_ok : forall n ctx, valid f n -> exists ms, name_marks f n ms /\
    (t <- node_ty nodes n ;;
      if t =? LEX_RULE then colorize_child f n IDENT HLiteral ctx
      else if (t =? SYN_RULE) || (t =? AST_NODE_DEF) || (t =? AST_TRAIT_DEF) || (t =? AST_CLASS_DEF) then colorize_child f n IDENT HFunction ctx
      else if t =? REF_EXPR then hl_ref f ask n ctx
      else if t =? METHOD_DEF then hl_method f ask n ctx
      else if t =? CALL_EXPR then hl_call f ask n ctx
      else Ok ctx) = Ok (ctx ++ ms).
  Proof.
    intros n ctx V. rewrite (ty_v f n V). cbn [bind].
    destruct (ty f n =? LEX_RULE) eqn:E1; [apply Nat.eqb_eq in E1; eexists; split; [apply nm_token; exact E1|apply part_ok; exact V]|].
    destruct ((ty f n =? SYN_RULE) || (ty f n =? AST_NODE_DEF) || (ty f n =? AST_TRAIT_DEF) || (ty f n =? AST_CLASS_DEF)) eqn:E2.
    { eexists; split; [apply nm_definition|apply part_ok; exact V]. rewrite !orb_true_iff, !Nat.eqb_eq in E2. cbn [In]. intuition auto. }
    destruct (ty f n =? REF_EXPR) eqn:E3.
    { apply Nat.eqb_eq in E3. destruct (ask_ref f T WF CT CO ask HON n (conj V E3)) as (o & EA & R). unfold hl_ref. rewrite EA. cbn [bind]. destruct o as [k|].
      - exists [(rng f n, reference_color k)]. split; [apply nm_reference; assumption|]. unfold hl. rewrite (rng_v f n V). destruct k; reflexivity.
      - exists []. split; [apply nm_unresolved; assumption|rewrite app_nil_r; reflexivity]. }
    destruct (ty f n =? METHOD_DEF) eqn:E4.
    { apply Nat.eqb_eq in E4. destruct (ask_method f T WF CT CO ask HON n (conj V E4)) as (o & EA & R). unfold hl_method. rewrite EA. cbn [bind].
      destruct o as [[k a|x a]|]; [|exists []; split; [eapply nm_other_method; eauto; discriminate|rewrite app_nil_r; reflexivity]..].
      destruct (kid f AST_SELECTOR n) as [sel|] eqn:K; [|exfalso; apply (co_selector f CO n (conj V E4)); exact K].
      exists (part_mark f sel IDENT (selection_color k)). split; [eapply nm_method; eauto|].
      rewrite (ast_child_v f T WF AST_SELECTOR n V), K. cbn [bind unwrap]. pose proof (kid_valid f T WF _ _ _ K) as VS. destruct k; apply part_ok; exact VS. }
    destruct (ty f n =? CALL_EXPR) eqn:E5.
    { apply Nat.eqb_eq in E5. destruct (ask_call f T WF CT CO ask HON n (conj V E5)) as (o & ds & EA & M). unfold hl_call. rewrite EA. cbn [bind].
      assert (G : forall g, (c1 <- colorize_child f n IDENT g ctx ;; c2 <- colorize_child f n L_ANGLE g c1 ;; colorize_child f n R_ANGLE g c2)
        = Ok (ctx ++ part_mark f n IDENT g ++ part_mark f n L_ANGLE g ++ part_mark f n R_ANGLE g)).
      { intros g. rewrite (part_ok _ _ _ _ V). cbn [bind]. rewrite (part_ok _ _ _ _ V). cbn [bind]. rewrite (part_ok _ _ _ _ V). rewrite <- !app_assoc. reflexivity. }
      rewrite G. eexists. split; [|reflexivity]. destruct o as [k|]; [|eapply nm_call; eauto].
      pose proof (builtin_kind n k ds M) as B. destruct k; try solve [eapply nm_builtin; eauto; apply B; intros; discriminate].
      eapply nm_call; eauto. right. intros X. eapply (proj1 B X); reflexivity. }
    exists []. split; [|rewrite app_nil_r; reflexivity]. apply nm_other. rewrite !orb_false_iff, !Nat.eqb_neq in E2. apply Nat.eqb_neq in E1, E3, E4, E5. cbn [In]. intuition congruence.
  Qed.

  Lemma highlight_colors : exists mss, Forall2 (colors f) (post T 0) mss /\ fall_highlight f ask = Ok (concat mss).
  Proof.
    unfold fall_highlight, root. rewrite (bottom_up_ok nodes T ST _ _ _ _ _ _ _ (At_root T)).
    assert (G : forall l acc, (forall n, In n l -> valid f n) -> exists mss, Forall2 (colors f) l mss /\
      fold_res (fun ctx n =>
        c <- hl_visit nodes hl_tag HError ERROR fall_hl_map n ctx ;;
        t <- node_ty nodes n ;;
        if t =? LEX_RULE then colorize_child f n IDENT HLiteral c
        else if (t =? SYN_RULE) || (t =? AST_NODE_DEF) || (t =? AST_TRAIT_DEF) || (t =? AST_CLASS_DEF) then colorize_child f n IDENT HFunction c
        else if t =? REF_EXPR then hl_ref f ask n c
        else if t =? METHOD_DEF then hl_method f ask n c
        else if t =? CALL_EXPR then hl_call f ask n c
        else Ok c) acc l = Ok (acc ++ concat mss)).
    { induction l as [|n l IH]; intros acc VL; [exists []; split; [constructor|cbn; rewrite app_nil_r; reflexivity]|].
      assert (V : valid f n) by (apply VL; left; reflexivity). cbn [fold_res]. rewrite (visit_mark n acc V). cbn [bind].
      destruct (node_color_ok n (acc ++ type_mark f n) V) as (ms & NM & E). rewrite E. cbn [bind].
      destruct (IH ((acc ++ type_mark f n) ++ ms)) as (mss & F & E'); [intros x I; apply VL; right; exact I|].
      exists ((type_mark f n ++ ms) :: mss). split; [constructor; [exists ms; auto|exact F]|]. rewrite E'. cbn [concat]. rewrite <- !app_assoc. reflexivity. }
    destruct (G (post T 0) []) as (mss & F & E); [|exists mss; split; [exact F|exact E]].
    intros n I. apply post_in in I. destruct (At_total T n ltac:(lia)) as (p & q & t & A). exact (at_valid f T WF _ _ _ _ A).
  Qed.
End Proofs.
