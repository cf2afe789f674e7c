(** Proofs for C94. *)
From Coq Require Import List Arith Bool Lia.
From Verif Require Import Base BaseFacts TextModel TreeModel SearchModel DbModel GrammarModel AnalysisModel RefModel CodegenModel TextSpec TreeSpec FileEditSpec
  AnalysisSpec RefSpec CodegenSpec ViewProofs MeansFacts AnalysisProofs RefProofs CodegenProofs AstGenSpec AstGenProofs ParserModel ParserProofs SlotSpec.
Import ListNotations.
Open Scope list_scope.

Lemma try_inv : forall A B (x : outcome A) (k : A -> outcome B) b, try x k = Ok (Some b) -> exists a, x = Ok (Some a) /\ k a = Ok (Some b).
Proof. intros A B x k b H. unfold try in H. destruct x as [[a|]| |]; cbn [bind] in H; try discriminate H. exists a. auto. Qed.

Section Keeps.
  Variables (f : file) (ask : key -> res value) (types : list (bytes * bool)).
  Variable G : nat -> Prop.
  Definition fine (x : expr) : Prop := forall i, In i (contexts_in x) -> G i.
  Hypothesis AG : forall n k, node_ty (f_nodes f) n = Ok CALL_EXPR -> CodegenModel.ask_call ask n = Ok (Some k) ->
    match k with CkEnter i _ | CkExit i _ | CkIsIn i => G i | _ => True end.

  Lemma fine_push : forall x tab i tab', done (push x tab) = Ok (Some (i, tab')) -> fine x -> Forall fine tab -> Forall fine tab'.
  Proof. intros x tab i tab' E F A. unfold done, push in E. injection E as _ <-. apply Forall_app. split; [exact A|constructor; [exact F|constructor]]. Qed.
  Lemma fine_none : forall x, contexts_in x = [] -> fine x.
  Proof. intros x E i J. rewrite E in J. destruct J. Qed.
  Lemma fine_one : forall x i, contexts_in x = [i] -> G i -> fine x.
  Proof. intros x i E H j J. rewrite E in J. destruct J as [<-|[]]. exact H. Qed.

  Lemma map_keeps : forall A B (g : A -> list expr -> outcome (B * list expr)),
    (forall a tab b tab', g a tab = Ok (Some (b, tab')) -> Forall fine tab -> Forall fine tab') ->
    forall l tab bs tab', try_map g l tab = Ok (Some (bs, tab')) -> Forall fine tab -> Forall fine tab'.
  Proof.
    intros A B g H l. induction l as [|a l IH]; intros tab bs tab' E F; cbn [try_map] in E.
    - injection E as _ <-. exact F.
    - apply try_inv in E. destruct E as ((b, t1) & E1 & E). apply try_inv in E. destruct E as ((bs', t2) & E2 & E). injection E as _ <-.
      exact (IH t1 bs' t2 E2 (H a tab b t1 E1 F)).
  Qed.

  Lemma expr_keeps : forall fuel n tab i tab', gen_expr f ask types fuel n tab = Ok (Some (i, tab')) -> Forall fine tab -> Forall fine tab'.
  Proof.
    intros fuel. induction fuel as [|fuel IH]; intros n tab i tab' E F; [discriminate E|]. cbn [gen_expr] in E.
    apply bind_ok in E. destruct E as (t & ET & E).
    assert (ONE : forall (c : nat -> expr) e, (forall a, fine (c a)) -> ('(a, tab) <! gen_expr f ask types fuel e tab ;; done (push (c a) tab)) = Ok (Some (i, tab')) -> Forall fine tab').
    { intros c e FC H. apply try_inv in H. destruct H as ((a, t1) & E1 & H).  eapply fine_push; [exact H|apply FC|]. exact (IH _ _ _ _ E1 F). }
    assert (TWO : forall (c : nat -> nat -> expr) e1 e2, (forall a b, contexts_in (c a b) = []) ->
      ('(a, tab) <! gen_expr f ask types fuel e1 tab ;; '(b, tab) <! gen_expr f ask types fuel e2 tab ;; done (push (c a b) tab)) = Ok (Some (i, tab')) -> Forall fine tab').
    { intros c e1 e2 FC H. apply try_inv in H. destruct H as ((a, t1) & E1 & H). apply try_inv in H. destruct H as ((b, t2) & E2 & H). 
      eapply fine_push; [exact H|apply fine_none; apply FC|]. exact (IH _ _ _ _ E2 (IH _ _ _ _ E1 F)). }
    destruct (t =? BLOCK_EXPR) eqn:T1.
    { apply bind_ok in E. destruct E as (alts & _ & E). apply try_inv in E. destruct E as ((l, t1) & E1 & E). 
      eapply fine_push; [exact E|apply fine_none; reflexivity|]. exact (map_keeps _ _ _ (fun a tb b tb' => IH a tb b tb') _ _ _ _ E1 F). }
    destruct (t =? SEQ_EXPR) eqn:T2.
    { apply bind_ok in E. destruct E as (parts & _ & E). apply bind_ok in E. destruct E as (commit & _ & E). apply bind_ok in E. destruct E as (rest & _ & E).
      apply try_inv in E. destruct E as ((l, t1) & E1 & E). 
      eapply fine_push; [exact E|apply fine_none; reflexivity|]. exact (map_keeps _ _ _ (fun a tb b tb' => IH a tb b tb') _ _ _ _ E1 F). }
    destruct (t =? REF_EXPR) eqn:T3.
    { apply bind_ok in E. destruct E as (r & _ & E). apply try_inv in E. destruct E as (k & _ & E). destruct k as [rule|rule|p].
      - apply bind_ok in E. destruct E as (ty & _ & E). apply bind_ok in E. destruct E as (c & _ & E). destruct c.
        + apply bind_ok in E. destruct E as (s & _ & E). apply try_inv in E. destruct E as (x & _ & E).  eapply fine_push; [exact E|apply fine_none; reflexivity|exact F].
        +  eapply fine_push; [exact E|apply fine_none; reflexivity|exact F].
      - apply bind_ok in E. destruct E as (j & _ & E). unfold done in E. injection E as _ <-. exact F.
      - apply bind_ok in E. destruct E as (j & _ & E).  eapply fine_push; [exact E|apply fine_none; reflexivity|exact F]. }
    destruct (t =? CALL_EXPR) eqn:T4.
    { apply bind_ok in E. destruct E as (c & EC & E). apply try_inv in E. destruct E as (k & EK & E). unfold ok_or in EK. injection EK as ->.
      apply Nat.eqb_eq in T4. subst t. pose proof (AG n k ET EC) as AK. destruct k.
      all: try ( eapply fine_push; [exact E|first [apply fine_none; reflexivity|eapply fine_one; [reflexivity|exact AK]]|exact F]).
      all: try (eapply ONE; [|exact E]; intros q; first [apply fine_none; reflexivity|eapply fine_one; [reflexivity|exact AK]]).
      all: try (eapply TWO; [|exact E]; reflexivity).
      all: try discriminate E.
      - apply bind_ok in E. destruct E as (j & _ & E). apply try_inv in E. destruct E as ((l, t1) & E1 & E). 
        eapply fine_push; [exact E|apply fine_none; reflexivity|]. eapply map_keeps; [|exact E1|exact F].
        intros a tb b tb' H F'. apply bind_ok in H. destruct H as (p & _ & H). apply try_inv in H. destruct H as ((e, t2) & H2 & H). unfold done in H. injection H as _ <-. exact (IH _ _ _ _ H2 F').
      - apply bind_ok in E. destruct E as (tys & _ & E).  eapply fine_push; [exact E|apply fine_none; reflexivity|exact F]. }
    destruct (t =? OPT_EXPR) eqn:T5.
    { apply bind_ok in E. destruct E as (e & _ & E). eapply ONE; [|exact E]. intros q. apply fine_none. reflexivity. }
    destruct (t =? REP_EXPR) eqn:T6.
    { apply bind_ok in E. destruct E as (e & _ & E). eapply ONE; [|exact E]. intros q. apply fine_none. reflexivity. }
    discriminate E.
  Qed.

  Lemma pratt_keeps : forall fuel alts r tab r' tab', gen_pratt f ask types fuel alts r tab = Ok (Some (r', tab')) -> Forall fine tab -> Forall fine tab'.
  Proof.
    intros fuel alts. induction alts as [|a alts IH]; intros r tab r' tab' E F; cbn [gen_pratt] in E.
    - unfold done in E. injection E as _ <-. exact F.
    - apply try_inv in E. destruct E as (rule & _ & E). apply bind_ok in E. destruct E as (o & _ & E). apply try_inv in E. destruct E as (ty & _ & E).
      apply bind_ok in E. destruct E as (v & _ & E). apply try_inv in E. destruct E as (k & _ & E). destruct k.
      1: { apply bind_ok in E. destruct E as (i & _ & E). exact (IH _ _ _ _ E F). }
      all: apply try_inv in E; destruct E as ((e, t1) & E1 & E); exact (IH _ _ _ _ E (expr_keeps _ _ _ _ _ E1 F)).
  Qed.

  Lemma removelast_keeps : forall A (P : A -> Prop) l, Forall P l -> Forall P (removelast l).
  Proof. intros A P l H. induction H as [|a l HA HL IH]; [constructor|]. cbn [removelast]. destruct l; [constructor|constructor; assumption]. Qed.

  Lemma check_inv : forall A b tab (k : outcome A) a, check_last b tab k = Ok (Some a) -> k = Ok (Some a).
  Proof. intros A b tab k a H. unfold check_last in H. apply bind_ok in H. destruct H as (l & _ & H). unfold guard in H. destruct (l =? b); [exact H|discriminate H]. Qed.

  Lemma rule_keeps : forall fuel r tab x tab', gen_rule f ask types fuel r tab = Ok (Some (x, tab')) -> Forall fine tab -> fine x /\ Forall fine tab'.
  Proof.
    intros fuel r tab x tab' E F. unfold gen_rule in E. apply bind_ok in E. destruct E as (pr & _ & E). apply bind_ok in E. destruct E as (e & _ & E).
    apply try_inv in E. destruct E as ((body, t1) & E1 & E).
    assert (F1 : Forall fine t1).
    { destruct pr; [|exact (expr_keeps _ _ _ _ _ E1 F)]. apply bind_ok in E1. destruct E1 as (t & _ & E1). destruct (t =? BLOCK_EXPR); [|discriminate E1].
      apply bind_ok in E1. destruct E1 as (alts & _ & E1). apply try_inv in E1. destruct E1 as ((p, t2) & E2 & E1). 
      eapply fine_push; [exact E1|apply fine_none; reflexivity|]. exact (pratt_keeps _ _ _ _ _ _ E2 F). }
    apply bind_ok in E. destruct E as (o & _ & E). apply bind_ok in E. destruct E as (rp & _ & E). apply bind_ok in E. destruct E as (ca & _ & E).
    destruct o as [ty|], rp, ca; try discriminate E.
    - unfold done in E. injection E as <- <-. split; [apply fine_none; reflexivity|exact F1].
    - unfold done in E. injection E as <- <-. split; [apply fine_none; reflexivity|exact F1].
    - unfold push in E. apply bind_ok in E. destruct E as (rr & _ & E). unfold done in E. injection E as <- <-. split; [apply fine_none; reflexivity|].
      apply Forall_app. split; [exact F1|constructor; [apply fine_none; reflexivity|constructor]].
    - apply bind_ok in E. destruct E as (rr & _ & E). unfold done in E. injection E as <- <-. split; [apply fine_none; reflexivity|exact F1].
    - apply check_inv in E. unfold done in E. injection E as <- <-. split; [apply fine_none; reflexivity|exact F1].
    - apply check_inv in E. apply bind_ok in E. destruct E as (y & EY & E). unfold done in E. injection E as <- <-. split; [|exact (removelast_keeps _ _ _ F1)].
      destruct (nth_error t1 body) as [z|] eqn:N; [|discriminate EY]. injection EY as <-. exact (proj1 (Forall_forall _ _) F1 z (nth_error_In _ _ N)).
  Qed.

  Lemma set_keeps : forall (P : expr -> Prop) x, P x -> forall l i, Forall P l -> Forall P (set_nth i x l).
  Proof.
    intros P x PX l. induction l as [|a l IH]; intros i H; [destruct i; exact H|]. inversion H as [|? ? HA HL]. subst.
    destruct i; cbn [set_nth]; constructor; auto.
  Qed.

  Lemma rules_keep : forall fuel l i tab tab', gen_rules f ask types fuel l i tab = Ok (Some tab') -> Forall fine tab -> Forall fine tab'.
  Proof.
    intros fuel l. induction l as [|r l IH]; intros i tab tab' E F; cbn [gen_rules] in E.
    - unfold done in E. injection E as <-. exact F.
    - apply try_inv in E. destruct E as ((x, t1) & E1 & E). destruct (rule_keeps _ _ _ _ _ E1 F) as (FX & F1). exact (IH _ _ _ E (set_keeps fine x FX t1 i F1)).
  Qed.

  Lemma table_keeps : forall fuel tab, gen_table f ask types fuel = Ok (Some tab) -> Forall fine tab.
  Proof.
    intros fuel tab E. unfold gen_table in E. apply bind_ok in E. destruct E as (rs & _ & E). apply (rules_keep _ _ _ _ _ E).
    apply Forall_forall. intros x J. apply in_map_iff in J. destruct J as (y & <- & _). apply fine_none. reflexivity.
  Qed.
End Keeps.

Lemma context_slots : forall f T ask escape debug trim c x,
  wf_file f T -> char_tree (f_text f) T -> complete f -> honest f ask ->
  generate f ask escape debug trim = Ok (Some c) -> In x (cx_rules c) -> forall i, In i (contexts_in x) -> exists b, context_number f b i.
Proof.
  intros f T ask escape debug trim c x WF CT CO HON E J.
  assert (TB : exists types fuel, gen_table f ask types fuel = Ok (Some (cx_rules c))).
  { unfold generate in E. apply bind_ok in E. destruct E as (types & _ & E). apply try_inv in E. destruct E as (tab & ET & E).
    apply try_inv in E. destruct E as (lex & _ & E). apply bind_ok in E. destruct E as (v & _ & E). apply bind_ok in E. destruct E as (a & _ & E).
    exists types, (S (length (f_nodes f))). rewrite ET. destruct a as [ast|].
    - apply try_inv in E. destruct E as (y & _ & E). unfold done in E. injection E as <-. reflexivity.
    - unfold done in E. injection E as <-. reflexivity. }
  destruct TB as (types & fuel & TB).
  refine (proj1 (Forall_forall _ _) (table_keeps f ask types (fun i => exists b, context_number f b i) _ fuel _ TB) x J).
  intros n k NT AK. unfold node_ty in NT. apply bind_ok in NT. destruct NT as (d & ND & NT). unfold node_get in ND. apply index_ok in ND. injection NT as NT.
  assert (IA : is_a f CALL_EXPR n).
  { assert (V : valid f n) by (unfold valid; apply nth_error_Some; congruence). split; [exact V|]. unfold ty, at_node. rewrite ND. exact NT. }
  destruct (ask_call_v f T WF CT CO ask HON n IA) as (o & ds & EO & CM). rewrite AK in EO. injection EO as <-.
  inversion CM; subst; try exact I; eexists; eassumption.
Qed.

Lemma few_fit : forall f T ask escape debug trim c x k,
  wf_file f T -> char_tree (f_text f) T -> complete f -> block_bodies f -> honest f ask ->
  generate f ask escape debug trim = Ok (Some c) -> few_names k f -> In x (cx_rules c) ->
  (forall i, In i (contexts_in x) -> i < k) /\ (forall i, In i (CodegenSpec.params_in x) -> i < k).
Proof.
  intros f T ask escape debug trim c x k WF CT CO BB HON E ((l & CL & LL) & LP) J. split; intros i JI.
  - destruct (context_slots f T ask escape debug trim c x WF CT CO HON E J i JI) as (b & l' & CL' & N). rewrite (context_list_fun f _ _ CL' CL) in N.
    assert (i < length l) by (apply nth_error_Some; congruence). lia.
  - destruct (decided_some _ _ _ _ _ (generate_ok f T WF CT CO ask HON BB escape debug trim) E) as (_ & _ & _ & CLO & _).
    apply In_nth_error in J. destruct J as (q & N). destruct (CLO q x N) as (_ & _ & PB & _). pose proof (PB i JI). lia.
Qed.

(** ** The parser *)
Section Run.
  Variable E : env.
  Notation tab := (g_rules (e_g E)).

  Lemma index_in : forall A (l : list A) i, i < length l -> exists a, index l i = Ok a /\ nth_error l i = Some a.
  Proof. intros A l i L. destruct (nth_error l i) as [a|] eqn:N; [|apply nth_error_None in N; lia]. exists a. split; [apply index_ok; exact N|reflexivity]. Qed.

  Lemma step_panics : forall fuel e p s x, nth_error tab e = Some x -> parse_expr E (S fuel) e p s = Panic ->
    (forall r s1, parse_inner E (parse_expr E fuel) fuel e p s = Ok (r, s1) -> exists more, s_events s1 = s_events s ++ more) ->
    parse_inner E (parse_expr E fuel) fuel e p s = Panic.
  Proof.
    intros fuel e p s x N H K. cbn [parse_expr] in H. unfold parse_step in H. destruct (parse_inner E (parse_expr E fuel) fuel e p s) as [[r s1]| |]; cbn [bind] in H; [|reflexivity|discriminate H].
    destruct r; [discriminate H|]. destruct (K None s1 eq_refl) as (more & EV). unfold rollback, mark, guard in H. rewrite EV, app_length in H.
    destruct (length (s_events s) <=? length (s_events s) + length more) eqn:L; [discriminate H|]. apply Nat.leb_gt in L. lia.
  Qed.

  Lemma still_unset : forall (a : list (option nat)) v w j, nth_error (set_nth v (Some w) a) j = Some None -> nth_error a j = Some None.
  Proof.
    intros a v w j H. destruct (Nat.eq_dec v j) as [<-|NE].
    - destruct (le_lt_dec (length a) v) as [L|L].
      + exfalso. assert (v < length (set_nth v (Some w) a)) by (apply nth_error_Some; congruence). rewrite set_nth_length in *. lia.
      + rewrite nth_error_set_nth_eq in H by exact L. discriminate H.
    - rewrite nth_error_set_nth_neq in H by lia. exact H.
  Qed.

  Lemma args_bound : forall l a n, length a = n -> (forall v e, In (v, e) l -> v < n /\ exists x, nth_error tab e = Some x /\ match x with EVar j => j < n | _ => True end) ->
    (exists a', bind_args E l a = Ok a' /\ length a' = n) \/
    (exists v e j, In (v, e) l /\ nth_error tab e = Some (EVar j) /\ nth_error a j = Some None).
  Proof.
    intros l. induction l as [|(v, e) l IH]; intros a n L H; cbn [bind_args]; [left; exists a; auto|].
    destruct (H v e (or_introl eq_refl)) as (LV & x & NX & LX). rewrite (proj2 (index_ok _ tab e x) NX). cbn [bind].
    destruct (index_in _ a v ltac:(lia)) as (old & IV & _).
    assert (GO : forall w, (exists a', bind_args E l (set_nth v (Some w) a) = Ok a' /\ length a' = n) \/
      (exists v0 e0 j, In (v0, e0) ((v, e) :: l) /\ nth_error tab e0 = Some (EVar j) /\ nth_error a j = Some None)).
    { intros w. destruct (IH (set_nth v (Some w) a) n ltac:(rewrite set_nth_length; exact L) (fun v' e' J => H v' e' (or_intror J))) as [X|(v0 & e0 & j & J & R & U)]; [left; exact X|].
      right. exists v0, e0, j. split; [right; exact J|]. split; [exact R|exact (still_unset a v w j U)]. }
    destruct x; try (cbn [bind]; rewrite IV; cbn [bind]; apply GO).
    destruct (index_in _ a i ltac:(lia)) as (o & IO & NO). rewrite IO. cbn [bind]. destruct o as [w|]; cbn [unwrap bind].
    - rewrite IV. cbn [bind]. apply GO.
    - right. exists v, e, i. split; [left; reflexivity|]. auto.
  Qed.

  Lemma reasons : forall k fuel e p s x, nth_error tab e = Some x -> slots k s ->
    (forall i, In i (contexts_in x) -> i < k) -> (forall i, In i (CodegenSpec.params_in x) -> i < k) ->
    (forall b l v e', x = ECall b l -> In (v, e') l -> exists y, nth_error tab e' = Some y /\ forall j, In j (CodegenSpec.params_in y) -> j < k) ->
    parse_expr E (S fuel) e p s = Panic -> other_reason E fuel p s x.
  Proof.
    intros k fuel e p s x N (SC & SA) C P A H.
    assert (H' : parse_inner E (parse_expr E fuel) fuel e p s = Panic).
    { apply (step_panics fuel e p s x N H). intros r s1 Q. apply (inner_fair E (parse_expr E fuel) fuel (fun e0 p0 s0 r0 s0' => parse_expr_good E fuel e0 p0 s0 r0 s0')) in Q.
      destruct Q as ((_ & _ & _ & Q & _) & _). exact Q. }
    unfold parse_inner in H'. rewrite (proj2 (index_ok _ _ _ _) N) in H'. cbn [bind] in H'.
    assert (ENT : forall i b v, i < k -> parse_enter (parse_expr E fuel) i b v p s = Panic -> parse_expr E fuel b p (set_ctxs s (set_nth i v (s_ctxs s))) = Panic).
    { intros i b v LI Q. unfold parse_enter in Q. destruct (index_in _ (s_ctxs s) i ltac:(lia)) as (old & IO & _). rewrite IO in Q. cbn [bind] in Q.
      destruct (parse_expr E fuel b p (set_ctxs s (set_nth i v (s_ctxs s)))) as [[r s1]| |] eqn:R; cbn [bind] in Q; [|reflexivity|discriminate Q].
      apply parse_expr_good in R. destruct R as ((_ & RC & _) & _). cbn [s_ctxs set_ctxs] in RC.
      destruct (index_in _ (s_ctxs s1) i) as (y & IY & _); [rewrite RC, set_nth_length; lia|]. rewrite IY in Q. discriminate Q. }
    destruct x as [ | | | | | | | | | | | | | | i b|i b|i|b l|i| | | ]; try exact Logic.I; cbn [other_reason].
    - exact (ENT i b true (C i (or_introl eq_refl)) H').
    - exact (ENT i b false (C i (or_introl eq_refl)) H').
    - unfold parse_is_in in H'. destruct (index_in _ (s_ctxs s) i ltac:(rewrite SC; exact (C i (or_introl eq_refl)))) as (y & IY & _). rewrite IY in H'. cbn [bind] in H'. destruct y; discriminate H'.
    - unfold parse_call in H'.
      destruct (args_bound l (s_args s) k SA) as [(a & EA & LA)|(v & e' & j & J & NJ & NA)].
      + intros v e' J. split; [apply P; apply in_map_iff; exists (v, e'); auto|]. destruct (A b l v e' eq_refl J) as (y & NY & PY). exists y. split; [exact NY|].
        destruct y; try exact Logic.I. apply PY. left. reflexivity.
      + right. rewrite EA in H'. cbn [bind] in H'. exists a. split; [congruence|]. destruct (parse_expr E fuel b p (set_args s a)) as [[r s1]| |]; cbn [bind] in H'; [discriminate H'|reflexivity|discriminate H'].
      + left. exists v, e', j. auto.
    - unfold parse_var in H'. destruct (index_in _ (s_args s) i ltac:(rewrite SA; exact (P i (or_introl eq_refl)))) as (o & IO & NO). rewrite IO in H'. cbn [bind] in H'.
      destruct o as [b|]; [|left; exact NO]. right. exists b. cbn [unwrap bind] in H'. auto.
  Qed.
End Run.
