(** The remaining queries, and [collect_all_diagnostics] under any schedule. *)
From Coq Require Import List Arith Bool NArith Lia Sorted Permutation.
From Verif Require Import Base BaseFacts TextModel TreeModel SearchModel IndexModel DbModel DbSpec DbProofs AnalysisModel
  TextSpec TreeSpec SearchSpec FileEditSpec EditorSpec IndexSpec AnalysisSpec
  TextProofs TreeProofs SearchProofs TraversalProofs EditorProofs IndexProofs ViewProofs AnalysisProofs.
Import ListNotations.

Section Results.
  Variables (f : file) (T : tree).
  Hypothesis WF : wf_file f T.
  Hypothesis CT : char_tree (f_text f) T.
  Hypothesis CO : complete f.
  Notation nodes := (f_nodes f).
  Notation exec := (fall_exec f).

  (** *** Unused rules *)
  Lemma calls_rule_means : forall n r o ds, calls_rule f n r -> call_means f n o ds -> exists args, o = Some (CkRuleCall r args).
  Proof.
    intros n r o ds (s & N & NB & FS & KP) M.
    assert (BI : forall i x, nth_error builtins i = Some x -> named f x n -> False).
    { intros i x E X. unfold named in X. rewrite N in X. injection X as <-. exact (NB (nth_error_In builtins i E)). }
    assert (BK : forall x k, In (x, k) [(s_not, 1); (s_is_in, 1); (s_layer, 2); (s_with_skip, 2); (s_inject, 2); (s_enter, 2); (s_exit, 2)] -> named f x n -> False).
    { intros x k I X. unfold named in X. rewrite N in X. injection X as <-. apply NB. cbn [In] in I.
      destruct I as [I|[I|[I|[I|[I|[I|[I|[]]]]]]]]; injection I as <- <-.
      - exact (nth_error_In builtins 3 eq_refl).
      - exact (nth_error_In builtins 4 eq_refl).
      - exact (nth_error_In builtins 5 eq_refl).
      - exact (nth_error_In builtins 6 eq_refl).
      - exact (nth_error_In builtins 7 eq_refl).
      - exact (nth_error_In builtins 8 eq_refl).
      - exact (nth_error_In builtins 9 eq_refl). }
    destruct M as [X|X|X|a l X _|a b l X _|a b l X _|a b l X _|c i X _ _|c i a b l X _ _ _|c i a b l X _ _ _|s' k a l I X _ _ _|s' k I X _|rs k X _|r' CR|s' i X _ NC _].
    - destruct (BI 0 _ eq_refl X).
    - destruct (BI 1 _ eq_refl X).
    - destruct (BI 2 _ eq_refl X).
    - destruct (BI 3 _ eq_refl X).
    - destruct (BI 5 _ eq_refl X).
    - destruct (BI 6 _ eq_refl X).
    - destruct (BI 7 _ eq_refl X).
    - destruct (BI 4 _ eq_refl X).
    - destruct (BI 8 _ eq_refl X).
    - destruct (BI 9 _ eq_refl X).
    - assert (I' : In (s', k) [(s_not, 1); (s_is_in, 1); (s_layer, 2); (s_with_skip, 2); (s_inject, 2); (s_enter, 2); (s_exit, 2)]).
      { cbn [In] in I. destruct I as [<-|[<-|[<-|[]]]]; [apply (nth_error_In _ 1)|apply (nth_error_In _ 5)|apply (nth_error_In _ 6)]; reflexivity. }
      destruct (BK _ _ I' X).
    - destruct (BK _ _ I X).
    - destruct (BI 10 _ eq_refl X).
    - destruct CR as (s' & N' & _ & FS' & _). rewrite N in N'. injection N' as <-. rewrite (first_such_fun _ _ _ _ _ FS FS'). eexists. reflexivity.
    - destruct (NC r). exists s. auto.
  Qed.

  Lemma means_calls_rule : forall n r args ds, call_means f n (Some (CkRuleCall r args)) ds -> calls_rule f n r /\ args = combine (params f r) (exprs f n).
  Proof. intros n r args ds M. inversion M as [| | | | | | | | | | | | |r' CR E1 E2|]; subst. split; [exact CR|reflexivity]. Qed.

  Lemma used_refs_ok : forall l u c, (forall n, In n l -> is_a f REF_EXPR n) -> exists u',
    (forall o, outcome exec (c u') o -> outcome exec (used_by_refs l u c) o) /\
    (forall r, In r u' <-> In r u \/ exists n, In n l /\ resolves f n (Some (RRule r))) /\
    (forall k, needs exec (used_by_refs l u c) k -> (exists n, is_a f REF_EXPR n /\ (k = QRef n \/ needs exec (exec (QRef n)) k)) \/ needs exec (c u') k).
  Proof.
    induction l as [|n l IH]; intros u c V.
    - exists u. split; [auto|]. split; [|auto]. intros r. split; [auto|]. intros [X|(n & [] & _)]. exact X.
    - pose proof (V n (or_introl eq_refl)) as A. destruct (ref_ok f T WF CT CO n A) as (o & dr & ER & RO & _).
      set (u1 := match o with Some (RRule x) => x :: u | _ => u end).
      destruct (IH u1 c) as (u' & O & I & N); [intros x J; apply V; right; exact J|]. exists u'. split; [|split].
      + intros o' H. cbn [used_by_refs]. eapply oc_ask; [exact ER|]. cbv beta iota. apply O. exact H.
      + intros r. rewrite I. assert (U : In r u1 <-> In r u \/ resolves f n (Some (RRule r))).
        { unfold u1. split.
          - destruct o as [[t|x|p]|]; try (intros X; left; exact X). intros [<-|X]; [right; exact RO|left; exact X].
          - intros [X|X]; [destruct o as [[t|x|p]|]; try exact X; right; exact X|]. rewrite (resolves_fun f _ _ _ RO X). left. reflexivity. }
        rewrite U. split.
        * intros [[X|X]|(m & J & X)]; [left; exact X|right; exists n; split; [left; reflexivity|exact X]|right; exists m; split; [right; exact J|exact X]].
        * intros [X|(m & [<-|J] & X)]; [left; left; exact X|left; right; exact X|right; exists m; auto].
      + intros k H. cbn [used_by_refs] in H. destruct (needs_ask f _ _ _ _ _ ER H) as [X|[X|X]].
        * left. exists n. split; [exact A|left; exact X].
        * left. exists n. split; [exact A|right; exact X].
        * apply N. exact X.
  Qed.

  Lemma used_calls_ok : forall l u c, (forall n, In n l -> is_a f CALL_EXPR n) -> exists u',
    (forall o, outcome exec (c u') o -> outcome exec (used_by_calls l u c) o) /\
    (forall r, In r u' <-> In r u \/ exists n, In n l /\ calls_rule f n r) /\
    (forall k, needs exec (used_by_calls l u c) k -> (exists n, is_a f CALL_EXPR n /\ (k = QCall n \/ needs exec (exec (QCall n)) k)) \/ needs exec (c u') k).
  Proof.
    induction l as [|n l IH]; intros u c V.
    - exists u. split; [auto|]. split; [|auto]. intros r. split; [auto|]. intros [X|(n & [] & _)]. exact X.
    - pose proof (V n (or_introl eq_refl)) as A. destruct (call_ok f T WF CT CO n A) as (s & o & dr & _ & ER & RO & _).
      set (u1 := match o with Some (CkRuleCall x _) => x :: u | _ => u end).
      destruct (IH u1 c) as (u' & O & I & N); [intros x J; apply V; right; exact J|]. exists u'. split; [|split].
      + intros o' H. cbn [used_by_calls]. eapply oc_ask; [exact ER|]. cbv beta iota. apply O. exact H.
      + intros r. rewrite I. assert (U : In r u1 <-> In r u \/ calls_rule f n r).
        { unfold u1. split.
          - destruct o as [[ | | |e|a b|a b|c0 e|c0 e|c0|x args|rs|a b]|]; try (intros X; left; exact X).
            intros [<-|X]; [right; exact (proj1 (means_calls_rule _ _ _ _ RO))|left; exact X].
          - intros [X|X]; [destruct o as [[ | | |e|a b|a b|c0 e|c0 e|c0|x args|rs|a b]|]; try exact X; right; exact X|].
            destruct (calls_rule_means _ _ _ _ X RO) as (args & ->). left. reflexivity. }
        rewrite U. split.
        * intros [[X|X]|(m & J & X)]; [left; exact X|right; exists n; split; [left; reflexivity|exact X]|right; exists m; split; [right; exact J|exact X]].
        * intros [X|(m & [<-|J] & X)]; [left; left; exact X|left; right; exact X|right; exists m; auto].
      + intros k H. cbn [used_by_calls] in H. destruct (needs_ask f _ _ _ _ _ ER H) as [X|[X|X]].
        * left. exists n. split; [exact A|left; exact X].
        * left. exists n. split; [exact A|right; exact X].
        * apply N. exact X.
  Qed.

  Lemma warnings_ok : forall u l, (forall r, In r l -> is_a f SYN_RULE r) ->
    (forall r, In r u <-> hd_error (rules f) = Some r \/ used f r) ->
    exists ds, unused_warnings f u l = Ok ds /\ unused_rules f l ds.
  Proof.
    intros u l V U. induction l as [|r l IH].
    - exists []. split; [reflexivity|constructor].
    - destruct IH as (ds & E & W); [intros x J; apply V; right; exact J|]. cbn [unused_warnings]. rewrite E. cbn [bind].
      destruct (existsb (Nat.eqb r) u) eqn:X.
      + exists ds. split; [reflexivity|]. apply existsb_exists in X. destruct X as (x & J & X). apply Nat.eqb_eq in X. subst x.
        apply U in J. apply un_no; [tauto|exact W].
      + assert (NI : ~ In r u).
        { intros J. assert (Y : existsb (Nat.eqb r) u = true) by (apply existsb_exists; exists r; split; [exact J|apply Nat.eqb_refl]). congruence. }
        rewrite U in NI. pose proof (proj1 (V r (or_introl eq_refl))) as VR. unfold rule_name_ident.
        rewrite (child_of_type_v f T WF IDENT r VR). cbn [bind]. destruct (kid f IDENT r) as [i|] eqn:K.
        * rewrite (diag_v f _ _ _ (kid_valid f T WF _ _ _ K)). cbn [bind]. eexists. split; [reflexivity|].
          change (mkDiag (rng f i) Warning MUnusedRule) with (warning_at f i MUnusedRule). apply un_yes; [tauto|tauto|exact K|exact W].
        * exists ds. split; [reflexivity|]. apply un_no; [|exact W]. right. right. unfold name_of. rewrite K. reflexivity.
  Qed.

  Lemma of_type_in : forall t n, In n (filter (fun m => ty f m =? t) (post T 0)) <-> is_a f t n.
  Proof. intros t n. rewrite filter_In, (order_valid f T WF n), Nat.eqb_eq. reflexivity. Qed.

  Lemma unused_ok : exists ds, evaluates exec QUnused VUnit ds /\ unused_rules f (rules f) ds /\
    forall k, needs exec (exec QUnused) k ->
      (exists n, is_a f REF_EXPR n /\ (k = QRef n \/ needs exec (exec (QRef n)) k)) \/
      (exists n, is_a f CALL_EXPR n /\ (k = QCall n \/ needs exec (exec (QCall n)) k)).
  Proof.
    unfold evaluates. cbn [fall_exec]. unfold q_unused. rewrite !(descendants_v f T WF). cbn [lift]. rewrite (syn_rules_v f T WF). cbn [lift].
    match goal with |- context [used_by_refs ?l [] ?c] => destruct (used_refs_ok l [] c) as (u & O & I & N) end.
    { intros n. apply of_type_in. }
    match goal with |- context [used_by_refs _ [] (fun u => used_by_calls ?l u ?c)] => destruct (used_calls_ok l u c) as (u' & O' & I' & N') end.
    { intros n. apply of_type_in. }
    set (w := match rules f with r :: _ => r :: u' | [] => u' end) in *.
    destruct (warnings_ok w (rules f) (rules_in f T WF)) as (ds & E & W).
    { intros r. assert (IU : In r u' <-> used f r).
      { rewrite I', I. unfold used. split.
        - intros [[[]|(n & J & X)]|(n & J & X)]; [left|right]; exists n; (split; [apply of_type_in; exact J|exact X]).
        - intros [(n & J & X)|(n & J & X)]; [left; right|right]; exists n; (split; [apply of_type_in; exact J|exact X]). }
      unfold w. destruct (rules f) as [|r0 l0] eqn:R.
      - rewrite IU. split; [auto|]. intros [X|X]; [discriminate X|exact X].
      - cbn [In hd_error]. rewrite IU. split; (intros [X|X]; [left; congruence|right; exact X]). }
    exists ds. split; [|split; [exact W|]].
    - apply O. apply O'. rewrite E. constructor.
    - intros k H. apply N in H. destruct H as [H|H]; [left; exact H|]. apply N' in H. destruct H as [H|H]; [right; exact H|].
      rewrite E in H. inversion H.
  Qed.

  (** *** Operator rules *)
  Lemma find_kind_ok : forall r, valid f r -> exists o, find_kind f r = Ok o /\
    match o with
    | Some (s, p) => exists x, variant_attr f r s x /\ p = priority_of f x
    | None => forall s x, ~ variant_attr f r s x
    end.
  Proof.
    intros r V. unfold find_kind. rewrite (ast_child_v f T WF ATTRIBUTES r V). cbn [bind]. destruct (kid f ATTRIBUTES r) as [a|] eqn:K.
    2:{ exists None. split; [reflexivity|]. intros s x (pre & post & _ & (a & K' & _) & _). rewrite K in K'. discriminate K'. }
    assert (U32 : forall x s, attr f r s x -> attribute_u32 f x = Ok (priority_of f x)).
    { intros x s A. unfold attribute_u32. rewrite (attr_text_v f T WF CT x (attr_valid f T WF _ _ _ A)). reflexivity. }
    assert (G : forall l pre, [s_atom; s_postfix; s_prefix; s_bin] = pre ++ l -> (forall k, In k pre -> no_attr f r k) ->
      exists o, fold_res (fun acc name => match acc with Some _ => Ok acc | None => a <- find_attribute f r name ;; Ok (option_map (fun m => (name, m)) a) end) None l = Ok o /\
      match o with Some (s, x) => variant_attr f r s x | None => forall k, In k (pre ++ l) -> no_attr f r k end).
    { assert (ST : forall l (y : bytes * nat), fold_res (fun acc name => match acc with Some _ => Ok acc | None => a <- find_attribute f r name ;; Ok (option_map (fun m => (name, m)) a) end) (Some y) l = Ok (Some y)).
      { induction l as [|z l IH]; intros y; [reflexivity|]. cbn [fold_res bind]. apply IH. }
      induction l as [|s l IH]; intros pre E NP.
      - exists None. split; [reflexivity|]. rewrite app_nil_r. exact NP.
      - cbn [fold_res]. destruct (attr_v f T WF CT CO r s V) as (o & -> & O). cbn [bind]. destruct o as [x|]; cbn [option_map].
        + rewrite ST. eexists. split; [reflexivity|]. cbv beta iota. exists pre, l. auto.
        + destruct (IH (pre ++ [s])) as (o & EO & R).
          * rewrite <- app_assoc. exact E.
          * intros k I. apply in_app_or in I. destruct I as [I|[<-|[]]]; [exact (NP k I)|exact O].
          * exists o. split; [exact EO|]. rewrite <- app_assoc in R. exact R. }
    destruct (G _ [] eq_refl) as (o & E & R); [intros k []|]. rewrite E. cbn [bind]. destruct o as [(s, x)|].
    - rewrite (U32 x s); [|destruct R as (_ & _ & _ & A & _); exact A]. cbn [bind]. eexists. split; [reflexivity|]. cbv beta iota. exists x. auto.
    - exists None. split; [reflexivity|]. intros s x (pre & post & EQ & A & _). apply (R s) in A; [exact A|]. cbn [app]. rewrite EQ. apply in_elt.
  Qed.

  Lemma pratt_ok : forall r, is_a f SYN_RULE r -> exists o ds, evaluates exec (QPratt r) (VPratt o) ds /\ pratt_means f r o ds.
  Proof.
    intros r A. pose proof (proj1 A) as V. unfold evaluates. cbn [fall_exec]. unfold q_pratt, rule_name_ident.
    rewrite (child_of_type_v f T WF IDENT r V). cbn [lift]. destruct (kid f IDENT r) as [i|] eqn:K.
    2:{ exists None, []. split; [constructor|]. apply pm_no_name. unfold name_of. rewrite K. reflexivity. }
    assert (NM : name_of f r <> None) by (unfold name_of; rewrite K; discriminate).
    destruct (find_kind_ok r V) as (o & -> & O). cbn [lift]. destruct o as [(s, p)|].
    2:{ exists None, []. split; [constructor|]. apply pm_plain. exact O. }
    destruct O as (x & VA & ->).
    destruct (exprs f r) as [|b l] eqn:EX; [destruct (co_body f CO r A EX)|].
    assert (RB : rule_body f r = Ok b).
    { unfold rule_body, ast_child. rewrite (children_expr_v f T WF r V), EX. reflexivity. }
    assert (Vb : valid f b) by (apply (exprs_in f T WF r b); rewrite EX; left; reflexivity).
    assert (HB : hd_error (exprs f r) = Some b) by (rewrite EX; reflexivity).
    destruct (bytes_eqb s s_atom) eqn:SA.
    { apply bytes_eqb_spec in SA. subst s. rewrite (diag_v f _ _ _ (kid_valid f T WF _ _ _ K)). cbn [lift]. rewrite RB. cbn [lift].
      eexists _, _. split; [constructor|]. exact (pm_atom f r i x b K VA HB). }
    assert (NA : s <> s_atom) by (intros ->; discriminate SA). clear SA.
    rewrite RB. cbn [lift]. rewrite (ty_v f b Vb). cbn [lift]. destruct (ty f b =? BLOCK_EXPR) eqn:TB; cbn [negb].
    2:{ apply Nat.eqb_neq in TB. exists None, []. split; [constructor|]. eapply pm_no_block; eassumption. }
    apply Nat.eqb_eq in TB. rewrite (children_expr_v f T WF b Vb). cbn [lift].
    assert (ALT : forall l, exprs f b = l -> length l <> 1 ->
      (lift (diag f Error b MSingleAlternative) (fun d => Ret (VPratt None) [d])) = Ret (VPratt None) [error_at f b MSingleAlternative] :> prg /\ pratt_means f r None [error_at f b MSingleAlternative]).
    { intros l0 E L. rewrite (diag_v f _ _ _ Vb). split; [reflexivity|]. apply (pm_alternatives f r s x b NM VA NA HB TB). rewrite E. exact L. }
    destruct (exprs f b) as [|a [|a2 l2]] eqn:EB.
    { destruct (ALT _ eq_refl) as (Q & M); [cbn [length]; lia|]. rewrite Q. eexists _, _. split; [constructor|exact M]. }
    2:{ destruct (ALT _ eq_refl) as (Q & M); [cbn [length]; lia|]. rewrite Q. eexists _, _. split; [constructor|exact M]. }
    clear ALT. assert (Va : valid f a) by (apply (exprs_in f T WF b a); rewrite EB; left; reflexivity).
    rewrite (ty_v f a Va). cbn [lift]. destruct (ty f a =? SEQ_EXPR) eqn:TA; cbn [negb].
    2:{ apply Nat.eqb_neq in TA. exists None, []. split; [constructor|]. eapply pm_no_sequence; eassumption. }
    apply Nat.eqb_eq in TA. rewrite (children_expr_v f T WF a Va). cbn [lift]. cbv zeta.
    assert (BP : body_parts f r b (exprs f a)).
    { split; [exact HB|]. split; [exact TB|]. exists a. split; [exact EB|]. split; [exact TA|reflexivity]. }
    assert (DB : forall m, diag f Error b m = Ok (error_at f b m)) by (intros m; apply diag_v; exact Vb).
    assert (DI : forall m, diag f Error i m = Ok (error_at f i m)) by (intros m; apply diag_v; exact (kid_valid f T WF _ _ _ K)).
    destruct (bytes_eqb s s_postfix) eqn:S1.
    { apply bytes_eqb_spec in S1. subst s. rewrite DB. cbn [lift]. destruct (exprs f a) as [|p1 [|p2 [|p3 ps]]] eqn:EA.
      3:{ eexists _, _. split; [constructor|]. eapply pm_postfix; eassumption. }
      all: eexists _, _; (split; [constructor|]); eapply pm_postfix_bad; [exact NM|exact VA|exact BP|cbn [length]; lia]. }
    destruct (bytes_eqb s s_prefix) eqn:S2.
    { apply bytes_eqb_spec in S2. subst s. rewrite DB. cbn [lift]. destruct (exprs f a) as [|p1 [|p2 [|p3 ps]]] eqn:EA.
      3:{ eexists _, _. split; [constructor|]. eapply pm_prefix; eassumption. }
      all: eexists _, _; (split; [constructor|]); eapply pm_prefix_bad; [exact NM|exact VA|exact BP|cbn [length]; lia]. }
    assert (SB : s = s_bin).
    { destruct VA as (pre & post & E & _). assert (I : In s [s_atom; s_postfix; s_prefix; s_bin]) by (rewrite E; apply in_elt). cbn [In] in I.
      destruct I as [I|[I|[I|[I|[]]]]]; subst s; [congruence|discriminate S1|discriminate S2|reflexivity]. }
    subst s. rewrite DB, DI. cbn [lift]. destruct (exprs f a) as [|p1 [|p2 [|p3 [|p4 ps]]]] eqn:EA.
    4:{ destruct (priority_of f x) as [pr|] eqn:PR; eexists _, _; (split; [constructor|]); [eapply pm_bin; eassumption|].
        eapply pm_bin_priority; [exact K|exact VA|exact BP|reflexivity|exact PR]. }
    all: exists None, [error_at f b MBin]; (split; [destruct (priority_of f x) as [pr|]; constructor|]);
      eapply pm_bin_bad; [exact NM|exact VA|exact BP|cbn [length]; lia].
  Qed.

  (** *** Traits *)
  Lemma trait_map_ok : forall l m, (forall t, In t l -> is_a f AST_TRAIT_DEF t) -> exists m', trait_map f l m = Ok m' /\
    forall s, (exists t, last_such (named f s) l t /\ assoc s m' = Some t) \/ (none_such (named f s) l /\ assoc s m' = assoc s m).
  Proof.
    induction l as [|t l IH]; intros m V.
    - exists m. split; [reflexivity|]. intros s. right. split; [intros x []|reflexivity].
    - destruct (named_of f T WF CT CO AST_TRAIT_DEF t ltac:(cbn [In]; tauto) (V t (or_introl eq_refl))) as (nm & N & NT). cbn [trait_map]. rewrite NT. cbn [bind].
      destruct (IH ((nm, t) :: m)) as (m' & E & H); [intros x J; apply V; right; exact J|]. exists m'. split; [exact E|]. intros s.
      destruct (H s) as [(x & (p & q & -> & Px & NQ) & ES)|(NN & ES)].
      + left. exists x. split; [|exact ES]. exists (t :: p), q. split; [reflexivity|]. split; [exact Px|exact NQ].
      + rewrite assoc_head in ES. destruct (bytes_eqb s nm) eqn:B.
        * apply bytes_eqb_spec in B. subst s. left. exists t. split; [|exact ES]. exists [], l. split; [reflexivity|]. split; [exact N|exact NN].
        * right. split; [|exact ES]. intros x [<-|I]; [|exact (NN x I)]. unfold named. rewrite N. intros X. injection X as ->.
          rewrite (proj2 (bytes_eqb_spec s s) eq_refl) in B. discriminate B.
  Qed.

  Lemma skip_ok : forall l, (forall n, In n l -> valid f n) -> exists pre post, skip_to_colon f l = Ok post /\ l = pre ++ post /\
    none_such (fun c => ty f c = COLON) pre /\ match post with [] => True | c :: _ => ty f c = COLON end.
  Proof.
    induction l as [|n l IH]; intros V.
    - exists [], []. split; [reflexivity|]. split; [reflexivity|]. split; [intros x []|exact I].
    - cbn [skip_to_colon]. rewrite (ty_v f n (V n (or_introl eq_refl))). cbn [bind]. destruct (ty f n =? COLON) eqn:E.
      + exists [], (n :: l). split; [reflexivity|]. split; [reflexivity|]. split; [intros x []|]. apply Nat.eqb_eq. exact E.
      + destruct IH as (pre & post & S & -> & N & P); [intros x J; apply V; right; exact J|]. exists (n :: pre), post. split; [exact S|]. split; [reflexivity|].
        split; [|exact P]. intros x [<-|J]; [apply Nat.eqb_neq; exact E|exact (N x J)].
  Qed.

  Lemma find_traits_ok : forall m l acc ds, (forall n, In n l -> valid f n) ->
    (forall s, match assoc s m with Some t => last_such (named f s) (ast_parts f AST_TRAIT_DEF) t | None => none_such (named f s) (ast_parts f AST_TRAIT_DEF) end) ->
    exists ts ds', find_traits f m l acc ds = Ok (acc ++ ts, ds ++ ds') /\ traits_mean f l ts ds'.
  Proof.
    intros m l. induction l as [|i l IH]; intros acc ds V H.
    - exists [], []. rewrite !app_nil_r. split; [reflexivity|constructor].
    - cbn [find_traits]. pose proof (V i (or_introl eq_refl)) as Vi. rewrite (text_v f T WF CT i Vi). cbn [bind].
      assert (V' : forall n, In n l -> valid f n) by (intros x J; apply V; right; exact J). pose proof (H (str f i)) as HI.
      destruct (assoc (str f i) m) as [t|].
      + destruct (IH (acc ++ [t]) ds V' H) as (ts & ds' & E & M). exists (t :: ts), ds'. split; [rewrite E, <- app_assoc; reflexivity|]. constructor; assumption.
      + rewrite (diag_v f _ _ _ Vi). cbn [bind]. destruct (IH acc (ds ++ [error_at f i MUnresolvedTrait]) V' H) as (ts & ds' & E & M).
        exists ts, (error_at f i MUnresolvedTrait :: ds'). split; [|constructor; assumption].
        change (mkDiag (rng f i) Error MUnresolvedTrait) with (error_at f i MUnresolvedTrait). rewrite E, <- app_assoc. reflexivity.
  Qed.

  Lemma ast_parts_in : forall t n, In n (ast_parts f t) -> is_a f t n.
  Proof.
    intros t n I. unfold ast_parts in I. destruct (kid f AST_DEF 0) as [a|]; [|destruct I]. exact (proj2 (kids_of_in f T WF _ _ _ I)).
  Qed.

  Lemma traits_ok : forall n, is_a f AST_NODE_DEF n -> exists refs ts ds, evaluates exec (QTraits n) (VTraits ts) ds /\ trait_refs f n refs /\ traits_mean f refs ts ds.
  Proof.
    intros n A. pose proof (proj1 A) as V. unfold evaluates. cbn [fall_exec]. unfold q_traits, file_ast_def, root.
    rewrite (ast_child_v f T WF AST_DEF 0 (root_valid f T WF)). cbn [lift].
    assert (M : exists m, (match kid f AST_DEF 0 with None => Ok [] | Some ast => l <- ast_children f (is_ty AST_TRAIT_DEF) ast ;; trait_map f l [] end) = Ok m /\
      forall s, match assoc s m with Some t => last_such (named f s) (ast_parts f AST_TRAIT_DEF) t | None => none_such (named f s) (ast_parts f AST_TRAIT_DEF) end).
    { unfold ast_parts. destruct (kid f AST_DEF 0) as [a|] eqn:K.
      - rewrite (children_is_v f T WF AST_TRAIT_DEF a (kid_valid f T WF _ _ _ K)). cbn [bind].
        destruct (trait_map_ok (kids_of f AST_TRAIT_DEF a) []) as (m & E & H); [intros t I; exact (proj2 (kids_of_in f T WF _ _ _ I))|].
        exists m. split; [exact E|]. intros s. destruct (H s) as [(t & L & ->)|(N & ->)]; assumption.
      - exists []. split; [reflexivity|]. intros s x []. }
    destruct M as (m & -> & H). cbn [lift]. rewrite (kids_v f n V). cbn [lift].
    destruct (skip_ok (kids f n)) as (pre & post & E & EQ & NP & HP); [intros c; apply (kids_valid f T WF)|]. rewrite E. cbn [lift].
    assert (VP : forall c, In c post -> valid f c) by (intros c I; apply (kids_valid f T WF n); rewrite EQ; apply in_or_app; right; exact I).
    rewrite (filter_res_pure _ _ (fun c => ty f c =? IDENT)) by (intros c I; rewrite (ty_v f c (VP c I)); reflexivity). cbn [lift].
    destruct (find_traits_ok m (filter (fun c => ty f c =? IDENT) post) [] []) as (ts & ds & EF & TM); [|exact H|].
    { intros c I. apply filter_In in I. apply VP. exact (proj1 I). }
    rewrite EF. cbn [lift fst snd app]. eexists _, _, _. split; [constructor|]. split; [|exact TM]. exists pre, post. auto.
  Qed.

  (** *** Methods *)
  Lemma method_ok : forall n, is_a f METHOD_DEF n -> exists o, evaluates exec (QMethod n) (VMethod o) [] /\ method_means f n o.
  Proof.
    intros n A. pose proof (proj1 A) as V. unfold evaluates. cbn [fall_exec]. unfold q_method. rewrite (ast_child_v f T WF AST_SELECTOR n V). cbn [bind].
    destruct (kid f AST_SELECTOR n) as [sel|] eqn:K; [|destruct (co_selector f CO n A K)]. cbn [unwrap lift].
    destruct (kid_in f T WF _ _ _ K) as (_ & SA). pose proof (proj1 SA) as VS.
    destruct (named_of f T WF CT CO AST_SELECTOR sel ltac:(cbn [In]; tauto) SA) as (s & NS & NT).
    assert (FP : forall t l, In t [CALL_EXPR; LEX_RULE; PARAMETER; ATTRIBUTE; AST_SELECTOR; AST_NODE_DEF; AST_CLASS_DEF; AST_TRAIT_DEF] ->
      (forall x, In x l -> is_a f t x) ->
      exists o, find_res (fun n => s <- child_text f n IDENT ;; c <- child_text f sel IDENT ;; Ok (bytes_eqb s c)) l = Ok o /\
        match o with Some x => first_such (named f s) l x | None => none_such (named f s) l end).
    { intros t l IT V'. rewrite (find_res_pure _ _ (fun x => match name_of f x with Some y => bytes_eqb y s | None => false end)).
      - eexists. split; [reflexivity|]. apply find_first_such. intros x _. unfold named. destruct (name_of f x) as [y|]; [|split; discriminate].
        rewrite bytes_eqb_spec. split; [intros ->; reflexivity|intros E; injection E as ->; reflexivity].
      - intros x I. destruct (named_of f T WF CT CO t x IT (V' x I)) as (y & NY & ->). cbn [bind]. rewrite NT. cbn [bind]. rewrite NY. reflexivity. }
    assert (MC : exists o, method_child f sel = Ok o /\ selects f s o).
    { unfold method_child, file_ast_def, root. rewrite (ast_child_v f T WF AST_DEF 0 (root_valid f T WF)). cbn [bind].
      destruct (kid f AST_DEF 0) as [a|] eqn:KA.
      2:{ exists None. split; [reflexivity|]. apply se_none; [| |left; exact KA]; unfold ast_parts; rewrite KA; intros x []. }
      assert (AP : forall t, ast_parts f t = kids_of f t a) by (intros t; unfold ast_parts; rewrite KA; reflexivity).
      rewrite (children_is_v f T WF AST_NODE_DEF a (kid_valid f T WF _ _ _ KA)). cbn [bind].
      destruct (FP AST_NODE_DEF (kids_of f AST_NODE_DEF a)) as (o1 & -> & O1); [cbn [In]; tauto|intros x I; exact (proj2 (kids_of_in f T WF _ _ _ I))|].
      rewrite <- AP in O1. cbn [bind]. destruct o1 as [x|]; [exists (Some (CAstNode x)); split; [reflexivity|apply se_node; exact O1]|].
      rewrite (children_is_v f T WF AST_CLASS_DEF a (kid_valid f T WF _ _ _ KA)). cbn [bind].
      destruct (FP AST_CLASS_DEF (kids_of f AST_CLASS_DEF a)) as (o2 & -> & O2); [cbn [In]; tauto|intros x I; exact (proj2 (kids_of_in f T WF _ _ _ I))|].
      rewrite <- AP in O2. cbn [bind]. destruct o2 as [x|]; [exists (Some (CAstClass x)); split; [reflexivity|apply se_class; assumption]|].
      rewrite (lex_rules_v f T WF). cbn [bind].
      destruct (FP LEX_RULE (tokens f)) as (o3 & -> & O3); [cbn [In]; tauto|exact (tokens_in f T WF)|].
      cbn [bind]. eexists. split; [reflexivity|]. destruct o3 as [x|]; cbn [option_map].
      - apply se_token; [rewrite KA; discriminate|exact O1|exact O2|exact O3].
      - apply se_none; [exact O1|exact O2|right; exact O3]. }
    destruct MC as (o & -> & SE). cbn [lift]. destruct o as [c|].
    2:{ exists None. split; [constructor|]. exact (mm_none f n sel s K NS SE). }
    rewrite (child_of_type_v f T WF QUESTION sel VS). cbn [lift]. rewrite (child_of_type_v f T WF STAR sel VS). cbn [lift].
    rewrite (child_of_type_v f T WF DOT sel VS). cbn [lift]. cbv zeta.
    assert (AR : (match kid f QUESTION sel with Some _ => Optional | None => match kid f STAR sel with Some _ => Many | None => Single end end) = selector_arity f sel).
    { unfold selector_arity. destruct (kid f QUESTION sel), (kid f STAR sel); reflexivity. }
    rewrite AR. destruct (kid f DOT sel) as [d|] eqn:KD.
    - assert (ND : kid f DOT sel <> None) by (rewrite KD; discriminate). destruct c as [x|x|x].
      + exists None. split; [constructor|]. apply (mm_dot f n sel s (CAstNode x) K NS SE); [intros t; discriminate|exact ND].
      + exists None. split; [constructor|]. apply (mm_dot f n sel s (CAstClass x) K NS SE); [intros t; discriminate|exact ND].
      + eexists. split; [constructor|]. exact (mm_text f n sel s x K NS SE ND).
    - eexists. split; [constructor|]. exact (mm_node f n sel s c K NS SE KD).
  Qed.

  (** *** Everything together *)
  Theorem says_ok : forall k, api_key f k \/ k = QSyn \/ k = QCtx -> exists v ds, evaluates exec k v ds /\ says f k v ds.
  Proof.
    intros k H. destruct k as [| | | |n|n|n|n|n]; cbn [api_key] in H.
    - destruct (lex_ok f T WF CT CO) as (m & out & E & P & _). eexists _, _. split; [exact E|]. exists out. split; [exact P|reflexivity].
    - destruct (syn_ok f T WF CT) as (m & out & ds & E & P & F & _). eexists _, _. split; [exact E|]. exists out. auto.
    - destruct (ctx_ok f T WF CT CO) as (l & ds & E & C & U). eexists _, _. split; [exact E|]. exists l. auto.
    - destruct unused_ok as (ds & E & U & _). eexists _, _. split; [exact E|exact U].
    - destruct H as [A|[E|E]]; [|discriminate E|discriminate E]. destruct (ref_ok f T WF CT CO n A) as (o & ds & E & R & D & _). eexists _, _. split; [exact E|]. exists o. auto.
    - destruct H as [A|[E|E]]; [|discriminate E|discriminate E]. destruct (call_ok f T WF CT CO n A) as (s & o & ds & _ & E & R & _). eexists _, _. split; [exact E|]. exists o. auto.
    - destruct H as [A|[E|E]]; [|discriminate E|discriminate E]. destruct (pratt_ok n A) as (o & ds & E & R). eexists _, _. split; [exact E|]. exists o. auto.
    - destruct H as [A|[E|E]]; [|discriminate E|discriminate E]. destruct (method_ok n A) as (o & E & R). eexists _, _. split; [exact E|]. exists o. auto.
    - destruct H as [A|[E|E]]; [|discriminate E|discriminate E]. destruct (traits_ok n A) as (refs & ts & ds & E & R & M). eexists _, _. split; [exact E|]. exists refs, ts. auto.
  Qed.

  (** *** What is needed by what *)
  Lemma ref_needs_reported : forall n k, is_a f REF_EXPR n -> needs exec (exec (QRef n)) k -> reported f k.
  Proof.
    intros n k A H. destruct (ref_ok f T WF CT CO n A) as (o & ds & _ & _ & _ & _ & N). destruct (N k H) as [(-> & r & s & X)| ->]; [|exact I].
    left. exists n, r, s. split; [exact A|exact X].
  Qed.

  Lemma call_needs_reported : forall n k, is_a f CALL_EXPR n -> needs exec (exec (QCall n)) k -> reported f k.
  Proof.
    intros n k A H. destruct (call_ok f T WF CT CO n A) as (s & o & ds & NM & _ & _ & _ & _ & N).
    destruct (N k H) as [(-> & NB)|[(-> & (b & NB) & C)|(a & AA & [->|X])]].
    - right. exists n, s. auto.
    - exists n, s, b. auto.
    - exact AA.
    - exact (ref_needs_reported a k AA X).
  Qed.

  Lemma needs_reported : forall k0 k, api_key f k0 -> needs exec (exec k0) k -> reported f k.
  Proof.
    intros k0 k A H. destruct k0 as [| | | |n|n|n|n|n]; try (destruct (needs_rank0 f _ _ eq_refl H)).
    - destruct (needs_rank0 f QLex _ eq_refl H).
    - destruct A.
    - destruct A.
    - destruct unused_ok as (ds & _ & _ & N). destruct (N k H) as [(n & AN & [->|X])|(n & AN & [->|X])].
      + exact AN.
      + exact (ref_needs_reported n k AN X).
      + exact AN.
      + exact (call_needs_reported n k AN X).
    - exact (ref_needs_reported n k A H).
    - exact (call_needs_reported n k A H).
    - destruct (needs_rank0 f (QPratt n) _ eq_refl H).
    - destruct (needs_rank0 f (QMethod n) _ eq_refl H).
    - destruct (needs_rank0 f (QTraits n) _ eq_refl H).
  Qed.

  (** *** The keys asked by [collect_all_diagnostics] *)
  Lemma collect_keys_ok : exists l, collect_keys f = Ok l /\
    (forall k, In k l <-> api_key f k /\ forall n, k <> QMethod n).
  Proof.
    unfold collect_keys, root. rewrite (bottom_up_ok nodes T (proj1 WF) _ _ T 0 0 None [] (At_root T)).
    rewrite (fold_res_pure _ _ _ (fun acc n => acc ++ visit_key (ty f n) n)).
    2:{ intros acc n I. rewrite (ty_v f n (proj1 (order_valid f T WF n) I)). reflexivity. }
    cbn [bind]. eexists. split; [reflexivity|]. intros k. rewrite in_app_iff.
    assert (G : forall l acc, In k (fold_left (fun acc n => acc ++ visit_key (ty f n) n) l acc) <-> In k acc \/ exists n, In n l /\ In k (visit_key (ty f n) n)).
    { induction l as [|n l IH]; intros acc; cbn [fold_left].
      - split; [auto|]. intros [X|(n & [] & _)]. exact X.
      - rewrite IH, in_app_iff. split.
        + intros [[X|X]|(m & J & X)]; [auto|right; exists n; split; [left; reflexivity|exact X]|right; exists m; split; [right; exact J|exact X]].
        + intros [X|(m & [<-|J] & X)]; [auto|auto|right; exists m; auto]. }
    rewrite G. clear G.
    assert (VK : forall n, In k (visit_key (ty f n) n) -> valid f n -> api_key f k /\ forall m, k <> QMethod m).
    { intros n X V. unfold visit_key in X.
      destruct (ty f n =? REF_EXPR) eqn:E1; [destruct X as [<-|[]]; split; [split; [exact V|apply Nat.eqb_eq; exact E1]|discriminate]|].
      destruct (ty f n =? CALL_EXPR) eqn:E2; [destruct X as [<-|[]]; split; [split; [exact V|apply Nat.eqb_eq; exact E2]|discriminate]|].
      destruct (ty f n =? SYN_RULE) eqn:E3; [destruct X as [<-|[]]; split; [split; [exact V|apply Nat.eqb_eq; exact E3]|discriminate]|].
      destruct (ty f n =? AST_NODE_DEF) eqn:E4; [destruct X as [<-|[]]; split; [split; [exact V|apply Nat.eqb_eq; exact E4]|discriminate]|].
      destruct X. }
    split.
    - intros [[[]|(n & J & X)]|[<-|[<-|[]]]].
      + apply (VK n X). apply (order_valid f T WF). exact J.
      + split; [exact I|discriminate].
      + split; [exact I|discriminate].
    - intros (A & NM). destruct k as [| | | |n|n|n|n|n]; cbn [api_key] in A.
      + right. right. left. reflexivity.
      + destruct A.
      + destruct A.
      + right. left. reflexivity.
      + left. right. exists n. split; [apply (order_valid f T WF); exact (proj1 A)|]. rewrite (proj2 A). left. reflexivity.
      + left. right. exists n. split; [apply (order_valid f T WF); exact (proj1 A)|]. rewrite (proj2 A). left. reflexivity.
      + left. right. exists n. split; [apply (order_valid f T WF); exact (proj1 A)|]. rewrite (proj2 A). left. reflexivity.
      + destruct (NM n eq_refl).
      + left. right. exists n. split; [apply (order_valid f T WF); exact (proj1 A)|]. rewrite (proj2 A). left. reflexivity.
  Qed.
End Results.

(** ** Sorting *)
Lemma diag_le_total : forall a b, diag_ltb a b = false -> diag_le b a.
Proof.
  intros [ra sa ma] [rb sb mb] H. unfold diag_ltb in H. cbn [d_severity d_range] in H. unfold diag_le. cbn [d_severity d_range].
  apply orb_false_iff in H. destruct H as (A & B). apply Nat.ltb_ge in A.
  destruct sa, sb; cbn [priority severity_rank] in *; try (left; lia); try lia; right; (split; [reflexivity|]);
    cbn [Nat.eqb andb] in B; apply orb_false_iff in B; destruct B as (B & C); apply Nat.ltb_ge in B; apply andb_false_iff in C;
    (destruct C as [C|C]; [apply Nat.eqb_neq in C; left; lia|apply Nat.ltb_ge in C; lia]).
Qed.

Lemma diag_ltb_le : forall a b, diag_ltb a b = true -> diag_le a b.
Proof.
  intros [ra sa ma] [rb sb mb] H. unfold diag_ltb in H. cbn [d_severity d_range] in H. unfold diag_le. cbn [d_severity d_range].
  apply orb_true_iff in H. destruct H as [A|A].
  - apply Nat.ltb_lt in A. destruct sa, sb; cbn [priority severity_rank] in *; lia.
  - apply andb_true_iff in A. destruct A as (A & B). right.
    assert (sa = sb) by (destruct sa, sb; cbn [priority Nat.eqb] in A; congruence). split; [assumption|].
    apply orb_true_iff in B. destruct B as [B|B]; [apply Nat.ltb_lt in B; left; exact B|].
    apply andb_true_iff in B. destruct B as (B & C). apply Nat.eqb_eq in B. apply Nat.ltb_lt in C. right. lia.
Qed.

Lemma diag_le_trans : forall a b c, diag_le a b -> diag_le b c -> diag_le a c.
Proof.
  intros [ra sa ma] [rb sb mb] [rc sc mc]. unfold diag_le. cbn [d_severity d_range].
  intros [A|(E & A)] [B|(E' & B)].
  - left. lia.
  - subst. left. exact A.
  - subst. left. exact B.
  - subst. right. split; [reflexivity|]. lia.
Qed.

Lemma insert_diag_perm : forall d l, Permutation (insert_diag d l) (d :: l).
Proof.
  intros d l. induction l as [|x l IH]; cbn [insert_diag]; [apply Permutation_refl|]. destruct (diag_ltb x d); [|apply Permutation_refl].
  eapply perm_trans; [apply perm_skip; exact IH|apply perm_swap].
Qed.

Lemma sort_diags_perm : forall l, Permutation (sort_diags l) l.
Proof.
  induction l as [|d l IH]; cbn [sort_diags]; [apply Permutation_refl|]. eapply perm_trans; [apply insert_diag_perm|]. apply perm_skip. exact IH.
Qed.

Lemma insert_diag_sorted : forall d l, StronglySorted diag_le l -> StronglySorted diag_le (insert_diag d l).
Proof.
  intros d l S. induction S as [|x l S IH F]; cbn [insert_diag].
  - constructor; constructor.
  - destruct (diag_ltb x d) eqn:E.
    + constructor; [exact IH|]. rewrite Forall_forall in *. intros y I. apply (Permutation_in _ (insert_diag_perm d l)) in I.
      destruct I as [<-|I]; [apply diag_ltb_le; exact E|exact (F y I)].
    + apply diag_le_total in E. constructor; [constructor; assumption|]. constructor; [exact E|].
      rewrite Forall_forall in *. intros y I. exact (diag_le_trans _ _ _ E (F y I)).
Qed.

Lemma sort_diags_sorted : forall l, StronglySorted diag_le (sort_diags l).
Proof. induction l as [|d l IH]; cbn [sort_diags]; [constructor|]. apply insert_diag_sorted. exact IH. Qed.
