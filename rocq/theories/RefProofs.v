(** Go to definition and find usages agree with the resolution of names. *)
From Coq Require Import List Arith Bool Lia.
From Verif Require Import Base BaseFacts TextModel TreeModel SearchModel IndexModel DbModel DbSpec DbProofs DbTrace AnalysisModel RefModel
  TextSpec TreeSpec SearchSpec FileEditSpec EditorSpec IndexSpec AnalysisSpec RefSpec
  TextProofs TreeProofs SearchProofs TraversalProofs EditorProofs IndexProofs ViewProofs AnalysisProofs CollectProofs RunProofs MeansFacts AnalysisFacts.
Import ListNotations.

Section Refs.
  Variables (f : file) (T : tree).
  Hypothesis WF : wf_file f T.
  Hypothesis CT : char_tree (f_text f) T.
  Hypothesis CO : complete f.
  Variable ask : key -> res value.
  Hypothesis HON : honest f ask.
  Variable ws : nat -> bool.
  Notation nodes := (f_nodes f).

  (** *** Answers *)
  Lemma ask_ref : forall n, is_a f REF_EXPR n -> exists o, ask (QRef n) = Ok (VRef o) /\ resolves f n o.
  Proof.
    intros n A. destruct (HON (QRef n) A) as (v & E & AN). destruct (answered_says f T WF CT CO (QRef n) v A AN) as (ds & o & -> & R & _).
    exists o. split; assumption.
  Qed.
  Lemma ask_call : forall n, is_a f CALL_EXPR n -> exists o ds, ask (QCall n) = Ok (VCall o) /\ call_means f n o ds.
  Proof.
    intros n A. destruct (HON (QCall n) A) as (v & E & AN). destruct (answered_says f T WF CT CO (QCall n) v A AN) as (ds & o & -> & R).
    exists o, ds. split; assumption.
  Qed.
  Lemma ask_method : forall n, is_a f METHOD_DEF n -> exists o, ask (QMethod n) = Ok (VMethod o) /\ method_means f n o.
  Proof.
    intros n A. destruct (HON (QMethod n) A) as (v & E & AN). destruct (answered_says f T WF CT CO (QMethod n) v A AN) as (ds & o & -> & R & _).
    exists o. split; assumption.
  Qed.

  (** *** Definitions *)
  Definition decl (x : nat) : declaration :=
    mkDecl x (if (ty f x =? LEX_RULE) || (ty f x =? PARAMETER) then None else kid f IDENT x).

  Lemma decl_eq : forall x y, decl_eqb (decl x) (decl y) = true <-> x = y.
  Proof.
    intros x y. unfold decl_eqb, decl. cbn [dc_node dc_ident]. split.
    - intros H. apply andb_true_iff in H. apply Nat.eqb_eq. exact (proj1 H).
    - intros <-. rewrite Nat.eqb_refl. destruct ((ty f x =? LEX_RULE) || (ty f x =? PARAMETER)); [reflexivity|].
      destruct (kid f IDENT x); [apply Nat.eqb_refl|reflexivity].
  Qed.

  Lemma nav_ok : forall x, valid f x -> navigation_range f (decl x) = Ok (target f x).
  Proof.
    intros x V. unfold navigation_range, decl, target. cbn [dc_node dc_ident]. destruct ((ty f x =? LEX_RULE) || (ty f x =? PARAMETER)).
    - exact (rng_v f x V).
    - destruct (kid f IDENT x) as [i|] eqn:K; [|exact (rng_v f x V)]. exact (rng_v f i (kid_valid f T WF _ _ _ K)).
  Qed.

  Lemma decl_rule_ok : forall x, is_a f SYN_RULE x -> decl_rule f x = Ok (decl x).
  Proof.
    intros x (V & E). unfold decl_rule, rule_name_ident. rewrite (child_of_type_v f T WF _ _ V). cbn [bind]. unfold decl. rewrite E. reflexivity.
  Qed.
  Lemma decl_plain_ok : forall x, is_a f LEX_RULE x \/ is_a f PARAMETER x -> decl_plain x = Ok (decl x).
  Proof. intros x [(V & E)|(V & E)]; unfold decl_plain, decl; rewrite E; reflexivity. Qed.
  Lemma decl_named_ok : forall x, is_a f AST_NODE_DEF x \/ is_a f AST_CLASS_DEF x -> decl_named f x = Ok (decl x).
  Proof.
    intros x H. assert (V : valid f x) by (destruct H as [(V & _)|(V & _)]; exact V).
    assert (N : name_of f x <> None).
    { destruct H as [H|H]; [apply (co_named f CO x AST_NODE_DEF)|apply (co_named f CO x AST_CLASS_DEF)]; try exact H; cbn; tauto. }
    unfold decl_named. rewrite (child_of_type_v f T WF _ _ V). cbn [bind]. unfold name_of in N. destruct (kid f IDENT x) as [i|] eqn:K; [|destruct (N eq_refl)].
    cbn [unwrap bind]. unfold decl. rewrite K. destruct H as [(_ & E)|(_ & E)]; rewrite E; reflexivity.
  Qed.

  Lemma def_ok : forall n, valid f n -> (defines f n /\ def_provider f n = Ok (Some (decl n))) \/ (~ defines f n /\ def_provider f n = Ok None).
  Proof.
    intros n V. unfold def_provider. rewrite (ty_v f n V). cbn [bind].
    destruct (ty f n =? SYN_RULE) eqn:E1.
    { apply Nat.eqb_eq in E1. left. split; [split; [exact V|rewrite E1; left; reflexivity]|]. rewrite decl_rule_ok by (split; assumption). reflexivity. }
    destruct (ty f n =? LEX_RULE) eqn:E2.
    { apply Nat.eqb_eq in E2. left. split; [split; [exact V|rewrite E2; right; left; reflexivity]|]. cbn [orb]. rewrite decl_plain_ok by (left; split; assumption). reflexivity. }
    destruct (ty f n =? PARAMETER) eqn:E3.
    { apply Nat.eqb_eq in E3. left. split; [split; [exact V|rewrite E3; do 2 right; left; reflexivity]|]. cbn [orb]. rewrite decl_plain_ok by (right; split; assumption). reflexivity. }
    cbn [orb]. destruct (ty f n =? AST_NODE_DEF) eqn:E4.
    { apply Nat.eqb_eq in E4. left. split; [split; [exact V|rewrite E4; do 3 right; left; reflexivity]|]. cbn [orb]. rewrite decl_named_ok by (left; split; assumption). reflexivity. }
    destruct (ty f n =? AST_CLASS_DEF) eqn:E5.
    { apply Nat.eqb_eq in E5. left. split; [split; [exact V|rewrite E5; do 4 right; left; reflexivity]|]. cbn [orb]. rewrite decl_named_ok by (right; split; assumption). reflexivity. }
    right. split; [|reflexivity]. apply Nat.eqb_neq in E1, E2, E3, E4, E5. intros (_ & [X|[X|[X|[X|[X|[]]]]]]); congruence.
  Qed.

  (** *** References *)
  Lemma means_is : forall r s o, means f r s (Some o) ->
    match o with RRule x => is_a f SYN_RULE x | RParam x => is_a f PARAMETER x | RToken x => is_a f LEX_RULE x end.
  Proof.
    intros r s o M. inversion M as [p F|x N F|t N N' F|]; subst.
    - exact (params_in f T WF _ _ (first_such_in _ _ _ _ F)).
    - exact (rules_in f T WF _ (first_such_in _ _ _ _ F)).
    - exact (tokens_in f T WF _ (last_such_in _ _ _ _ F)).
  Qed.
  Lemma resolves_is : forall n o, resolves f n (Some o) ->
    match o with RRule x => is_a f SYN_RULE x | RParam x => is_a f PARAMETER x | RToken x => is_a f LEX_RULE x end.
  Proof. intros n o (r & s & _ & _ & M). exact (means_is _ _ _ M). Qed.

  Lemma method_is : forall n c a, method_means f n (Some (NodeAccessor c a)) ->
    match c with CAstNode x => is_a f AST_NODE_DEF x | CAstClass x => is_a f AST_CLASS_DEF x | CToken x => is_a f LEX_RULE x end.
  Proof.
    intros n c a M. inversion M as [sel s c' K N SE D E| | |]; subst. inversion SE as [x F|x N' F|x K' N1 N2 F|]; subst.
    - exact (ast_parts_in f T WF _ _ (first_such_in _ _ _ _ F)).
    - exact (ast_parts_in f T WF _ _ (first_such_in _ _ _ _ F)).
    - exact (tokens_in f T WF _ (first_such_in _ _ _ _ F)).
  Qed.

  Lemma calls_is : forall n r, calls_rule f n r -> is_a f SYN_RULE r.
  Proof. intros n r (s & _ & _ & F & _). exact (rules_in f T WF _ (first_such_in _ _ _ _ F)). Qed.

  Lemma refers_defines : forall p x, refers f p x -> defines f x.
  Proof.
    intros p x H. destruct H as [A R|A R|A R|c a A M ->|c A P C CR].
    - destruct (resolves_is _ _ R) as (V & E). split; [exact V|rewrite E; left; reflexivity].
    - destruct (resolves_is _ _ R) as (V & E). split; [exact V|rewrite E; do 2 right; left; reflexivity].
    - destruct (resolves_is _ _ R) as (V & E). split; [exact V|rewrite E; right; left; reflexivity].
    - pose proof (method_is _ _ _ M) as X. destruct c as [x|x|x]; destruct X as (V & E); (split; [exact V|rewrite E]).
      + do 3 right. left. reflexivity.
      + do 4 right. left. reflexivity.
      + right. left. reflexivity.
    - destruct (calls_is _ _ CR) as (V & E). split; [exact V|rewrite E; left; reflexivity].
  Qed.

  Lemma refers_at : forall p x, refers f p x -> reference_at f p.
  Proof.
    intros p x H. destruct H as [A R|A R|A R|c a A M _|c A P C CR]; try (left; exact A); [right; left; exact A|].
    right. right. split; [exact A|]. exists c, x. repeat split; assumption.
  Qed.

  Lemma refers_fun : forall p x y, refers f p x -> refers f p y -> x = y.
  Proof.
    intros p x y H H'.
    assert (NE : REF_EXPR <> METHOD_DEF /\ REF_EXPR <> IDENT /\ METHOD_DEF <> IDENT) by (repeat split; discriminate).
    destruct H as [A R|A R|A R|c a A M ->|c A P C CR]; destruct H' as [A' R'|A' R'|A' R'|c' a' A' M' ->|c' A' P' C' CR'];
      try (destruct A as (_ & E), A' as (_ & E'); exfalso; rewrite E in E'; discriminate E');
      try (pose proof (resolves_fun f _ _ _ R R') as E; injection E as E; exact E); try (pose proof (resolves_fun f _ _ _ R R') as E; discriminate E).
    - pose proof (method_means_fun f _ _ _ M M') as E. injection E as -> _. reflexivity.
    - rewrite P in P'. injection P' as <-. exact (calls_rule_fun f _ _ _ CR CR').
  Qed.

  Definition means_decl (p : nat) (t : option declaration) : Prop :=
    match t with Some d => exists x, refers f p x /\ d = decl x | None => forall x, ~ refers f p x end.

  (** *** Walking up *)
  Lemma nearest_fun : forall P n a b, nearest f P n a -> nearest f P n b -> a = b.
  Proof.
    intros P n a b H. induction H as [n Pn|n p a NP E H IH]; intros H'; inversion H' as [m Pm|m q b' NP' E' H0]; subst; try contradiction; [reflexivity|].
    rewrite E in E'. injection E' as <-. exact (IH H0).
  Qed.
  Lemma nearest_prop : forall P n a, nearest f P n a -> P a.
  Proof. intros P n a H. induction H; assumption. Qed.
  Lemma nearest_valid : forall P n a, valid f n -> nearest f P n a -> valid f a.
  Proof. intros P n a V H. induction H as [n Pn|n p a NP E H IH]; [exact V|]. apply IH. exact (proj1 (par_in f T WF _ _ V E)). Qed.
  Lemma nearest_iff : forall (P Q : nat -> Prop) n a, (forall m, P m <-> Q m) -> nearest f P n a -> nearest f Q n a.
  Proof.
    intros P Q n a E H. induction H as [n Pn|n p a NP E' H IH]; [apply nr_here; apply E; exact Pn|].
    apply nr_up with (p := p); [intros X; apply NP; apply E; exact X|exact E'|exact IH].
  Qed.

  Lemma first_ok : forall B (g : nat -> res (option B)) (P : nat -> Prop) fuel n, valid f n -> n < fuel ->
    (forall m, valid f m -> exists o, g m = Ok o /\ (o <> None <-> P m)) ->
    exists l r, ancestors_fuel fuel nodes n = Ok l /\ first_res g l = Ok r /\
      match r with Some b => exists a, nearest f P n a /\ g a = Ok (Some b) | None => forall a, ~ nearest f P n a end.
  Proof.
    intros B g P. induction fuel as [|fuel IH]; intros n V L G; [lia|]. cbn [ancestors_fuel]. rewrite (par_v f n V). cbn [bind].
    destruct (G n V) as (o & E & O). destruct (par f n) as [q|] eqn:PA.
    - destruct (par_in f T WF _ _ V PA) as (V' & LT & _). destruct (IH q V' ltac:(lia) G) as (l & r & -> & FR & M). cbn [bind].
      exists (n :: l). cbn [first_res]. rewrite E. cbn [bind]. destruct o as [b|].
      + exists (Some b). split; [reflexivity|]. split; [reflexivity|]. exists n. split; [|exact E]. apply nr_here. apply O. discriminate.
      + exists r. split; [reflexivity|]. split; [exact FR|]. assert (NP : ~ P n) by (intros X; apply O in X; exact (X eq_refl)).
        destruct r as [b|].
        * destruct M as (a & N & GA). exists a. split; [|exact GA]. exact (nr_up f P n q a NP PA N).
        * intros a N. inversion N as [m Pm|m q' a' NP' E' N']; subst; [contradiction|]. rewrite PA in E'. injection E' as <-. exact (M a N').
    - exists [n]. cbn [first_res]. rewrite E. cbn [bind]. destruct o as [b|].
      + exists (Some b). split; [reflexivity|]. split; [reflexivity|]. exists n. split; [|exact E]. apply nr_here. apply O. discriminate.
      + exists None. split; [reflexivity|]. split; [reflexivity|]. assert (NP : ~ P n) by (intros X; apply O in X; exact (X eq_refl)).
        intros a N. inversion N as [m Pm|m q' a' NP' E' N']; subst; [contradiction|]. rewrite PA in E'. discriminate E'.
  Qed.

  Lemma ancestors_list : forall fuel n, valid f n -> n < fuel -> exists l, ancestors_fuel fuel nodes n = Ok l /\
    hd_error l = Some n /\ (forall x, In x l -> valid f x) /\
    match par f n with Some q => exists l', l = n :: l' /\ hd_error l' = Some q | None => l = [n] end.
  Proof.
    induction fuel as [|fuel IH]; intros n V L; [lia|]. cbn [ancestors_fuel]. rewrite (par_v f n V). cbn [bind].
    destruct (par f n) as [q|] eqn:PA.
    - destruct (par_in f T WF _ _ V PA) as (V' & LT & _). destruct (IH q V' ltac:(lia)) as (l & -> & H & VL & _). cbn [bind]. exists (n :: l).
      split; [reflexivity|]. split; [reflexivity|]. split; [intros x [<-|X]; [exact V|exact (VL x X)]|]. exists l. split; [reflexivity|exact H].
    - exists [n]. split; [reflexivity|]. split; [reflexivity|]. split; [intros x [<-|[]]; exact V|reflexivity].
  Qed.

  Lemma method_above : forall m s, is_a f METHOD_DEF m -> kid f AST_SELECTOR m = Some s -> ast_ancestor nodes (is_ty METHOD_DEF) s = Ok (Some m).
  Proof.
    intros m s (V & E) K. destruct (kid_in f T WF _ _ _ K) as (J & VS & ES). destruct (kids_in f T WF _ _ J) as (_ & P).
    unfold ast_ancestor, ancestors. destruct (ancestors_list (length nodes) s VS VS) as (l & -> & _ & VL & H). rewrite P in H.
    destruct H as (l' & -> & H). cbn [bind]. rewrite (filter_res_pure _ _ (fun x => ty f x =? METHOD_DEF)).
    2:{ intros x X. rewrite (ty_v f x (VL x X)). reflexivity. }
    cbn [bind filter]. rewrite ES. destruct l' as [|y l']; [discriminate H|]. injection H as ->. cbn [Nat.eqb AST_SELECTOR METHOD_DEF filter].
    change (154 =? 153) with false. cbn iota. cbn [filter]. rewrite E, Nat.eqb_refl. reflexivity.
  Qed.

  Lemma provider_ok : forall n, valid f n -> exists o, ref_provider f ask n = Ok o /\
    match o with
    | None => ~ reference_at f n
    | Some r => reference_at f n /\ rf_node r = place f n /\ exists t, resolve f ask r = Ok t /\ means_decl n t
    end.
  Proof.
    intros n V. unfold ref_provider. rewrite (ty_v f n V). cbn [bind].
    destruct (ty f n =? REF_EXPR) eqn:E1.
    { apply Nat.eqb_eq in E1. assert (A : is_a f REF_EXPR n) by (split; assumption). eexists. split; [reflexivity|]. split; [left; exact A|].
      split; [unfold place; rewrite E1; reflexivity|]. unfold resolve. cbn [rf_resolve rf_node]. unfold resolve_by_reference.
      destruct (ask_ref n A) as (o & -> & R). cbn [bind]. destruct o as [[t|r|p]|].
      - rewrite (decl_plain_ok t (or_introl (resolves_is _ _ R))). eexists. split; [reflexivity|]. exists t. split; [exact (rf_token f n t A R)|reflexivity].
      - rewrite (decl_rule_ok r (resolves_is _ _ R)). eexists. split; [reflexivity|]. exists r. split; [exact (rf_rule f n r A R)|reflexivity].
      - rewrite (decl_plain_ok p (or_intror (resolves_is _ _ R))). eexists. split; [reflexivity|]. exists p. split; [exact (rf_param f n p A R)|reflexivity].
      - eexists. split; [reflexivity|]. intros x H. destruct H as [A' R'|A' R'|A' R'|c a A' M _|c A' P C CR];
          try (discriminate (resolves_fun f _ _ _ R R')); destruct A' as (_ & X); rewrite E1 in X; discriminate X. }
    destruct (ty f n =? METHOD_DEF) eqn:E2.
    { apply Nat.eqb_eq in E2. assert (A : is_a f METHOD_DEF n) by (split; assumption). rewrite (ast_child_v f T WF _ _ V). cbn [bind].
      destruct (kid f AST_SELECTOR n) as [s|] eqn:K; [|destruct (co_selector f CO n A K)]. cbn [unwrap bind]. eexists. split; [reflexivity|].
      split; [right; left; exact A|]. split; [unfold place; rewrite E2, K; reflexivity|]. unfold resolve. cbn [rf_resolve rf_node]. unfold resolve_by_method.
      rewrite (method_above n s A K). cbn [unwrap bind]. destruct (ask_method n A) as (o & -> & M). cbn [bind].
      assert (NO : (forall c a, o <> Some (NodeAccessor c a)) -> means_decl n None).
      { intros NA x H. destruct H as [A' R'|A' R'|A' R'|c a A' M' _|c A' P C CR]; try (destruct A' as (_ & X); rewrite E2 in X; discriminate X).
        apply (NA c a). exact (method_means_fun f _ _ _ M M'). }
      destruct o as [[c a|t a]|].
      - pose proof (method_is _ _ _ M) as X. destruct c as [x|x|x].
        + rewrite (decl_named_ok x (or_introl X)). eexists. split; [reflexivity|]. exists x. split; [exact (rf_method f n x _ _ A M eq_refl)|reflexivity].
        + rewrite (decl_named_ok x (or_intror X)). eexists. split; [reflexivity|]. exists x. split; [exact (rf_method f n x _ _ A M eq_refl)|reflexivity].
        + rewrite (decl_plain_ok x (or_introl X)). eexists. split; [reflexivity|]. exists x. split; [exact (rf_method f n x _ _ A M eq_refl)|reflexivity].
      - eexists. split; [reflexivity|]. apply NO. intros c b X. discriminate X.
      - eexists. split; [reflexivity|]. apply NO. intros c b X. discriminate X. }
    apply Nat.eqb_neq in E1, E2. destruct (ty f n =? IDENT) eqn:E3.
    2:{ apply Nat.eqb_neq in E3. eexists. split; [reflexivity|]. intros [(_ & X)|[(_ & X)|((_ & X) & _)]]; congruence. }
    apply Nat.eqb_eq in E3. rewrite (par_v f n V). cbn [bind].
    assert (NR : (forall c r, par f n = Some c -> ty f c = CALL_EXPR -> ~ calls_rule f c r) -> ~ reference_at f n).
    { intros H [(_ & X)|[(_ & X)|(_ & c & r & P & C & CR)]]; try congruence. exact (H c r P C CR). }
    destruct (par f n) as [c|] eqn:P.
    2:{ eexists. split; [reflexivity|]. apply NR. intros c r X. discriminate X. }
    destruct (par_in f T WF _ _ V P) as (VC & _ & _). rewrite (ty_v f c VC). cbn [bind]. destruct (ty f c =? CALL_EXPR) eqn:EC.
    2:{ apply Nat.eqb_neq in EC. eexists. split; [reflexivity|]. apply NR. intros c' r X. injection X as <-. contradiction. }
    apply Nat.eqb_eq in EC. assert (AC : is_a f CALL_EXPR c) by (split; assumption). destruct (ask_call c AC) as (o & ds & AE & M). rewrite AE. cbn [bind].
    assert (NO : (forall r a, o <> Some (CkRuleCall r a)) -> ~ reference_at f n).
    { intros H. apply NR. intros c' r X _ CR. injection X as <-. destruct (calls_rule_means f c r o ds CR M) as (args & ->). exact (H _ _ eq_refl). }
    assert (YES : forall r a, o = Some (CkRuleCall r a) -> exists o0, (Ok (Some (mkRef n ByCall)) : res (option reference)) = Ok o0 /\
      match o0 with None => ~ reference_at f n | Some r => reference_at f n /\ rf_node r = place f n /\ exists t, resolve f ask r = Ok t /\ means_decl n t end).
    { intros r a ->. destruct (means_calls_rule f c r a ds M) as (CR & _). eexists. split; [reflexivity|].
      split; [right; right; split; [split; assumption|]; exists c, r; repeat split; assumption|].
      split; [unfold place; destruct (Nat.eqb_spec (ty f n) METHOD_DEF); [contradiction|reflexivity]|].
      unfold resolve. cbn [rf_resolve rf_node]. unfold resolve_by_call. rewrite (par_v f n V), P. cbn [unwrap bind]. rewrite (ty_v f c VC). cbn [bind].
      unfold is_ty. rewrite EC, Nat.eqb_refl. cbn [guard]. rewrite AE. cbn [bind]. rewrite (decl_rule_ok r (calls_is _ _ CR)). eexists. split; [reflexivity|].
      exists r. split; [|reflexivity]. exact (rf_call f n r c (conj V E3) P EC CR). }
    destruct o as [[ | | | | | | | | | | | r a]|]; try (eexists; split; [reflexivity|]; apply NO; intros ? ? X; discriminate X).
    all: try exact (YES _ _ eq_refl).
  Qed.

  (** *** The cursor *)
  Lemma leaf_touches : forall o n, leaf_at f o n <-> touches T o n.
  Proof.
    intros o n. split.
    - intros (V & K & L & R). destruct (valid_at f T WF n V) as (p & q & t & A & E). unfold kids, rng, at_node in *. rewrite E in *.
      cbn [data_of n_children n_range rstart rend] in *. exists p, q, t. split; [exact A|]. split; [destruct (t_children t); [reflexivity|discriminate K]|].
      split; [lia|lia].
    - intros (p & q & t & A & C & L & R). pose proof (proj2 (proj1 WF) _ _ _ _ A) as E. split; [exact (at_valid f T WF _ _ _ _ A)|].
      unfold kids, rng, at_node. rewrite E. cbn [data_of n_children n_range rstart rend]. rewrite C. split; [reflexivity|]. split; [lia|lia].
  Qed.

  Lemma cursor_fun : forall o n m, under_cursor f ws o n -> under_cursor f ws o m -> n = m.
  Proof.
    intros o n m (L & H) (L' & H'). destruct (Nat.lt_trichotomy n m) as [X|[X|X]]; [|exact X|].
    - pose proof (proj2 (H m L') X). pose proof (proj1 (H' n L) X). congruence.
    - pose proof (proj1 (H m L') X). pose proof (proj2 (H' n L) X). congruence.
  Qed.

  Lemma cursor_ok : forall o, o <= length (f_text f) -> exists r, non_ws_node_at_offset f ws o = Ok r /\
    match r with Some n => under_cursor f ws o n | None => forall n, ~ under_cursor f ws o n end.
  Proof.
    intros o L. unfold non_ws_node_at_offset, root.
    destruct (find_leaf_spec nodes T (proj1 WF) o 0 0 None T (At_root T)) as (r & -> & IN & _ & BT); [rewrite (proj2 WF); lia|]. cbn [bind].
    assert (IN' : forall l, In l (leaves_list r) <-> leaf_at f o l).
    { intros l. rewrite IN, leaf_touches. split; [tauto|]. intros X. split; [|exact X]. destruct X as (p & q & t & A & _). exact (Below_root _ _ _ _ _ A). }
    destruct r as [|n|a b]; cbn [left_biased right_biased leaves_list] in *.
    - eexists. split; [reflexivity|]. intros n (X & _). exact (proj2 (IN' n) X).
    - assert (X : leaf_at f o n) by (apply IN'; left; reflexivity). rewrite (ty_v f n (proj1 X)). cbn [bind].
      exists (Some n). split; [destruct (ws (ty f n)); reflexivity|]. split; [exact X|]. intros m M. apply IN' in M. destruct M as [<-|[]]. split; lia.
    - assert (X : leaf_at f o a) by (apply IN'; left; reflexivity). assert (Y : leaf_at f o b) by (apply IN'; right; left; reflexivity).
      destruct (BT a b eq_refl) as (LT & _). rewrite (ty_v f a (proj1 X)). cbn [bind]. destruct (ws (ty f a)) eqn:W; (eexists; split; [reflexivity|]).
      + split; [exact Y|]. intros m M. apply IN' in M. destruct M as [<-|[<-|[]]]; split; intros; try lia; exact W.
      + split; [exact X|]. intros m M. apply IN' in M. destruct M as [<-|[<-|[]]]; split; intros; try lia; exact W.
  Qed.

  Lemma try_ok : forall B (g : nat -> res (option B)) (P : nat -> Prop) o, o <= length (f_text f) ->
    (forall m, valid f m -> exists r, g m = Ok r /\ (r <> None <-> P m)) ->
    exists r, try_find_at_offset f ws o g = Ok r /\
      match r with
      | Some b => exists n a, under_cursor f ws o n /\ nearest f P n a /\ g a = Ok (Some b)
      | None => forall n a, under_cursor f ws o n -> ~ nearest f P n a
      end.
  Proof.
    intros B g P o L G. unfold try_find_at_offset. destruct (cursor_ok o L) as (r & -> & C). cbn [bind]. destruct r as [n|].
    - assert (V : valid f n) by apply C. unfold ancestors. destruct (first_ok B g P (length nodes) n V V G) as (l & r & -> & FR & M). cbn [bind].
      exists r. split; [exact FR|]. destruct r as [b|].
      + destruct M as (a & N & E). exists n, a. split; [exact C|split; assumption].
      + intros m a U N. rewrite (cursor_fun _ _ _ U C) in N. exact (M a N).
    - exists None. split; [reflexivity|]. intros n a U _. exact (C n U).
  Qed.

  (** *** Go to definition *)
  Theorem definition_ok : forall o, o <= length (f_text f) -> exists r, resolve_reference f ask ws o = Ok r /\
    forall rg, r = Some rg <-> exists p x, reference_under f ws o p /\ refers f p x /\ rg = target f x.
  Proof.
    intros o L. unfold resolve_reference.
    destruct (try_ok _ (ref_provider f ask) (reference_at f) o L) as (r & -> & M).
    { intros m V. destruct (provider_ok m V) as (x & E & H). exists x. split; [exact E|]. destruct x as [x|].
      - split; [intros _; apply H|discriminate].
      - split; [intros X; destruct (X eq_refl)|intros X; destruct (H X)]. }
    cbn [bind]. destruct r as [r|].
    - destruct M as (n & a & U & N & E). assert (VA : valid f a) by (apply (nearest_valid (reference_at f) n); [apply U|exact N]).
      destruct (provider_ok a VA) as (y & E' & H). rewrite E in E'. injection E' as <-. destruct H as (_ & _ & t & RE & MD). rewrite RE. cbn [bind].
      assert (UN : forall p, reference_under f ws o p -> p = a).
      { intros p (n' & U' & N'). rewrite (cursor_fun _ _ _ U' U) in N'. exact (nearest_fun _ _ _ _ N' N). }
      destruct t as [d|].
      + destruct MD as (x & RF & ->). rewrite (nav_ok x (proj1 (refers_defines _ _ RF))). cbn [bind]. eexists. split; [reflexivity|].
        intros rg. split.
        * intros X. injection X as <-. exists a, x. split; [exists n; split; assumption|]. split; [exact RF|reflexivity].
        * intros (p & x' & RU & RF' & ->). rewrite (UN p RU) in RF'. rewrite (refers_fun _ _ _ RF RF'). reflexivity.
      + eexists. split; [reflexivity|]. intros rg. split; [discriminate|]. intros (p & x' & RU & RF' & ->). rewrite (UN p RU) in RF'. destruct (MD _ RF').
    - eexists. split; [reflexivity|]. intros rg. split; [discriminate|]. intros (p & x' & (n & U & N) & _). destruct (M n p U N).
  Qed.

  (** *** Find usages *)
  Lemma declaration_ok : forall o m, valid f m -> exists r, declaration_of f ask o m = Ok r /\ (r <> None <-> exists y, points f o m y) /\
    forall d, r = Some d -> exists x, points f o m x /\ d = decl x.
  Proof.
    intros o m V. unfold declaration_of.
    assert (REF : (~ (defines f m /\ rstart (target f m) <= o <= rend (target f m))) ->
      exists r, (r <- ref_provider f ask m ;; match r with Some r => resolve f ask r | None => Ok None end) = Ok r /\ (r <> None <-> exists y, points f o m y) /\
      forall d, r = Some d -> exists x, points f o m x /\ d = decl x).
    { intros ND. destruct (provider_ok m V) as (y & -> & H). cbn [bind].
      assert (PR : forall x, points f o m x <-> refers f m x).
      { intros x. split; [intros [(A & _ & B)|X]; [destruct (ND (conj A B))|exact X]|intros X; right; exact X]. }
      destruct y as [r|].
      - destruct H as (_ & _ & t & -> & MD). exists t. split; [reflexivity|]. destruct t as [d|].
        + destruct MD as (x & RF & ->). split; [split; [intros _; exists x; apply PR; exact RF|discriminate]|].
          intros d X. injection X as <-. exists x. split; [apply PR; exact RF|reflexivity].
        + split; [split; [intros X; destruct (X eq_refl)|intros (x & X); apply PR in X; destruct (MD x X)]|discriminate].
      - exists None. split; [reflexivity|]. split; [split; [intros X; destruct (X eq_refl)|intros (x & X); apply PR in X; destruct (H (refers_at _ _ X))]|discriminate]. }
    destruct (def_ok m V) as [(D & ->)|(ND & ->)]; cbn [bind].
    - rewrite (nav_ok m V). cbn [bind]. destruct (contains_offset_nonstrict (target f m) o) eqn:C; cbn [bind].
      + unfold contains_offset_nonstrict in C. apply andb_true_iff in C. destruct C as (C1 & C2). apply Nat.leb_le in C1, C2.
        assert (P : points f o m m) by (left; split; [exact D|split; [reflexivity|lia]]).
        eexists. split; [reflexivity|]. split; [split; [intros _; exists m; exact P|discriminate]|]. intros d X. injection X as <-. exists m. split; [exact P|reflexivity].
      + apply REF. intros (_ & X & Y). unfold contains_offset_nonstrict in C. apply andb_false_iff in C. destruct C as [C|C]; apply Nat.leb_gt in C; lia.
    - apply REF. intros (X & _). exact (ND X).
  Qed.

  Lemma points_fun : forall o a x y, points f o a x -> points f o a y -> x = y.
  Proof.
    assert (ND : forall a x, defines f a -> refers f a x -> False).
    { intros a x (_ & D) R. destruct (refers_at _ _ R) as [(_ & E)|[(_ & E)|((_ & E) & _)]]; rewrite E in D; cbn in D; repeat (destruct D as [D|D]; [discriminate D|]); exact D. }
    intros o a x y [(D & <- & _)|R] [(D' & <- & _)|R'].
    - reflexivity.
    - destruct (ND _ _ D R').
    - destruct (ND _ _ D' R).
    - exact (refers_fun _ _ _ R R').
  Qed.

  Lemma asked_fun : forall o x y, asked_about f ws o x -> asked_about f ws o y -> x = y.
  Proof.
    intros o x y (n & a & U & N & P) (n' & a' & U' & N' & P'). rewrite (cursor_fun _ _ _ U' U) in N'. rewrite (nearest_fun _ _ _ _ N' N) in P'.
    exact (points_fun _ _ _ _ P P').
  Qed.

  Lemma usages_list : forall x l, (forall n, In n l -> valid f n) -> exists sel : nat -> bool,
    (forall n, In n l -> (sel n = true <-> refers f n x)) /\
    filter_map_res (usage_of f ask (decl x)) l = Ok (map (fun p => rng f (place f p)) (filter sel l)).
  Proof.
    intros x l V.
    assert (D : forall n, valid f n -> exists b : bool, usage_of f ask (decl x) n = Ok (if b then Some (rng f (place f n)) else None) /\ (b = true <-> refers f n x)).
    { intros n VN. unfold usage_of. destruct (provider_ok n VN) as (y & -> & H). cbn [bind]. destruct y as [r|].
      - destruct H as (RA & RN & t & -> & MD). cbn [bind]. destruct t as [d|].
        + destruct MD as (z & RF & ->). destruct (decl_eqb (decl z) (decl x)) eqn:E.
          * apply decl_eq in E. subst z. rewrite RN.
            assert (VP : valid f (place f n)).
            { unfold place. destruct (ty f n =? METHOD_DEF); [|exact VN]. destruct (kid f AST_SELECTOR n) as [s|] eqn:K; [|exact VN]. exact (kid_valid f T WF _ _ _ K). }
            rewrite (rng_v f _ VP). exists true. split; [reflexivity|]. split; [intros _; exact RF|reflexivity].
          * exists false. split; [reflexivity|]. split; [discriminate|]. intros RF'. rewrite (refers_fun _ _ _ RF RF') in E.
            rewrite (proj2 (decl_eq x x) eq_refl) in E. discriminate E.
        + exists false. split; [reflexivity|]. split; [discriminate|]. intros RF'. destruct (MD x RF').
      - exists false. split; [reflexivity|]. split; [discriminate|]. intros RF'. destruct (H (refers_at _ _ RF')). }
    induction l as [|n l IH].
    - exists (fun _ => false). split; [intros n []|reflexivity].
    - destruct IH as (sel & S1 & E); [intros m J; apply V; right; exact J|]. destruct (D n (V n (or_introl eq_refl))) as (b & EB & B).
      exists (fun m => if m =? n then b else sel m). split.
      + intros m J. destruct (Nat.eqb_spec m n) as [->|NE]; [exact B|]. destruct J as [<-|J]; [congruence|]. exact (S1 m J).
      + cbn [filter_map_res]. rewrite EB. cbn [bind]. rewrite E. cbn [bind filter]. rewrite Nat.eqb_refl.
        assert (F : filter (fun m => if m =? n then b else sel m) l = filter sel l).
        { apply filter_ext_in. intros m J. destruct (Nat.eqb_spec m n) as [->|NE]; [|reflexivity].
          destruct b.
          - symmetry. apply S1; [exact J|]. apply B. reflexivity.
          - destruct (sel n) eqn:SN; [|reflexivity]. apply S1 in SN; [|exact J]. apply B in SN. discriminate SN. }
        rewrite F. destruct b; reflexivity.
  Qed.

  Theorem usages_ok : forall o, o <= length (f_text f) -> exists out, find_usages f ask ws o = Ok out /\
    ((exists x ps, asked_about f ws o x /\ out = map (fun p => rng f (place f p)) ps /\ NoDup ps /\ (forall p, In p ps <-> refers f p x) /\
        exists l, subtree nodes root = Ok l /\ exists sel, ps = filter sel l)
     \/ ((forall x, ~ asked_about f ws o x) /\ out = [])).
  Proof.
    intros o L. unfold find_usages.
    destruct (try_ok _ (declaration_of f ask o) (fun a => exists y, points f o a y) o L) as (r & -> & M).
    { intros m V. destruct (declaration_ok o m V) as (r & E & H & _). exists r. split; assumption. }
    cbn [bind]. destruct r as [d|].
    - destruct M as (n & a & U & N & E). assert (VA : valid f a) by (eapply nearest_valid; [apply U|exact N]).
      destruct (declaration_ok o a VA) as (r & E' & _ & H). rewrite E in E'. injection E' as <-. destruct (H d eq_refl) as (x & P & ->).
      unfold root. rewrite (subtree_ok nodes T (proj1 WF) _ _ _ _ (At_root T)). cbn [bind].
      destruct (usages_list x (post T 0)) as (sel & S1 & ->). { intros m J. apply (order_valid f T WF). exact J. }
      eexists. split; [reflexivity|]. left. exists x, (filter sel (post T 0)). split; [exists n, a; split; [exact U|split; assumption]|]. split; [reflexivity|].
      split; [apply NoDup_filter; apply post_nodup|]. split.
      + intros p. rewrite filter_In. split.
        * intros (J & S2). apply S1; assumption.
        * intros R. assert (J : In p (post T 0)).
          { apply (order_valid f T WF). destruct (refers_at _ _ R) as [(V & _)|[(V & _)|((V & _) & _)]]; exact V. }
          split; [exact J|]. apply S1; assumption.
      + exists (post T 0). split; [reflexivity|]. exists sel. reflexivity.
    - eexists. split; [reflexivity|]. right. split; [|reflexivity]. intros x (n & a & U & N & P). exact (M n a U N).
  Qed.
End Refs.

(** ** Answers without a database *)
Section Direct.
  Variables (f : file) (T : tree).
  Hypothesis WF : wf_file f T.
  Hypothesis CT : char_tree (f_text f) T.
  Hypothesis CO : complete f.
  Notation exec := (fall_exec f).

  Lemma run_outcome : forall ev r p o, below r p -> outcome exec p o ->
    (forall k v ds, rank k < r -> evaluates exec k v ds -> ev k = Ok v) ->
    forall v ds, o = Some (v, ds) -> run_prog ev p = Ok v.
  Proof.
    intros ev r p o B OC EV. revert B. induction OC as [v ds| |k c v ds o H1 _ H2 IH2|k c H1 _]; intros B w dw E.
    - injection E as -> ->. reflexivity.
    - discriminate E.
    - inversion B as [| |k' c' L H]; subst k' c'. cbn [run_prog]. rewrite (EV k v ds L H1). cbn [bind]. exact (IH2 (H v) w dw E).
    - discriminate E.
  Qed.

  Lemma direct_ok : forall fuel k v ds, rank k < fuel -> evaluates exec k v ds -> direct fuel f k = Ok v.
  Proof.
    induction fuel as [|fuel IH]; intros k v ds L E; [lia|]. cbn [direct].
    apply (run_outcome _ (rank k) _ _ (exec_below f k) E) with (ds := ds); [|reflexivity].
    intros k' v' ds' L' E'. apply (IH k' v' ds'); [lia|exact E'].
  Qed.

  Lemma rank_small : forall k, rank k < 4.
  Proof. intros k. destruct k; cbn [rank]; lia. Qed.

  Lemma one_thread : forall l s, length (st_threads s) = 1 -> length (st_threads (run_schedule key_eqb key_kind exec l s)) = 1.
  Proof.
    intros l. induction l as [|i l IH]; intros s H; [exact H|]. cbn [run_schedule]. destruct (step_at key_eqb key_kind exec i s) as [s'|] eqn:S1; [|exact (IH s H)].
    apply IH. unfold step_at in S1. destruct (nth_error (st_threads s) i); [|discriminate S1]. destruct (tstep key_eqb key_kind exec i (st_shared s) t) as [(sh, t')|]; [|discriminate S1].
    injection S1 as <-. cbn [st_threads]. rewrite set_nth_length. exact H.
  Qed.

  Lemma answer_exists : forall k, api_key f k -> exists v ds, evaluates exec k v ds /\ answers f k v.
  Proof.
    intros k K. set (cl := CAsk k (fun _ => CRet) : client key value diagnostic).
    assert (A : api_clients f [cl]).
    { intros c k' [<-|[]] X. inversion X as [|k0 c v ds k1 E Y|]; subst; [exact K|inversion Y]. }
    pose proof (all_halt key_eqb key_eqb_spec key_kind exec [cl] (fun k _ => exec_outcome f k)) as AC.
    destruct (acc_complete key_eqb key_eqb_spec key_kind exec [cl] _ AC (inv_start key_kind exec [cl])) as (l & F).
    destruct (nth_error (st_threads (run_schedule key_eqb key_kind exec l (start [cl]))) 0) as [t|] eqn:NT.
    2:{ exfalso. apply nth_error_None in NT. rewrite one_thread in NT by reflexivity. lia. }
    assert (ND : t_ctl t <> Dead) by (apply (api_alive f T WF CT CO [cl] l t A); exact (nth_error_In _ _ NT)).
    pose proof (track key_eqb key_kind exec [cl] l 0 cl t eq_refl NT) as TR. destruct (F 0 t NT) as [C|C]; [|contradiction].
    unfold on_track in TR. rewrite C in TR. destruct TR as (_ & FO).
    assert (LOG : exists v, In (EAnswer k v) (t_log t)).
    { clear - FO. remember (t_log t) as log. clear Heqlog.
      assert (G : forall c, follows cl log c -> (log = [] /\ c = cl) \/ (exists v, In (EAnswer k v) log /\ c = CRet)).
      { clear. intros c H. induction H as [|k' v log c H IH|ds log c H IH].
        - left. split; reflexivity.
        - destruct IH as [(-> & E)|(v' & _ & E)]; [|discriminate E]. unfold cl in E. injection E as -> ->. right. exists v. split; [left; reflexivity|reflexivity].
        - destruct IH as [(-> & E)|(v' & _ & E)]; discriminate E. }
      destruct (G CRet FO) as [(_ & X)|(v & J & _)]; [discriminate X|]. exists v. exact J. }
    destruct LOG as (v & J).
    pose proof (inv_run key_eqb key_eqb_spec key_kind exec [cl] l _ (inv_start key_kind exec [cl])) as I.
    destruct (i_threads _ _ _ _ I 0 t NT) as (_ & L & _). destruct (i_cache _ _ _ _ I k v (L k v J)) as ((ds & E) & _).
    exists v, ds. split; [exact E|]. exists [cl], l, 0, cl, t. split; [split; [reflexivity|exact NT]|exact J].
  Qed.

  Theorem direct_honest : honest f (direct 4 f).
  Proof.
    intros k K. destruct (answer_exists k K) as (v & ds & E & A). exists v. split; [|exact A]. exact (direct_ok 4 k v ds (rank_small k) E).
  Qed.
End Direct.

(** Two sources of answers agree. *)
Lemma answers_fun : forall f k v v', answers f k v -> answers f k v' -> v = v'.
Proof.
  assert (E : forall f k v, answers f k v -> exists ds, evaluates (fall_exec f) k v ds).
  { intros f k v (cs & l & i & c0 & t & (_ & N) & J).
    pose proof (inv_run key_eqb key_eqb_spec key_kind (fall_exec f) cs l _ (inv_start key_kind (fall_exec f) cs)) as I.
    destruct (i_threads _ _ _ _ I i t N) as (_ & L & _). destruct (i_cache _ _ _ _ I k v (L k v J)) as (X & _). exact X. }
  intros f k v v' A A'. destruct (E _ _ _ A) as (ds & X), (E _ _ _ A') as (ds' & X'). exact (proj1 (evaluates_det _ _ _ _ _ _ X X')).
Qed.

(** ** The cursor on the name of a definition *)
Section Names.
  Variables (f : file) (T : tree).
  Hypothesis WF : wf_file f T.
  Variable ws : nat -> bool.

  Lemma kid_inside : forall t n c, valid f n -> kid f t n = Some c -> rstart (rng f n) <= rstart (rng f c) /\ rend (rng f c) <= rend (rng f n).
  Proof.
    intros t n c V K. destruct (kid_in f T WF _ _ _ K) as (J & _). destruct (valid_at f T WF n V) as (p & q & u & A & E).
    unfold kids, at_node in J. rewrite E in J. cbn [data_of n_children] in J.
    destruct u as [ty l|ty cs]; cbn [t_children child_ids] in J; [destruct J|].
    assert (H : forall post pre, cs = pre ++ post -> In c (child_ids (S n + tsizes pre) post) ->
      exists p' c', At T c p' (Some n) c' /\ p <= p' /\ p' + tlen c' <= p + tlens cs).
    { induction post as [|x post IH]; intros pre EQ IN; [destruct IN|]. cbn [child_ids] in IN. destruct IN as [<-|IN].
      - exists (p + tlens pre), x. subst cs. split; [exact (At_child T _ _ _ _ _ _ _ A)|]. rewrite tlens_app, tlens_cons. lia.
      - apply (IH (pre ++ [x])); [rewrite <- app_assoc; exact EQ|]. rewrite tsizes_app, tsizes_cons. change (tsizes []) with 0. rewrite Nat.add_0_r, Nat.add_assoc. exact IN. }
    destruct (H cs [] eq_refl) as (p' & c' & A' & L1 & L2); [change (tsizes []) with 0; rewrite Nat.add_0_r; exact J|].
    pose proof (proj2 (proj1 WF) _ _ _ _ A') as E'. unfold rng, at_node. rewrite E, E'. cbn [data_of n_range rstart rend tlen]. unfold tlens in L2. lia.
  Qed.

  Lemma asked_name : forall o x i, defines f x -> kid f IDENT x = Some i -> under_cursor f ws o i -> asked_about f ws o x.
  Proof.
    intros o x i D K U. destruct (kid_in f T WF _ _ _ K) as (J & VI & EI). destruct (kids_in f T WF _ _ J) as (_ & P).
    assert (PX : points f o x x).
    { left. split; [exact D|]. split; [reflexivity|]. destruct U as ((_ & _ & _ & L & R) & _). unfold target. rewrite K.
      destruct ((ty f x =? LEX_RULE) || (ty f x =? PARAMETER)); [|lia]. pose proof (kid_inside _ _ _ (proj1 D) K). lia. }
    exists i, x. split; [exact U|]. split; [|exact PX]. apply nr_up with (p := x); [|exact P|apply nr_here; exists x; exact PX].
    intros (y & [((_ & X) & _)|R]).
    - rewrite EI in X. cbn in X. repeat (destruct X as [X|X]; [discriminate X|]). exact X.
    - destruct (refers_at _ _ _ R) as [(_ & E)|[(_ & E)|(_ & c & r & P' & C & _)]]; try (rewrite EI in E; discriminate E).
      rewrite P in P'. injection P' as <-. destruct D as (_ & X). rewrite C in X. cbn in X. repeat (destruct X as [X|X]; [discriminate X|]). exact X.
  Qed.
End Names.
