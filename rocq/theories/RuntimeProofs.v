(** Lemmas about the generated AST types. *)
From Coq Require Import List Arith Bool Lia.
From Verif Require Import Base BaseFacts TextModel TreeModel TreeSpec SearchModel FileEditSpec DbModel AnalysisModel AnalysisSpec ViewProofs RefModel RefSpec CodegenModel CodegenSpec
  AstGenSpec MeansFacts AstGenProofs PropsCodegen RuntimeModel RuntimeSpec.
Import ListNotations.
Open Scope list_scope.

Lemma beq : forall a b : bytes, bytes_eqb a b = true <-> a = b.
Proof. intros a b. unfold bytes_eqb. apply list_eqb_spec. apply Nat.eqb_eq. Qed.
Lemma scream_of : forall s c, screams s c <-> c = scream s.
Proof. intros s c. split; [intros H; exact (forall2_fun _ _ _ _ _ _ capital_fun H (scream_is s))|intros ->; apply scream_is]. Qed.

Lemma const_from_is : forall l i c k, NoDup (map (fun t => scream (fst t)) l) ->
  (const_from i l c = Some k <-> exists j s, nth_error l j = Some s /\ scream (fst s) = c /\ k = i + j).
Proof.
  induction l as [|s l IH]; intros i c k ND; cbn [const_from map] in *.
  - split; [discriminate|]. intros ([|j] & s & N & _); discriminate N.
  - inversion ND as [|? ? NI ND']; subst. destruct (bytes_eqb (scream (fst s)) c) eqn:E.
    + apply beq in E. split.
      * intros H. injection H as <-. exists 0, s. split; [reflexivity|]. split; [exact E|lia].
      * intros ([|j] & s' & N & E' & ->); [f_equal; lia|]. exfalso. apply NI. cbn in N. rewrite E, <- E'. apply in_map_iff. exists s'. split; [reflexivity|exact (nth_error_In _ _ N)].
    + rewrite (IH (S i) c k ND'). split.
      * intros (j & s' & N & E' & ->). exists (S j), s'. split; [exact N|]. split; [exact E'|lia].
      * intros ([|j] & s' & N & E' & ->); [injection N as <-; apply beq in E'; congruence|]. exists j, s'. split; [exact N|]. split; [exact E'|lia].
Qed.

Lemma find_unique : forall A (key : A -> bytes) l d, NoDup (map key l) -> In d l -> List.find (fun e => bytes_eqb (key e) (key d)) l = Some d.
Proof.
  induction l as [|e l IH]; intros d ND J; [destruct J|]. inversion ND as [|? ? NI ND']; subst. cbn [List.find]. destruct J as [->|J].
  - rewrite (proj2 (beq _ _) eq_refl). reflexivity.
  - destruct (bytes_eqb (key e) (key d)) eqn:E; [|exact (IH d ND' J)]. apply beq in E. exfalso. apply NI. rewrite E. apply in_map. exact J.
Qed.
Lemma find_absent : forall A (key : A -> bytes) l t, ~ In t (map key l) -> List.find (fun e => bytes_eqb (key e) t) l = None.
Proof.
  induction l as [|e l IH]; intros t N; [reflexivity|]. cbn [List.find]. destruct (bytes_eqb (key e) t) eqn:E; [apply beq in E; destruct N; left; exact E|]. apply IH. intros J. apply N. right. exact J.
Qed.
Lemma nodup_app : forall A (l m : list A), NoDup (l ++ m) -> NoDup l /\ NoDup m /\ forall a, In a l -> ~ In a m.
Proof.
  induction l as [|a l IH]; intros m H; [split; [constructor|split; [exact H|intros a []]]|]. inversion H as [|? ? NI ND]; subst. destruct (IH m ND) as (H1 & H2 & H3).
  split; [constructor; [intros J; apply NI; apply in_or_app; left; exact J|exact H1]|]. split; [exact H2|]. intros b [<-|J]; [intros J; apply NI; apply in_or_app; right; exact J|apply H3; exact J].
Qed.

Section Module.
  (** The file of the grammar and its module *)
  Variable f : file.
  Variable a : nat.
  Hypothesis KA : kid f AST_DEF 0 = Some a.
  Variable x : ctx_ast.
  Hypothesis AI : ast_is f a x.
  Hypothesis CP : compiles (type_list f) x.
  Variables (h : file) (T : tree).
  Hypothesis WH : wf_file h T.
  Hypothesis CH : char_tree (f_text h) T.
  Notation const := (const (type_list f)).
  Notation wrap := (wrap (type_list f) x h).

  Lemma defs_are : node_defs f = kids_of f AST_NODE_DEF a /\ class_defs f = kids_of f AST_CLASS_DEF a.
  Proof. unfold node_defs, class_defs, ast_parts. rewrite KA. auto. Qed.
  Lemma not_both : forall d, In d (node_defs f) -> ~ In d (class_defs f).
  Proof.
    intros d J J'. rewrite (proj1 defs_are) in J. rewrite (proj2 defs_are) in J'. unfold kids_of in *. apply filter_In in J. apply filter_In in J'.
    destruct J as (_ & J), J' as (_ & J'). apply Nat.eqb_eq in J. apply Nat.eqb_eq in J'. rewrite J in J'. discriminate J'.
  Qed.

  Lemma const_is : forall s c k, screams s c -> (const c = Some k <-> type_no f s k).
  Proof.
    intros s c k S. unfold RuntimeModel.const. rewrite (const_from_is _ _ _ _ (cp_consts _ _ CP)). unfold type_no. split.
    - intros (j & (s' & b) & N & E & ->). cbn [fst] in E. exists j, s', b, c. split; [exact N|]. split; [exact S|]. split; [apply scream_of; auto|reflexivity].
    - intros (i & s' & b & c' & N & S1 & S2 & ->). exists i, (s', b). split; [exact N|]. split; [|reflexivity]. apply scream_of in S, S1, S2. cbn [fst]. congruence.
  Qed.
  Lemma const_some : forall c, In c (map (fun t => scream (fst t)) (type_list f)) -> exists k, const c = Some k.
  Proof.
    intros c J. apply in_map_iff in J. destruct J as (t & E & J). apply In_nth_error in J. destruct J as (j & N). exists (100 + j). apply (const_from_is _ _ _ _ (cp_consts _ _ CP)). exists j, t. auto.
  Qed.

  Lemma struct_found : forall d t, In d (node_defs f) -> type_name f d t -> exists y s, List.find (fun e => bytes_eqb (cn_struct e) t) (ca_nodes x) = Some y /\ In y (ca_nodes x) /\ name_of f d = Some s /\ screams s (cn_type y).
  Proof.
    intros d t J N. rewrite (proj1 defs_are) in J. destruct AI as (AN & _). destruct (forall2_left _ _ _ _ _ _ AN J) as (y & JY & TN & (s & NS & SC) & _).
    rewrite (type_name_fun _ _ _ _ N TN). exists y, s. destruct (nodup_app _ _ _ (cp_types _ _ CP)) as (ND & _). split; [exact (find_unique _ cn_struct _ _ ND JY)|]. auto.
  Qed.
  Lemma class_found : forall d t, In d (class_defs f) -> type_name f d t ->
    List.find (fun e => bytes_eqb (cn_struct e) t) (ca_nodes x) = None /\ exists y, List.find (fun e => bytes_eqb (cc_enum e) t) (ca_classes x) = Some y /\ In y (ca_classes x) /\ cc_enum y = t /\ Forall2 (variant_is f) (variants f d) (cc_variants y).
  Proof.
    intros d t J N. rewrite (proj2 defs_are) in J. destruct AI as (_ & AC & _). destruct (forall2_left _ _ _ _ _ _ AC J) as (y & JY & TN & FV). rewrite (type_name_fun _ _ _ _ N TN).
    destruct (nodup_app _ _ _ (cp_types _ _ CP)) as (_ & ND & DJ). split.
    - apply find_absent. intros I. apply (DJ _ I). apply in_map. exact JY.
    - exists y. split; [exact (find_unique _ cc_enum _ _ ND JY)|auto].
  Qed.
  Lemma named_def : forall t, In t (type_names x) -> exists d, (In d (node_defs f) \/ In d (class_defs f)) /\ type_name f d t.
  Proof.
    intros t J. rewrite (proj1 defs_are), (proj2 defs_are). destruct AI as (AN & AC & _). apply in_app_or in J. destruct J as [J|J]; apply in_map_iff in J; destruct J as (y & <- & J).
    - destruct (forall2_right _ _ _ _ _ _ AN J) as (d & JD & TN & _). exists d. auto.
    - destruct (forall2_right _ _ _ _ _ _ AC J) as (d & JD & TN & _). exists d. auto.
  Qed.

  Lemma wrap_ok : forall rank, (forall d v, In d (ca_classes x) -> In v (cc_variants d) -> rank (snd v) < rank (cc_enum d)) ->
    forall n, valid h n -> forall fuel t, rank t < fuel -> forall d, In d (node_defs f) \/ In d (class_defs f) -> type_name f d t ->
    exists r, wrap fuel t n = Ok r /\ match r with Some v => of_kind f d (ty h n) /\ value_of f h n d v | None => ~ of_kind f d (ty h n) end.
  Proof.
    intros rank RK n V. induction fuel as [|fuel IH]; intros t LT d JD TN; [lia|]. destruct JD as [JD|JD].
    - destruct (struct_found d t JD TN) as (y & s & FD & JY & NS & SC). cbn [RuntimeModel.wrap]. rewrite FD. destruct (const_some _ (cp_node _ _ CP y JY)) as (k & K). rewrite K. cbn [unwrap bind].
      rewrite (ty_v h n V). cbn [bind]. eexists. split; [reflexivity|]. destruct (ty h n =? k) eqn:E.
      + apply Nat.eqb_eq in E. assert (OK : of_kind f d (ty h n)) by (apply (ok_node f d s); [exact JD|exact NS|rewrite E; apply (const_is s _ _ SC); exact K]). split; [exact OK|]. apply vo_node; assumption.
      + apply Nat.eqb_neq in E. intros OK. inversion OK as [d' s' k' J1 N1 T1|d' i e k' J1 J2 J3 J4]; subst; [|exact (not_both d JD J1)].
        rewrite NS in N1. injection N1 as <-. apply (const_is s _ _ SC) in T1. rewrite K in T1. injection T1 as T1. congruence.
    - destruct (class_found d t JD TN) as (FN & y & FC & JY & EN & FV). cbn [RuntimeModel.wrap]. rewrite FN, FC.
      assert (G : forall vs is pre, variants f d = pre ++ is -> Forall2 (variant_is f) is vs -> (forall v, In v vs -> In v (cc_variants y)) ->
        (forall j e, In j pre -> variant_of f j e -> ~ of_kind f e (ty h n)) ->
        exists r, (fix go (vs : list (bytes * bytes)) : res (option ast) :=
               match vs with
               | [] => Ok None
               | v :: vs => o <- wrap fuel (snd v) n ;; match o with Some a => Ok (Some (AEnum t (snd v) a)) | None => go vs end
               end) vs = Ok r /\ match r with Some v => of_kind f d (ty h n) /\ value_of f h n d v | None => ~ of_kind f d (ty h n) end).
      { clear FV. induction vs as [|v vs IHv]; intros is pre EQ FV IN NO.
        - inversion FV; subst. rewrite app_nil_r in EQ. exists None. split; [reflexivity|]. intros OK. inversion OK as [d' s' k' J1 N1 T1|d' i e k' J1 J2 J3 J4]; subst; [exact (not_both d J1 JD)|].
          exact (NO i e J2 J3 J4).
        - destruct is as [|i is']; [inversion FV|]. assert (HH : variant_is f i v /\ Forall2 (variant_is f) is' vs) by (inversion FV; auto). destruct HH as ((SI & CI) & FV'). pose proof (IN v (or_introl eq_refl)) as JV. pose proof (RK y v JY JV) as R. rewrite EN in R.
          destruct (named_def _ (cp_variant _ _ CP y v JY JV)) as (e & JE & TE). destruct (IH (snd v) ltac:(lia) e JE TE) as (r & W & P). rewrite W. cbn [bind].
          assert (VE : variant_of f i e) by (split; [exact JE|exists (snd v); auto]). destruct r as [va|].
          + eexists. split; [reflexivity|]. destruct P as (OK & VO). split; [apply (ok_class f d i e); [exact JD|rewrite EQ; apply in_or_app; right; left; reflexivity|exact VE|exact OK]|].
            apply (vo_class f h n d t pre i is' e (snd v) va JD TN EQ NO VE CI VO).
          + apply (IHv is' (pre ++ [i])); [rewrite <- app_assoc; exact EQ|exact FV'|intros w Jw; apply IN; right; exact Jw|].
            intros j e' J VJ. apply in_app_or in J. destruct J as [J|[<-|[]]]; [exact (NO j e' J VJ)|]. destruct VJ as (JE' & c & C1 & C2). rewrite (camel_fun _ _ _ C1 CI) in C2.
            destruct (IH (snd v) ltac:(lia) e' JE' C2) as (r' & W' & P'). rewrite W in W'. injection W' as <-. exact P'. }
      apply (G (cc_variants y) (variants f d) [] eq_refl FV); [auto|]. intros j e [].
  Qed.

  Lemma children_ok : forall rank, (forall d v, In d (ca_classes x) -> In v (cc_variants d) -> rank (snd v) < rank (cc_enum d)) ->
    forall n fuel t d, valid h n -> rank t < fuel -> In d (node_defs f) \/ In d (class_defs f) -> type_name f d t ->
    exists l, ast_children_of (type_list f) x h fuel t n = Ok l /\ children_as f h n d l.
  Proof.
    intros rank RK n fuel t d V LT JD TN. unfold ast_children_of, children_as. rewrite (kids_v h n V). cbn [bind].
    assert (VK : Forall (valid h) (kids h n)) by (apply Forall_forall; intros c J; exact (kids_valid h T WH n c J)).
    generalize (@nil nat) as pre. induction VK as [|c cs VC VK IH]; intros pre; [exists []; split; [reflexivity|]; exists []; split; [constructor|constructor]|].
    cbn [filter_map_res]. destruct (wrap_ok rank RK c VC fuel t LT d JD TN) as (r & W & P). rewrite W. cbn [bind]. destruct (IH (pre ++ [c])) as (l & E & ks & PK & F). rewrite E. cbn [bind]. eexists. split; [reflexivity|].
    destruct r as [v|].
    - exists (c :: ks). split; [apply pk_yes; [exact (proj1 P)|exact PK]|constructor; [exact (proj2 P)|exact F]].
    - exists ks. split; [apply pk_no; assumption|exact F].
  Qed.

  Lemma struct_named : forall d t, In d (node_defs f) -> type_name f d t -> In t (type_names x).
  Proof.
    intros d t J TN. destruct (struct_found d t J TN) as (y & s & FD & JY & _). apply find_some in FD. destruct FD as (_ & E). apply beq in E. rewrite <- E. apply in_or_app. left. apply in_map. exact JY.
  Qed.
  Lemma class_named : forall d t, In d (class_defs f) -> type_name f d t -> In t (type_names x).
  Proof. intros d t J TN. destruct (class_found d t J TN) as (_ & y & _ & JY & <- & _). apply in_or_app. right. apply in_map. exact JY. Qed.

  Lemma call_ok : forall rank, (forall d v, In d (ca_classes x) -> In v (cc_variants d) -> rank (snd v) < rank (cc_enum d)) ->
    forall m d b, method_means f m (Some d) -> accessor_is f d b -> forall fuel, (forall t, In t (type_names x) -> rank t < fuel) ->
    forall n, valid h n -> answers f h n d (call (type_list f) x h fuel b n).
  Proof.
    intros rank RK m d b MM AC fuel LE n V.
    assert (TOK : forall t c, In t (tokens f) -> constant f t c -> exists s k, name_of f t = Some s /\ type_no f s k /\ const c = Some k).
    { intros t c J (s & N & S). assert (JT : In c (map (fun t => scream (fst t)) (type_list f))).
      { apply scream_of in S. subst c. apply in_map_iff. exists (s, has_attr f t s_skip). split; [reflexivity|]. unfold type_list. apply in_or_app. left. apply in_flat_map. exists t. split; [exact J|]. rewrite N. left. reflexivity. }
      destruct (const_some c JT) as (k & K). exists s, k. split; [exact N|]. split; [apply (const_is s c k S); exact K|exact K]. }
    assert (SEL : match d with TextAccessor t _ | NodeAccessor (CToken t) _ => In t (tokens f) | NodeAccessor (CAstNode e) _ => In e (node_defs f) | NodeAccessor (CAstClass e) _ => In e (class_defs f) end).
    { inversion MM as [sel s c K N S D|sel s t K N S D| |]; subst.
      - inversion S; subst; eapply first_such_in; eassumption.
      - inversion S; subst; eapply first_such_in; eassumption. }
    assert (CHILD : forall e ar t, In e (node_defs f) \/ In e (class_defs f) -> type_name f e t -> rank t < fuel ->
      exists l, children_as f h n e l /\ call (type_list f) x h fuel (AChild ar t) n = the_first ar RAst RMany l).
    { intros e ar t JE TN LT. destruct (children_ok rank RK n fuel t e V LT JE TN) as (l & E & C). exists l. split; [exact C|]. unfold call. rewrite E. cbn [bind]. destruct ar, l; reflexivity. }
    inversion AC as [t ar c NM K|t ar c NM K|e ar c TN|e ar c TN]; subst.
    - destruct (TOK t c SEL K) as (s & k & N & TY & CK). replace (call _ _ _ _ _ _) with (the_first ar (fun c => RText (str h c)) (fun _ => RNone) (kids_of h k n)); [exact (an_text f h n t ar s k N TY)|].
      unfold call. rewrite CK. cbn [unwrap bind]. rewrite (child_of_type_v h T WH k n V). unfold kid. destruct (kids_of h k n) as [|m0 l] eqn:KO; [destruct ar; cbn; solve [reflexivity|congruence]|].
      assert (VM : valid h m0) by (apply (kids_valid h T WH n); assert (J : In m0 (kids_of h k n)) by (rewrite KO; left; reflexivity); unfold kids_of in J; apply filter_In in J; exact (proj1 J)).
      destruct ar; cbn [is_optional hd_error the_first unwrap bind]; try congruence; rewrite (text_v h T WH CH m0 VM); reflexivity.
    - destruct (TOK t c SEL K) as (s & k & N & TY & CK). replace (call _ _ _ _ _ _) with (the_first ar RNode (fun _ => RNone) (kids_of h k n)); [exact (an_token f h n t ar s k N TY)|].
      unfold call. rewrite CK. cbn [unwrap bind]. rewrite (child_of_type_v h T WH k n V). unfold kid. destruct ar; try congruence; destruct (kids_of h k n); reflexivity.
    - destruct (CHILD e ar c (or_introl SEL) TN (LE _ (struct_named e c SEL TN))) as (l & C & ->). exact (an_node f h n e ar l C).
    - destruct (CHILD e ar c (or_intror SEL) TN (LE _ (class_named e c SEL TN))) as (l & C & ->). exact (an_class f h n e ar l C).
  Qed.

  (** ** There is one answer *)
  Lemma keyed : forall A (R : nat -> A -> Prop) (key : A -> bytes) l m, (forall d y, R d y -> type_name f d (key y)) -> Forall2 R l m -> NoDup (map key m) ->
    forall d e t, In d l -> In e l -> type_name f d t -> type_name f e t -> d = e.
  Proof.
    intros A R key l m RN F. induction F as [|i y l m H F IH]; intros ND d e t JD JE TD TE; [destruct JD|]. cbn [map] in ND. inversion ND as [|? ? NI ND']; subst.
    assert (OUT : forall e, In e l -> type_name f e t -> type_name f i t -> False).
    { intros e' J TE' TI. apply NI. destruct (forall2_left _ _ _ _ _ _ F J) as (y' & JY & H'). rewrite (type_name_fun _ _ _ _ (RN _ _ H) TI), (type_name_fun _ _ _ _ TE' (RN _ _ H')). apply in_map. exact JY. }
    destruct JD as [<-|JD], JE as [<-|JE]; [reflexivity| | |exact (IH ND' d e t JD JE TD TE)]; exfalso; eapply OUT; eassumption.
  Qed.
  Lemma one_def : forall d e t, In d (node_defs f) \/ In d (class_defs f) -> In e (node_defs f) \/ In e (class_defs f) -> type_name f d t -> type_name f e t -> d = e.
  Proof.
    destruct (nodup_app _ _ _ (cp_types _ _ CP)) as (N1 & N2 & DJ). pose proof AI as (AN & AC & _). rewrite <- (proj1 defs_are) in AN. rewrite <- (proj2 defs_are) in AC.
    assert (NO : forall d e t, In d (node_defs f) -> In e (class_defs f) -> type_name f d t -> type_name f e t -> False).
    { intros d e t JD JE TD TE. destruct (struct_found d t JD TD) as (y & s & FD & _). destruct (class_found e t JE TE) as (FN & _). congruence. }
    intros d e t [JD|JD] [JE|JE] TD TE.
    - exact (keyed _ _ cn_struct _ _ (fun _ _ H => proj1 H) AN N1 d e t JD JE TD TE).
    - destruct (NO d e t JD JE TD TE).
    - destruct (NO e d t JE JD TE TD).
    - exact (keyed _ _ cc_enum _ _ (fun _ _ H => proj1 H) AC N2 d e t JD JE TD TE).
  Qed.
  Lemma type_no_fun : forall s k k', type_no f s k -> type_no f s k' -> k = k'.
  Proof.
    intros s k k' H H'. assert (S : screams s (scream s)) by (apply scream_of; reflexivity). apply (const_is s _ _ S) in H. apply (const_is s _ _ S) in H'. congruence.
  Qed.
  Lemma variant_fun : forall i d e, variant_of f i d -> variant_of f i e -> d = e.
  Proof. intros i d e (J & c & C & TD) (J' & c' & C' & TE). rewrite (camel_fun _ _ _ C' C) in TE. exact (one_def d e c J J' TD TE). Qed.
  Lemma value_kind : forall n d v, value_of f h n d v -> of_kind f d (ty h n).
  Proof.
    induction 1 as [d t J K TN|d t pre i post e v a0 J TN EV NO VE CI VO IH]; [exact K|]. apply (ok_class f d i e); [exact J|rewrite EV; apply in_or_app; right; left; reflexivity|exact VE|exact IH].
  Qed.
  Lemma value_node : forall n d v, value_of f h n d v -> node_of v = n.
  Proof. induction 1; [reflexivity|assumption]. Qed.
  Lemma value_fun : forall n d v v', value_of f h n d v -> value_of f h n d v' -> v = v'.
  Proof.
    intros n d v v' H. revert v'. induction H as [d t J K TN|d t pre i post e v a0 J TN EV NO VE CI VO IH]; intros v' H'.
    - inversion H' as [d' t' J' K' TN'|d' t' pre' i' post' e' w a' J' TN' EV' NO' VE' CI' VO']; subst; [rewrite (type_name_fun _ _ _ _ TN TN'); reflexivity|destruct (not_both d J J')].
    - inversion H' as [d' t' J' K' TN'|d' t' pre' i' post' e' w a' J' TN' EV' NO' VE' CI' VO']; subst; [destruct (not_both d J' J)|].
      assert (EQ : i = i').
      { rewrite EV in EV'. clear - EV' NO NO' VE VE' VO VO' CP AI KA. revert pre' EV' NO'. induction pre as [|q pre IHp]; intros [|q' pre'] E NO'; cbn [app] in E; injection E as E1 E2.
        - exact E1.
        - subst q'. destruct (NO' i e (or_introl eq_refl) VE (value_kind _ _ _ VO)).
        - subst q. destruct (NO i' e' (or_introl eq_refl) VE' (value_kind _ _ _ VO')).
        - apply (IHp (fun j e0 Jj => NO j e0 (or_intror Jj)) pre' E2 (fun j e0 Jj => NO' j e0 (or_intror Jj))). }
      subst i'. rewrite <- (variant_fun i e e' VE VE') in *. rewrite (IH _ VO'), (type_name_fun _ _ _ _ TN TN'), (camel_fun _ _ _ CI CI'). reflexivity.
  Qed.
  Lemma children_fun : forall n d l l', children_as f h n d l -> children_as f h n d l' -> l = l'.
  Proof.
    intros n d l l' (cs & P & F) (cs' & P' & F'). rewrite <- (picks_fun _ _ _ _ _ _ P P') in F'. clear - F F' CP AI KA. revert l' F'.
    induction F as [|c v cs l V F IH]; intros l' F'; [inversion F'; reflexivity|]. destruct l' as [|v' l']; [inversion F'|]. assert (H : value_of f h c d v' /\ Forall2 (fun c a => value_of f h c d a) cs l') by (inversion F'; auto).
    rewrite (value_fun _ _ _ _ V (proj1 H)), (IH _ (proj2 H)). reflexivity.
  Qed.
  Lemma answers_fun : forall n d r r', answers f h n d r -> answers f h n d r' -> r = r'.
  Proof.
    intros n d r r' H H'. inversion H as [t ar s k N K|t ar s k N K|e ar l C|e ar l C]; subst; inversion H' as [t' ar' s' k' N' K'|t' ar' s' k' N' K'|e' ar' l' C'|e' ar' l' C']; subst.
    - rewrite N in N'. injection N' as <-. rewrite (type_no_fun _ _ _ K K'). reflexivity.
    - rewrite N in N'. injection N' as <-. rewrite (type_no_fun _ _ _ K K'). reflexivity.
    - rewrite (children_fun _ _ _ _ C C'). reflexivity.
    - rewrite (children_fun _ _ _ _ C C'). reflexivity.
  Qed.
End Module.
