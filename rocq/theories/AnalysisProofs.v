(** The queries compute what AnalysisSpec.v says. *)
From Coq Require Import List Arith Bool NArith Lia Sorted Permutation.
From Verif Require Import Base BaseFacts TextModel TreeModel SearchModel IndexModel DbModel DbSpec DbProofs AnalysisModel
  TextSpec TreeSpec SearchSpec FileEditSpec EditorSpec IndexSpec AnalysisSpec
  TextProofs TreeProofs SearchProofs TraversalProofs EditorProofs IndexProofs ViewProofs.
Import ListNotations.

Lemma key_eqb_spec : forall a b, key_eqb a b = true <-> a = b.
Proof.
  intros a b. destruct a, b; cbn [key_eqb]; try (split; [discriminate|congruence]); try (split; reflexivity);
    rewrite Nat.eqb_eq; split; congruence.
Qed.

(** ** Every query has an outcome: they do not call each other in a circle. *)
Definition rank (k : key) : nat := match k with QRef _ => 1 | QCall _ => 2 | QUnused => 3 | _ => 0 end.

Inductive below (r : nat) : prg -> Prop :=
| be_ret : forall v ds, below r (Ret v ds)
| be_fail : below r Fail
| be_ask : forall k c, rank k < r -> (forall v, below r (c v)) -> below r (Ask k c).

Lemma below_lift : forall r A (x : res A) c, (forall a, below r (c a)) -> below r (lift x c).
Proof. intros r A [a| |] c H; cbn [lift]; [apply H|constructor|constructor]. Qed.

Lemma below_map : forall r k c, rank k < r -> (forall m, below r (c m)) -> below r (get_map k c).
Proof. intros r k c L H. constructor; [exact L|]. intros [m|l| |x|x|x|x|x]; try constructor. apply H. Qed.
Lemma below_names : forall r c, 0 < r -> (forall m, below r (c m)) -> below r (get_names c).
Proof. intros r c L H. constructor; [exact L|]. intros [m|l| |x|x|x|x|x]; try constructor. apply H. Qed.
Lemma below_ref : forall r n c, 1 < r -> (forall m, below r (c m)) -> below r (get_ref n c).
Proof. intros r n c L H. constructor; [exact L|]. intros [m|l| |x|x|x|x|x]; try constructor. apply H. Qed.
Lemma below_call : forall r n c, 2 < r -> (forall m, below r (c m)) -> below r (get_call n c).
Proof. intros r n c L H. constructor; [exact L|]. intros [m|l| |x|x|x|x|x]; try constructor. apply H. Qed.

Ltac blw :=
  repeat match goal with
  | |- below _ (Ret _ _) => constructor
  | |- below _ Fail => constructor
  | |- below _ (lift _ _) => apply below_lift; intros
  | |- below _ (get_map _ _) => apply below_map; [cbn [rank]; lia|intros]
  | |- below _ (get_names _) => apply below_names; [lia|intros]
  | |- below _ (get_ref _ _) => apply below_ref; [lia|intros]
  | |- below _ (get_call _ _) => apply below_call; [lia|intros]
  | |- below _ (match ?x with _ => _ end) => destruct x
  | |- below _ (let _ := _ in _) => cbv zeta
  end.

Lemma below_prev_is : forall f call args rs ds, below 2 (prev_is f call args rs ds).
Proof. intros f call args. induction args as [|a args IH]; intros rs ds; cbn [prev_is]; blw; apply IH. Qed.

Lemma below_used_refs : forall l u c, (forall u, below 3 (c u)) -> below 3 (used_by_refs l u c).
Proof. intros l. induction l as [|n l IH]; intros u c H; cbn [used_by_refs]; [apply H|]. blw. apply IH. exact H. Qed.
Lemma below_used_calls : forall l u c, (forall u, below 3 (c u)) -> below 3 (used_by_calls l u c).
Proof. intros l. induction l as [|n l IH]; intros u c H; cbn [used_by_calls]; [apply H|]. blw. apply IH. exact H. Qed.

Lemma below_ctx : forall f n ds c, below 2 (resolve_context f n ds c).
Proof. intros f n ds c. unfold resolve_context. blw. Qed.

Lemma exec_below : forall f k, below (rank k) (fall_exec f k).
Proof.
  intros f k. destruct k as [| | | |n|n|n|n|n]; cbn [rank fall_exec].
  - unfold q_lex. blw.
  - unfold q_syn. blw.
  - unfold q_ctx. blw.
  - unfold q_unused. blw. apply below_used_refs. intros u. apply below_used_calls. intros u'. cbv zeta. blw.
  - unfold q_ref. blw.
  - unfold q_call. blw; try apply below_ctx; apply below_prev_is.
  - unfold q_pratt. blw.
  - unfold q_method. blw.
  - unfold q_traits. blw.
Qed.

Lemma below_outcome : forall f r p, below r p -> exists o, outcome (fall_exec f) p o.
Proof.
  intros f r. induction r as [r IH] using lt_wf_ind. intros p H. induction H as [v ds| |k c L H IHc].
  - eexists. constructor.
  - eexists. constructor.
  - destruct (IH (rank k) L _ (exec_below f k)) as ([[v ds]|] & O).
    + destruct (IHc v) as (o & O'). exists o. eapply oc_ask; eassumption.
    + exists None. apply oc_ask_fail. exact O.
Qed.

Lemma needs_rank0 : forall f k k', rank k = 0 -> ~ needs (fall_exec f) (fall_exec f k) k'.
Proof.
  intros f k k' R N. pose proof (exec_below f k) as B. rewrite R in B. inversion B as [v ds E|E|k0 c L H E]; [| |lia]; rewrite <- E in N; inversion N.
Qed.

Lemma needs_ask : forall f k c v ds k', evaluates (fall_exec f) k v ds -> needs (fall_exec f) (Ask k c) k' ->
  k' = k \/ needs (fall_exec f) (fall_exec f k) k' \/ needs (fall_exec f) (c v) k'.
Proof.
  intros f k c v ds k' E H. inversion H as [k0 c0 E1 E2|k0 c0 k1 H' E1|k0 c0 v' ds' k1 EV H' E1]; subst.
  - left. reflexivity.
  - right. left. exact H'.
  - right. right. destruct (evaluates_det _ _ _ _ _ _ EV E) as (-> & _). exact H'.
Qed.

Lemma exec_outcome : forall f k, exists o, outcome (fall_exec f) (fall_exec f k) o.
Proof. intros f k. exact (below_outcome f _ _ (exec_below f k)). Qed.

(** ** The results *)
Lemma assoc_head : forall A s s' (x : A) m, assoc s ((s', x) :: m) = if bytes_eqb s s' then Some x else assoc s m.
Proof. reflexivity. Qed.

Lemma picks_map_in : forall A (P : list A -> A -> Prop) pre l out, picks P pre l out -> forall x, In x out -> In x l.
Proof.
  intros A P pre l out H. induction H as [pre|pre x l out Px H IH|pre x l out Px H IH]; intros y I.
  - destruct I.
  - destruct I as [<-|I]; [left; reflexivity|right; exact (IH y I)].
  - right. exact (IH y I).
Qed.

Lemma none_snoc : forall A (P : A -> Prop) l x, none_such P l -> ~ P x -> none_such P (l ++ [x]).
Proof. intros A P l x N NP y I. apply in_app_or in I. destruct I as [I|[<-|[]]]; [exact (N y I)|exact NP]. Qed.

Lemma first_snoc : forall A (P : A -> Prop) l a x, first_such P l a -> first_such P (l ++ [x]) a.
Proof.
  intros A P l a x (p & q & -> & Pa & N). exists p, (q ++ [x]). split; [rewrite <- app_assoc; reflexivity|]. split; [exact Pa|exact N].
Qed.

Section Results.
  Variables (f : file) (T : tree).
  Hypothesis WF : wf_file f T.
  Hypothesis CT : char_tree (f_text f) T.
  Hypothesis CO : complete f.
  Notation nodes := (f_nodes f).
  Notation exec := (fall_exec f).

  Ltac known t := exact (co_named f CO _ t ltac:(cbn [In]; tauto) ltac:(eassumption)).

  Lemma named_of : forall t n, In t [CALL_EXPR; LEX_RULE; PARAMETER; ATTRIBUTE; AST_SELECTOR; AST_NODE_DEF; AST_CLASS_DEF; AST_TRAIT_DEF] ->
    is_a f t n -> exists s, name_of f n = Some s /\ child_text f n IDENT = Ok s.
  Proof.
    intros t n I A. destruct (name_of f n) as [s|] eqn:E; [|destruct (co_named f CO n t I A E)]. exists s. split; [reflexivity|].
    exact (name_text f T WF CT n s (proj1 A) E).
  Qed.

  (** *** Tokens *)
  Lemma all_lex_ok : forall l pre m tys ds, (forall r, In r l -> is_a f LEX_RULE r) ->
    (forall s, In s tys <-> exists y, In y pre /\ named f s y) ->
    exists m' out, all_lex f l m tys ds = Ok (m', ds ++ map (fun r => error_at f r MDuplicateToken) out) /\
      picks (repeated f) pre l out /\
      forall s, (exists t, last_such (token_called f s) l t /\ assoc s m' = Some t)
                \/ (none_such (token_called f s) l /\ assoc s m' = assoc s m).
  Proof.
    induction l as [|r l IH]; intros pre m tys ds V TY.
    - exists m, []. cbn [all_lex map]. rewrite app_nil_r. split; [reflexivity|]. split; [constructor|]. intros s. right. split; [intros x []|reflexivity].
    - pose proof (V r (or_introl eq_refl)) as A. destruct (named_of LEX_RULE r ltac:(cbn [In]; tauto) A) as (nm & N & NT).
      destruct (token_name_v f T WF CT r (proj1 A) ltac:(rewrite N; discriminate)) as (tn & TN & E).
      cbn [all_lex]. rewrite E. cbn [bind]. rewrite NT. cbn [bind]. rewrite (diag_v f _ _ _ (proj1 A)). cbn [bind]. cbv zeta.
      set (dup := existsb (bytes_eqb nm) tys).
      assert (D : dup = true <-> (repeated f) pre r).
      { unfold dup. rewrite existsb_exists. split.
        - intros (s & I & EQ). apply bytes_eqb_spec in EQ. subst s. apply TY in I. destruct I as (y & I & NY). exists y, nm. auto.
        - intros (y & s & I & NY & NR). exists nm. split; [|apply bytes_eqb_spec; reflexivity]. apply TY. exists y. split; [exact I|].
          unfold named in NR. rewrite N in NR. injection NR as <-. exact NY. }
      destruct (IH (pre ++ [r]) ((tn, r) :: m) (nm :: tys) (if dup then ds ++ [error_at f r MDuplicateToken] else ds)) as (m' & out & EQ & PK & AS).
      + intros x I. apply V. right. exact I.
      + intros s. cbn [In]. rewrite TY. split.
        * intros [<-|(y & I & NY)]; [exists r; split; [apply in_or_app; right; left; reflexivity|exact N]|].
          exists y. split; [apply in_or_app; left; exact I|exact NY].
        * intros (y & I & NY). apply in_app_or in I. destruct I as [I|[<-|[]]]; [right; exists y; auto|].
          left. unfold named in NY. rewrite N in NY. injection NY as <-. reflexivity.
      + change (mkDiag (rng f r) Error MDuplicateToken) with (error_at f r MDuplicateToken).
        exists m'. destruct dup eqn:DE.
        * exists (r :: out). split; [rewrite EQ, <- app_assoc; reflexivity|]. split; [constructor; [apply D; reflexivity|exact PK]|].
          intros s. destruct (AS s) as [(t & (p & q & -> & Pt & NQ) & ES)|(NN & ES)].
          -- left. exists t. split; [|exact ES]. exists (r :: p), q. split; [reflexivity|]. split; [exact Pt|exact NQ].
          -- rewrite assoc_head in ES. destruct (bytes_eqb s tn) eqn:B.
             ++ apply bytes_eqb_spec in B. subst s. left. exists r. split; [|exact ES]. exists [], l. split; [reflexivity|].
                split; [apply tname_called; exact TN|exact NN].
             ++ right. split; [|exact ES]. intros x [<-|I]; [|exact (NN x I)]. intros C. apply tname_called in C. rewrite TN in C.
                injection C as ->. rewrite (proj2 (bytes_eqb_spec s s) eq_refl) in B. discriminate B.
        * exists out. split; [exact EQ|]. split; [apply pk_no; [intros X; apply D in X; discriminate X|exact PK]|].
          intros s. destruct (AS s) as [(t & (p & q & -> & Pt & NQ) & ES)|(NN & ES)].
          -- left. exists t. split; [|exact ES]. exists (r :: p), q. split; [reflexivity|]. split; [exact Pt|exact NQ].
          -- rewrite assoc_head in ES. destruct (bytes_eqb s tn) eqn:B.
             ++ apply bytes_eqb_spec in B. subst s. left. exists r. split; [|exact ES]. exists [], l. split; [reflexivity|].
                split; [apply tname_called; exact TN|exact NN].
             ++ right. split; [|exact ES]. intros x [<-|I]; [|exact (NN x I)]. intros C. apply tname_called in C. rewrite TN in C.
                injection C as ->. rewrite (proj2 (bytes_eqb_spec s s) eq_refl) in B. discriminate B.
  Qed.

  Lemma lex_ok : exists m out, evaluates exec QLex (VMap m) (map (fun r => error_at f r MDuplicateToken) out) /\
    picks (repeated f) [] (tokens f) out /\
    forall s, match assoc s m with Some t => last_such (token_called f s) (tokens f) t | None => none_such (token_called f s) (tokens f) end.
  Proof.
    destruct (all_lex_ok (tokens f) [] [] [] [] (tokens_in f T WF)) as (m & out & E & PK & AS).
    { intros s. split; [intros []|intros (y & [] & _)]. }
    exists m, out. split; [|split; [exact PK|]].
    - unfold evaluates, fall_exec, q_lex. rewrite (lex_rules_v f T WF). cbn [lift]. rewrite E. cbn [lift fst snd app]. constructor.
    - intros s. destruct (AS s) as [(t & L & ->)|(N & ->)]; assumption.
  Qed.

  (** *** Rules *)
  Lemma all_syn_ok : forall l pre m ds, (forall r, In r l -> is_a f SYN_RULE r) ->
    (forall s, match assoc s m with Some r => first_such (named f s) pre r | None => none_such (named f s) pre end) ->
    exists m' out ds', all_syn f l m ds = Ok (m', ds ++ ds') /\
      picks (repeated f) pre l out /\
      Forall2 (fun r d => exists i, kid f IDENT r = Some i /\ d = error_at f i MDuplicateRule) out ds' /\
      forall s, match assoc s m' with Some r => first_such (named f s) (pre ++ l) r | None => none_such (named f s) (pre ++ l) end.
  Proof.
    induction l as [|r l IH]; intros pre m ds V AS.
    - exists m, [], []. cbn [all_syn]. rewrite app_nil_r. split; [reflexivity|]. split; [constructor|]. split; [constructor|].
      intros s. rewrite app_nil_r. apply AS.
    - pose proof (V r (or_introl eq_refl)) as A. cbn [all_syn]. unfold rule_name_ident. rewrite (child_of_type_v f T WF IDENT r (proj1 A)). cbn [bind].
      assert (V' : forall x, In x l -> is_a f SYN_RULE x) by (intros x I; apply V; right; exact I).
      destruct (kid f IDENT r) as [i|] eqn:K.
      + rewrite (text_v f T WF CT i (kid_valid f T WF _ _ _ K)). cbn [bind].
        assert (N : named f (str f i) r) by (unfold named, name_of; rewrite K; reflexivity).
        pose proof (AS (str f i)) as AI. destruct (assoc (str f i) m) as [x|] eqn:AE.
        * rewrite (diag_v f _ _ _ (kid_valid f T WF _ _ _ K)). cbn [bind].
          destruct (IH (pre ++ [r]) m (ds ++ [error_at f i MDuplicateRule]) V') as (m' & out & ds' & E & PK & F & AS').
          -- intros s. pose proof (AS s) as B. destruct (assoc s m) as [y|] eqn:ES; [apply first_snoc; exact B|].
             apply none_snoc; [exact B|]. intros NR. unfold named in N, NR. rewrite NR in N. injection N as ->. rewrite AE in ES. discriminate ES.
          -- exists m', (r :: out), (error_at f i MDuplicateRule :: ds'). split; [|split; [|split]].
             ++ change (mkDiag (rng f i) Error MDuplicateRule) with (error_at f i MDuplicateRule). rewrite E, <- app_assoc. reflexivity.
             ++ constructor; [|exact PK]. destruct AI as (p & q & -> & Nx & _). exists x, (str f i). split; [apply in_elt|]. split; assumption.
             ++ constructor; [exists i; auto|exact F].
             ++ intros s. rewrite <- app_assoc in AS'. apply AS'.
        * destruct (IH (pre ++ [r]) ((str f i, r) :: m) ds V') as (m' & out & ds' & E & PK & F & AS').
          -- intros s. rewrite assoc_head. destruct (bytes_eqb s (str f i)) eqn:B.
             ++ apply bytes_eqb_spec in B. subst s. exists pre, []. split; [reflexivity|]. split; [exact N|exact AI].
             ++ pose proof (AS s) as C. destruct (assoc s m) as [y|]; [apply first_snoc; exact C|].
                apply none_snoc; [exact C|]. intros NR. unfold named in N, NR. rewrite NR in N. injection N as ->.
                rewrite (proj2 (bytes_eqb_spec _ _) eq_refl) in B. discriminate B.
          -- exists m', out, ds'. split; [exact E|]. split; [|split; [exact F|intros s; rewrite <- app_assoc in AS'; apply AS']].
             apply pk_no; [|exact PK]. intros (y & s & I & NY & NR). unfold named in N, NR. rewrite NR in N. injection N as ->.
             exact (AI y I NY).
      + assert (NN : forall s, ~ named f s r) by (intros s; unfold named, name_of; rewrite K; discriminate).
        destruct (IH (pre ++ [r]) m ds V') as (m' & out & ds' & E & PK & F & AS').
        * intros s. pose proof (AS s) as B. destruct (assoc s m) as [y|]; [apply first_snoc; exact B|]. apply none_snoc; [exact B|apply NN].
        * exists m', out, ds'. split; [exact E|]. split; [|split; [exact F|intros s; rewrite <- app_assoc in AS'; apply AS']].
          apply pk_no; [|exact PK]. intros (y & s & I & NY & NR). exact (NN s NR).
  Qed.

  Lemma syn_ok : exists m out ds, evaluates exec QSyn (VMap m) ds /\ picks (repeated f) [] (rules f) out /\
    Forall2 (fun r d => exists i, kid f IDENT r = Some i /\ d = error_at f i MDuplicateRule) out ds /\
    forall s, match assoc s m with Some r => first_such (named f s) (rules f) r | None => none_such (named f s) (rules f) end.
  Proof.
    destruct (all_syn_ok (rules f) [] [] [] (rules_in f T WF)) as (m & out & ds & E & PK & F & AS).
    { intros s x []. }
    exists m, out, ds. split; [|split; [exact PK|split; [exact F|exact AS]]].
    unfold evaluates, fall_exec, q_syn. rewrite (syn_rules_v f T WF). cbn [lift]. rewrite E. cbn [lift fst snd app]. constructor.
  Qed.

  (** *** References *)
  Lemma means_fun : forall r s o o', means f r s o -> means f r s o' -> o = o'.
  Proof.
    intros r s o o' H H'. destruct H as [p Hp|x Np Hx|t Np Nx Ht|Np Nx Nt]; destruct H' as [p' Hp'|x' Np' Hx'|t' Np' Nx' Ht'|Np' Nx' Nt'];
      try match goal with
      | H : first_such ?P ?l ?a, H' : none_such ?P ?l |- _ => destruct (first_not_none _ _ _ _ H H')
      | H : last_such ?P ?l ?a, H' : none_such ?P ?l |- _ => destruct (last_not_none _ _ _ _ H H')
      end.
    - rewrite (first_such_fun _ _ _ _ _ Hp Hp'). reflexivity.
    - rewrite (first_such_fun _ _ _ _ _ Hx Hx'). reflexivity.
    - rewrite (last_such_fun _ _ _ _ _ Ht Ht'). reflexivity.
    - reflexivity.
  Qed.

  Lemma resolves_fun : forall n o o', resolves f n o -> resolves f n o' -> o = o'.
  Proof.
    intros n o o' (r & s & E & N & M) (r' & s' & E' & N' & M'). rewrite (enclosing_fun f _ _ _ E E') in M.
    rewrite N in N'. injection N' as <-. exact (means_fun _ _ _ _ M M').
  Qed.

  (** *** Contexts *)
  Lemma call_args_v : forall n, valid f n -> call_args f n = Ok (exprs f n).
  Proof. intros n V. exact (children_expr_v f T WF n V). Qed.

  Lemma context_fun_in : forall s, (bytes_eqb s s_is_in || bytes_eqb s s_enter || bytes_eqb s s_exit) = true <-> In s context_functions.
  Proof.
    intros s. rewrite !orb_true_iff, !bytes_eqb_spec. unfold context_functions. cbn [In]. split.
    - intros [[E|E]|E]; [left|right; left|right; right; left]; symmetry; exact E.
    - intros [E|[E|[E|[]]]]; [left; left|left; right|right]; symmetry; exact E.
  Qed.

  Lemma context_v : forall n, is_a f CALL_EXPR n -> exists o, context_name f n = Ok o /\
    match o with Some b => names_context f n b | None => forall b, ~ names_context f n b end.
  Proof.
    intros n A. destruct (named_of CALL_EXPR n ltac:(cbn [In]; tauto) A) as (s & N & E). unfold context_name, fn_name. rewrite E. cbn [bind].
    pose proof (context_fun_in s) as CF. destruct (bytes_eqb s s_is_in || bytes_eqb s s_enter || bytes_eqb s s_exit); cbn [negb].
    - rewrite (call_args_v n (proj1 A)). cbn [bind]. destruct (exprs f n) as [|a l] eqn:EX.
      + exists None. split; [reflexivity|]. intros b (fn & a & m & _ & _ & H & _). rewrite EX in H. discriminate H.
      + assert (VA : valid f a) by (apply (exprs_in f T WF n a); rewrite EX; left; reflexivity).
        rewrite (child_of_type_v f T WF SIMPLE_STRING a VA). cbn [bind]. destruct (kid f SIMPLE_STRING a) as [m|] eqn:K.
        * rewrite (text_v f T WF CT m (kid_valid f T WF _ _ _ K)). cbn [bind].
          destruct (co_string f CO m (proj2 (kid_in f T WF _ _ _ K))) as (b & SB). rewrite SB, lit_body_quoted. cbn [bind].
          exists (Some b). split; [reflexivity|]. exists s, a, m. split; [exact N|]. split; [apply CF; reflexivity|].
          split; [rewrite EX; reflexivity|]. split; [exact K|exact SB].
        * exists None. split; [reflexivity|]. intros b (fn & a' & m & _ & _ & H & K' & _). rewrite EX in H. injection H as <-. rewrite K in K'. discriminate K'.
    - exists None. split; [reflexivity|]. intros b (fn & a & m & N' & I & _). rewrite N in N'. injection N' as <-. apply CF in I. discriminate I.
  Qed.

  Lemma names_context_fun : forall n b b', names_context f n b -> names_context f n b' -> b = b'.
  Proof.
    intros n b b' (fn & a & m & _ & _ & H & K & E) (fn' & a' & m' & _ & _ & H' & K' & E'). rewrite H in H'. injection H' as <-.
    rewrite K in K'. injection K' as <-. rewrite E in E'. injection E' as E'. apply app_inj_tail in E'. exact (proj1 E').
  Qed.

  Lemma ref_ok : forall n, is_a f REF_EXPR n -> exists o ds, evaluates exec (QRef n) (VRef o) ds /\ resolves f n o /\
    ((o = None /\ ~ is_context_string f n /\ ds = [error_at f n MUnresolvedReference])
     \/ ((o <> None \/ is_context_string f n) /\ ds = [])) /\
    (forall r s, enclosing_rule f n r -> ref_name f n = Some s -> none_such (named f s) (params f r) -> needs exec (exec (QRef n)) QSyn) /\
    (forall k, needs exec (exec (QRef n)) k ->
       (k = QSyn /\ exists r s, enclosing_rule f n r /\ ref_name f n = Some s /\ none_such (named f s) (params f r)) \/ k = QLex).
  Proof.
    intros n A. pose proof (proj1 A) as V. destruct (co_ref f CO n A) as (RN & r & ER). destruct (ref_name f n) as [s|] eqn:N; [|congruence].
    pose proof (enclosing_is f T WF n r V ER) as RI.
    assert (Q : exec (QRef n) = match find_first (fun p => match name_of f p with Some x => bytes_eqb x s | None => false end) (params f r) with
      | Some param => Ret (VRef (Some (RParam param))) []
      | None =>
        get_map QSyn (fun m =>
        match assoc s m with
        | Some r => Ret (VRef (Some (RRule r))) []
        | None =>
            get_map QLex (fun m =>
            match assoc s m with
            | Some r => Ret (VRef (Some (RToken r))) []
            | None =>
                lift (p <- node_parent nodes n ;; unwrap p) (fun parent =>
                lift (node_ty nodes parent) (fun ty =>
                lift (if ty =? CALL_EXPR then
                     c <- context_name f parent ;;
                     match c with
                     | None => Ok false
                     | Some _ => l <- call_args f parent ;; Ok (match l with a :: _ => a =? n | [] => false end)
                     end
                   else Ok false) (fun silent : bool =>
                if silent then Ret (VRef None) []
                else lift (diag f Error n MUnresolvedReference) (fun d => Ret (VRef None) [d]))))
            end)
        end)
      end).
    { cbn [fall_exec]. unfold q_ref. rewrite (ref_name_v f T WF CT n s V N). cbn [lift]. rewrite (enclosing_v f T WF n r V ER). cbn [bind unwrap lift].
      rewrite (params_v f T WF r (proj1 RI)). cbn [lift].
      rewrite (find_res_pure _ _ (fun p => match name_of f p with Some x => bytes_eqb x s | None => false end)).
      - reflexivity.
      - intros p I. destruct (named_of PARAMETER p ltac:(cbn [In]; tauto) (params_in f T WF r p I)) as (x & NX & ->). cbn [bind]. rewrite NX. reflexivity. }
    rewrite Q. unfold evaluates. rewrite Q. clear Q.
    pose proof (find_first_such _ (fun p => match name_of f p with Some x => bytes_eqb x s | None => false end) (named f s) (params f r)) as FF.
    assert (FG : forall a, In a (params f r) -> (match name_of f a with Some x => bytes_eqb x s | None => false end) = true <-> named f s a).
    { intros a _. unfold named. destruct (name_of f a) as [x|]; [|split; discriminate]. rewrite bytes_eqb_spec. split; [intros ->; reflexivity|intros E; injection E as ->; reflexivity]. }
    specialize (FF FG). clear FG. destruct (find_first _ (params f r)) as [p|].
    { exists (Some (RParam p)), []. split; [constructor|]. split; [exists r, s; split; [exact ER|]; split; [exact N|apply mean_param; exact FF]|].
      split; [right; split; [left; discriminate|reflexivity]|]. split.
      - intros r' s' ER' N' NN. exfalso. injection N' as <-. rewrite (enclosing_fun f _ _ _ ER' ER) in NN. exact (first_not_none _ _ _ _ FF NN).
      - intros k ND. inversion ND. }
    destruct syn_ok as (m & out & dsyn & ES & _ & _ & AS). destruct lex_ok as (m2 & out2 & EL & _ & AL).
    assert (NS : forall c : list (bytes * nat) -> prg, needs exec (get_map QSyn c) QSyn) by (intros c; constructor).
    assert (ND : forall c : list (bytes * nat) -> prg, forall k, needs exec (get_map QSyn c) k -> k = QSyn \/ needs exec (c m) k).
    { intros c k H. destruct (needs_ask f _ _ _ _ _ ES H) as [X|[X|X]]; [left; exact X|destruct (needs_rank0 f QSyn _ eq_refl X)|right; exact X]. }
    assert (ND2 : forall c : list (bytes * nat) -> prg, forall k, needs exec (get_map QLex c) k -> k = QLex \/ needs exec (c m2) k).
    { intros c k H. destruct (needs_ask f _ _ _ _ _ EL H) as [X|[X|X]]; [left; exact X|destruct (needs_rank0 f QLex _ eq_refl X)|right; exact X]. }
    pose proof (AS s) as AS'. destruct (assoc s m) as [x|] eqn:EA.
    { exists (Some (RRule x)), []. split; [eapply oc_ask; [exact ES|]; cbv beta iota; rewrite EA; constructor|].
      split; [exists r, s; split; [exact ER|]; split; [exact N|apply mean_rule; assumption]|].
      split; [right; split; [left; discriminate|reflexivity]|]. split; [intros; apply NS|].
      intros k H. apply ND in H. destruct H as [->|H]; [left; split; [reflexivity|exists r, s; auto]|]. rewrite EA in H. inversion H. }
    pose proof (AL s) as AL'. destruct (assoc s m2) as [x|] eqn:EA2.
    { exists (Some (RToken x)), []. split; [eapply oc_ask; [exact ES|]; cbv beta iota; rewrite EA; eapply oc_ask; [exact EL|]; cbv beta iota; rewrite EA2; constructor|].
      split; [exists r, s; split; [exact ER|]; split; [exact N|apply mean_token; assumption]|].
      split; [right; split; [left; discriminate|reflexivity]|]. split; [intros; apply NS|].
      intros k H. apply ND in H. destruct H as [->|H]; [left; split; [reflexivity|exists r, s; auto]|]. rewrite EA in H.
      apply ND2 in H. destruct H as [->|H]; [right; reflexivity|]. rewrite EA2 in H. inversion H. }
    destruct (par f n) as [q|] eqn:P.
    2:{ exfalso. inversion ER as [n0 E|n0 q r0 NE P' ER']; subst; [destruct A as (_ & A); unfold REF_EXPR, SYN_RULE in *; congruence|congruence]. }
    destruct (par_in f T WF n q V P) as (VQ & _ & _).
    assert (SL : exists b, (if ty f q =? CALL_EXPR then
                     c <- context_name f q ;;
                     match c with
                     | None => Ok false
                     | Some _ => l <- call_args f q ;; Ok (match l with a :: _ => a =? n | [] => false end)
                     end
                   else Ok false) = Ok b /\ (b = true <-> is_context_string f n)).
    { destruct (ty f q =? CALL_EXPR) eqn:TQ.
      - apply Nat.eqb_eq in TQ. destruct (context_v q (conj VQ TQ)) as (o & -> & O). cbn [bind]. destruct o as [b|].
        + rewrite (call_args_v q VQ). cbn [bind]. eexists. split; [reflexivity|]. split.
          * intros E. destruct (exprs f q) as [|a l] eqn:EX; [discriminate E|]. apply Nat.eqb_eq in E. subst a. exists q, b.
            split; [exact P|]. split; [exact TQ|]. split; [exact O|rewrite EX; reflexivity].
          * intros (c & b' & P' & _ & _ & H). rewrite P in P'. injection P' as <-. destruct (exprs f q) as [|a l]; [discriminate H|].
            injection H as ->. apply Nat.eqb_refl.
        + exists false. split; [reflexivity|]. split; [discriminate|]. intros (c & b' & P' & _ & C & _). rewrite P in P'. injection P' as <-.
          destruct (O b' C).
      - exists false. split; [reflexivity|]. split; [discriminate|]. intros (c & b' & P' & TC & _). rewrite P in P'. injection P' as <-.
        apply Nat.eqb_neq in TQ. congruence. }
    destruct SL as (b & SL & SB).
    assert (TAIL : (lift (p <- node_parent nodes n ;; unwrap p) (fun parent =>
                lift (node_ty nodes parent) (fun ty =>
                lift (if ty =? CALL_EXPR then
                     c <- context_name f parent ;;
                     match c with
                     | None => Ok false
                     | Some _ => l <- call_args f parent ;; Ok (match l with a :: _ => a =? n | [] => false end)
                     end
                   else Ok false) (fun silent : bool =>
                if silent then Ret (VRef None) []
                else lift (diag f Error n MUnresolvedReference) (fun d => Ret (VRef None) [d]))))) =
        Ret (VRef None) (if b then [] else [error_at f n MUnresolvedReference]) :> prg).
    { rewrite (par_v f n V), P. cbn [bind unwrap lift]. rewrite (ty_v f q VQ). cbn [lift]. rewrite SL. cbn [lift].
      destruct b; [reflexivity|]. rewrite (diag_v f _ _ _ V). reflexivity. }
    exists None, (if b then [] else [error_at f n MUnresolvedReference]). split.
    { eapply oc_ask; [exact ES|]. cbv beta iota. rewrite EA. eapply oc_ask; [exact EL|]. cbv beta iota. rewrite EA2, TAIL. constructor. }
    split; [exists r, s; split; [exact ER|]; split; [exact N|apply mean_nothing; assumption]|]. split; [|split; [intros; apply NS|]].
    - destruct b; [right; split; [right; apply SB; reflexivity|reflexivity]|left]. split; [reflexivity|]. split; [|reflexivity].
      intros C. apply SB in C. discriminate C.
    - intros k H. apply ND in H. destruct H as [->|H]; [left; split; [reflexivity|exists r, s; auto]|]. rewrite EA in H.
      apply ND2 in H. destruct H as [->|H]; [right; reflexivity|]. rewrite EA2, TAIL in H. inversion H.
  Qed.

  (** *** The list of contexts *)
  Lemma ctx_insert_keys : forall nm c m b, In b (map fst (ctx_insert nm c m)) <-> b = nm \/ In b (map fst m).
  Proof.
    intros nm c m b. induction m as [|(k, v) m IH]; cbn [ctx_insert map fst In]; [intuition congruence|].
    destruct (bytes_eqb nm k) eqn:E.
    - apply bytes_eqb_spec in E. subst k. cbn [map fst In]. intuition congruence.
    - destruct (bytes_ltb nm k); cbn [map fst In]; [intuition congruence|]. rewrite IH. tauto.
  Qed.

  Lemma ctx_insert_sorted : forall nm c m, StronglySorted lex_lt (map fst m) -> StronglySorted lex_lt (map fst (ctx_insert nm c m)).
  Proof.
    intros nm c m. induction m as [|(k, v) m IH]; intros SS; cbn [ctx_insert map fst].
    - constructor; constructor.
    - cbn [map fst] in SS. inversion SS as [|x l SS' F E]; subst. destruct (bytes_eqb nm k) eqn:E.
      + cbn [map fst]. constructor; assumption.
      + destruct (bytes_ltb nm k) eqn:L; cbn [map fst].
        * apply ltb_lex in L. constructor; [exact SS|]. constructor; [exact L|]. eapply Forall_impl; [|exact F]. intros a. apply lex_trans. exact L.
        * constructor; [apply IH; exact SS'|]. rewrite Forall_forall in *. intros a I. apply ctx_insert_keys in I. destruct I as [->|I]; [|exact (F a I)].
          destruct (lex_total k nm) as [X|[X|X]]; [exact X| |].
          -- subst k. rewrite (proj2 (bytes_eqb_spec nm nm) eq_refl) in E. discriminate E.
          -- apply ltb_lex in X. congruence.
  Qed.

  Lemma ctx_insert_in : forall nm c m b v, StronglySorted lex_lt (map fst m) ->
    In (b, v) (ctx_insert nm c m) -> (b <> nm /\ In (b, v) m) \/ (b = nm /\ ((~ In nm (map fst m) /\ v = Some c) \/ (In nm (map fst m) /\ v = None))).
  Proof.
    intros nm c m b v. induction m as [|(k, w) m IH]; intros SS I; cbn [ctx_insert map fst In] in *.
    - destruct I as [I|[]]. injection I as <- <-. right. split; [reflexivity|]. left. split; [intros []|reflexivity].
    - inversion SS as [|x l SS' F E]; subst. rewrite Forall_forall in F. destruct (bytes_eqb nm k) eqn:E.
      + apply bytes_eqb_spec in E. subst k. destruct I as [I|I].
        * injection I as <- <-. right. split; [reflexivity|]. right. split; [left; reflexivity|reflexivity].
        * left. split; [|right; exact I]. intros ->. apply (lex_irrefl nm). apply F. exact (in_map fst _ _ I).
      + assert (NK : nm <> k) by (intros X; apply bytes_eqb_spec in X; congruence). destruct (bytes_ltb nm k) eqn:L.
        * apply ltb_lex in L. assert (NI : ~ (k = nm \/ In nm (map fst m))).
          { intros [X|X]; [congruence|]. apply (lex_irrefl nm). eapply lex_trans; [exact L|]. apply F. exact X. }
          destruct I as [I|I].
          -- injection I as <- <-. right. split; [reflexivity|]. left. split; [exact NI|reflexivity].
          -- left. split; [|exact I]. intros ->. apply NI. exact (in_map fst ((k, w) :: m) _ I).
        * destruct I as [I|I].
          -- injection I as <- <-. left. split; [congruence|left; reflexivity].
          -- destruct (IH SS' I) as [(A & B)|(A & [(B & D)|(B & D)])].
             ++ left. split; [exact A|right; exact B].
             ++ right. split; [exact A|]. left. split; [|exact D]. intros [X|X]; [congruence|exact (B X)].
             ++ right. split; [exact A|]. right. split; [right; exact B|exact D].
  Qed.

  Definition ctx_inv (pre : list nat) (m : list (bytes * option nat)) : Prop :=
    StronglySorted lex_lt (map fst m) /\
    (forall b, In b (map fst m) <-> exists c, In c pre /\ ty f c = CALL_EXPR /\ names_context f c b) /\
    (forall b c, In (b, Some c) m -> In c pre /\ ty f c = CALL_EXPR /\ names_context f c b /\
       forall c', In c' pre -> ty f c' = CALL_EXPR -> names_context f c' b -> c' = c) /\
    (forall b, In (b, None) m -> exists c c', c <> c' /\ In c pre /\ In c' pre /\ ty f c = CALL_EXPR /\ ty f c' = CALL_EXPR /\
       names_context f c b /\ names_context f c' b).

  Lemma ctx_skip : forall pre m n, ctx_inv pre m -> (ty f n <> CALL_EXPR \/ forall b, ~ names_context f n b) -> ctx_inv (pre ++ [n]) m.
  Proof.
    intros pre m n (S1 & S2 & S3 & S4) H. split; [exact S1|]. split; [|split].
    - intros b. rewrite S2. split; intros (c & I & TC & NC).
      + exists c. split; [apply in_or_app; left; exact I|auto].
      + apply in_app_or in I. destruct I as [I|[<-|[]]]; [exists c; auto|]. destruct H as [H|H]; [congruence|destruct (H b NC)].
    - intros b c I. destruct (S3 b c I) as (A & B & C & D). split; [apply in_or_app; left; exact A|]. split; [exact B|]. split; [exact C|].
      intros c' I' TC NC. apply in_app_or in I'. destruct I' as [I'|[<-|[]]]; [exact (D c' I' TC NC)|]. destruct H as [H|H]; [congruence|destruct (H b NC)].
    - intros b I. destruct (S4 b I) as (c & c' & A & B & C & D). exists c, c'. split; [exact A|]. split; [apply in_or_app; left; exact B|].
      split; [apply in_or_app; left; exact C|exact D].
  Qed.

  Lemma ctx_add : forall pre m n b, ctx_inv pre m -> ~ In n pre -> ty f n = CALL_EXPR -> names_context f n b -> ctx_inv (pre ++ [n]) (ctx_insert b n m).
  Proof.
    intros pre m n b (S1 & S2 & S3 & S4) NI TN NB. split; [apply ctx_insert_sorted; exact S1|]. split; [|split].
    - intros b'. rewrite ctx_insert_keys, S2. split.
      + intros [->|(c & I & TC & NC)]; [exists n; split; [apply in_or_app; right; left; reflexivity|auto]|].
        exists c. split; [apply in_or_app; left; exact I|auto].
      + intros (c & I & TC & NC). apply in_app_or in I. destruct I as [I|[<-|[]]]; [right; exists c; auto|]. left. exact (names_context_fun _ _ _ NC NB).
    - intros b' c I. destruct (ctx_insert_in _ _ _ _ _ S1 I) as [(NE & I')|(-> & [(NK & E)|(NK & E)])]; [| |discriminate E].
      + destruct (S3 b' c I') as (A & B & C & D). split; [apply in_or_app; left; exact A|]. split; [exact B|]. split; [exact C|].
        intros c' J TC NC. apply in_app_or in J. destruct J as [J|[<-|[]]]; [exact (D c' J TC NC)|]. destruct (NE (names_context_fun _ _ _ NC NB)).
      + injection E as ->. split; [apply in_or_app; right; left; reflexivity|]. split; [exact TN|]. split; [exact NB|].
        intros c' J TC NC. apply in_app_or in J. destruct J as [J|[<-|[]]]; [|reflexivity]. destruct NK. apply S2. exists c'. auto.
    - intros b' I. destruct (ctx_insert_in _ _ _ _ _ S1 I) as [(NE & I')|(-> & [(NK & E)|(NK & E)])]; [|discriminate E|].
      + destruct (S4 b' I') as (c & c' & A & B & C & D). exists c, c'. split; [exact A|]. split; [apply in_or_app; left; exact B|].
        split; [apply in_or_app; left; exact C|exact D].
      + apply S2 in NK. destruct NK as (c & J & TC & NC). exists c, n. split; [intros ->; exact (NI J)|]. split; [apply in_or_app; left; exact J|].
        split; [apply in_or_app; right; left; reflexivity|auto].
  Qed.

  Lemma contexts_v : exists m, all_contexts f = Ok m /\ ctx_inv (post T 0) m.
  Proof.
    unfold all_contexts. unfold root. rewrite (bottom_up_ok nodes T (proj1 WF) _ _ T 0 0 None [] (At_root T)).
    assert (V : forall n, In n (post T 0) -> valid f n) by (intros n I; exact (proj1 (order_valid f T WF n) I)).
    pose proof (post_nodup T 0) as ND. revert V ND.
    enough (G : forall l pre m, (forall n, In n l -> valid f n) -> NoDup (pre ++ l) -> ctx_inv pre m ->
      exists m', fold_res (fun m n => ty <- node_ty nodes n ;; if ty =? CALL_EXPR then
        c <- context_name f n ;; match c with None => Ok m | Some name => Ok (ctx_insert name n m) end else Ok m) m l = Ok m' /\ ctx_inv (pre ++ l) m').
    { intros V ND. apply (G (post T 0) [] [] V ND). split; [constructor|]. split; [|split].
      - intros b. split; [intros []|intros (c & [] & _)].
      - intros b c [].
      - intros b []. }
    induction l as [|n l IH]; intros pre m V ND I.
    - exists m. rewrite app_nil_r. split; [reflexivity|exact I].
    - cbn [fold_res]. rewrite (ty_v f n (V n (or_introl eq_refl))). cbn [bind].
      assert (V' : forall x, In x l -> valid f x) by (intros x J; apply V; right; exact J).
      assert (NN : ~ In n pre) by (apply NoDup_remove_2 in ND; intros J; apply ND; apply in_or_app; left; exact J).
      replace (pre ++ n :: l) with ((pre ++ [n]) ++ l) in * by (rewrite <- app_assoc; reflexivity).
      destruct (ty f n =? CALL_EXPR) eqn:TN.
      + apply Nat.eqb_eq in TN. destruct (context_v n (conj (V n (or_introl eq_refl)) TN)) as (o & -> & O). cbn [bind]. destruct o as [b|]; cbn [bind].
        * apply IH; [exact V'|exact ND|]. apply ctx_add; assumption.
        * apply IH; [exact V'|exact ND|]. apply ctx_skip; [exact I|right; exact O].
      + cbn [bind]. apply IH; [exact V'|exact ND|]. apply ctx_skip; [exact I|]. left. intros E. rewrite E in TN. discriminate TN.
  Qed.

  Lemma ctx_ok : exists l ds, evaluates exec QCtx (VNames l) ds /\ context_list f l /\ used_once f l ds.
  Proof.
    destruct contexts_v as (m & E & S1 & S2 & S3 & S4).
    assert (OV : forall n, In n (post T 0) <-> valid f n) by (intros n; exact (order_valid f T WF n)).
    assert (W : exists ds, ctx_warnings f m = Ok ds /\ used_once f (map fst m) ds).
    { clear S1 S2 E. revert S3 S4. induction m as [|(b, v) m IH]; intros S3 S4.
      - exists []. split; [reflexivity|constructor].
      - destruct IH as (ds & ED & U).
        { intros b' c I. apply S3. right. exact I. }
        { intros b' I. apply S4. right. exact I. }
        destruct v as [c|]; cbn [ctx_warnings map fst].
        + destruct (S3 b c (or_introl eq_refl)) as (A & B & C & D). rewrite (diag_v f _ _ _ (proj1 (OV c) A)). cbn [bind]. rewrite ED. cbn [bind].
          eexists. split; [reflexivity|]. change (mkDiag (rng f c) Warning (MContextOnce b)) with (warning_at f c (MContextOnce b)).
          constructor; [|exact U]. split; [split; [apply OV; exact A|exact B]|]. split; [exact C|]. intros c' (VC & TC) NC. apply D; [apply OV; exact VC|exact TC|exact NC].
        + rewrite ED. exists ds. split; [reflexivity|]. apply uo_no; [|exact U].
          destruct (S4 b (or_introl eq_refl)) as (c & c' & NE & A & B & C & D & NC & ND). intros x (_ & _ & O). apply NE.
          rewrite (O c (conj (proj1 (OV c) A) C) NC). rewrite (O c' (conj (proj1 (OV c') B) D) ND). reflexivity. }
    destruct W as (ds & ED & U). exists (map fst m), ds. split; [|split; [|exact U]].
    - unfold evaluates. cbn [fall_exec]. unfold q_ctx. rewrite E. cbn [lift]. rewrite ED. cbn [lift]. constructor.
    - split; [exact S1|]. intros b. rewrite S2. split.
      + intros (c & I & TC & NC). exists c. split; [split; [apply OV; exact I|exact TC]|exact NC].
      + intros (c & (VC & TC) & NC). exists c. split; [apply OV; exact VC|auto].
  Qed.

  Lemma position_name : forall s l, In s l -> exists i, position (bytes_eqb s) l = Some i /\ nth_error l i = Some s.
  Proof.
    intros s l. induction l as [|x l IH]; intros I; [destruct I|]. cbn [position]. destruct (bytes_eqb s x) eqn:E.
    - apply bytes_eqb_spec in E. subst x. exists 0. split; reflexivity.
    - destruct I as [<-|I]; [rewrite (proj2 (bytes_eqb_spec x x) eq_refl) in E; discriminate E|]. destruct (IH I) as (i & -> & N).
      exists (S i). split; [reflexivity|exact N].
  Qed.

  (** *** Attributes *)
  Lemma attr_v : forall r s, valid f r -> exists o, find_attribute f r s = Ok o /\ match o with Some x => attr f r s x | None => no_attr f r s end.
  Proof.
    intros r s V. unfold find_attribute. rewrite (ast_child_v f T WF ATTRIBUTES r V). cbn [bind]. destruct (kid f ATTRIBUTES r) as [a|] eqn:K.
    - rewrite (children_is_v f T WF ATTRIBUTE a (kid_valid f T WF _ _ _ K)). cbn [bind].
      rewrite (find_res_pure _ _ (fun x => match name_of f x with Some y => bytes_eqb y s | None => false end)).
      + eexists. split; [reflexivity|].
        assert (FG : forall x, In x (kids_of f ATTRIBUTE a) -> (match name_of f x with Some y => bytes_eqb y s | None => false end) = true <-> named f s x).
        { intros x _. unfold named. destruct (name_of f x) as [y|]; [|split; discriminate]. rewrite bytes_eqb_spec. split; [intros ->; reflexivity|intros E; injection E as ->; reflexivity]. }
        pose proof (find_first_such _ _ _ _ FG) as FF. destruct (find_first _ _) as [x|].
        * exists a. split; [exact K|exact FF].
        * intros x (a' & K' & H). rewrite K in K'. injection K' as <-. exact (first_not_none _ _ _ _ H FF).
      + intros x I. destruct (named_of ATTRIBUTE x ltac:(cbn [In]; tauto) (proj2 (kids_of_in f T WF _ _ _ I))) as (y & NY & ->). cbn [bind]. rewrite NY. reflexivity.
    - exists None. split; [reflexivity|]. intros x (a & K' & _). rewrite K in K'. discriminate K'.
  Qed.

  Lemma attr_fun : forall r s x x', attr f r s x -> attr f r s x' -> x = x'.
  Proof.
    intros r s x x' (a & K & H) (a' & K' & H'). rewrite K in K'. injection K' as <-. exact (first_such_fun _ _ _ _ _ H H').
  Qed.

  Lemma attr_valid : forall r s x, attr f r s x -> valid f x.
  Proof. intros r s x (a & K & H). apply first_such_in in H. exact (proj1 (proj2 (kids_of_in f T WF _ _ _ H))). Qed.

  Lemma attr_text_v : forall x, valid f x -> attribute_text f x = Ok (attr_value f x).
  Proof.
    intros x V. unfold attribute_text, attr_value. rewrite (ast_child_v f T WF ATTRIBUTE_VALUE x V). cbn [bind].
    destruct (kid f ATTRIBUTE_VALUE x) as [m|] eqn:K; [|reflexivity]. rewrite (text_v f T WF CT m (kid_valid f T WF _ _ _ K)). reflexivity.
  Qed.

  Lemma ty_name_ok : forall r, valid f r -> exists o, ty_name f r = Ok o /\
    match o with Some s => makes_type f r s | None => forall s, ~ makes_type f r s end.
  Proof.
    intros r V. unfold ty_name, is_pub, is_pratt. rewrite (child_of_type_v f T WF PUB r V). cbn [bind]. destruct (kid f PUB r) as [p|] eqn:KP; cbn [negb].
    2:{ exists None. split; [reflexivity|]. intros s (A & _). exact (A KP). }
    destruct (attr_v r s_pratt V) as (o & -> & O). cbn [bind]. destruct o as [x|].
    { exists None. split; [reflexivity|]. intros s (_ & A & _). exact (A x O). }
    destruct (attr_v r s_type V) as (o & -> & O'). cbn [bind]. destruct o as [x|].
    - rewrite (attr_text_v x (attr_valid _ _ _ O')). eexists. split; [reflexivity|]. destruct (attr_value f x) as [s|] eqn:AV.
      + split; [rewrite KP; discriminate|]. split; [exact O|]. left. exists x. auto.
      + intros s (_ & _ & [(x' & A & B)|(A & _)]); [|exact (A x O')]. rewrite (attr_fun _ _ _ _ A O') in B. congruence.
    - rewrite (rule_name_v f T WF CT r V). eexists. split; [reflexivity|]. destruct (name_of f r) as [s|] eqn:N.
      + split; [rewrite KP; discriminate|]. split; [exact O|]. right. auto.
      + intros s (_ & _ & [(x' & A & B)|(_ & A)]); [exact (O' x' A)|congruence].
  Qed.

  (** *** Calls *)
  Lemma prev_is_ok : forall n l rs ds, valid f n -> (forall a, In a l -> valid f a) ->
    exists rs' k, outcome exec (prev_is f n l rs ds) (Some (VCall (Some (CkPrevIs (rs ++ rs'))), ds ++ repeat (error_at f n MPrevIs) k)) /\
      public_args f l rs' k /\
      forall k', needs exec (prev_is f n l rs ds) k' -> exists a, In a l /\ is_a f REF_EXPR a /\ (k' = QRef a \/ needs exec (exec (QRef a)) k').
  Proof.
    intros n l. induction l as [|a l IH]; intros rs ds V VA.
    - exists [], 0. cbn [prev_is repeat]. rewrite !app_nil_r. split; [constructor|]. split; [constructor|]. intros k' H. inversion H.
    - assert (VL : forall x, In x l -> valid f x) by (intros x I; apply VA; right; exact I).
      pose proof (VA a (or_introl eq_refl)) as Va. cbn [prev_is]. rewrite (diag_v f _ _ _ V). cbn [lift]. rewrite (ty_v f a Va). cbn [lift].
      change (mkDiag (rng f n) Error MPrevIs) with (error_at f n MPrevIs).
      assert (BAD : ~ (ty f a = REF_EXPR /\ exists r s, resolves f a (Some (RRule r)) /\ makes_type f r s) ->
        exists rs' k, outcome exec (prev_is f n l rs (ds ++ [error_at f n MPrevIs])) (Some (VCall (Some (CkPrevIs (rs ++ rs'))), ds ++ repeat (error_at f n MPrevIs) k)) /\
          public_args f (a :: l) rs' k /\
          forall k', needs exec (prev_is f n l rs (ds ++ [error_at f n MPrevIs])) k' -> exists a', In a' (a :: l) /\ is_a f REF_EXPR a' /\ (k' = QRef a' \/ needs exec (exec (QRef a')) k')).
      { intros B. destruct (IH rs (ds ++ [error_at f n MPrevIs]) V VL) as (rs' & k & O & P & N). exists rs', (S k). split; [|split].
        - cbn [repeat]. rewrite <- app_assoc in O. exact O.
        - apply pa_no; assumption.
        - intros k' H. destruct (N k' H) as (x & I & R). exists x. split; [right; exact I|exact R]. }
      destruct (ty f a =? REF_EXPR) eqn:TA.
      2:{ apply BAD. intros (E & _). rewrite E in TA. discriminate TA. }
      apply Nat.eqb_eq in TA. destruct (ref_ok a (conj Va TA)) as (o & dr & ER & RO & _).
      assert (NDA : forall c : option ref_kind -> prg, forall k', needs exec (get_ref a c) k' ->
        (k' = QRef a \/ needs exec (exec (QRef a)) k') \/ needs exec (c o) k').
      { intros c k' H. destruct (needs_ask f _ _ _ _ _ ER H) as [X|[X|X]]; [left; left; exact X|left; right; exact X|right; exact X]. }
      assert (WRAP : forall p' res, outcome exec p' res -> forall c : option ref_kind -> prg, c o = p' -> outcome exec (get_ref a c) res).
      { intros p' res O c <-. eapply oc_ask; [exact ER|exact O]. }
      destruct o as [[t|r|p]|].
      + destruct BAD as (rs' & k & O & P & N).
        { intros (_ & r' & s & R & _). pose proof (resolves_fun _ _ _ RO R) as X. discriminate X. }
        exists rs', k. split; [eapply WRAP; [exact O|reflexivity]|]. split; [exact P|]. intros k' H. apply NDA in H. destruct H as [H|H]; [|exact (N k' H)].
        exists a. split; [left; reflexivity|]. split; [exact (conj Va TA)|exact H].
      + assert (VR : valid f r).
        { destruct RO as (r0 & s0 & _ & _ & M). inversion M as [|x0 NP FS E| |]; subst. apply first_such_in in FS. exact (proj1 (rules_in f T WF r FS)). }
        destruct (ty_name_ok r VR) as (o & TN & O'). destruct o as [s|].
        * destruct (IH (rs ++ [r]) ds V VL) as (rs' & k & O & P & N). exists (r :: rs'), k. split; [|split].
          -- rewrite <- app_assoc in O. eapply WRAP; [exact O|]. cbv beta iota. rewrite TN. reflexivity.
          -- eapply pa_yes; eassumption.
          -- intros k' H. apply NDA in H. cbv beta iota in H. rewrite TN in H. cbn [lift] in H. destruct H as [H|H].
             ++ exists a. split; [left; reflexivity|]. split; [exact (conj Va TA)|exact H].
             ++ destruct (N k' H) as (x & I & R). exists x. split; [right; exact I|exact R].
        * destruct BAD as (rs' & k & O & P & N).
          { intros (_ & r' & s & R & M). pose proof (resolves_fun _ _ _ RO R) as X. injection X as <-. exact (O' s M). }
          exists rs', k. split; [eapply WRAP; [exact O|cbv beta iota; rewrite TN; reflexivity]|]. split; [exact P|].
          intros k' H. apply NDA in H. cbv beta iota in H. rewrite TN in H. cbn [lift] in H. destruct H as [H|H]; [|exact (N k' H)].
          exists a. split; [left; reflexivity|]. split; [exact (conj Va TA)|exact H].
      + destruct BAD as (rs' & k & O & P & N).
        { intros (_ & r' & s & R & _). pose proof (resolves_fun _ _ _ RO R) as X. discriminate X. }
        exists rs', k. split; [eapply WRAP; [exact O|reflexivity]|]. split; [exact P|]. intros k' H. apply NDA in H. destruct H as [H|H]; [|exact (N k' H)].
        exists a. split; [left; reflexivity|]. split; [exact (conj Va TA)|exact H].
      + destruct BAD as (rs' & k & O & P & N).
        { intros (_ & r' & s & R & _). pose proof (resolves_fun _ _ _ RO R) as X. discriminate X. }
        exists rs', k. split; [eapply WRAP; [exact O|reflexivity]|]. split; [exact P|]. intros k' H. apply NDA in H. destruct H as [H|H]; [|exact (N k' H)].
        exists a. split; [left; reflexivity|]. split; [exact (conj Va TA)|exact H].
  Qed.

  (** Which other queries a call needs *)
  Definition call_needs (n : nat) (s : bytes) (k : key) : Prop :=
    (k = QSyn /\ ~ In s builtins) \/
    (k = QCtx /\ (exists b, names_context f n b) /\ (s = s_is_in \/ 2 <= length (exprs f n))) \/
    (exists a, is_a f REF_EXPR a /\ (k = QRef a \/ needs exec (exec (QRef a)) k)).

  Lemma resolve_context_ok : forall n s k a l (c : nat -> call_kind), is_a f CALL_EXPR n -> name_of f n = Some s -> exprs f n = a :: l ->
    (s = s_is_in \/ 2 <= length (exprs f n)) ->
    ((exists b i, names_context f n b /\ context_number f b i /\
       outcome exec (resolve_context f n k c) (Some (VCall (Some (c i)), k)) /\
       needs exec (resolve_context f n k c) QCtx)
     \/ ((forall b, ~ names_context f n b) /\
       outcome exec (resolve_context f n k c) (Some (VCall None, k ++ [error_at f a MContextString])))) /\
    (forall k', needs exec (resolve_context f n k c) k' -> call_needs n s k').
  Proof.
    intros n s k a l c A N EX COND. destruct (context_v n A) as (o & E & O). unfold resolve_context. rewrite E. cbn [lift]. destruct o as [b|].
    - destruct ctx_ok as (cl & dc & EC & CL & _). destruct (position_name b cl) as (i & PI & NI).
      { apply (proj2 CL). exists n. split; [exact A|exact O]. }
      split.
      + left. exists b, i. split; [exact O|]. split; [exists cl; split; [exact CL|exact NI]|]. split; [|constructor].
        eapply oc_ask; [exact EC|]. cbv beta iota. rewrite PI. constructor.
      + intros k' H. destruct (needs_ask f _ _ _ _ _ EC H) as [X|[X|X]].
        * right. left. split; [exact X|]. split; [exists b; exact O|exact COND].
        * destruct (needs_rank0 f QCtx _ eq_refl X).
        * cbv beta iota in X. inversion X.
    - rewrite (call_args_v n (proj1 A)). cbn [lift]. rewrite EX. cbn [hd_error unwrap lift].
      assert (Va : valid f a) by (apply (exprs_in f T WF n a); rewrite EX; left; reflexivity).
      rewrite (diag_v f _ _ _ Va). cbn [lift]. split; [right; split; [exact O|constructor]|]. intros k' H. inversion H.
  Qed.

  Lemma arity_is : forall k n (l : list nat) whole, exprs f n = l -> whole = rng f n ->
    (if k =? length l then [] else [mkDiag whole Error (MWrongArgs k (length l))]) = arity_error f k n.
  Proof.
    intros k n l whole <- ->. unfold arity_error, error_at. rewrite (Nat.eqb_sym k). reflexivity.
  Qed.

  Lemma builtin_or_not : forall s, In s builtins \/ ~ In s builtins.
  Proof.
    intros s. assert (D : forall x y : bytes, {x = y} + {x <> y}) by (apply list_eq_dec; apply Nat.eq_dec).
    destruct (in_dec D s builtins) as [X|X]; [left; exact X|right; exact X].
  Qed.

  Lemma call_ok : forall n, is_a f CALL_EXPR n -> exists s o ds, name_of f n = Some s /\ evaluates exec (QCall n) (VCall o) ds /\ call_means f n o ds /\
    (~ In s builtins -> needs exec (exec (QCall n)) QSyn) /\
    (forall b, names_context f n b -> (s = s_is_in \/ 2 <= length (exprs f n)) -> needs exec (exec (QCall n)) QCtx) /\
    (forall k, needs exec (exec (QCall n)) k -> call_needs n s k).
  Proof.
    intros n A. pose proof (proj1 A) as V. destruct (named_of CALL_EXPR n ltac:(cbn [In]; tauto) A) as (s & N & NT). exists s.
    unfold evaluates. cbn [fall_exec]. unfold q_call, fn_name. rewrite (call_args_v n V). cbn [lift]. rewrite NT. cbn [lift].
    rewrite (rng_v f n V). cbn [lift]. cbv zeta.
    assert (NCTX : forall b, names_context f n b -> In s context_functions).
    { intros b (fn & a & m & N' & I & _). rewrite N in N'. injection N' as <-. exact I. }
    assert (RETN : forall v ds k, needs exec (Ret v ds : prg) k -> call_needs n s k) by (intros v ds k H; inversion H).
    assert (BI : forall x, In x builtins -> s = x -> ~ In s builtins -> forall P : Prop, P) by (intros x I -> NI; destruct (NI I)).
    assert (NOCTX : s <> s_is_in -> s <> s_enter -> s <> s_exit -> forall b, names_context f n b -> forall P : Prop, P).
    { intros X1 X2 X3 b NB. apply NCTX in NB. cbn [context_functions In] in NB.
      destruct NB as [NB|[NB|[NB|[]]]]; [destruct (X1 (eq_sym NB))|destruct (X2 (eq_sym NB))|destruct (X3 (eq_sym NB))]. }
    Local Ltac name E := apply bytes_eqb_spec in E; subst.
    Local Ltac dn N := unfold s_any, s_commit, s_eof, s_not, s_is_in, s_layer, s_with_skip, s_inject, s_enter, s_exit, s_prev_is; discriminate.
    destruct (bytes_eqb s s_any) eqn:E1.
    { name E1. exists (Some CkAny), (arity_error f 0 n). rewrite (arity_is 0 n _ _ eq_refl eq_refl). split; [exact N|]. split; [constructor|]. split; [apply cm_any; exact N|].
      split; [intros NI; apply (BI s_any (nth_error_In builtins 0 eq_refl) eq_refl NI)|]. split; [|apply RETN].
      intros b NB _. apply (NOCTX ltac:(dn N) ltac:(dn N) ltac:(dn N) b NB). }
    destruct (bytes_eqb s s_commit) eqn:E2.
    { name E2. exists (Some CkCommit), (arity_error f 0 n). rewrite (arity_is 0 n _ _ eq_refl eq_refl). split; [exact N|]. split; [constructor|]. split; [apply cm_commit; exact N|].
      split; [intros NI; apply (BI s_commit (nth_error_In builtins 1 eq_refl) eq_refl NI)|]. split; [|apply RETN].
      intros b NB _. apply (NOCTX ltac:(dn N) ltac:(dn N) ltac:(dn N) b NB). }
    destruct (bytes_eqb s s_eof) eqn:E3.
    { name E3. exists (Some CkEof), (arity_error f 0 n). rewrite (arity_is 0 n _ _ eq_refl eq_refl). split; [exact N|]. split; [constructor|]. split; [apply cm_eof; exact N|].
      split; [intros NI; apply (BI s_eof (nth_error_In builtins 2 eq_refl) eq_refl NI)|]. split; [|apply RETN].
      intros b NB _. apply (NOCTX ltac:(dn N) ltac:(dn N) ltac:(dn N) b NB). }
    destruct (bytes_eqb s s_not) eqn:E4.
    { name E4. rewrite (arity_is 1 n _ _ eq_refl eq_refl). destruct (exprs f n) as [|a l] eqn:EX.
      - exists None, (arity_error f 1 n). split; [exact N|]. split; [constructor|].
        split; [apply (cm_too_few f n s_not 1); [apply (nth_error_In _ 0); reflexivity|exact N|rewrite EX; cbn [length]; lia]|].
        split; [intros NI; apply (BI s_not (nth_error_In builtins 3 eq_refl) eq_refl NI)|]. split; [|apply RETN].
        intros b NB _. apply (NOCTX ltac:(dn N) ltac:(dn N) ltac:(dn N) b NB).
      - exists (Some (CkNot a)), (arity_error f 1 n). split; [exact N|]. split; [constructor|]. split; [eapply cm_not; [exact N|exact EX]|].
        split; [intros NI; apply (BI s_not (nth_error_In builtins 3 eq_refl) eq_refl NI)|]. split; [|apply RETN].
        intros b NB _. apply (NOCTX ltac:(dn N) ltac:(dn N) ltac:(dn N) b NB). }
    destruct (bytes_eqb s s_is_in) eqn:E5.
    { name E5. rewrite (arity_is 1 n _ _ eq_refl eq_refl). destruct (exprs f n) as [|a l] eqn:EX.
      - exists None, (arity_error f 1 n). split; [exact N|]. split; [constructor|].
        split; [apply (cm_too_few f n s_is_in 1); [apply (nth_error_In _ 1); reflexivity|exact N|rewrite EX; cbn [length]; lia]|].
        split; [intros NI; apply (BI s_is_in (nth_error_In builtins 4 eq_refl) eq_refl NI)|]. split; [|apply RETN].
        intros b (fn & a & m & _ & _ & H & _) _. rewrite EX in H. discriminate H.
      - destruct (resolve_context_ok n s_is_in (arity_error f 1 n) a l CkIsIn A N EX (or_introl eq_refl)) as ([(b & i & NB & CN & O & ND)|(NO & O)] & NS).
        + exists (Some (CkIsIn i)), (arity_error f 1 n). split; [exact N|]. split; [exact O|]. split; [eapply cm_is_in; eassumption|].
          split; [intros NI; apply (BI s_is_in (nth_error_In builtins 4 eq_refl) eq_refl NI)|]. split; [intros b' NB' _; exact ND|exact NS].
        + exists None, (arity_error f 1 n ++ [error_at f a MContextString]). split; [exact N|]. split; [exact O|].
          split; [apply (cm_no_string f n s_is_in 1 a l); [apply (nth_error_In _ 0); reflexivity|exact N|exact EX|rewrite EX; cbn [length]; lia|exact NO]|].
          split; [intros NI; apply (BI s_is_in (nth_error_In builtins 4 eq_refl) eq_refl NI)|]. split; [intros b' NB' _; destruct (NO b' NB')|exact NS]. }
    destruct (bytes_eqb s s_layer) eqn:E6.
    { name E6. rewrite (arity_is 2 n _ _ eq_refl eq_refl). destruct (exprs f n) as [|a [|b l]] eqn:EX.
      1,2: exists None, (arity_error f 2 n); split; [exact N|]; split; [constructor|];
        split; [apply (cm_too_few f n s_layer 2); [apply (nth_error_In _ 2); reflexivity|exact N|rewrite EX; cbn [length]; lia]|];
        split; [intros NI; apply (BI s_layer (nth_error_In builtins 5 eq_refl) eq_refl NI)|]; split; [|apply RETN];
        intros b NB _; apply (NOCTX ltac:(dn N) ltac:(dn N) ltac:(dn N) b NB).
      exists (Some (CkLayer a b)), (arity_error f 2 n). split; [exact N|]. split; [constructor|]. split; [eapply cm_layer; [exact N|exact EX]|].
      split; [intros NI; apply (BI s_layer (nth_error_In builtins 5 eq_refl) eq_refl NI)|]. split; [|apply RETN].
      intros b' NB _. apply (NOCTX ltac:(dn N) ltac:(dn N) ltac:(dn N) b' NB). }
    destruct (bytes_eqb s s_with_skip) eqn:E7.
    { name E7. rewrite (arity_is 2 n _ _ eq_refl eq_refl). destruct (exprs f n) as [|a [|b l]] eqn:EX.
      1,2: exists None, (arity_error f 2 n); split; [exact N|]; split; [constructor|];
        split; [apply (cm_too_few f n s_with_skip 2); [apply (nth_error_In _ 3); reflexivity|exact N|rewrite EX; cbn [length]; lia]|];
        split; [intros NI; apply (BI s_with_skip (nth_error_In builtins 6 eq_refl) eq_refl NI)|]; split; [|apply RETN];
        intros b NB _; apply (NOCTX ltac:(dn N) ltac:(dn N) ltac:(dn N) b NB).
      exists (Some (CkWithSkip a b)), (arity_error f 2 n). split; [exact N|]. split; [constructor|]. split; [eapply cm_with_skip; [exact N|exact EX]|].
      split; [intros NI; apply (BI s_with_skip (nth_error_In builtins 6 eq_refl) eq_refl NI)|]. split; [|apply RETN].
      intros b' NB _. apply (NOCTX ltac:(dn N) ltac:(dn N) ltac:(dn N) b' NB). }
    destruct (bytes_eqb s s_inject) eqn:E8.
    { name E8. rewrite (arity_is 2 n _ _ eq_refl eq_refl). destruct (exprs f n) as [|a [|b l]] eqn:EX.
      1,2: exists None, (arity_error f 2 n); split; [exact N|]; split; [constructor|];
        split; [apply (cm_too_few f n s_inject 2); [apply (nth_error_In _ 4); reflexivity|exact N|rewrite EX; cbn [length]; lia]|];
        split; [intros NI; apply (BI s_inject (nth_error_In builtins 7 eq_refl) eq_refl NI)|]; split; [|apply RETN];
        intros b NB _; apply (NOCTX ltac:(dn N) ltac:(dn N) ltac:(dn N) b NB).
      exists (Some (CkInject a b)), (arity_error f 2 n). split; [exact N|]. split; [constructor|]. split; [eapply cm_inject; [exact N|exact EX]|].
      split; [intros NI; apply (BI s_inject (nth_error_In builtins 7 eq_refl) eq_refl NI)|]. split; [|apply RETN].
      intros b' NB _. apply (NOCTX ltac:(dn N) ltac:(dn N) ltac:(dn N) b' NB). }
    destruct (bytes_eqb s s_enter) eqn:E9.
    { name E9. rewrite (arity_is 2 n _ _ eq_refl eq_refl). destruct (exprs f n) as [|a [|b l]] eqn:EX.
      1,2: exists None, (arity_error f 2 n); split; [exact N|]; split; [constructor|];
        split; [apply (cm_too_few f n s_enter 2); [apply (nth_error_In _ 5); reflexivity|exact N|rewrite EX; cbn [length]; lia]|];
        split; [intros NI; apply (BI s_enter (nth_error_In builtins 8 eq_refl) eq_refl NI)|]; split; [|apply RETN];
        intros b' NB [X|X]; [discriminate X|cbn [length] in X; lia].
      assert (L2 : s_enter = s_is_in \/ 2 <= length (exprs f n)) by (right; rewrite EX; cbn [length]; lia).
      destruct (resolve_context_ok n s_enter (arity_error f 2 n) a (b :: l) (fun c => CkEnter c b) A N EX L2) as ([(c & i & NB & CN & O & ND)|(NO & O)] & NS).
      - exists (Some (CkEnter i b)), (arity_error f 2 n). split; [exact N|]. split; [exact O|]. split; [eapply cm_enter; eassumption|].
        split; [intros NI; apply (BI s_enter (nth_error_In builtins 8 eq_refl) eq_refl NI)|]. split; [intros b' NB' _; exact ND|exact NS].
      - exists None, (arity_error f 2 n ++ [error_at f a MContextString]). split; [exact N|]. split; [exact O|].
        split; [apply (cm_no_string f n s_enter 2 a (b :: l)); [apply (nth_error_In _ 1); reflexivity|exact N|exact EX|rewrite EX; cbn [length]; lia|exact NO]|].
        split; [intros NI; apply (BI s_enter (nth_error_In builtins 8 eq_refl) eq_refl NI)|]. split; [intros b' NB' _; destruct (NO b' NB')|exact NS]. }
    destruct (bytes_eqb s s_exit) eqn:E10.
    { name E10. rewrite (arity_is 2 n _ _ eq_refl eq_refl). destruct (exprs f n) as [|a [|b l]] eqn:EX.
      1,2: exists None, (arity_error f 2 n); split; [exact N|]; split; [constructor|];
        split; [apply (cm_too_few f n s_exit 2); [apply (nth_error_In _ 6); reflexivity|exact N|rewrite EX; cbn [length]; lia]|];
        split; [intros NI; apply (BI s_exit (nth_error_In builtins 9 eq_refl) eq_refl NI)|]; split; [|apply RETN];
        intros b' NB [X|X]; [discriminate X|cbn [length] in X; lia].
      assert (L2 : s_exit = s_is_in \/ 2 <= length (exprs f n)) by (right; rewrite EX; cbn [length]; lia).
      destruct (resolve_context_ok n s_exit (arity_error f 2 n) a (b :: l) (fun c => CkExit c b) A N EX L2) as ([(c & i & NB & CN & O & ND)|(NO & O)] & NS).
      - exists (Some (CkExit i b)), (arity_error f 2 n). split; [exact N|]. split; [exact O|]. split; [eapply cm_exit; eassumption|].
        split; [intros NI; apply (BI s_exit (nth_error_In builtins 9 eq_refl) eq_refl NI)|]. split; [intros b' NB' _; exact ND|exact NS].
      - exists None, (arity_error f 2 n ++ [error_at f a MContextString]). split; [exact N|]. split; [exact O|].
        split; [apply (cm_no_string f n s_exit 2 a (b :: l)); [apply (nth_error_In _ 2); reflexivity|exact N|exact EX|rewrite EX; cbn [length]; lia|exact NO]|].
        split; [intros NI; apply (BI s_exit (nth_error_In builtins 9 eq_refl) eq_refl NI)|]. split; [intros b' NB' _; destruct (NO b' NB')|exact NS]. }
    destruct (bytes_eqb s s_prev_is) eqn:E11.
    { name E11. destruct (prev_is_ok n (exprs f n) [] [] V) as (rs & k & O & P & NS).
      { intros a I. exact (proj1 (exprs_in f T WF n a I)). }
      exists (Some (CkPrevIs rs)), (repeat (error_at f n MPrevIs) k). split; [exact N|]. split; [exact O|]. split; [apply cm_prev_is; assumption|].
      split; [intros NI; apply (BI s_prev_is (nth_error_In builtins 10 eq_refl) eq_refl NI)|]. split.
      - intros b NB _. apply (NOCTX ltac:(dn N) ltac:(dn N) ltac:(dn N) b NB).
      - intros k' H. destruct (NS k' H) as (a & _ & R). right. right. exists a. exact R. }
    assert (NB : ~ In s builtins).
    { intros I. cbn [builtins In] in I. 
      repeat (destruct I as [I|I]; [subst s; rewrite (proj2 (bytes_eqb_spec _ _) eq_refl) in *; discriminate|]). destruct I. }
    assert (NCX : forall b, names_context f n b -> forall P : Prop, P).
    { intros b X. apply NCTX in X. destruct NB. cbn [context_functions In] in X.
      destruct X as [<-|[<-|[<-|[]]]]; [exact (nth_error_In builtins 4 eq_refl)|exact (nth_error_In builtins 8 eq_refl)|exact (nth_error_In builtins 9 eq_refl)]. }
    destruct syn_ok as (m & out & dsyn & ES & _ & _ & AS). pose proof (AS s) as AS'.
    destruct (kid f IDENT n) as [i|] eqn:KI; [|unfold name_of in N; rewrite KI in N; discriminate N].
    assert (UN : (lift (c <- child_of_type nodes n IDENT ;; unwrap c) (fun i => lift (diag f Error i MUnresolvedReference) (fun d => Ret (VCall None) [d])))
      = Ret (VCall None) [error_at f i MUnresolvedReference] :> prg).
    { rewrite (child_of_type_v f T WF IDENT n V), KI. cbn [bind unwrap lift]. rewrite (diag_v f _ _ _ (kid_valid f T WF _ _ _ KI)). reflexivity. }
    assert (NS : forall c : list (bytes * nat) -> prg, forall v ds, c m = Ret v ds -> forall k, needs exec (get_map QSyn c) k -> call_needs n s k).
    { intros c v ds E k H. destruct (needs_ask f _ _ _ _ _ ES H) as [X|[X|X]].
      - left. split; [exact X|exact NB].
      - destruct (needs_rank0 f QSyn _ eq_refl X).
      - cbv beta iota in X. rewrite E in X. inversion X. }
    assert (GO : forall c : list (bytes * nat) -> prg, forall v ds, c m = Ret v ds -> outcome exec (get_map QSyn c) (Some (v, ds))).
    { intros c v ds E. eapply oc_ask; [exact ES|]. cbv beta iota. rewrite E. constructor. }
    destruct (assoc s m) as [r|] eqn:EA.
    - pose proof (rules_in f T WF r (first_such_in _ _ _ _ AS')) as RI. destruct (kid f PARAMETERS r) as [p|] eqn:KP.
      + assert (PP : params f r = kids_of f PARAMETER p) by (unfold params; rewrite KP; reflexivity).
        eexists _, _. split; [exact N|]. split; [apply GO; rewrite EA; unfold rule_parameters; rewrite (ast_child_v f T WF PARAMETERS r (proj1 RI)), KP; cbn [lift];
          rewrite (children_is_v f T WF PARAMETER p (kid_valid f T WF _ _ _ KP)); cbn [lift]; reflexivity|].
        split.
        * rewrite <- PP. apply (cm_rule f n r). exists s. split; [exact N|]. split; [exact NB|]. split; [exact AS'|]. rewrite KP. discriminate.
        * split; [intros _; constructor|]. split; [intros b X; apply (NCX b X)|]. eapply NS. rewrite EA. unfold rule_parameters.
          rewrite (ast_child_v f T WF PARAMETERS r (proj1 RI)), KP. cbn [lift]. rewrite (children_is_v f T WF PARAMETER p (kid_valid f T WF _ _ _ KP)). cbn [lift]. reflexivity.
      + eexists _, _. split; [exact N|]. split; [apply GO; rewrite EA; unfold rule_parameters; rewrite (ast_child_v f T WF PARAMETERS r (proj1 RI)), KP; cbn [lift]; exact UN|].
        split.
        * apply (cm_unknown f n s i); [exact N|exact NB| |exact KI]. intros r' (s' & N' & _ & FS & KP'). unfold named in *. rewrite N in N'. injection N' as <-.
          rewrite (first_such_fun _ _ _ _ _ FS AS') in KP'. exact (KP' KP).
        * split; [intros _; constructor|]. split; [intros b X; apply (NCX b X)|]. eapply NS. rewrite EA. unfold rule_parameters.
          rewrite (ast_child_v f T WF PARAMETERS r (proj1 RI)), KP. cbn [lift]. exact UN.
    - eexists _, _. split; [exact N|]. split; [apply GO; rewrite EA; exact UN|]. split.
      + apply (cm_unknown f n s i); [exact N|exact NB| |exact KI]. intros r' (s' & N' & _ & FS & KP'). rewrite N in N'. injection N' as <-.
        exact (first_not_none _ _ _ _ FS AS').
      + split; [intros _; constructor|]. split; [intros b X; apply (NCX b X)|]. eapply NS. rewrite EA. exact UN.
  Qed.
End Results.
