(** What an expression yields depends only on the tokens and the text of its window. *)
From Coq Require Import List Arith Bool Lia.
From Verif Require Import Base BaseFacts LexModel LexSpec LexProofs GrammarModel ParserModel ForestSpec SemSpec PegSpec PegProofs PegFacts.
Import ListNotations.

(** The number of non-whitespace tokens. *)
Definition solid (is_ws : nat -> bool) (l : list token) : nat := length (filter (fun t => negb (is_ws (tk_ty t))) l).

Section Window.
  Variable g : grammar.
  Variable is_ws : nat -> bool.
  Variables (U V V' : bytes) (A B B' : list token).
  Hypothesis LU : length U = lens A.
  Let E := new_env None g is_ws (U ++ V) (A ++ B).
  Let E' := new_env None g is_ws (U ++ V') (A ++ B').
  Let lim := solid is_ws A.

  Lemma non_ws_app : forall a b off i, non_ws_from is_ws off i (a ++ b) = non_ws_from is_ws off i a ++ non_ws_from is_ws (off + lens a) (i + length a) b.
  Proof.
    induction a as [|t a IH]; intros b off i; cbn [app non_ws_from].
    - cbn. rewrite !Nat.add_0_r. reflexivity.
    - rewrite IH, lens_cons. cbn [length]. replace (off + tk_len t + lens a) with (off + (tk_len t + lens a)) by lia.
      replace (S i + length a) with (i + S (length a)) by lia. destruct (is_ws (tk_ty t)); reflexivity.
  Qed.

  Lemma non_ws_len : forall a off i, length (non_ws_from is_ws off i a) = solid is_ws a.
  Proof.
    unfold solid. induction a as [|t a IH]; intros off i; [reflexivity|]. cbn. destruct (is_ws (tk_ty t)); cbn; auto.
  Qed.

  Lemma non_ws_range : forall a off i k o raw, nth_error (non_ws_from is_ws off i a) k = Some (o, raw) ->
    i <= raw < i + length a /\ exists t, nth_error a (raw - i) = Some t /\ off <= o /\ o + tk_len t <= off + lens a.
  Proof.
    induction a as [|t a IH]; intros off i k o raw H; [destruct k; discriminate|]. cbn [non_ws_from] in H. cbn [length]. rewrite lens_cons.
    assert (G : forall k, nth_error (non_ws_from is_ws (off + tk_len t) (S i) a) k = Some (o, raw) ->
      i <= raw < i + S (length a) /\ exists t0, nth_error (t :: a) (raw - i) = Some t0 /\ off <= o /\ o + tk_len t0 <= off + (tk_len t + lens a)).
    { intros k0 H0. apply IH in H0. destruct H0 as (R & x & X & O1 & O2). split; [lia|]. exists x. replace (raw - i) with (S (raw - S i)) by lia.
      cbn. split; auto. lia. }
    destruct (is_ws (tk_ty t)); [eauto|]. destruct k as [|k]; [|eauto]. cbn in H. injection H as <- <-. split; [lia|]. exists t.
    rewrite Nat.sub_diag. cbn. split; auto. lia.
  Qed.

  Lemma idx_same : forall k, k < lim -> nth_error (e_idx E) k = nth_error (e_idx E') k.
  Proof.
    intros k L. unfold E, E'. cbn [new_env e_idx]. unfold non_ws. rewrite !non_ws_app.
    rewrite !nth_error_app1 by (rewrite non_ws_len; exact L). reflexivity.
  Qed.

  Lemma idx_in : forall k o raw, k < lim -> nth_error (e_idx E) k = Some (o, raw) ->
    raw < length A /\ exists t, nth_error A raw = Some t /\ o + tk_len t <= lens A.
  Proof.
    intros k o raw L H. unfold E in H. cbn [new_env e_idx] in H. unfold non_ws in H. rewrite non_ws_app in H.
    rewrite nth_error_app1 in H by (rewrite non_ws_len; exact L). apply non_ws_range in H. rewrite Nat.sub_0_r in H. cbn in H.
    destruct H as (R & t & T & _ & O). split; [lia|]. eauto.
  Qed.

  Lemma tok_same : forall k t, k < lim -> tok_at E k t -> tok_at E' k t.
  Proof.
    intros k t L (o & raw & H1 & H2). destruct (idx_in _ _ _ L H1) as (R & x & X & _). exists o, raw. split; [rewrite <- idx_same by exact L; exact H1|].
    unfold E' in *. unfold E in H2. cbn [new_env e_toks] in *. rewrite nth_error_app1 in H2 |- * by lia. exact H2.
  Qed.

  Lemma tok_len_in : forall k o raw t, k < lim -> nth_error (e_idx E) k = Some (o, raw) -> tok_at E k t -> o + tk_len t <= lens A.
  Proof.
    intros k o raw t L H (o1 & raw1 & H1 & H2). rewrite H in H1. injection H1 as <- <-. destruct (idx_in _ _ _ L H) as (R & x & X & O).
    unfold E in H2. cbn [new_env e_toks] in H2. rewrite nth_error_app1 in H2 by lia. congruence.
  Qed.

  Lemma eat_same : forall p t q, p_cur p <= p_end p <= lim -> eat E p t q -> eat E' p t q.
  Proof.
    intros p t q W (N & (x & X & T) & ->). split; auto. split; auto. exists x. split; auto. apply tok_same; auto. unfold at_end in N. lia.
  Qed.

  Lemma eats_same : forall p T, eats E p T -> p_cur p <= p_end p <= lim -> eats E' p T.
  Proof.
    induction 1 as [p H|p t q F H _ IH]; intros W; [constructor; auto|]. econstructor; [apply eat_same; eauto|]. apply IH.
    destruct H as (N & _ & ->). unfold at_end in N. cbn. lia.
  Qed.

  Lemma whole_same : forall p len n q, whole E p len n q -> p_cur p <= p_end p <= lim -> whole E' p len n q.
  Proof.
    induction 1 as [p|p t len n q N T C D IH|p t N T C]; intros W; [constructor| |]; unfold at_end in N.
    - apply whole_cons; auto; [apply tok_same; auto; lia|]. apply IH. cbn. lia.
    - apply whole_last; auto. apply tok_same; auto. lia.
  Qed.

  Lemma cut_same : forall p len, cut_short E p len -> p_cur p <= p_end p <= lim -> cut_short E' p len.
  Proof.
    induction 1 as [p len N A0|p t len N A0 T L|p t len A0 T C IH]; intros W; try unfold at_end in A0.
    - apply cut_end; auto.
    - eapply cut_long; eauto. apply tok_same; auto. lia.
    - apply cut_more; auto; [apply tok_same; auto; lia|]. apply IH. cbn. lia.
  Qed.

  (** Offsets grow. *)
  Lemma idx_step : forall a off i k o raw o' raw' t, nth_error (non_ws_from is_ws off i a) k = Some (o, raw) ->
    nth_error (non_ws_from is_ws off i a) (S k) = Some (o', raw') -> nth_error a (raw - i) = Some t -> o + tk_len t <= o'.
  Proof.
    induction a as [|x a IH]; intros off i k o raw o' raw' t H1 H2 H3; [destruct k; discriminate|]. cbn [non_ws_from] in *.
    assert (SH : forall o1 raw1 k1, nth_error (non_ws_from is_ws (off + tk_len x) (S i) a) k1 = Some (o1, raw1) -> S i <= raw1 /\ off + tk_len x <= o1).
    { intros o1 raw1 k1 Q. apply non_ws_range in Q. destruct Q as (R & t0 & _ & O & _). lia. }
    destruct (is_ws (tk_ty x)).
    - destruct (SH _ _ _ H1) as [L _]. eapply IH; [exact H1|exact H2|]. replace (raw - i) with (S (raw - S i)) in H3 by lia. exact H3.
    - cbn in H2. destruct k as [|k].
      + cbn in H1. injection H1 as <- <-. rewrite Nat.sub_diag in H3. cbn in H3. injection H3 as <-. apply (SH _ _ _ H2).
      + cbn in H1. destruct (SH _ _ _ H1) as [L _]. eapply IH; [exact H1|exact H2|]. replace (raw - i) with (S (raw - S i)) in H3 by lia. exact H3.
  Qed.

  Lemma whole_fits : forall p len n q, whole E p len n q -> p_cur p <= p_end p <= lim -> len <> 0 ->
    forall o raw, nth_error (e_idx E) (p_cur p) = Some (o, raw) -> o + len <= lens A.
  Proof.
    induction 1 as [p|p t len n q N T C D IH|p t N T C]; intros W NZ o raw IX; [congruence| |]; unfold at_end in N.
    - assert (L1 : S (p_cur p) < lim \/ S (p_cur p) = p_end p) by lia.
      inversion D as [|p0 t0 len0 n0 q0 N0 T0 C0 D0|p0 t0 N0 T0 C0]; subst; try congruence; unfold at_end in N0; cbn [p_cur p_end] in *;
        destruct T0 as (o' & raw' & I' & J'); specialize (IH ltac:(lia) C _ _ I');
        pose proof T as (o1 & raw1 & I1 & J1); rewrite IX in I1; injection I1 as <- <-;
        pose proof (idx_step (A ++ B) 0 0 (p_cur p) o raw o' raw' t IX I' ltac:(rewrite Nat.sub_0_r; exact J1)); lia.
    - eapply tok_len_in; eauto. lia.
  Qed.

  Lemma text_prefix_same : forall o text, o + length text <= lens A -> (exists r, skipn o (e_text E) = text ++ r) -> exists r, skipn o (e_text E') = text ++ r.
  Proof.
    intros o text L (r & H). unfold E, E' in *. cbn [new_env e_text] in *. exists (skipn (o + length text) (U ++ V')).
    rewrite <- (firstn_skipn (length text) (skipn o (U ++ V'))). f_equal.
    - rewrite skipn_app in H |- *. replace (o - length U) with 0 in * by lia. cbn [skipn] in *.
      assert (Q : firstn (length text) (skipn o U ++ V) = text) by (rewrite H, firstn_app, firstn_all, Nat.sub_diag, firstn_O, app_nil_r; reflexivity).
      rewrite firstn_app in Q |- *. replace (length text - length (skipn o U)) with 0 in * by (rewrite skipn_length; lia). rewrite firstn_O in *. exact Q.
    - rewrite skipn_skipn. reflexivity.
  Qed.

  Lemma whole_or_cut : forall len n p, p_end p - p_cur p <= n -> p_cur p <= p_end p <= lim ->
    (exists k q, whole E p len k q) \/ cut_short E p len.
  Proof.
    intros len n. revert len. induction n as [|n IH]; intros len p L W; (destruct (Nat.eq_dec len 0) as [->|NZ]; [left; do 2 eexists; constructor|]).
    - right. apply cut_end; auto. unfold at_end. lia.
    - destruct (Nat.eq_dec (p_cur p) (p_end p)) as [EQ|NE]; [right; apply cut_end; auto|].
      destruct (nth_error (e_idx E) (p_cur p)) as [[o raw]|] eqn:IX.
      2:{ apply nth_error_None in IX. unfold E in IX. cbn [new_env e_idx] in IX. unfold non_ws in IX. rewrite non_ws_len in IX.
          unfold solid in IX. rewrite filter_app, app_length in IX. unfold lim, solid in W. lia. }
      destruct (idx_in (p_cur p) o raw ltac:(lia) IX) as (R & t & T & _).
      assert (TA : tok_at E (p_cur p) t) by (exists o, raw; split; auto; unfold E; cbn [new_env e_toks]; rewrite nth_error_app1 by lia; exact T).
      destruct (Nat.lt_ge_cases len (tk_len t)) as [LT|GE]; [right; eapply cut_long; eauto|].
      destruct (Nat.eq_dec (len - tk_len t) 0) as [Z|Z].
      + left. exists 1, (mkPos (S (p_cur p)) (p_end p)). replace len with (tk_len t) by lia. apply whole_last; auto. lia.
      + replace len with (tk_len t + (len - tk_len t)) by lia.
        destruct (IH (len - tk_len t) (mkPos (S (p_cur p)) (p_end p)) ltac:(cbn; lia) ltac:(cbn; lia)) as [(k & q & H)|H].
        * left. exists (S k), q. apply whole_cons; auto.
        * right. apply cut_more; auto.
  Qed.
End Window.

Section Same.
  Variable g : grammar.
  Variable is_ws : nat -> bool.
  Variables (U V V' : bytes) (A B B' : list token).
  Hypothesis LU : length U = lens A.
  Notation E := (new_env None g is_ws (U ++ V) (A ++ B)).
  Notation E' := (new_env None g is_ws (U ++ V') (A ++ B')).
  Notation lim := (solid is_ws A).

  (** [text_here] for the other file. *)
  Lemma here_same : forall p text, p_cur p <= p_end p <= lim -> ~ at_end p -> text_here E p text ->
    (exists n q, whole E p (length text) n q) -> text_here E' p text.
  Proof.
    intros p text W N (o & raw & IX & LE & P) (n & q & WH). unfold at_end in N.
    destruct (idx_in g is_ws U V A B LU (p_cur p) o raw ltac:(lia) IX) as (R & t & T & OL).
    exists o, raw. split; [rewrite <- (idx_same g is_ws U V V' A B B' LU) by lia; exact IX|].
    split; [cbn [new_env e_text]; rewrite app_length; lia|].
    apply (text_prefix_same g is_ws U V V' A B B' LU); auto. destruct (Nat.eq_dec (length text) 0) as [Z|Z]; [lia|].
    eapply whole_fits; eauto.
  Qed.

  Lemma here_dec : forall p text, p_cur p <= p_end p <= lim -> ~ at_end p -> text_here E' p text \/ text_not_here E' p text.
  Proof.
    intros p text W N. unfold at_end in N. destruct (nth_error (e_idx E') (p_cur p)) as [[o raw]|] eqn:IX.
    2:{ apply nth_error_None in IX. cbn [new_env e_idx] in IX. unfold non_ws in IX. rewrite non_ws_len in IX.
        unfold solid in *. rewrite filter_app, app_length in IX. lia. }
    destruct (idx_in g is_ws U V' A B' LU (p_cur p) o raw ltac:(lia) IX) as (R & t & T & OL).
    assert (LO : o <= length (e_text E')) by (cbn [new_env e_text]; rewrite app_length; lia).
    destruct (is_prefix text (skipn o (e_text E'))) eqn:P.
    - left. exists o, raw. apply is_prefix_spec in P. auto.
    - right. exists o, raw. rewrite <- is_prefix_spec. rewrite P. auto.
  Qed.
End Same.

Section Transfer.
  Variable g : grammar.
  Variable is_ws : nat -> bool.
  Variables (U V V' : bytes) (A B B' : list token).
  Hypothesis LU : length U = lens A.
  Notation E := (new_env None g is_ws (U ++ V) (A ++ B)).
  Notation E' := (new_env None g is_ws (U ++ V') (A ++ B')).
  Notation lim := (solid is_ws A).
  Notation ok p := (p_cur p <= p_end p <= lim).

  Lemma window_all :
    (forall rd e p h r h', peg E rd e p h r h' -> ok p -> peg E' rd e p h r h')
    /\ (forall l t b, among E l t b -> among E' l t b)
    /\ (forall rd l p h r h', first_of E rd l p h r h' -> ok p -> first_of E' rd l p h r h')
    /\ (forall rd l p h n q F h', in_order E rd l p h n q F h' -> ok p -> in_order E' rd l p h n q F h')
    /\ (forall rd b p h q F h', greedy E rd b p h q F h' -> ok p -> greedy E' rd b p h q F h')
    /\ (forall rd a b sk p h r h', skipping E rd a b sk p h r h' -> ok p -> skipping E' rd a b sk p h r h')
    /\ (forall rd t m p h r h', climbing E rd t m p h r h' -> ok p -> climbing E' rd t m p h r h')
    /\ (forall rd t l p h r h', prefixed E rd t l p h r h' -> ok p -> prefixed E' rd t l p h r h')
    /\ (forall rd t m fresh lhs p h r h', chain E rd t m fresh lhs p h r h' -> ok p -> chain E' rd t m fresh lhs p h r h')
    /\ (forall rd t l fresh lhs p h r h', infixed E rd t l fresh lhs p h r h' -> ok p -> infixed E' rd t l fresh lhs p h r h').
  Proof.
    pose proof (peg_within_all E) as (W1 & _ & W3 & W4 & W5 & W6 & W7 & W8 & W9 & W10).
    assert (NX : forall p q, ok p -> inw p q -> ok q) by (intros p q O I; destruct I; lia).
    apply peg_all; intros.
    - eapply peg_pub; eauto.
    - eapply peg_pub_repl; eauto.
    - eapply peg_pub_fail; eauto.
    - eapply peg_replace; eauto.
    - eapply peg_replace_fail; eauto.
    - eapply peg_or; eauto.
    - eapply peg_and_all; eauto.
    - eapply peg_and_commit; eauto.
    - eapply peg_and_fail; eauto.
    - eapply peg_token; eauto. eapply eat_same; eauto.
    - eapply peg_token_other; eauto. eapply eat_same; eauto.
    - eapply peg_token_end; eauto.
    - (* contextual *) eapply peg_ctx; eauto; [|eapply whole_same; eauto]. eapply here_same; eauto.
    - destruct (here_dec g is_ws U V' A B' LU p text H3 H0) as [H4|H4].
      + eapply peg_ctx_partial; eauto. eapply cut_same; eauto.
      + eapply peg_ctx_other; eauto.
    - destruct (here_dec g is_ws U V' A B' LU p text H2 H0) as [H4|H4].
      + destruct (whole_or_cut g is_ws U V' A B' LU (length text) _ p (le_n _) H2) as [W|C].
        * exfalso. destruct (here_same g is_ws U V' V A B' B LU p text H2 H0 H4 W) as (o & raw & IX & _ & P).
          destruct H1 as (o1 & raw1 & IX1 & _ & NP). rewrite IX in IX1. injection IX1 as <- <-. auto.
        * eapply peg_ctx_partial; eauto.
      + eapply peg_ctx_other; eauto.
    - eapply peg_ctx_end; eauto.
    - eapply peg_any; eauto. eapply eat_same; eauto.
    - eapply peg_any_end; eauto.
    - eapply peg_eof; eauto.
    - eapply peg_eof_fail; eauto.
    - eapply peg_opt; eauto.
    - eapply peg_opt_none; eauto.
    - eapply peg_not; eauto.
    - eapply peg_not_fail; eauto.
    - eapply peg_rep; eauto.
    - eapply peg_skip; eauto.
    - eapply peg_layer_none; eauto.
    - (* layer *)
      assert (OC : p_cur p <= p_cur c <= lim) by (apply W1 in H0; cbn in H0; destruct H0; lia).
      eapply peg_layer; eauto. eapply eats_same; eauto.
      destruct r as [x|]; [subst x; apply W1 in H2; cbn in H2; destruct H2; cbn in *; lia|destruct H4 as [-> _]; cbn; lia].
    - eapply peg_enter; eauto.
    - eapply peg_exit; eauto.
    - eapply peg_in; eauto.
    - eapply peg_not_in; eauto.
    - eapply peg_call; eauto. clear - H0. induction H0; [constructor|eapply bi_expr; eauto|eapply bi_var; eauto].
    - eapply peg_var; eauto.
    - eapply peg_prev; eauto.
    - eapply peg_prev_other; eauto.
    - eapply peg_prev_none; eauto.
    - eapply peg_inject; eauto. apply H4. eapply NX; eauto. apply (W1 _ _ _ _ _ _ H0).
    - eapply peg_inject_empty; eauto.
    - eapply peg_inject_no_pre; eauto.
    - eapply peg_inject_no_body; eauto. apply H3. eapply NX; eauto. apply (W1 _ _ _ _ _ _ H0).
    - eapply peg_cached; eauto.
    - eapply peg_cached_fail; eauto.
    - eapply peg_pratt; eauto.
    - constructor.
    - constructor; auto.
    - econstructor; eauto.
    - constructor.
    - constructor; auto.
    - eapply fo_later; eauto.
    - constructor.
    - constructor; auto.
    - eapply io_more; eauto. apply H2. eapply NX; eauto. apply (W1 _ _ _ _ _ _ H).
    - constructor; auto.
    - eapply gr_more; eauto. apply H2. eapply NX; eauto. apply (W1 _ _ _ _ _ _ H).
    - eapply sk_found; eauto.
    - eapply sk_no_first; eauto; [eapply eat_same; eauto|]. apply H3. eapply NX; eauto. eapply eat_inw; eauto.
    - eapply sk_no_body; eauto; [eapply eat_same; eauto|]. apply H5. eapply NX; eauto. eapply eat_inw; eauto.
    - eapply sk_end_no_first; eauto.
    - eapply sk_end_no_body; eauto.
    - eapply cl_atom; eauto. apply H2. eapply NX; eauto. apply (W3 _ _ _ _ _ _ H).
    - eapply cl_prefix; eauto. apply H4. eapply NX; eauto. apply (W8 _ _ _ _ _ _ _ H1).
    - eapply cl_none; eauto.
    - constructor.
    - eapply px_here; eauto. apply H3. eapply NX; eauto. apply (W1 _ _ _ _ _ _ H0).
    - eapply px_no_operand; eauto. apply H3. eapply NX; eauto. apply (W1 _ _ _ _ _ _ H0).
    - eapply px_later; eauto.
    - constructor; auto.
    - eapply ch_more; eauto. apply H2. eapply NX; eauto. apply (W10 _ _ _ _ _ _ _ _ _ H).
    - constructor.
    - eapply ix_later; eauto.
    - eapply ix_postfix; eauto.
    - eapply ix_binary; eauto. apply H5. eapply NX; eauto. apply (W1 _ _ _ _ _ _ H0).
    - eapply ix_no_rhs; eauto. apply H5. eapply NX; eauto. apply (W1 _ _ _ _ _ _ H0).
  Qed.
End Transfer.
