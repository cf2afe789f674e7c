(** The parser itself never looks past its window: changing the rest of the file changes nothing. *)
From Coq Require Import List Arith Bool Lia.
From Verif Require Import Base BaseFacts LexModel LexSpec LexProofs GrammarModel ParserModel ParserProofs PegSpec PegProofs WindowProofs.
Import ListNotations.

Lemma bind_cong : forall A B (x : res A) (k k' : A -> res B), (forall a, x = Ok a -> k a = k' a) -> bind x k = bind x k'.
Proof. intros A B [a| |] k k' H; cbn; auto. Qed.

Lemma bind_cong2 : forall A B (x y : res A) (k k' : A -> res B), x = y -> (forall a, x = Ok a -> k a = k' a) -> bind x k = bind y k'.
Proof. intros A B x y k k' <-. apply bind_cong. Qed.

Section Window.
  Variable g : grammar.
  Variable is_ws : nat -> bool.
  Variables (U V V' : bytes) (A B B' : list token).
  Hypothesis LU : length U = lens A.
  Notation E := (new_env None g is_ws (U ++ V) (A ++ B)).
  Notation E' := (new_env None g is_ws (U ++ V') (A ++ B')).
  Notation lim := (solid is_ws A).
  Notation ok p := (p_cur p <= p_end p <= lim).

  Lemma idx_some : forall W D k, k < lim -> exists o raw t, nth_error (e_idx (new_env None g is_ws (U ++ W) (A ++ D))) k = Some (o, raw)
    /\ nth_error (e_toks (new_env None g is_ws (U ++ W) (A ++ D))) raw = Some t /\ o + tk_len t <= lens A.
  Proof.
    intros W D k L. destruct (nth_error (e_idx (new_env None g is_ws (U ++ W) (A ++ D))) k) as [[o raw]|] eqn:IX.
    - destruct (idx_in g is_ws U W A D LU k o raw L IX) as (R & t & T & OL). exists o, raw, t. split; auto. split; auto.
      cbn [new_env e_toks]. rewrite nth_error_app1 by lia. exact T.
    - apply nth_error_None in IX. cbn [new_env e_idx] in IX. unfold non_ws in IX. rewrite non_ws_len in IX.
      unfold solid in *. rewrite filter_app, app_length in IX. lia.
  Qed.

  Lemma token_at_same : forall p, p_cur p < lim -> token_at E p = token_at E' p.
  Proof.
    intros p L. unfold token_at. destruct (idx_some V B _ L) as (o & raw & t & I1 & T1 & _).
    assert (TA : tok_at E (p_cur p) t) by (exists o, raw; auto).
    pose proof (tok_same g is_ws U V V' A B B' LU _ _ L TA) as TB. apply token_at_ok in TA, TB. unfold token_at in TA, TB. rewrite TA, TB. reflexivity.
  Qed.

  Lemma bump_same : forall p s, ok p -> bump E s p = bump E' s p.
  Proof.
    intros p s O. unfold bump. destruct (p_empty p) eqn:PE; auto. apply p_empty_not in PE. unfold at_end in PE.
    rewrite token_at_same by lia. reflexivity.
  Qed.

  Lemma bump_next : forall p s t q s', ok p -> bump E s p = Ok (Some (t, q), s') -> ok q /\ p_end q = p_end p.
  Proof.
    intros p s t q s' O H. unfold bump in H. destruct (p_empty p) eqn:PE; [discriminate|]. apply p_empty_not in PE. unfold at_end in PE.
    apply bind_ok in H. destruct H as (x & _ & H). injection H as _ <- _. cbn. lia.
  Qed.

  Lemma bump_all_same : forall n n' p s, ok p -> p_end p - p_cur p < n -> p_end p - p_cur p < n' -> bump_all E n s p = bump_all E' n' s p.
  Proof.
    induction n as [|n IH]; intros n' p s O L L'; [lia|]. destruct n' as [|n']; [lia|]. cbn [bump_all].
    rewrite <- bump_same by auto. apply bind_cong. intros [r s1] H. destruct r as [[t q]|]; auto.
    destruct (bump_next _ _ _ _ _ O H) as [O1 EQ]. unfold bump in H. destruct (p_empty p) eqn:PE; [discriminate|]. apply p_empty_not in PE. unfold at_end in PE.
    apply bind_ok in H. destruct H as (x & _ & H). injection H as _ <- _. apply IH; cbn in *; lia.
  Qed.

  Lemma idx_len : forall W D, lim <= length (e_idx (new_env None g is_ws (U ++ W) (A ++ D))).
  Proof. intros. cbn [new_env e_idx]. unfold non_ws. rewrite non_ws_len. unfold solid. rewrite filter_app, app_length. lia. Qed.

  Lemma take_same : forall n n' len k p, ok p -> p_end p - p_cur p < n -> p_end p - p_cur p < n' -> take_text E n len k p = take_text E' n' len k p.
  Proof.
    induction n as [|n IH]; intros n' len k p O L L'; [lia|]. destruct n' as [|n']; [lia|]. cbn [take_text].
    destruct (len =? 0); auto. destruct (p_empty p) eqn:PE; auto. apply p_empty_not in PE. unfold at_end in PE.
    rewrite <- token_at_same by lia. apply bind_cong. intros t _. destruct (len <? tk_len t); auto. apply IH; cbn; lia.
  Qed.

  Lemma ctx_same : forall s p text ty, ok p -> bump_by_text E s p text ty = bump_by_text E' s p text ty.
  Proof.
    intros s p text ty O. unfold bump_by_text. destruct (p_empty p) eqn:PE; auto. apply p_empty_not in PE.
    assert (L : p_cur p < lim) by (unfold at_end in PE; lia).
    destruct (idx_some V B _ L) as (o & raw & t & I1 & T1 & OL).
    assert (I2 : nth_error (e_idx E') (p_cur p) = Some (o, raw)) by (rewrite <- (idx_same g is_ws U V V' A B B' LU) by auto; exact I1).
    unfold index. rewrite I1, I2. cbn [unwrap bind].
    assert (LE1 : o <= length (e_text E)) by (cbn [new_env e_text]; rewrite app_length; lia).
    assert (LE2 : o <= length (e_text E')) by (cbn [new_env e_text]; rewrite app_length; lia).
    rewrite (proj2 (Nat.leb_le _ _) LE1), (proj2 (Nat.leb_le _ _) LE2). cbn [guard].
    pose proof (idx_len V B) as LB. pose proof (idx_len V' B') as LB'.
    rewrite (take_same (S (length (e_idx E))) (S (length (e_idx E')))) by (auto; lia).
    assert (TY : type_of E ty = type_of E' ty) by reflexivity. rewrite TY.
    destruct (is_prefix text (skipn o (e_text E))) eqn:P1; destruct (is_prefix text (skipn o (e_text E'))) eqn:P2; auto.
    - destruct (whole_or_cut g is_ws U V A B LU (length text) _ p (le_n _) O) as [W|C].
      + exfalso. assert (H1 : text_here E p text) by (exists o, raw; rewrite <- is_prefix_spec; auto).
        destruct (here_same g is_ws U V V' A B B' LU p text O PE H1 W) as (o1 & raw1 & J & _ & Q). rewrite I2 in J. injection J as <- <-.
        apply is_prefix_spec in Q. congruence.
      + rewrite <- (take_same (S (length (e_idx E))) (S (length (e_idx E')))) by (auto; lia).
        rewrite (cut_complete _ _ _ C) by lia. reflexivity.
    - destruct (whole_or_cut g is_ws U V' A B' LU (length text) _ p (le_n _) O) as [W|C].
      + exfalso. assert (H1 : text_here E' p text) by (exists o, raw; rewrite <- is_prefix_spec; auto).
        destruct (here_same g is_ws U V' V A B' B LU p text O PE H1 W) as (o1 & raw1 & J & _ & Q). rewrite I1 in J. injection J as <- <-.
        apply is_prefix_spec in Q. congruence.
      + rewrite (cut_complete _ _ _ C) by lia. reflexivity.
  Qed.

  Section Rec.
    Variables rec rec' : nat -> pos -> st -> result.
    Hypothesis R : forall e p s, ok p -> rec e p s = rec' e p s.
    Hypothesis W0 : forall e p s q s', ok p -> rec e p s = Ok (Some q, s') -> p_cur p <= p_cur q /\ ok q.
    Let W : forall e p s q s', ok p -> rec e p s = Ok (Some q, s') -> ok q.
    Proof. intros e p s q s' O H. apply (W0 _ _ _ _ _ O H). Qed.

    Lemma pred_same : forall e p s, ok p -> parse_pred rec e p s = parse_pred rec' e p s.
    Proof. intros e p s O. unfold parse_pred. rewrite <- R by auto. reflexivity. Qed.
    Lemma pred_ok : forall e p s q s', ok p -> parse_pred rec e p s = Ok (Some q, s') -> p_cur p <= p_cur q /\ ok q.
    Proof.
      intros e p s q s' O H. unfold parse_pred in H. apply bind_ok in H. destruct H as ([r s1] & H1 & H2). injection H2 as -> _. eauto.
    Qed.

    Lemma or_same : forall l p s, ok p -> parse_or rec l p s = parse_or rec' l p s.
    Proof.
      induction l as [|a l IH]; intros p s O; cbn [parse_or]; auto. rewrite <- R by auto. apply bind_cong. intros [r s1] _.
      destruct r; auto.
    Qed.
    Lemma or_ok : forall l p s q s', ok p -> parse_or rec l p s = Ok (Some q, s') -> ok q.
    Proof.
      induction l as [|a l IH]; intros p s q s' O H; cbn [parse_or] in H; [discriminate|]. apply bind_ok in H. destruct H as ([r s1] & H1 & H2).
      destruct r as [q1|]; [injection H2 as -> _; eauto|eauto].
    Qed.

    Lemma parts_same : forall l n p s, ok p -> and_parts rec l n p s = and_parts rec' l n p s.
    Proof.
      induction l as [|a l IH]; intros n p s O; cbn [and_parts]; auto. rewrite <- R by auto. apply bind_cong. intros [r s1] H.
      destruct r; auto. apply IH. eauto.
    Qed.

    Lemma rep_same : forall n b p s, ok p -> rep_loop rec n b p s = rep_loop rec' n b p s.
    Proof.
      induction n as [|n IH]; intros b p s O; cbn [rep_loop]; auto. rewrite <- R by auto. apply bind_cong. intros [r s1] H.
      destruct r; auto. apply IH. eauto.
    Qed.

    Lemma skip_same : forall n a b k p s, ok p -> skip_loop E rec n a b k p s = skip_loop E' rec' n a b k p s.
    Proof.
      induction n as [|n IH]; intros a b k p s O; cbn [skip_loop]; auto. rewrite <- pred_same by auto. apply bind_cong. intros [r s1] _.
      apply bind_cong2; [destruct r; auto|]. intros [r2 s2] _. destruct r2; auto. apply bind_cong. intros s3 _. rewrite <- bump_same by auto. apply bind_cong.
      intros [b0 s4] H. destruct b0 as [[t q]|]; auto. apply IH. apply (bump_next _ _ _ _ _ O H).
    Qed.

    Section Go.
      Variables go go' : nat -> pos -> st -> result.
      Hypothesis G : forall m p s, ok p -> go m p s = go' m p s.
      Hypothesis GW : forall m p s q s', ok p -> go m p s = Ok (Some q, s') -> ok q.

      Lemma infixes_same : forall l lhs p s, ok p -> try_infixes E rec go l lhs p s = try_infixes E' rec' go' l lhs p s.
      Proof.
        induction l as [|x l IH]; intros lhs p s O; cbn [try_infixes]; auto. apply bind_cong. intros s1 _. rewrite <- R by auto. apply bind_cong.
        intros [r s2] H. destruct r as [q|]; [|apply bind_cong; intros; apply IH; auto].
        apply bind_cong. intros s3 _. destruct (ix_rhs x); auto. rewrite <- G by eauto. reflexivity.
      Qed.
      Lemma infixes_ok : forall l lhs p s q m s', ok p -> try_infixes E rec go l lhs p s = Ok (Some (q, m), s') -> ok q.
      Proof.
        induction l as [|x l IH]; intros lhs p s q m s' O H; cbn [try_infixes] in H; [discriminate|]. apply bind_ok in H. destruct H as (s1 & _ & H).
        apply bind_ok in H. destruct H as ([r s2] & H1 & H). destruct r as [p1|].
        - apply bind_ok in H. destruct H as (s3 & _ & H). apply bind_ok in H. destruct H as ([p2 s4] & H2 & H). apply bind_ok in H. destruct H as (t & _ & H).
          injection H as -> _ _. destruct (ix_rhs x); [|injection H2 as <- _; eauto]. apply bind_ok in H2. destruct H2 as ([r2 s5] & H3 & H2).
          destruct r2 as [q2|]; injection H2 as <- _; eauto.
        - apply bind_ok in H. destruct H as (s3 & _ & H). eauto.
      Qed.

      Lemma loop_same : forall n l lhs p s, ok p -> pratt_loop E rec go n l lhs p s = pratt_loop E' rec' go' n l lhs p s.
      Proof.
        induction n as [|n IH]; intros l lhs p s O; cbn [pratt_loop]; auto. rewrite <- infixes_same by auto. apply bind_cong. intros [r s1] H.
        destruct r as [[q m]|]; auto. apply IH. eapply infixes_ok; eauto.
      Qed.
      Lemma loop_ok : forall n l lhs p s q s', ok p -> pratt_loop E rec go n l lhs p s = Ok (Some q, s') -> ok q.
      Proof.
        induction n as [|n IH]; intros l lhs p s q s' O H; cbn [pratt_loop] in H; [discriminate|]. apply bind_ok in H. destruct H as ([r s1] & H1 & H).
        destruct r as [[p1 m]|]; [|injection H as <- _; auto]. eapply IH; [|exact H]. eapply infixes_ok; eauto.
      Qed.

      Lemma prefixes_same : forall l p s, ok p -> try_prefixes E rec go l p s = try_prefixes E' rec' go' l p s.
      Proof.
        induction l as [|x l IH]; intros p s O; cbn [try_prefixes]; auto. apply bind_cong. intros s1 _. rewrite <- R by auto. apply bind_cong.
        intros [r s2] H.
        apply bind_cong2; [destruct r; auto; apply G; eauto|]. intros [r2 s3] _. destruct r2; auto. apply bind_cong. intros. apply IH; auto.
      Qed.
      Lemma prefixes_ok : forall l p s q s', ok p -> try_prefixes E rec go l p s = Ok (Some q, s') -> ok q.
      Proof.
        induction l as [|x l IH]; intros p s q s' O H; cbn [try_prefixes] in H; [discriminate|]. apply bind_ok in H. destruct H as (s1 & _ & H).
        apply bind_ok in H. destruct H as ([r s2] & H1 & H). apply bind_ok in H. destruct H as ([r2 s3] & H2 & H). destruct r2 as [q2|].
        - apply bind_ok in H. destruct H as (t & _ & H). injection H as <- _. destruct r as [p1|]; [|discriminate]. eauto.
        - apply bind_ok in H. destruct H as (s4 & _ & H). eauto.
      Qed.
    End Go.

    Lemma pratt_same : forall n f t m p s, ok p -> pratt_go E rec f n t m p s = pratt_go E' rec' f n t m p s
      /\ forall q s', pratt_go E rec f n t m p s = Ok (Some q, s') -> ok q.
    Proof.
      induction n as [|n IH]; intros f t m p s O; cbn [pratt_go]; [split; auto; discriminate|].
      assert (G : forall m p s, ok p -> pratt_go E rec f n t m p s = pratt_go E' rec' f n t m p s) by (intros; apply IH; auto).
      assert (GW : forall m p s q s', ok p -> pratt_go E rec f n t m p s = Ok (Some q, s') -> ok q) by (intros m0 p0 s0 q s' O0 H; exact (proj2 (IH f t m0 p0 s0 O0) q s' H)).
      assert (PW : forall q s', pratt_prefix E rec (pratt_go E rec f n t) t p s = Ok (Some q, s') -> ok q).
      { intros q s' H. unfold pratt_prefix in H. apply bind_ok in H. destruct H as ([r s1] & H1 & H). destruct r as [q1|]; [injection H as -> _; eapply or_ok; eauto|].
        eapply prefixes_ok; eauto. }
      split.
      - replace (pratt_prefix E' rec' (pratt_go E' rec' f n t) t p s) with (pratt_prefix E rec (pratt_go E rec f n t) t p s).
        + apply bind_cong. intros [r s1] H. destruct r as [q|]; auto. apply loop_same; eauto.
        + unfold pratt_prefix. rewrite <- or_same by auto. apply bind_cong. intros [r s1] _. destruct r; auto. apply prefixes_same; auto.
      - intros q s' H. apply bind_ok in H. destruct H as ([r s1] & H1 & H). destruct r as [q1|]; [|discriminate].
        eapply loop_ok; [exact GW|exact (PW _ _ H1)|exact H].
    Qed.

    Lemma step_same : forall f e p s, ok p -> parse_step E rec f e p s = parse_step E' rec' f e p s.
    Proof.
      intros f e p s O. unfold parse_step. f_equal. unfold parse_inner. apply bind_cong. intros x _. destruct x.
      - unfold parse_pub. apply bind_cong. intros s1 _. rewrite <- R by auto. reflexivity.
      - unfold parse_pub_replace. rewrite <- R by auto. reflexivity.
      - apply or_same; auto.
      - unfold parse_and. rewrite <- parts_same by auto. reflexivity.
      - unfold parse_token. rewrite <- bump_same by auto. reflexivity.
      - apply ctx_same; auto.
      - apply rep_same; auto.
      - apply skip_same; auto.
      - unfold parse_opt. rewrite <- R by auto. reflexivity.
      - unfold parse_not. rewrite <- pred_same by auto. reflexivity.
      - reflexivity.
      - unfold parse_any. rewrite <- bump_same by auto. reflexivity.
      - unfold parse_layer. rewrite <- pred_same by auto. apply bind_cong. intros [r s1] H. destruct r as [c|]; auto.
        destruct (pred_ok _ _ _ _ _ O H) as [C1 C2]. rewrite <- R by (cbn; lia). apply bind_cong. intros [r2 s2] H2.
        assert (OL : ok (match r2 with Some q => q | None => mkPos (p_cur p) (p_cur c) end)).
        { destruct r2 as [q|]; [|cbn; lia]. eapply W; [|exact H2]. cbn. lia. }
        destruct (p_empty _); auto. pose proof (idx_len V B) as LB. pose proof (idx_len V' B') as LB'.
        rewrite (bump_all_same (S (length (e_idx E))) (S (length (e_idx E')))) by (auto; lia). reflexivity.
      - apply pratt_same; auto.
      - unfold parse_enter. apply bind_cong. intros. rewrite <- R by auto. reflexivity.
      - unfold parse_enter. apply bind_cong. intros. rewrite <- R by auto. reflexivity.
      - reflexivity.
      - unfold parse_call. apply bind_cong. intros. rewrite <- R by auto. reflexivity.
      - unfold parse_var. apply bind_cong. intros. apply bind_cong. intros. rewrite <- R by auto. reflexivity.
      - reflexivity.
      - unfold parse_inject. rewrite <- R by auto. apply bind_cong. intros [r s1] H. destruct r as [q|]; auto. rewrite <- R by eauto. reflexivity.
      - unfold parse_cached, get_from_cache. cbn [new_env e_cache bind]. apply bind_cong2; [apply R; auto|reflexivity].
    Qed.
  End Rec.

  Lemma parse_same : forall f e p s, ok p -> parse_expr E f e p s = parse_expr E' f e p s.
  Proof.
    induction f as [|f IH]; intros e p s O; [reflexivity|]. cbn [parse_expr]. apply step_same; auto.
    intros e0 p0 s0 q s' O0 H. apply parse_expr_good in H. destruct H as [_ H]. destruct (H eq_refl (proj1 O0)) as [H1 H2]. lia.
  Qed.
End Window.
