(** State invariants of the event parser (all grammars). *)
From Coq Require Import List Arith Bool Lia.
From Verif Require Import Base BaseFacts LexModel GrammarModel ParserModel.
Import ListNotations.

(** Split a successful monadic computation. *)
Ltac mon H :=
  match type of H with
  | bind _ _ = Ok _ =>
      let v := fresh "v" in let Hv := fresh "Hv" in
      apply bind_ok in H; destruct H as (v & Hv & H)
  | guard _ _ = Ok _ => let Hg := fresh "Hg" in apply guard_ok in H; destruct H as (Hg & H)
  end.

Section Inv.
  Variable E : env.

  Definition nocache : Prop := e_cache E = None.

  (** Reader components unchanged, events extended, and nothing emitted in predicate mode. *)
  Definition Inv (s s' : st) : Prop :=
    s_pred s' = s_pred s /\ s_ctxs s' = s_ctxs s /\ s_args s' = s_args s
    /\ (exists tail, s_events s' = s_events s ++ tail)
    /\ (nocache -> s_pred s = true -> s_events s' = s_events s).

  Definition within (p p' : pos) : Prop :=
    nocache -> p_cur p <= p_end p -> p_cur p <= p_cur p' <= p_end p' /\ p_end p' = p_end p.

  Lemma within_refl : forall p, within p p.
  Proof. intros p _ L. auto. Qed.

  Lemma within_trans : forall a b c, within a b -> within b c -> within a c.
  Proof. intros a b c H1 H2 N L. destruct (H1 N L) as [A B]. destruct H2 as [C D]; auto; lia. Qed.

  (** What [parse_expr] guarantees. *)
  Definition good (p : pos) (s : st) (r : option pos) (s' : st) : Prop :=
    Inv s s' /\ match r with None => s_events s' = s_events s | Some p' => within p p' end.

  (** What the body of a rule guarantees before the rollback. *)
  Definition fair (p : pos) (s : st) (r : option pos) (s' : st) : Prop :=
    Inv s s' /\ match r with None => True | Some p' => within p p' end.

  Lemma good_fair : forall p s r s', good p s r s' -> fair p s r s'.
  Proof. intros p s [p'|] s' [A B]; split; auto. Qed.

  Lemma Inv_refl : forall s, Inv s s.
  Proof. intro s. repeat split; auto. exists []. rewrite app_nil_r. reflexivity. Qed.

  Lemma Inv_trans : forall a b c, Inv a b -> Inv b c -> Inv a c.
  Proof.
    intros a b c (A1 & A2 & A3 & (t & A4) & A5) (B1 & B2 & B3 & (u & B4) & B5).
    repeat split; try congruence.
    - exists (t ++ u). rewrite B4, A4, app_assoc. reflexivity.
    - intros N P. rewrite (B5 N), (A5 N); auto; congruence.
  Qed.

  Lemma Inv_emit : forall s e, Inv s (emit s e).
  Proof.
    intros s e. unfold emit. destruct (s_pred s) eqn:P; [apply Inv_refl|].
    repeat split; cbn; auto; [exists [e]; reflexivity|congruence].
  Qed.

  Lemma Inv_ghost : forall s s', s_pred s' = s_pred s -> s_ctxs s' = s_ctxs s -> s_args s' = s_args s ->
    s_events s' = s_events s -> Inv s s'.
  Proof. intros. repeat split; auto. exists []. rewrite app_nil_r. auto. Qed.

  Lemma Inv_repl : forall s r, Inv s (set_repl s r).
  Proof. intros. apply Inv_ghost; reflexivity. Qed.

  Lemma Inv_prev : forall s r, Inv s (set_prev s r).
  Proof. intros. apply Inv_ghost; reflexivity. Qed.

  Lemma Inv_start : forall s ty s', start E s ty = Ok s' -> Inv s s'.
  Proof. intros s ty s' H. unfold start in H. mon H. injection H as <-. apply Inv_emit. Qed.

  Lemma Inv_start_error : forall s, Inv s (start_error s).
  Proof. intros. apply Inv_emit. Qed.

  Lemma Inv_finish : forall s, Inv s (finish s).
  Proof. intros. apply Inv_emit. Qed.

  Lemma Inv_length : forall s s', Inv s s' -> length (s_events s) <= length (s_events s').
  Proof. intros s s' (_ & _ & _ & (t & H) & _). rewrite H, app_length. lia. Qed.

  Lemma rollback_ok : forall s0 s s', Inv s0 s -> rollback s (mark s0) = Ok s' ->
    Inv s0 s' /\ s_events s' = s_events s0.
  Proof.
    intros s0 s s' I H. unfold rollback in H. mon H. injection H as <-. destruct I as (A1 & A2 & A3 & (t & A4) & A5).
    assert (X : firstn (mark s0) (s_events s) = s_events s0).
    { unfold mark. rewrite A4. rewrite firstn_app, firstn_all, Nat.sub_diag, firstn_O, app_nil_r. reflexivity. }
    split; [|exact X]. repeat split; cbn; auto. exists []. rewrite app_nil_r. exact X.
  Qed.

  Lemma set_nth_tail : forall A (l t : list A) m (a : A), length l <= m -> exists t', set_nth m a (l ++ t) = l ++ t' /\ length t' = length t.
  Proof.
    intros A l t m a L. exists (set_nth (m - length l) a t).
    rewrite <- set_nth_app_r, set_nth_length. split; [f_equal; lia|reflexivity].
  Qed.

  (** Patching an event at or after the mark keeps the invariant. *)
  Lemma Inv_patch : forall s0 s m ev, Inv s0 s -> length (s_events s0) <= m -> m < length (s_events s) ->
    Inv s0 (set_events s (set_nth m ev (s_events s))).
  Proof.
    intros s0 s m ev (A1 & A2 & A3 & (t & A4) & A5) L1 L2.
    destruct (set_nth_tail _ (s_events s0) t m ev L1) as (t' & X & _).
    repeat split; cbn; auto.
    - exists t'. rewrite A4. exact X.
    - intros N P. rewrite (A5 N P) in L2. lia.
  Qed.

  Lemma index_lt : forall A (l : list A) i a, index l i = Ok a -> i < length l.
  Proof. intros A l i a H. apply index_ok in H. apply nth_error_Some. congruence. Qed.

  Lemma Inv_forward : forall s0 s c m s', Inv s0 s -> length (s_events s0) <= c -> forward_parent s c m = Ok s' -> Inv s0 s'.
  Proof.
    intros s0 s c m s' I L H. unfold forward_parent in H. mon H. pose proof (index_lt _ _ _ _ Hv) as LT.
    destruct v; try discriminate. mon H. injection H as <-. apply Inv_patch; auto.
  Qed.

  Lemma Inv_replace : forall s0 s m ty s', Inv s0 s -> length (s_events s0) <= m -> replace E s m ty = Ok s' -> Inv s0 s'.
  Proof.
    intros s0 s m ty s' I L H. unfold replace in H. mon H. mon H. pose proof (index_lt _ _ _ _ Hv0) as LT.
    destruct v0; try discriminate. injection H as <-. apply Inv_patch; auto.
  Qed.

  Lemma Inv_finish_cached : forall s0 s m s', Inv s0 s -> length (s_events s0) <= m -> finish_cached s m = Ok s' -> Inv s0 s'.
  Proof.
    intros s0 s m s' I L H. unfold finish_cached in H. destruct (s_pred s); [injection H as <-; auto|].
    mon H. mon H. pose proof (index_lt _ _ _ _ Hv0) as LT. destruct v0; try discriminate. injection H as <-.
    apply Inv_patch; auto.
  Qed.

  (** [reopen] removes the [End] pushed by [finish s]. *)
  Lemma Inv_reopen : forall s s1 s', Inv (finish s) s1 -> reopen s1 = Ok s' -> Inv s s'.
  Proof.
    intros s s1 s' I H. unfold reopen in H. destruct I as (A1 & A2 & A3 & (t & A4) & A5).
    unfold finish, emit in *. destruct (s_pred s) eqn:P.
    - rewrite P in A1. rewrite A1 in H. injection H as <-. repeat split; auto; try congruence. exists t. auto.
    - cbn in A1. rewrite P in A1. rewrite A1 in H. cbn in A2, A3, A4, A5.
      destruct (rev (s_events s1)) as [|[]r] eqn:R; try discriminate. injection H as <-.
      repeat split; cbn; auto; try congruence.
      apply (f_equal (@rev event)) in R. rewrite rev_involutive in R. cbn [rev] in R.
      destruct (exists_last (l := EvEnd :: t)) as (t' & z & Q); [discriminate|].
      exists t'. rewrite <- app_assoc in A4. cbn [app] in A4. rewrite Q, app_assoc in A4. rewrite A4 in R.
      apply app_inj_tail in R. destruct R as [R _]. auto.
  Qed.

  Lemma bump_fair : forall s p r s', bump E s p = Ok (r, s') ->
    Inv s s' /\ match r with None => s_events s' = s_events s | Some (_, p') => within p p' /\ p_cur p' = S (p_cur p) end.
  Proof.
    intros s p r s' H. unfold bump in H. destruct (p_empty p) eqn:B.
    - injection H as <- <-. split; [apply Inv_refl|reflexivity].
    - mon H. injection H as <- <-. split; [apply Inv_emit|]. split; [|reflexivity]. unfold within, p_next. cbn. intros _ L.
      unfold p_empty in B. apply Nat.eqb_neq in B. lia.
  Qed.

  Lemma bump_all_fair : forall n s p p' s', bump_all E n s p = Ok (p', s') -> Inv s s' /\ within p p' /\ p_empty p' = true.
  Proof.
    induction n as [|n IH]; intros s p p' s' H; cbn [bump_all] in H; [discriminate|].
    mon H. destruct v as [r s1]. destruct (bump_fair _ _ _ _ Hv) as [I W]. destruct r as [[t q]|].
    - destruct (IH _ _ _ _ H) as (I2 & W2 & Em). destruct W.
      split; [eapply Inv_trans; eauto|]. split; [eapply within_trans; eauto|auto].
    - injection H as <- <-. split; auto. split; [apply within_refl|].
      unfold bump in Hv. destruct (p_empty p); auto. mon Hv. discriminate.
  Qed.

  Lemma take_text_within : forall f l n p m p', take_text E f l n p = Ok (Some (m, p')) -> within p p'.
  Proof.
    induction f as [|f IH]; intros l n p m p' H; cbn [take_text] in H;
      (destruct (l =? 0); [injection H as <- <-; apply within_refl|]); destruct (p_empty p) eqn:B; try discriminate.
    mon H. destruct (l <? tk_len v); [discriminate|]. eapply within_trans; [|eapply IH; eauto].
    unfold within, p_next. cbn. intros _ L. unfold p_empty in B. apply Nat.eqb_neq in B. lia.
  Qed.

  Lemma by_text_fair : forall s p text ty r s', bump_by_text E s p text ty = Ok (r, s') -> fair p s r s'.
  Proof.
    intros s p text ty r s' H. unfold bump_by_text in H. destruct (p_empty p).
    { injection H as <- <-. split; [apply Inv_refl|exact I]. }
    mon H. destruct v as [a b]. mon H. destruct (is_prefix _ _); [|injection H as <- <-; split; [apply Inv_refl|exact I]].
    mon H. destruct v as [[n p']|].
    - mon H. injection H as <- <-. split; [apply Inv_emit|]. eapply take_text_within; eauto.
    - injection H as <- <-. split; [apply Inv_refl|exact I].
  Qed.

  Lemma cache_fair : forall s e p r s', get_from_cache E s e p = Ok (r, s') -> fair p s r s'.
  Proof.
    intros s e p r s' H. unfold get_from_cache in H. destruct (e_cache E) as [[c evs]|] eqn:C.
    - assert (NC : ~ nocache) by (unfold nocache; congruence).
      mon H. destruct v as [off i]. destruct (lookup c (off, e)) as [[[se ne] nt]|].
      + mon H. injection H as <- <-. split; [|intro X; contradiction].
        repeat split; cbn; auto; [eexists; reflexivity|intro; contradiction].
      + injection H as <- <-. split; [apply Inv_refl|exact I].
    - injection H as <- <-. split; [apply Inv_refl|exact I].
  Qed.

  Section Rec.
    Variable rec : nat -> pos -> st -> result.
    Variable fuel : nat.
    Hypothesis R : forall e p s r s', rec e p s = Ok (r, s') -> good p s r s'.

    Lemma pred_fair : forall e p s r s', parse_pred rec e p s = Ok (r, s') ->
      Inv s s' /\ match r with Some p' => within p p' | None => s_events s' = s_events s end.
    Proof.
      intros e p s r s' H. unfold parse_pred in H. mon H. destruct v as [q s1]. injection H as <- <-.
      destruct (R _ _ _ _ _ Hv) as [(A1 & A2 & A3 & (t & A4) & A5) B]. cbn in *.
      split; [|destruct q; auto]. repeat split; cbn; auto. exists t. auto.
    Qed.

    Lemma pub_fair : forall ty body rp p s r s', parse_pub E rec ty body rp p s = Ok (r, s') -> fair p s r s'.
    Proof.
      intros ty body rp p s r s' H. unfold parse_pub in H.
      set (s0 := if rp then set_repl s None else s) in *.
      assert (I0 : Inv s s0) by (unfold s0; destruct rp; [apply Inv_repl|apply Inv_refl]).
      mon H. mon H. destruct v0 as [q s2]. apply Inv_start in Hv.
      destruct (R _ _ _ _ _ Hv0) as [I2 W].
      assert (I02 : Inv s0 s2) by (eapply Inv_trans; eauto).
      assert (Is2 : Inv s s2) by (eapply Inv_trans; eauto).
      destruct q as [p'|].
      - mon H. rename v0 into s3. rename Hv1 into H3. mon H. injection H as <- <-.
        assert (I03 : Inv s s3).
        { destruct rp; [|injection H3 as <-; auto]. destruct (s_repl s2) as [rty|]; [|injection H3 as <-; auto].
          eapply Inv_trans; [exact I0|]. eapply Inv_replace; [|reflexivity|exact H3].
          eapply Inv_trans; [exact I02|apply Inv_repl]. }
        split; [|auto]. eapply Inv_trans; [exact I03|]. eapply Inv_trans; [apply Inv_finish|apply Inv_prev].
      - injection H as <- <-. split; auto.
    Qed.

    Lemma pub_replace_fair : forall ty body p s r s', parse_pub_replace rec ty body p s = Ok (r, s') -> fair p s r s'.
    Proof.
      intros ty body p s r s' H. unfold parse_pub_replace in H. mon H. destruct v as [q s2].
      destruct (R _ _ _ _ _ Hv) as [I2 W]. destruct q; injection H as <- <-; split; auto.
    Qed.

    Lemma or_good : forall opts p s r s', parse_or rec opts p s = Ok (r, s') -> good p s r s'.
    Proof.
      induction opts as [|o opts IH]; intros p s r s' H; cbn [parse_or] in H.
      - injection H as <- <-. split; [apply Inv_refl|reflexivity].
      - mon H. destruct v as [q s1]. destruct (R _ _ _ _ _ Hv) as [I W]. destruct q.
        + injection H as <- <-. split; auto.
        + destruct (IH _ _ _ _ H) as [I2 W2]. split; [eapply Inv_trans; eauto|]. destruct r; auto. congruence.
    Qed.

    Lemma and_parts_fair : forall parts c p s c' p' s', and_parts rec parts c p s = Ok (c', p', s') ->
      Inv s s' /\ within p p' /\ c <= c' <= c + length parts.
    Proof.
      induction parts as [|a parts IH]; intros c p s c' p' s' H; cbn [and_parts] in H.
      - injection H as <- <- <-. split; [apply Inv_refl|]. split; [apply within_refl|cbn; lia].
      - mon H. destruct v as [q s1]. destruct (R _ _ _ _ _ Hv) as [I W]. destruct q as [q|].
        + destruct (IH _ _ _ _ _ _ H) as (I2 & W2 & L). split; [eapply Inv_trans; eauto|].
          split; [eapply within_trans; eauto|cbn [length]; lia].
        + injection H as <- <- <-. split; auto. split; [apply within_refl|cbn; lia].
    Qed.

    Lemma and_fair : forall parts c p s r s', parse_and rec parts c p s = Ok (r, s') -> fair p s r s'.
    Proof.
      intros parts c p s r s' H. unfold parse_and in H. mon H. destruct v as [[n q] s1].
      destruct (and_parts_fair _ _ _ _ _ _ _ Hv) as (I & W & _).
      destruct (n <? _); [injection H as <- <-; split; auto; exact Logic.I|].
      destruct (n <? _); injection H as <- <-; split; auto.
      eapply Inv_trans; [exact I|]. eapply Inv_trans; [apply Inv_start_error|apply Inv_finish].
    Qed.

    Lemma token_fair : forall ty p s r s', parse_token E ty p s = Ok (r, s') -> fair p s r s'.
    Proof.
      intros ty p s r s' H. unfold parse_token in H. mon H. destruct v as [q s1].
      destruct (bump_fair _ _ _ _ Hv) as [I W]. destruct q as [[t q]|].
      - mon H. destruct (v =? t); injection H as <- <-; split; auto; try apply W; try exact Logic.I.
      - injection H as <- <-. split; auto; try exact Logic.I.
    Qed.

    Lemma any_fair : forall p s r s', parse_any E p s = Ok (r, s') -> fair p s r s'.
    Proof.
      intros p s r s' H. unfold parse_any in H. mon H. destruct v as [q s1].
      destruct (bump_fair _ _ _ _ Hv) as [I W]. destruct q as [[t q]|]; injection H as <- <-; split; auto; try apply W; try exact Logic.I.
    Qed.

    Lemma opt_fair : forall e p s r s', parse_opt rec e p s = Ok (r, s') -> fair p s r s'.
    Proof.
      intros e p s r s' H. unfold parse_opt in H. mon H. destruct v as [q s1].
      destruct (R _ _ _ _ _ Hv) as [I W]. destruct q; injection H as <- <-; split; auto. apply within_refl.
    Qed.

    Lemma not_fair : forall e p s r s', parse_not rec e p s = Ok (r, s') -> fair p s r s'.
    Proof.
      intros e p s r s' H. unfold parse_not in H. mon H. destruct v as [q s1].
      destruct (pred_fair _ _ _ _ _ Hv) as [I W]. destruct q; injection H as <- <-; split; auto; try exact Logic.I; try apply within_refl.
    Qed.

    Lemma layer_fair : forall l e p s r s', parse_layer E rec l e p s = Ok (r, s') -> fair p s r s'.
    Proof.
      intros l e p s r s' H. unfold parse_layer in H. mon H. destruct v as [q s1].
      destruct (pred_fair _ _ _ _ _ Hv) as [I W]. destruct q as [rest|]; [|injection H as <- <-; split; auto; exact Logic.I].
      mon H. destruct v as [r2 s2]. destruct (R _ _ _ _ _ Hv0) as [I2 _].
      assert (I02 : Inv s s2) by (eapply Inv_trans; eauto).
      destruct (p_empty _); [injection H as <- <-; split; auto|].
      mon H. destruct v as [q3 s3]. injection H as <- <-. destruct (bump_all_fair _ _ _ _ _ Hv1) as (I3 & _).
      split; auto. eapply Inv_trans; [exact I02|]. eapply Inv_trans; [apply Inv_start_error|].
      eapply Inv_trans; [exact I3|apply Inv_finish].
    Qed.

    Lemma rep_fair : forall n e p s r s', rep_loop rec n e p s = Ok (r, s') -> fair p s r s'.
    Proof.
      induction n as [|n IH]; intros e p s r s' H; cbn [rep_loop] in H; [discriminate|].
      mon H. destruct v as [q s1]. destruct (R _ _ _ _ _ Hv) as [I W]. destruct q as [q|].
      - destruct (IH _ _ _ _ _ H) as [I2 W2]. split; [eapply Inv_trans; eauto|].
        destruct r; auto. eapply within_trans; eauto.
      - injection H as <- <-. split; auto. apply within_refl.
    Qed.

    Lemma skip_fair : forall n first body b p s r s', skip_loop E rec n first body b p s = Ok (r, s') -> fair p s r s'.
    Proof.
      induction n as [|n IH]; intros first body b p s r s' H; cbn [skip_loop] in H; [discriminate|].
      set (s0 := if b then finish s else s) in *.
      assert (I0 : Inv s s0) by (unfold s0; destruct b; [apply Inv_finish|apply Inv_refl]).
      mon H. destruct v as [q s1]. destruct (pred_fair _ _ _ _ _ Hv) as [I1 _]. mon H. destruct v as [q2 s2].
      assert (I2 : Inv s0 s2 /\ match q2 with Some p' => within p p' | None => True end).
      { destruct q.
        - destruct (R _ _ _ _ _ Hv0) as [I2 W2]. split; [eapply Inv_trans; eauto|]. destruct q2; auto.
        - injection Hv0 as <- <-. split; auto. }
      destruct I2 as [I2 W2]. destruct q2 as [p'|].
      - injection H as <- <-. split; auto. eapply Inv_trans; eauto.
      - mon H. rename v into s3. rename Hv1 into H3.
        assert (I3 : Inv s s3).
        { destruct b; unfold s0 in *; [eapply Inv_reopen; eauto|].
          injection H3 as <-. eapply Inv_trans; [exact I2|apply Inv_start_error]. }
        mon H. destruct v as [bb s4]. destruct (bump_fair _ _ _ _ Hv1) as [I4 W4]. destruct bb as [[t p']|].
        + destruct (IH _ _ _ _ _ _ _ H) as [I5 W5]. destruct W4.
          split; [eapply Inv_trans; [exact I3|]; eapply Inv_trans; eauto|].
          destruct r; auto. eapply within_trans; eauto.
        + injection H as <- <-. split; [eapply Inv_trans; eauto|exact Logic.I].
    Qed.

    Lemma set_nth_restore : forall A (l : list A) i a b, nth_error l i = Some a -> set_nth i a (set_nth i b l) = l.
    Proof. intros A l. induction l as [|x l IH]; intros [|i] a b H; cbn in *; try discriminate; [congruence|f_equal; eauto]. Qed.

    Lemma enter_fair : forall c e v p s r s', parse_enter rec c e v p s = Ok (r, s') -> fair p s r s'.
    Proof.
      intros c e v p s r s' H. unfold parse_enter in H. mon H. mon H. destruct v1 as [q s1]. mon H. injection H as <- <-.
      destruct (R _ _ _ _ _ Hv0) as [(A1 & A2 & A3 & (t & A4) & A5) B]. cbn in *.
      split; [|destruct q; auto]. repeat split; cbn; auto.
      - rewrite A2. apply set_nth_restore. apply index_ok. auto.
      - exists t. auto.
    Qed.

    Lemma is_in_fair : forall c p s r s', parse_is_in c p s = Ok (r, s') -> fair p s r s'.
    Proof.
      intros c p s r s' H. unfold parse_is_in in H. mon H. destruct v; injection H as <- <-; split; auto using Inv_refl, within_refl.
    Qed.

    Lemma call_fair : forall b l p s r s', parse_call E rec b l p s = Ok (r, s') -> fair p s r s'.
    Proof.
      intros b l p s r s' H. unfold parse_call in H. mon H. mon H. destruct v0 as [q s1]. injection H as <- <-.
      destruct (R _ _ _ _ _ Hv0) as [(A1 & A2 & A3 & (t & A4) & A5) B]. cbn in *.
      split; [|destruct q; auto]. repeat split; cbn; auto. exists t. auto.
    Qed.

    Lemma var_fair : forall i p s r s', parse_var rec i p s = Ok (r, s') -> fair p s r s'.
    Proof. intros i p s r s' H. unfold parse_var in H. mon H. mon H. apply good_fair. eauto. Qed.

    Lemma prev_is_fair : forall tys p s r s', parse_prev_is E tys p s = Ok (r, s') -> fair p s r s'.
    Proof.
      intros tys p s r s' H. unfold parse_prev_is in H. destruct (s_prev s).
      - mon H. destruct v; injection H as <- <-; split; auto using Inv_refl, within_refl; try exact Logic.I.
      - injection H as <- <-. split; [apply Inv_refl|exact Logic.I].
    Qed.

    Lemma inject_fair : forall a b p s r s', parse_inject rec a b p s = Ok (r, s') -> fair p s r s'.
    Proof.
      intros a b p s r s' H. unfold parse_inject in H. mon H. destruct v as [q s1].
      destruct (R _ _ _ _ _ Hv) as [I1 W1]. destruct q as [after|]; [|injection H as <- <-; split; auto; exact Logic.I].
      mon H. destruct v as [q2 s2]. destruct (R _ _ _ _ _ Hv0) as [I2 W2].
      assert (I02 : Inv s s2) by (eapply Inv_trans; eauto).
      destruct q2 as [p'|]; [|injection H as <- <-; split; auto; exact Logic.I].
      mon H. injection H as <- <-. split; [|eapply within_trans; eauto].
      destruct (pos_eqb after p); [injection Hv1 as <-; auto|].
      eapply Inv_forward; [exact I02|reflexivity|exact Hv1].
    Qed.

    Lemma cached_fair : forall b p s r s', parse_cached E rec b p s = Ok (r, s') -> fair p s r s'.
    Proof.
      intros b p s r s' H. unfold parse_cached in H. mon H. destruct v as [q s1].
      destruct (cache_fair _ _ _ _ _ Hv) as [I1 W1]. mon H. destruct v as [q2 s2].
      pose proof (Inv_emit s (EvCached b 0)) as I0.
      assert (I2 : Inv s s2 /\ match q2 with Some p' => within p p' | None => True end).
      { destruct q.
        - injection Hv0 as <- <-. split; auto. eapply Inv_trans; eauto.
        - destruct (R _ _ _ _ _ Hv0) as [I2 W2]. split; [|destruct q2; auto].
          eapply Inv_trans; [exact I0|]. eapply Inv_trans; eauto. }
      destruct I2 as [I2 W2]. destruct q2 as [p'|].
      - mon H. injection H as <- <-. split; auto. eapply Inv_finish_cached; [exact I2|reflexivity|exact Hv1].
      - injection H as <- <-. split; auto.
    Qed.

    Section Pratt.
      Variable go : nat -> pos -> st -> result.
      Hypothesis G : forall m p s r s', go m p s = Ok (r, s') -> good p s r s'.

      Lemma infixes_fair : forall l s0 lhs p s r s', Inv s0 s -> length (s_events s0) <= lhs ->
        try_infixes E rec go l lhs p s = Ok (r, s') ->
        Inv s0 s' /\ match r with
                     | None => s_events s' = s_events s
                     | Some (p', lhs') => within p p' /\ length (s_events s0) <= lhs' end.
      Proof.
        induction l as [|ix l IH]; intros s0 lhs p s r s' I L H; cbn [try_infixes] in H.
        - injection H as <- <-. auto.
        - mon H. mon H. destruct v0 as [q s2]. apply Inv_start in Hv. destruct (R _ _ _ _ _ Hv0) as [I2 W2].
          assert (Is2 : Inv s s2) by (eapply Inv_trans; eauto).
          destruct q as [p'|].
          + mon H. rename v0 into s3.
            assert (I3 : Inv s0 s3) by (eapply Inv_forward; [|exact L|exact Hv1]; eapply Inv_trans; eauto).
            mon H. destruct v0 as [p'' s4].
            assert (I4 : Inv s0 s4 /\ within p p'').
            { destruct (ix_rhs ix).
              - mon Hv2. destruct v0 as [r2 s5]. destruct (G _ _ _ _ _ Hv3) as [I5 W5].
                destruct r2 as [q|]; injection Hv2 as <- <-.
                + split; [eapply Inv_trans; eauto|]. eapply within_trans; eauto.
                + split; auto. eapply Inv_trans; [exact I3|]. eapply Inv_trans; [exact I5|].
                  eapply Inv_trans; [apply Inv_start_error|apply Inv_finish].
              - injection Hv2 as <- <-. auto. }
            destruct I4 as [I4 W4]. mon H. injection H as <- <-. split.
            * eapply Inv_trans; [exact I4|]. eapply Inv_trans; [apply Inv_prev|apply Inv_finish].
            * split; auto. unfold mark. apply Inv_length. auto.
          + mon H. destruct (rollback_ok _ _ _ Is2 Hv1) as [I3 Ev].
            destruct (IH s0 lhs p v0 r s') as [I4 W4]; auto; [eapply Inv_trans; eauto|].
            split; auto. destruct r; auto. congruence.
      Qed.

      Lemma loop_fair : forall n l s0 lhs p s r s', Inv s0 s -> length (s_events s0) <= lhs ->
        pratt_loop E rec go n l lhs p s = Ok (r, s') -> Inv s0 s' /\ exists p', r = Some p' /\ within p p'.
      Proof.
        induction n as [|n IH]; intros l s0 lhs p s r s' I L H; cbn [pratt_loop] in H; [discriminate|].
        mon H. destruct v as [q s1]. destruct (infixes_fair _ _ _ _ _ _ _ I L Hv) as [I1 W1].
        destruct q as [[p' lhs']|].
        - destruct W1 as [W1 L1]. destruct (IH _ _ _ _ _ _ _ I1 L1 H) as (I2 & p2 & -> & W2). split; auto.
          exists p2. split; auto. eapply within_trans; eauto.
        - injection H as <- <-. split; auto. exists p. split; auto. apply within_refl.
      Qed.

      Lemma prefixes_good : forall l p s r s', try_prefixes E rec go l p s = Ok (r, s') -> good p s r s'.
      Proof.
        induction l as [|px l IH]; intros p s r s' H; cbn [try_prefixes] in H.
        - injection H as <- <-. split; [apply Inv_refl|reflexivity].
        - mon H. mon H. destruct v0 as [q s2]. apply Inv_start in Hv. destruct (R _ _ _ _ _ Hv0) as [I2 W2].
          assert (Is2 : Inv s s2) by (eapply Inv_trans; eauto). mon H. destruct v0 as [q2 s3].
          assert (I3 : Inv s s3 /\ match q2 with Some p' => within p p' | None => True end).
          { destruct q.
            - destruct (G _ _ _ _ _ Hv1) as [I3 W3]. split; [eapply Inv_trans; eauto|].
              destruct q2; auto. eapply within_trans; eauto.
            - injection Hv1 as <- <-. auto. }
          destruct I3 as [I3 W3]. destruct q2 as [q2|].
          + mon H. injection H as <- <-. split; auto.
            eapply Inv_trans; [exact I3|]. eapply Inv_trans; [apply Inv_prev|apply Inv_finish].
          + mon H. destruct (rollback_ok _ _ _ I3 Hv2) as [I4 Ev]. destruct (IH _ _ _ _ H) as [I5 W5].
            split; [eapply Inv_trans; eauto|]. destruct r; auto. congruence.
      Qed.

      Lemma prefix_good : forall t p s r s', pratt_prefix E rec go t p s = Ok (r, s') -> good p s r s'.
      Proof.
        intros t p s r s' H. unfold pratt_prefix in H. mon H. destruct v as [q s1].
        destruct (or_good _ _ _ _ _ Hv) as [I W]. destruct q.
        - injection H as <- <-. split; auto.
        - destruct (prefixes_good _ _ _ _ _ H) as [I2 W2]. split; [eapply Inv_trans; eauto|].
          destruct r; auto. congruence.
      Qed.
    End Pratt.

    Lemma go_good : forall n t m p s r s', pratt_go E rec fuel n t m p s = Ok (r, s') -> good p s r s'.
    Proof.
      induction n as [|n IH]; intros t m p s r s' H; cbn [pratt_go] in H; [discriminate|].
      mon H. destruct v as [q s1]. assert (G := IH t).
      destruct (prefix_good (pratt_go E rec fuel n t) G _ _ _ _ _ Hv) as [I W]. destruct q as [q|].
      - destruct (loop_fair _ G _ _ s _ _ _ _ _ I (Nat.le_refl _) H) as (I2 & p' & -> & W2).
        split; auto. eapply within_trans; eauto.
      - injection H as <- <-. split; auto.
    Qed.

    Lemma inner_fair : forall e p s r s', parse_inner E rec fuel e p s = Ok (r, s') -> fair p s r s'.
    Proof.
      intros e p s r s' H. unfold parse_inner in H. mon H. destruct v.
      - eapply pub_fair; eauto.
      - eapply pub_replace_fair; eauto.
      - apply good_fair. eapply or_good; eauto.
      - eapply and_fair; eauto.
      - eapply token_fair; eauto.
      - eapply by_text_fair; eauto.
      - eapply rep_fair; eauto.
      - eapply skip_fair; eauto.
      - eapply opt_fair; eauto.
      - eapply not_fair; eauto.
      - unfold parse_eof in H. destruct (p_empty p); injection H as <- <-; split; auto using Inv_refl, within_refl; try exact Logic.I.
      - eapply any_fair; eauto.
      - eapply layer_fair; eauto.
      - apply good_fair. eapply go_good; eauto.
      - eapply enter_fair; eauto.
      - eapply enter_fair; eauto.
      - eapply is_in_fair; eauto.
      - eapply call_fair; eauto.
      - eapply var_fair; eauto.
      - eapply prev_is_fair; eauto.
      - eapply inject_fair; eauto.
      - eapply cached_fair; eauto.
    Qed.

    Lemma step_good : forall e p s r s', parse_step E rec fuel e p s = Ok (r, s') -> good p s r s'.
    Proof.
      intros e p s r s' H. unfold parse_step in H. mon H. destruct v as [q s1].
      destruct (inner_fair _ _ _ _ _ Hv) as [I W]. destruct q as [q|].
      - injection H as <- <-. split; auto.
      - mon H. injection H as <- <-. destruct (rollback_ok _ _ _ I Hv0). split; auto.
    Qed.
  End Rec.

  Lemma parse_expr_good : forall fuel e p s r s', parse_expr E fuel e p s = Ok (r, s') -> good p s r s'.
  Proof.
    induction fuel as [|f IH]; intros e p s r s' H; cbn [parse_expr] in H; [discriminate|].
    eapply step_good; eauto.
  Qed.
End Inv.
