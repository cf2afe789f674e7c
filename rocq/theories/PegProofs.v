(** The recursive tree semantics computes the relation of PegSpec.v. *)
From Coq Require Import List Arith Bool Lia.
From Verif Require Import Base BaseFacts LexModel LexSpec GrammarModel ParserModel ForestSpec SemSpec PegSpec.
Import ListNotations.

Section Peg.
  Variable E : env.

  Notation rule := (rule E).
  Notation type := (type E).

  Lemma type_ok : forall i t, type_of E i = Ok t <-> type i t.
  Proof. intros. apply index_ok. Qed.

  Lemma p_empty_iff : forall p, p_empty p = true <-> at_end p.
  Proof. intros p. unfold p_empty. apply Nat.eqb_eq. Qed.

  Lemma p_empty_not : forall p, p_empty p = false <-> ~ at_end p.
  Proof. intros p. rewrite <- p_empty_iff. destruct (p_empty p); split; congruence. Qed.

  Lemma token_at_ok : forall p t, token_at E p = Ok t <-> tok_at E (p_cur p) t.
  Proof.
    intros p t. unfold token_at, tok_at. split.
    - intros H. apply bind_ok in H. destruct H as ([o raw] & A & B). apply index_ok in A. apply index_ok in B. eauto.
    - intros (o & raw & A & B). rewrite (proj2 (index_ok _ _ _ _) A). cbn [bind]. apply index_ok. exact B.
  Qed.

  Lemma one_some : forall p t q, one E p = Ok (Some (t, q)) <-> eat E p t q.
  Proof.
    intros p t q. unfold one, eat. split.
    - destruct (p_empty p) eqn:PE; [discriminate|]. intros H. apply bind_ok in H. destruct H as (x & A & B). injection B as <- <-.
      split; [apply p_empty_not; exact PE|]. split; [|reflexivity]. exists x. split; [apply token_at_ok; exact A|reflexivity].
    - intros (A & (x & B & <-) & ->). apply p_empty_not in A. rewrite A. apply token_at_ok in B. rewrite B. reflexivity.
  Qed.

  Lemma one_none : forall p, one E p = Ok None <-> at_end p.
  Proof.
    intros p. unfold one. rewrite <- p_empty_iff. destruct (p_empty p); split; auto; try discriminate.
    intros H. apply bind_ok in H. destruct H as (x & _ & B). discriminate.
  Qed.

  (** ** From the recursive definition to the relation *)

  Lemma all_toks_sound : forall fuel p T, all_toks E fuel p = Ok T -> eats E p T.
  Proof.
    induction fuel as [|f IH]; intros p T H; [discriminate|]. cbn [all_toks] in H. apply bind_ok in H. destruct H as (o & A & B).
    destruct o as [[t q]|].
    - apply bind_ok in B. destruct B as (r & B & C). injection C as <-. econstructor; [apply one_some; exact A|auto].
    - injection B as <-. constructor. apply one_none. exact A.
  Qed.

  Lemma take_text_sound : forall fuel leftover n p r, take_text E fuel leftover n p = Ok r ->
    match r with
    | Some (m, q) => exists k, m = n + k /\ whole E p leftover k q
    | None => cut_short E p leftover
    end.
  Proof.
    induction fuel as [|f IH]; intros leftover n p r H; cbn [take_text] in H.
    - destruct (leftover =? 0) eqn:L0.
      + injection H as <-. apply Nat.eqb_eq in L0. subst. exists 0. split; [lia|constructor].
      + destruct (p_empty p) eqn:PE; [|discriminate]. injection H as <-. apply p_empty_iff in PE. apply Nat.eqb_neq in L0.
        apply cut_end; auto.
    - destruct (leftover =? 0) eqn:L0.
      + injection H as <-. apply Nat.eqb_eq in L0. subst. exists 0. split; [lia|constructor].
      + apply Nat.eqb_neq in L0. destruct (p_empty p) eqn:PE.
        * injection H as <-. apply p_empty_iff in PE. apply cut_end; auto.
        * apply p_empty_not in PE. apply bind_ok in H. destruct H as (t & TA & H). apply token_at_ok in TA.
          destruct (leftover <? tk_len t) eqn:LT.
          -- injection H as <-. apply Nat.ltb_lt in LT. eapply cut_long; eauto.
          -- apply Nat.ltb_ge in LT. apply IH in H. destruct r as [[m q]|].
             ++ destruct H as (k & -> & W). exists (S k). split; [lia|].
                destruct (Nat.eq_dec (leftover - tk_len t) 0) as [Z|Z].
                ** rewrite Z in W. inversion W; subst; try congruence; try lia. replace leftover with (tk_len t) by lia.
                   apply whole_last; auto. lia.
                ** replace leftover with (tk_len t + (leftover - tk_len t)) by lia. apply whole_cons; auto.
             ++ replace leftover with (tk_len t + (leftover - tk_len t)) by lia. apply cut_more; auto.
  Qed.

  Lemma bind_args_sound : forall l a b, bind_args E l a = Ok b -> binds E l a b.
  Proof.
    induction l as [|[i e] l IH]; intros a b H; cbn [bind_args] in H.
    - injection H as <-. constructor.
    - apply bind_ok in H. destruct H as (x & RX & H). apply index_ok in RX. apply bind_ok in H. destruct H as (v & V & H).
      apply bind_ok in H. destruct H as (z & IZ & H). apply index_ok in IZ.
      assert (IL : i < length a) by (apply nth_error_Some; congruence).
      destruct x; try (injection V as <-; eapply bi_expr; [exact RX|congruence|exact IL|auto]; fail).
      apply bind_ok in V. destruct V as (o & O & U). apply index_ok in O. destruct o as [w|]; [|discriminate]. injection U as <-.
      eapply bi_var; eauto.
  Qed.

  Lemma any_type_sound : forall l t b, any_type E l t = Ok b -> among E l t b.
  Proof.
    induction l as [|i l IH]; intros t b H; cbn [any_type] in H.
    - injection H as <-. constructor.
    - apply bind_ok in H. destruct H as (x & TX & H). apply type_ok in TX. destruct (x =? t) eqn:Q.
      + injection H as <-. apply Nat.eqb_eq in Q. subst. constructor. exact TX.
      + apply Nat.eqb_neq in Q. econstructor; eauto.
  Qed.

  Lemma can_attach_iff : forall rd fresh F, can_attach rd fresh F = true <-> operand rd fresh F.
  Proof.
    intros rd fresh F. unfold can_attach, operand. split.
    - intros H. apply andb_true_iff in H. destruct H as [A B]. destruct (r_pred rd); [discriminate|]. split; auto.
      destruct F as [|[ty pre b| |] r]; try discriminate. exists ty, pre, b, r. split; auto. intros ->. destruct pre; auto. discriminate.
    - intros (A & ty & pre & b & r & -> & P). rewrite A. cbn. destruct pre; auto. destruct fresh; auto. discriminate P; auto.
  Qed.

  Section Rec.
    Variable rec : reader -> nat -> pos -> regs -> outcome.
    Hypothesis R : forall rd e p h r h', rec rd e p h = Ok (r, h') -> peg E rd e p h r h'.

    Ltac step H := let r := fresh "r" in let h := fresh "h" in let Q := fresh "Q" in
      apply bind_ok in H; destruct H as ([r h] & Q & H).

    Lemma or_sound : forall l rd p h r h', sem_or rec rd l p h = Ok (r, h') -> first_of E rd l p h r h'.
    Proof.
      induction l as [|a l IH]; intros rd p h r h' H; cbn [sem_or] in H.
      - injection H as <- <-. constructor.
      - step H. apply R in Q. destruct r0 as [x|].
        + injection H as <- <-. constructor. exact Q.
        + eapply fo_later; eauto.
    Qed.

    Lemma parts_sound : forall l rd p h n q F h', sem_parts rec rd l p h = Ok (n, q, F, h') -> in_order E rd l p h n q F h'.
    Proof.
      induction l as [|a l IH]; intros rd p h n q F h' H; cbn [sem_parts] in H.
      - injection H as <- <- <- <-. constructor.
      - step H. apply R in Q. destruct r as [[p1 F1]|].
        + apply bind_ok in H. destruct H as ([[[n1 q1] G] h2] & Q2 & H). injection H as <- <- <- <-. econstructor; eauto.
        + injection H as <- <- <- <-. constructor. exact Q.
    Qed.

    Lemma parts_le : forall l rd p h n q F h', in_order E rd l p h n q F h' -> n <= length l.
    Proof.
      induction l as [|a l IH]; intros rd p h n q F h' H; inversion H; subst; cbn [length]; try lia.
      match goal with X : in_order _ _ l _ _ _ _ _ _ |- _ => apply IH in X end. lia.
    Qed.

    Lemma rep_sound : forall n rd b p h r h', sem_rep rec n rd b p h = Ok (r, h') ->
      exists q F, r = Some (q, F) /\ greedy E rd b p h q F h'.
    Proof.
      induction n as [|n IH]; intros rd b p h r h' H; [discriminate|]. cbn [sem_rep] in H. step H. apply R in Q. destruct r0 as [[p1 F]|].
      - step H. apply IH in Q0. destruct Q0 as (q & G & -> & Q0). cbn in H. injection H as <- <-. do 2 eexists. split; [reflexivity|].
        eapply gr_more; eauto.
      - cbn in H. injection H as <- <-. do 2 eexists. split; [reflexivity|]. apply gr_stop. exact Q.
    Qed.

    Lemma skip_sound : forall n rd f b sk p h r h', sem_skip E rec n rd f b sk p h = Ok (r, h') -> skipping E rd f b sk p h r h'.
    Proof.
      induction n as [|n IH]; intros rd f b sk p h r h' H; [discriminate|]. cbn [sem_skip] in H. step H. apply R in Q.
      step H. destruct r0 as [x|].
      - apply R in Q0. destruct r1 as [[p1 F]|].
        + cbn in H. injection H as <- <-. destruct sk; cbn [app]; eapply sk_found with (sk := _ : list ptree) in Q; try exact Q0; exact Q.
        + apply bind_ok in H. destruct H as (o & O & H). destruct o as [[t q]|].
          * apply IH in H. apply one_some in O. eapply sk_no_body; eauto.
          * cbn in H. injection H as <- <-. apply one_none in O. eapply sk_end_no_body; eauto.
      - cbn in Q0. injection Q0 as <- <-. apply bind_ok in H. destruct H as (o & O & H). destruct o as [[t q]|].
        + apply IH in H. apply one_some in O. eapply sk_no_first; eauto.
        + cbn in H. injection H as <- <-. apply one_none in O. eapply sk_end_no_first; eauto.
    Qed.

    Section Pratt.
      Variable rd : reader.
      Variable t : pratt_table.
      Variable go : nat -> pos -> regs -> outcome.
      Hypothesis G : forall m p h r h', go m p h = Ok (r, h') -> climbing E rd t m p h r h'.

      Lemma infixes_sound : forall l fresh lhs p h r h', sem_infixes E rec go rd l fresh lhs p h = Ok (r, h') ->
        infixed E rd t l fresh lhs p h r h'.
      Proof.
        induction l as [|x l IH]; intros fresh lhs p h r h' H; cbn [sem_infixes] in H.
        - injection H as <- <-. constructor.
        - apply bind_ok in H. destruct H as (ty & TY & H). apply type_ok in TY. step H. apply R in Q. destruct r0 as [[p1 F]|].
          + apply guard_ok in H. destruct H as [CA H]. apply can_attach_iff in CA. apply bind_ok in H. destruct H as ([[p2 G2] h2] & Q2 & H).
            cbn in H. injection H as <- <-. destruct (ix_rhs x) eqn:RH.
            * step Q2. apply G in Q0. destruct r as [[q2 G3]|]; injection Q2 as <- <- <-.
              -- eapply ix_binary; eauto.
              -- eapply ix_no_rhs; eauto.
            * injection Q2 as <- <- <-. rewrite app_nil_r. eapply ix_postfix; eauto.
          + eapply ix_later; eauto.
      Qed.

      Lemma loop_sound : forall n m fresh lhs p h r h', sem_loop E rec go n rd (infixes t m) fresh lhs p h = Ok (r, h') ->
        exists x, r = Some x /\ chain E rd t m fresh lhs p h x h'.
      Proof.
        induction n as [|n IH]; intros m fresh lhs p h r h' H; [discriminate|]. cbn [sem_loop] in H. step H. apply infixes_sound in Q.
        destruct r0 as [[p1 F]|].
        - apply IH in H. destruct H as (x & -> & H). exists x. split; auto. eapply ch_more; eauto.
        - cbn in H. injection H as <- <-. eexists. split; [reflexivity|]. apply ch_stop. exact Q.
      Qed.

      Lemma prefixes_sound : forall l p h r h', sem_prefixes E rec go rd l p h = Ok (r, h') -> prefixed E rd t l p h r h'.
      Proof.
        induction l as [|x l IH]; intros p h r h' H; cbn [sem_prefixes] in H.
        - injection H as <- <-. constructor.
        - apply bind_ok in H. destruct H as (ty & TY & H). apply type_ok in TY. step H. apply R in Q. step H. destruct r0 as [[p1 F]|].
          + step Q0. apply G in Q1. destruct r0 as [[q G2]|]; cbn in Q0; injection Q0 as <- <-.
            * cbn in H. injection H as <- <-. eapply px_here; eauto.
            * eapply px_no_operand; eauto.
          + cbn in Q0. injection Q0 as <- <-. eapply px_later; eauto.
      Qed.
    End Pratt.

    Lemma go_sound : forall fuel n rd t m p h r h', sem_go E rec fuel n rd t m p h = Ok (r, h') -> climbing E rd t m p h r h'.
    Proof.
      intros fuel. induction n as [|n IH]; intros rd t m p h r h' H; [discriminate|]. cbn [sem_go] in H. step H.
      unfold sem_operand in Q. step Q. apply or_sound in Q0. destruct r1 as [[p1 F]|].
      - injection Q as <- <-. apply loop_sound in H; [|apply IH]. destruct H as (x & -> & H). eapply cl_atom; eauto.
      - apply (prefixes_sound rd t) in Q; [|apply IH]. destruct r0 as [[p1 F]|].
        + apply loop_sound in H; [|apply IH]. destruct H as (x & -> & H). eapply cl_prefix; eauto.
        + cbn in H. injection H as <- <-. eapply cl_none; eauto.
    Qed.

    Lemma eats_end_nil : forall p T, eats E p T -> at_end p -> T = [].
    Proof. intros p T H. inversion H; subst; auto. intros A. destruct H0. contradiction. Qed.

    Lemma eats_not_end : forall p T, eats E p T -> ~ at_end p -> T <> [].
    Proof. intros p T H. inversion H; subst; [contradiction|discriminate]. Qed.

    Lemma step_sound : forall fuel rd e p h r h', sem_step E rec fuel rd e p h = Ok (r, h') -> peg E rd e p h r h'.
    Proof.
      intros fuel rd e p h r h' H. unfold sem_step in H. apply bind_ok in H. destruct H as (x & RX & H). apply index_ok in RX.
      destruct x.
      - (* pub *)
        unfold sem_pub in H. apply bind_ok in H. destruct H as (ty' & TY & H). apply type_ok in TY. step H. apply R in Q.
        destruct r0 as [[p1 F]|].
        + step H. cbn in H. injection H as <- <-. destruct replaceable.
          * destruct (h_repl h0) as [i|] eqn:HR.
            -- apply guard_ok in Q0. destruct Q0 as [NP Q0]. apply bind_ok in Q0. destruct Q0 as (t' & T' & Q0). injection Q0 as <- <-.
               apply type_ok in T'. cbn. eapply peg_pub_repl; eauto. rewrite HR. split; auto. destruct (r_pred rd); [discriminate|reflexivity].
            -- injection Q0 as <- <-. rewrite HR. eapply peg_pub_repl; eauto; rewrite HR; reflexivity.
          * destruct (h_repl h0) as [i|] eqn:HR; injection Q0 as <- <-; eapply peg_pub; eauto.
        + cbn in H. injection H as <- <-. eapply peg_pub_fail; eauto.
      - (* pub replace *)
        step H. apply R in Q. destruct r0 as [[q F]|]; cbn in H; injection H as <- <-; [eapply peg_replace|eapply peg_replace_fail]; eauto.
      - apply or_sound in H. eapply peg_or; eauto.
      - (* and *)
        unfold sem_and in H. apply bind_ok in H. destruct H as ([[[n q] F] h1] & Q & H). apply parts_sound in Q.
        pose proof (parts_le _ _ _ _ _ _ _ _ Q) as LE.
        destruct (n <? match commit with Some c => c | None => length parts end) eqn:L1.
        + apply Nat.ltb_lt in L1. cbn in H. injection H as <- <-. eapply peg_and_fail; eauto.
        + apply Nat.ltb_ge in L1. destruct (n <? length parts) eqn:L2; cbn in H; injection H as <- <-.
          * apply Nat.ltb_lt in L2. destruct commit as [c|]; [|lia]. eapply peg_and_commit; eauto.
          * apply Nat.ltb_ge in L2. assert (n = length parts) by lia. subst n. eapply peg_and_all; eauto. destruct commit; auto.
      - (* token *)
        apply bind_ok in H. destruct H as (o & O & H). destruct o as [[t q]|].
        + apply one_some in O. apply bind_ok in H. destruct H as (w & W & H). apply type_ok in W. destruct (w =? t) eqn:Q; cbn in H; injection H as <- <-.
          * apply Nat.eqb_eq in Q. subst. eapply peg_token; eauto.
          * apply Nat.eqb_neq in Q. eapply peg_token_other; eauto.
        + cbn in H. injection H as <- <-. apply one_none in O. eapply peg_token_end; eauto.
      - (* contextual *)
        apply bind_ok in H. destruct H as (o & O & H). unfold by_text in O. destruct (p_empty p) eqn:PE.
        + injection O as <-. cbn in H. injection H as <- <-. apply p_empty_iff in PE. eapply peg_ctx_end; eauto.
        + apply p_empty_not in PE. apply bind_ok in O. destruct O as ([o1 raw] & IX & O). apply index_ok in IX. apply guard_ok in O. destruct O as [LE O].
          apply Nat.leb_le in LE. destruct (is_prefix text (skipn o1 (e_text E))) eqn:IP.
          * apply is_prefix_spec in IP. assert (TH : text_here E p text) by (exists o1, raw; auto).
            apply bind_ok in O. destruct O as (tt & TT & O). apply take_text_sound in TT. destruct tt as [[m q]|].
            -- destruct TT as (k & -> & W). apply bind_ok in O. destruct O as (t & TY & O). apply type_ok in TY. injection O as <-.
               cbn in H. injection H as <- <-. eapply peg_ctx; eauto.
            -- injection O as <-. cbn in H. injection H as <- <-. eapply peg_ctx_partial; eauto.
          * injection O as <-. cbn in H. injection H as <- <-. eapply peg_ctx_other; eauto. exists o1, raw. split; auto. split; auto.
            rewrite <- is_prefix_spec. congruence.
      - apply rep_sound in H. destruct H as (q & F & -> & H). eapply peg_rep; eauto.
      - apply skip_sound in H. eapply peg_skip; eauto.
      - step H. apply R in Q. destruct r0 as [[q F]|]; cbn in H; injection H as <- <-; [eapply peg_opt|eapply peg_opt_none]; eauto.
      - step H. apply R in Q. destruct r0 as [x|]; cbn in H; injection H as <- <-; [eapply peg_not_fail|eapply peg_not]; eauto.
      - destruct (p_empty p) eqn:PE; cbn in H; injection H as <- <-; [apply p_empty_iff in PE; eapply peg_eof|apply p_empty_not in PE; eapply peg_eof_fail]; eauto.
      - apply bind_ok in H. destruct H as (o & O & H). destruct o as [[t q]|]; cbn in H; injection H as <- <-.
        + apply one_some in O. eapply peg_any; eauto.
        + apply one_none in O. eapply peg_any_end; eauto.
      - (* layer *)
        unfold sem_layer in H. step H. apply R in Q. destruct r0 as [[c F0]|].
        + step H. apply R in Q0.
          assert (S : exists left_ F, match r0 with Some x => x | None => (mkPos (p_cur p) (p_cur c), []) end = (left_, F)
            /\ match r0 with Some x => x = (left_, F) | None => left_ = mkPos (p_cur p) (p_cur c) /\ F = [] end).
          { destruct r0 as [[l0 F]|]; do 2 eexists; split; try reflexivity. auto. }
          destruct S as (left_ & F & S1 & S2). rewrite S1 in H. destruct (p_empty left_) eqn:PE.
          * apply p_empty_iff in PE. cbn in H. injection H as <- <-.
            exact (peg_layer E rd e l e0 p h c F0 h0 r0 left_ F h1 [] RX Q Q0 S2 (eats_end E left_ PE)).
          * apply p_empty_not in PE. apply bind_ok in H. destruct H as (T & AT & H). apply all_toks_sound in AT. cbn in H. injection H as <- <-.
            pose proof (peg_layer E rd e l e0 p h c F0 h0 r0 left_ F h1 T RX Q Q0 S2 AT) as P.
            destruct T as [|t T]; [exfalso; eapply eats_not_end; eauto|exact P].
        + cbn in H. injection H as <- <-. eapply peg_layer_none; eauto.
      - apply go_sound in H. eapply peg_pratt; eauto.
      - apply bind_ok in H. destruct H as (b & IX & H). apply index_ok in IX. apply R in H. eapply peg_enter; eauto. apply nth_error_Some. congruence.
      - apply bind_ok in H. destruct H as (b & IX & H). apply index_ok in IX. apply R in H. eapply peg_exit; eauto. apply nth_error_Some. congruence.
      - apply bind_ok in H. destruct H as (b & IX & H). apply index_ok in IX. destruct b; cbn in H; injection H as <- <-; [eapply peg_in|eapply peg_not_in]; eauto.
      - apply bind_ok in H. destruct H as (a & BA & H). apply bind_args_sound in BA. apply R in H. eapply peg_call; eauto.
      - apply bind_ok in H. destruct H as (o & IX & H). apply index_ok in IX. apply bind_ok in H. destruct H as (e' & U & H). destruct o; [|discriminate].
        injection U as <-. apply R in H. eapply peg_var; eauto.
      - destruct (h_prev h) as [t|] eqn:HP.
        + apply bind_ok in H. destruct H as (b & A & H). apply any_type_sound in A. destruct b; cbn in H; injection H as <- <-;
            [eapply peg_prev|eapply peg_prev_other]; eauto.
        + cbn in H. injection H as <- <-. eapply peg_prev_none; eauto.
      - (* inject *)
        unfold sem_inject in H. step H. apply R in Q. destruct r0 as [[q F]|].
        + step H. apply R in Q0. destruct r0 as [[q2 G]|].
          * assert (PQ : pos_eqb q p = true <-> q = p).
            { destruct q as [a b], p as [c d]. unfold pos_eqb. cbn. rewrite andb_true_iff, !Nat.eqb_eq. split; [intros [-> ->]; auto|intros X; injection X; auto]. }
            destruct (pos_eqb q p) eqn:QP.
            -- cbn in H. injection H as <- <-. rewrite (proj1 PQ eq_refl) in *. eapply peg_inject_empty; eauto.
            -- apply guard_ok in H. destruct H as [CA H]. apply can_attach_iff in CA. apply bind_ok in H. destruct H as (FG & U & H).
               destruct (grafts F G) as [FG'|] eqn:GR; [|discriminate]. injection U as <-. cbn in H. injection H as <- <-.
               eapply peg_inject; eauto. intros X. apply PQ in X. discriminate.
          * cbn in H. injection H as <- <-. eapply peg_inject_no_body; eauto.
        + cbn in H. injection H as <- <-. eapply peg_inject_no_pre; eauto.
      - step H. apply R in Q. destruct r0 as [[q F]|]; cbn in H; injection H as <- <-; [eapply peg_cached|eapply peg_cached_fail]; eauto.
    Qed.
  End Rec.

  Lemma sem_sound : forall fuel rd e p h r h', sem E fuel rd e p h = Ok (r, h') -> peg E rd e p h r h'.
  Proof. induction fuel as [|f IH]; intros rd e p h r h' H; [discriminate|]. cbn [sem] in H. eapply step_sound; eauto. Qed.

  Lemma file_sound : forall fuel t, sem_file E fuel = Ok t -> peg_file E t.
  Proof.
    intros fuel t H. unfold sem_file in H. apply bind_ok in H. destruct H as ([r h] & Q & H). apply sem_sound in Q.
    apply bind_ok in H. destruct H as ([lf F] & U & H). destruct r as [[lf' F']|]; [|discriminate]. injection U as -> ->.
    destruct (p_empty lf) eqn:PE.
    - destruct F as [|x [|]]; try discriminate. injection H as <-. eapply pf_all; eauto. apply p_empty_iff. exact PE.
    - destruct F as [|[ty pre body| |] [|]]; try discriminate. apply bind_ok in H. destruct H as (T & H1 & H2). injection H2 as <-.
      eapply pf_rest; eauto; [apply p_empty_not; exact PE|eapply all_toks_sound; eauto].
  Qed.

  (** ** From the relation to the recursive definition *)

  Scheme peg_mind := Minimality for peg Sort Prop
    with among_mind := Minimality for among Sort Prop
    with first_of_mind := Minimality for first_of Sort Prop
    with in_order_mind := Minimality for in_order Sort Prop
    with greedy_mind := Minimality for greedy Sort Prop
    with skipping_mind := Minimality for skipping Sort Prop
    with climbing_mind := Minimality for climbing Sort Prop
    with prefixed_mind := Minimality for prefixed Sort Prop
    with chain_mind := Minimality for chain Sort Prop
    with infixed_mind := Minimality for infixed Sort Prop.
  Combined Scheme peg_all from peg_mind, among_mind, first_of_mind, in_order_mind, greedy_mind, skipping_mind, climbing_mind,
    prefixed_mind, chain_mind, infixed_mind.

  Lemma eats_complete : forall p T, eats E p T -> forall fuel, length T < fuel -> all_toks E fuel p = Ok T.
  Proof.
    induction 1 as [p A|p t q F A B IH]; intros fuel L; destruct fuel as [|f]; cbn in L; try lia; cbn [all_toks].
    - apply one_none in A. rewrite A. reflexivity.
    - apply one_some in A. rewrite A. cbn [bind]. rewrite IH by lia. reflexivity.
  Qed.

  Lemma tok_at_bound : forall k t, tok_at E k t -> k < length (e_idx E).
  Proof. intros k t (o & raw & A & _). apply nth_error_Some. congruence. Qed.

  Lemma eats_len : forall p T, eats E p T -> p_cur p <= length (e_idx E) -> length T + p_cur p <= length (e_idx E).
  Proof.
    induction 1 as [p A|p t q F (A & (x & B & _) & ->) _ IH]; intros L; cbn [length]; [lia|].
    apply tok_at_bound in B. cbn [p_cur] in IH. lia.
  Qed.

  Lemma eats_bound : forall p T, eats E p T -> length T <= length (e_idx E).
  Proof.
    intros p T H. destruct H as [p A|p t q F (A & (x & B & C) & ->) H]; [cbn; lia|]. apply tok_at_bound in B.
    apply eats_len in H; [|cbn; lia]. cbn [p_cur length] in *. lia.
  Qed.

  Lemma whole_complete : forall p len k q, whole E p len k q -> forall fuel n, k <= fuel -> take_text E fuel len n p = Ok (Some (n + k, q)).
  Proof.
    induction 1 as [p|p t len n q A B C D IH|p t A B C]; intros fuel m L.
    - destruct fuel; cbn [take_text]; rewrite Nat.eqb_refl, Nat.add_0_r; reflexivity.
    - destruct fuel as [|f]; [lia|]. cbn [take_text]. rewrite (proj2 (Nat.eqb_neq _ _)) by lia. apply p_empty_not in A. rewrite A.
      apply token_at_ok in B. rewrite B. cbn [bind]. rewrite (proj2 (Nat.ltb_ge _ _)) by lia.
      replace (tk_len t + len - tk_len t) with len by lia. unfold p_next. rewrite IH by lia. do 3 f_equal. lia.
    - destruct fuel as [|f]; [lia|]. cbn [take_text]. rewrite (proj2 (Nat.eqb_neq _ _)) by lia. apply p_empty_not in A. rewrite A.
      apply token_at_ok in B. rewrite B. cbn [bind]. rewrite (proj2 (Nat.ltb_ge _ _)) by lia. rewrite Nat.sub_diag.
      destruct f; cbn [take_text]; cbn; do 3 f_equal; lia.
  Qed.

  Lemma whole_bound : forall p len k q, whole E p len k q -> p_cur p <= length (e_idx E) -> k + p_cur p <= length (e_idx E).
  Proof.
    induction 1 as [p|p t len n q A B C D IH|p t A B C]; intros L; [lia| |].
    - apply tok_at_bound in B. cbn [p_cur] in IH. lia.
    - apply tok_at_bound in B. lia.
  Qed.

  Lemma cut_pos : forall p len, cut_short E p len -> len <> 0.
  Proof. induction 1; lia. Qed.

  Lemma cut_complete : forall p len, cut_short E p len -> forall fuel n, length (e_idx E) - p_cur p < fuel -> take_text E fuel len n p = Ok None.
  Proof.
    induction 1 as [p len A B|p t len A B C D|p t len A B C IH]; intros fuel n L; (destruct fuel as [|f]; [lia|]); cbn [take_text].
    - rewrite (proj2 (Nat.eqb_neq _ _)) by lia. apply p_empty_iff in B. rewrite B. reflexivity.
    - rewrite (proj2 (Nat.eqb_neq _ _)) by lia. apply p_empty_not in B. rewrite B. apply token_at_ok in C. rewrite C. cbn [bind].
      rewrite (proj2 (Nat.ltb_lt _ _)) by lia. reflexivity.
    - pose proof (cut_pos _ _ C). rewrite (proj2 (Nat.eqb_neq _ _)) by lia. apply p_empty_not in A. rewrite A.
      pose proof (tok_at_bound _ _ B) as LB. apply token_at_ok in B. rewrite B. cbn [bind]. rewrite (proj2 (Nat.ltb_ge _ _)) by lia.
      replace (tk_len t + len - tk_len t) with len by lia. unfold p_next. apply IH. cbn. lia.
  Qed.

  Lemma binds_complete : forall l a b, binds E l a b -> bind_args E l a = Ok b.
  Proof.
    induction 1 as [a|i e rest a b x RX NV IL H IH|i e rest a b j v RX NJ IL H IH]; cbn [bind_args]; [reflexivity| |];
      rewrite (proj2 (index_ok _ _ _ _) RX); cbn [bind].
    - assert (Q : match x with EVar j => o <- index a j ;; unwrap o | _ => Ok e end = Ok e) by (destruct x; auto; exfalso; eapply NV; reflexivity).
      rewrite Q. cbn [bind]. destruct (nth_error a i) eqn:NI; [|apply nth_error_None in NI; lia].
      rewrite (proj2 (index_ok _ _ _ _) NI). exact IH.
    - rewrite (proj2 (index_ok _ _ _ _) NJ). cbn [bind unwrap]. destruct (nth_error a i) eqn:NI; [|apply nth_error_None in NI; lia].
      rewrite (proj2 (index_ok _ _ _ _) NI). exact IH.
  Qed.

  Ltac use H f := rewrite (H f) by lia; cbn [bind].
  Ltac rl H := unfold sem_step; rewrite (proj2 (index_ok _ _ _ _) H); cbn [bind].
  Ltac ty H := rewrite (proj2 (type_ok _ _) H); cbn [bind].
  Ltac big N := exists (S N); intros f LF; destruct f as [|f]; [lia|]; cbn [sem].

  Lemma sem_complete :
    (forall rd e p h r h', peg E rd e p h r h' -> exists N, forall f, N <= f -> sem E f rd e p h = Ok (r, h'))
    /\ (forall l t b, among E l t b -> any_type E l t = Ok b)
    /\ (forall rd l p h r h', first_of E rd l p h r h' -> exists N, forall f, N <= f -> sem_or (sem E f) rd l p h = Ok (r, h'))
    /\ (forall rd l p h n q F h', in_order E rd l p h n q F h' -> exists N, forall f, N <= f -> sem_parts (sem E f) rd l p h = Ok (n, q, F, h'))
    /\ (forall rd b p h q F h', greedy E rd b p h q F h' -> exists N, forall f n, N <= f -> N <= n -> sem_rep (sem E f) n rd b p h = Ok (Some (q, F), h'))
    /\ (forall rd a b sk p h r h', skipping E rd a b sk p h r h' -> exists N, forall f n, N <= f -> N <= n -> sem_skip E (sem E f) n rd a b sk p h = Ok (r, h'))
    /\ (forall rd t m p h r h', climbing E rd t m p h r h' -> exists N, forall f n, N <= f -> N <= n -> sem_go E (sem E f) f n rd t m p h = Ok (r, h'))
    /\ (forall rd t l p h r h', prefixed E rd t l p h r h' -> exists N, forall f n, N <= f -> N <= n ->
          sem_prefixes E (sem E f) (sem_go E (sem E f) f n rd t) rd l p h = Ok (r, h'))
    /\ (forall rd t m fresh lhs p h r h', chain E rd t m fresh lhs p h r h' -> exists N, forall f n k, N <= f -> N <= n -> N <= k ->
          sem_loop E (sem E f) (sem_go E (sem E f) f n rd t) k rd (infixes t m) fresh lhs p h = Ok (Some r, h'))
    /\ (forall rd t l fresh lhs p h r h', infixed E rd t l fresh lhs p h r h' -> exists N, forall f n, N <= f -> N <= n ->
          sem_infixes E (sem E f) (sem_go E (sem E f) f n rd t) rd l fresh lhs p h = Ok (r, h')).
  Proof.
    apply peg_all.
    - (* pub *) intros rd e ty t body p h q F h1 RX TY _ (N & IH). big N. rl RX. unfold sem_pub. ty TY. use IH f. reflexivity.
    - intros rd e ty t body p h q F h1 t' RX TY _ (N & IH) M. big N. rl RX. unfold sem_pub. ty TY. use IH f.
      destruct (h_repl h1) as [i|] eqn:HR.
      + destruct M as [NP TI]. rewrite NP. cbn [negb guard]. ty TI. reflexivity.
      + subst t'. cbn [bind]. unfold ok. rewrite HR. reflexivity.
    - intros rd e ty t body rp p h h1 RX TY _ (N & IH). big N. rl RX. unfold sem_pub. ty TY. use IH f. reflexivity.
    - intros rd e ty body p h q F h1 RX _ (N & IH). big N. rl RX. use IH f. reflexivity.
    - intros rd e ty body p h h1 RX _ (N & IH). big N. rl RX. use IH f. reflexivity.
    - (* or *) intros rd e l p h r h1 RX _ (N & IH). big N. rl RX. apply IH. lia.
    - (* and *) intros rd e l c p h q F h1 RX C _ (N & IH). big N. rl RX. unfold sem_and. use IH f.
      rewrite (proj2 (Nat.ltb_ge _ _)) by (destruct c; lia). rewrite Nat.ltb_irrefl. reflexivity.
    - intros rd e l c p h n q F h1 RX C L _ (N & IH). big N. rl RX. unfold sem_and. use IH f.
      rewrite (proj2 (Nat.ltb_ge _ _)) by lia. rewrite (proj2 (Nat.ltb_lt _ _)) by lia. reflexivity.
    - intros rd e l c p h n q F h1 RX C _ (N & IH). big N. rl RX. unfold sem_and. use IH f.
      rewrite (proj2 (Nat.ltb_lt _ _)) by (destruct c; lia). reflexivity.
    - (* token *) intros rd e ty t p h q RX TY EA. big 0. rl RX. apply one_some in EA. rewrite EA. cbn [bind]. ty TY. rewrite Nat.eqb_refl. reflexivity.
    - intros rd e ty t p h t' q RX TY EA NE. big 0. rl RX. apply one_some in EA. rewrite EA. cbn [bind]. ty TY.
      rewrite (proj2 (Nat.eqb_neq _ _)) by congruence. reflexivity.
    - intros rd e ty p h RX EN. big 0. rl RX. apply one_none in EN. rewrite EN. reflexivity.
    - (* contextual *) intros rd e ty t text p h n q RX TY NE (o & raw & IX & LE & SK) W. big 0. rl RX. unfold by_text.
      rewrite (proj2 (p_empty_not _) NE). rewrite (proj2 (index_ok _ _ _ _) IX). cbn [bind]. rewrite (proj2 (Nat.leb_le _ _) LE). cbn [guard].
      rewrite (proj2 (is_prefix_spec _ _) SK).
      assert (LB : p_cur p < length (e_idx E)) by (apply nth_error_Some; congruence).
      rewrite (whole_complete _ _ _ _ W) by (pose proof (whole_bound _ _ _ _ W ltac:(lia)); lia). cbn [bind plus]. ty TY. reflexivity.
    - intros rd e ty text p h RX NE (o & raw & IX & LE & SK) W. big 0. rl RX. unfold by_text.
      rewrite (proj2 (p_empty_not _) NE). rewrite (proj2 (index_ok _ _ _ _) IX). cbn [bind]. rewrite (proj2 (Nat.leb_le _ _) LE). cbn [guard].
      rewrite (proj2 (is_prefix_spec _ _) SK). rewrite (cut_complete _ _ W) by lia. reflexivity.
    - intros rd e ty text p h RX NE (o & raw & IX & LE & SK). big 0. rl RX. unfold by_text.
      rewrite (proj2 (p_empty_not _) NE). rewrite (proj2 (index_ok _ _ _ _) IX). cbn [bind]. rewrite (proj2 (Nat.leb_le _ _) LE). cbn [guard].
      rewrite <- is_prefix_spec in SK. destruct (is_prefix text (skipn o (e_text E))); [contradiction|]. reflexivity.
    - intros rd e ty text p h RX EN. big 0. rl RX. unfold by_text. rewrite (proj2 (p_empty_iff _) EN). reflexivity.
    - (* any, eof *) intros rd e t p h q RX EA. big 0. rl RX. apply one_some in EA. rewrite EA. reflexivity.
    - intros rd e p h RX EN. big 0. rl RX. apply one_none in EN. rewrite EN. reflexivity.
    - intros rd e p h RX EN. big 0. rl RX. rewrite (proj2 (p_empty_iff _) EN). reflexivity.
    - intros rd e p h RX EN. big 0. rl RX. rewrite (proj2 (p_empty_not _) EN). reflexivity.
    - (* opt, not *) intros rd e b p h [q F] h1 RX _ (N & IH). big N. rl RX. use IH f. reflexivity.
    - intros rd e b p h h1 RX _ (N & IH). big N. rl RX. use IH f. reflexivity.
    - intros rd e b p h h1 RX _ (N & IH). big N. rl RX. change (as_pred rd) with (pred_of rd). use IH f. reflexivity.
    - intros rd e b p h x h1 RX _ (N & IH). big N. rl RX. change (as_pred rd) with (pred_of rd). use IH f. reflexivity.
    - (* rep, skip *) intros rd e b p h q F h1 RX _ (N & IH). big N. rl RX. apply IH; lia.
    - intros rd e a b p h r h1 RX _ (N & IH). big N. rl RX. apply IH; lia.
    - (* layer *) intros rd e l b p h h1 RX _ (N & IH). big N. rl RX. unfold sem_layer. change (as_pred rd) with (pred_of rd). use IH f. reflexivity.
    - intros rd e l b p h c F0 h1 r left_ F h2 T RX _ (N1 & IH1) _ (N2 & IH2) M EA. big (N1 + N2). rl RX. unfold sem_layer. change (as_pred rd) with (pred_of rd).
      use IH1 f. use IH2 f.
      replace (match r with Some x => x | None => (mkPos (p_cur p) (p_cur c), []) end) with (left_, F)
        by (destruct r; [congruence|destruct M as [-> ->]; reflexivity]).
      pose proof EA as EA2. destruct EA as [q EN|q t q' G EB EC].
      + rewrite (proj2 (p_empty_iff _) EN). reflexivity.
      + rewrite (proj2 (p_empty_not _) (proj1 EB)).
        rewrite (eats_complete _ _ EA2) by (pose proof (eats_bound _ _ EA2); lia). reflexivity.
    - (* contexts *) intros rd e c b p h r h1 RX L _ (N & IH). big N. rl RX.
      destruct (nth_error (r_ctxs rd) c) eqn:NC; [|apply nth_error_None in NC; lia]. rewrite (proj2 (index_ok _ _ _ _) NC). cbn [bind].
      apply (IH f). lia.
    - intros rd e c b p h r h1 RX L _ (N & IH). big N. rl RX.
      destruct (nth_error (r_ctxs rd) c) eqn:NC; [|apply nth_error_None in NC; lia]. rewrite (proj2 (index_ok _ _ _ _) NC). cbn [bind].
      apply (IH f). lia.
    - intros rd e c p h RX NC. big 0. rl RX. rewrite (proj2 (index_ok _ _ _ _) NC). reflexivity.
    - intros rd e c p h RX NC. big 0. rl RX. rewrite (proj2 (index_ok _ _ _ _) NC). reflexivity.
    - (* calls *) intros rd e b l a p h r h1 RX BI _ (N & IH). big N. rl RX. rewrite (binds_complete _ _ _ BI). cbn [bind]. apply (IH f). lia.
    - intros rd e i e' p h r h1 RX NA _ (N & IH). big N. rl RX. rewrite (proj2 (index_ok _ _ _ _) NA). cbn [bind unwrap]. apply IH. lia.
    - (* prev *) intros rd e tys p h t RX HP _ IH. big 0. rl RX. rewrite HP, IH. reflexivity.
    - intros rd e tys p h t RX HP _ IH. big 0. rl RX. rewrite HP, IH. reflexivity.
    - intros rd e tys p h RX HP. big 0. rl RX. rewrite HP. reflexivity.
    - (* inject *) intros rd e a b p h q F h1 q2 G h2 FG RX _ (N1 & IH1) NE _ (N2 & IH2) OP GR. big (N1 + N2). rl RX. unfold sem_inject.
      use IH1 f. use IH2 f.
      assert (PQ : pos_eqb q p = false).
      { destruct (pos_eqb q p) eqn:PQ; auto. exfalso. apply NE. destruct q as [x y], p as [z w]. unfold pos_eqb in PQ. cbn in PQ.
        apply andb_true_iff in PQ. rewrite !Nat.eqb_eq in PQ. destruct PQ as [-> ->]. reflexivity. }
      rewrite PQ, (proj2 (can_attach_iff _ _ _) OP). cbn [guard]. rewrite GR. reflexivity.
    - intros rd e a b p h F h1 q2 G h2 RX _ (N1 & IH1) _ (N2 & IH2). big (N1 + N2). rl RX. unfold sem_inject.
      use IH1 f. use IH2 f. assert (PQ : pos_eqb p p = true) by (unfold pos_eqb; rewrite !Nat.eqb_refl; reflexivity). rewrite PQ. reflexivity.
    - intros rd e a b p h h1 RX _ (N & IH). big N. rl RX. unfold sem_inject. use IH f. reflexivity.
    - intros rd e a b p h q F h1 h2 RX _ (N1 & IH1) _ (N2 & IH2). big (N1 + N2). rl RX. unfold sem_inject. use IH1 f. use IH2 f. reflexivity.
    - (* cached *) intros rd e b p h q F h1 RX _ (N & IH). big N. rl RX. use IH f. reflexivity.
    - intros rd e b p h h1 RX _ (N & IH). big N. rl RX. use IH f. reflexivity.
    - (* pratt *) intros rd e t p h r h1 RX _ (N & IH). big N. rl RX. apply IH; lia.
    - (* among *) reflexivity.
    - intros i l t TY. cbn [any_type]. ty TY. rewrite Nat.eqb_refl. reflexivity.
    - intros i x l t b TY NE _ IH. cbn [any_type]. ty TY. rewrite (proj2 (Nat.eqb_neq _ _)) by congruence. exact IH.
    - (* first_of *) intros rd p h. exists 0. reflexivity.
    - intros rd a l p h x h1 _ (N & IH). exists N. intros f LF. cbn [sem_or]. use IH f. reflexivity.
    - intros rd a l p h h1 r h2 _ (N1 & IH1) _ (N2 & IH2). exists (N1 + N2). intros f LF. cbn [sem_or]. use IH1 f. apply IH2. lia.
    - (* in_order *) intros rd p h. exists 0. reflexivity.
    - intros rd a l p h h1 _ (N & IH). exists N. intros f LF. cbn [sem_parts]. use IH f. reflexivity.
    - intros rd a l p h p1 F h1 n q G h2 _ (N1 & IH1) _ (N2 & IH2). exists (N1 + N2). intros f LF. cbn [sem_parts]. use IH1 f. use IH2 f. reflexivity.
    - (* greedy *) intros rd b p h h1 _ (N & IH). exists (S N). intros f n LF LN. destruct n as [|n]; [lia|]. cbn [sem_rep]. use IH f. reflexivity.
    - intros rd b p h p1 F h1 q G h2 _ (N1 & IH1) _ (N2 & IH2). exists (S (N1 + N2)). intros f n LF LN. destruct n as [|n]; [lia|].
      cbn [sem_rep]. use IH1 f. rewrite IH2 by lia. reflexivity.
    - (* skipping *) intros rd a b sk p h x h1 q F h2 _ (N1 & IH1) _ (N2 & IH2). exists (S (N1 + N2)). intros f n LF LN. destruct n as [|n]; [lia|].
      cbn [sem_skip]. change (as_pred rd) with (pred_of rd). use IH1 f. use IH2 f. destruct sk; reflexivity.
    - intros rd a b sk p h h1 t q r h2 _ (N1 & IH1) EA _ (N2 & IH2). exists (S (N1 + N2)). intros f n LF LN. destruct n as [|n]; [lia|].
      cbn [sem_skip]. change (as_pred rd) with (pred_of rd). use IH1 f. apply one_some in EA. cbn [no bind]. rewrite EA. cbn [bind]. apply IH2; lia.
    - intros rd a b sk p h x h1 h2 t q r h3 _ (N1 & IH1) _ (N2 & IH2) EA _ (N3 & IH3). exists (S (N1 + N2 + N3)). intros f n LF LN.
      destruct n as [|n]; [lia|]. cbn [sem_skip]. change (as_pred rd) with (pred_of rd). use IH1 f. use IH2 f. apply one_some in EA. rewrite EA. cbn [bind].
      apply IH3; lia.
    - intros rd a b sk p h h1 _ (N & IH) EN. exists (S N). intros f n LF LN. destruct n as [|n]; [lia|]. cbn [sem_skip].
      change (as_pred rd) with (pred_of rd). use IH f. apply one_none in EN. cbn [no bind]. rewrite EN. reflexivity.
    - intros rd a b sk p h x h1 h2 _ (N1 & IH1) _ (N2 & IH2) EN. exists (S (N1 + N2)). intros f n LF LN. destruct n as [|n]; [lia|].
      cbn [sem_skip]. change (as_pred rd) with (pred_of rd). use IH1 f. use IH2 f. apply one_none in EN. rewrite EN. reflexivity.
    - (* climbing *) intros rd t m p h p1 F h1 r h2 _ (N1 & IH1) _ (N2 & IH2). exists (S (N1 + N2)). intros f n LF LN. destruct n as [|n]; [lia|].
      cbn [sem_go]. unfold sem_operand. use IH1 f. apply IH2; lia.
    - intros rd t m p h h0 p1 F h1 r h2 _ (N1 & IH1) _ (N2 & IH2) _ (N3 & IH3). exists (S (N1 + N2 + N3)). intros f n LF LN.
      destruct n as [|n]; [lia|]. cbn [sem_go]. unfold sem_operand. use IH1 f. rewrite IH2 by lia. cbn [bind]. apply IH3; lia.
    - intros rd t m p h h0 h1 _ (N1 & IH1) _ (N2 & IH2). exists (S (N1 + N2)). intros f n LF LN. destruct n as [|n]; [lia|].
      cbn [sem_go]. unfold sem_operand. use IH1 f. rewrite IH2 by lia. reflexivity.
    - (* prefixed *) intros rd t p h. exists 0. reflexivity.
    - intros rd t x l p h ty p1 F h1 q G h2 TY _ (N1 & IH1) _ (N2 & IH2). exists (N1 + N2). intros f n LF LN. cbn [sem_prefixes]. ty TY.
      use IH1 f. rewrite IH2 by lia. reflexivity.
    - intros rd t x l p h ty p1 F h1 h2 r h3 TY _ (N1 & IH1) _ (N2 & IH2) _ (N3 & IH3). exists (N1 + N2 + N3). intros f n LF LN.
      cbn [sem_prefixes]. ty TY. use IH1 f. rewrite IH2 by lia. cbn [bind no]. apply IH3; lia.
    - intros rd t x l p h ty h1 r h2 TY _ (N1 & IH1) _ (N2 & IH2). exists (N1 + N2). intros f n LF LN. cbn [sem_prefixes]. ty TY.
      use IH1 f. cbn [no bind]. apply IH2; lia.
    - (* chain *) intros rd t m fresh lhs p h h1 _ (N & IH). exists (S N). intros f n k LF LN LK. destruct k as [|k]; [lia|]. cbn [sem_loop].
      rewrite IH by lia. reflexivity.
    - intros rd t m fresh lhs p h q F h1 r h2 _ (N1 & IH1) _ (N2 & IH2). exists (S (N1 + N2)). intros f n k LF LN LK. destruct k as [|k]; [lia|].
      cbn [sem_loop]. rewrite IH1 by lia. cbn [bind]. apply IH2; lia.
    - (* infixed *) intros rd t fresh lhs p h. exists 0. reflexivity.
    - intros rd t x l fresh lhs p h ty h1 r h2 TY _ (N1 & IH1) _ (N2 & IH2). exists (N1 + N2). intros f n LF LN. cbn [sem_infixes]. ty TY.
      use IH1 f. apply IH2; lia.
    - intros rd t x l fresh lhs p h ty p1 F h1 TY _ (N & IH) OP RH. exists N. intros f n LF LN. cbn [sem_infixes]. ty TY. use IH f.
      rewrite (proj2 (can_attach_iff _ _ _) OP), RH. cbn [guard bind]. rewrite app_nil_r. reflexivity.
    - intros rd t x l fresh lhs p h ty p1 F h1 q G h2 TY _ (N1 & IH1) OP RH _ (N2 & IH2). exists (N1 + N2). intros f n LF LN.
      cbn [sem_infixes]. ty TY. use IH1 f. rewrite (proj2 (can_attach_iff _ _ _) OP), RH. cbn [guard bind]. rewrite IH2 by lia. reflexivity.
    - intros rd t x l fresh lhs p h ty p1 F h1 h2 TY _ (N1 & IH1) OP RH _ (N2 & IH2). exists (N1 + N2). intros f n LF LN.
      cbn [sem_infixes]. ty TY. use IH1 f. rewrite (proj2 (can_attach_iff _ _ _) OP), RH. cbn [guard bind]. rewrite IH2 by lia. reflexivity.
  Qed.

  Lemma peg_complete : forall rd e p h r h', peg E rd e p h r h' -> exists N, forall f, N <= f -> sem E f rd e p h = Ok (r, h').
  Proof. exact (proj1 sem_complete). Qed.

  Lemma peg_fun : forall rd e p h r h' r2 h2, peg E rd e p h r h' -> peg E rd e p h r2 h2 -> r = r2 /\ h' = h2.
  Proof.
    intros rd e p h r h' r2 h2 A B. apply peg_complete in A, B. destruct A as (N & A). destruct B as (M & B).
    specialize (A (N + M) ltac:(lia)). specialize (B (N + M) ltac:(lia)). rewrite A in B. injection B as -> ->. auto.
  Qed.

  Lemma file_complete : forall t, peg_file E t -> exists N, forall f, N <= f -> sem_file E f = Ok t.
  Proof.
    intros t [q t' h H EN|q ty pre body h T H NE EA]; apply peg_complete in H; destruct H as (N & H); exists N; intros f LF; unfold sem_file;
      change (new_pos E) with (mkPos 0 (length (e_idx E))); rewrite H by lia; cbn [bind unwrap].
    - rewrite (proj2 (p_empty_iff _) EN). reflexivity.
    - rewrite (proj2 (p_empty_not _) NE). rewrite (eats_complete _ _ EA) by (pose proof (eats_bound _ _ EA); lia). reflexivity.
  Qed.

  Lemma file_fun : forall t u, peg_file E t -> peg_file E u -> t = u.
  Proof.
    intros t u A B. apply file_complete in A, B. destruct A as (N & A). destruct B as (M & B).
    specialize (A (N + M) ltac:(lia)). specialize (B (N + M) ltac:(lia)). congruence.
  Qed.
End Peg.
