(** What a cache lookup may change: with a cache whose entries are what the parser would compute anyway, the parser
    computes the same events. Without cached rules the cache is not looked at. *)
From Coq Require Import List Arith Bool Lia.
From Verif Require Import Base BaseFacts LexModel GrammarModel ParserModel ParserProofs MonoProofs ReparseSpec.
Import ListNotations.

Section Quiet.
  Variable g : grammar.
  Variables q qa : nat -> bool.

  Notation quiet := (quiet g q qa).

  (** The argument table and the size of the context table; both have 16 slots. *)
  Definition fr (s : st) : list (option nat) * nat := (s_args s, length (s_ctxs s)).
  Definition args_ok (a : list (option nat) * nat) : Prop :=
    (length (fst a) = 16 /\ snd a = 16) /\ forall i x, nth_error (fst a) i = Some (Some x) -> qa i = true -> q x = true.

  Section Sim.
    Variable E : env.
    Hypothesis EG : e_g E = g.
    Variable END : nat -> Prop.
    Hypothesis Q : quiet.

    Definition here (A : Prop) (p : pos) (s : st) : Prop := args_ok (fr s) /\ (A \/ (s_pred s = false /\ END (p_end p))).
    Definition cond (e : nat) : pos -> st -> Prop := here (q e = true).

    Lemma here_move : forall (A B : Prop) p s p' s', here A p s -> (A -> B) -> fr s' = fr s -> s_pred s' = s_pred s ->
      p_end p' = p_end p -> here B p' s'.
    Proof. intros A B p s p' s' [H1 H2] I X Y Z. split; [rewrite X; exact H1|]. rewrite Y, Z. destruct H2; auto. Qed.

    Definition simr (a : list (option nat) * nat) (b : bool) (n : nat) (x y : result) : Prop :=
      forall r s', x = Ok (r, s') -> fr s' = a /\ s_pred s' = b /\ (forall t, r = Some t -> p_end t = n)
        /\ exists v, y = Ok (r, set_prev s' v).

    Lemma emit_prev : forall s e v, emit (set_prev s v) e = set_prev (emit s e) v.
    Proof. intros. unfold emit. cbn. destruct (s_pred s); reflexivity. Qed.
    Lemma emit_args : forall s e, fr (emit s e) = fr s.
    Proof. intros. unfold emit. destruct (s_pred s); reflexivity. Qed.
    Lemma emit_pred : forall s e, s_pred (emit s e) = s_pred s.
    Proof. intros. unfold emit. destruct (s_pred s) eqn:X; cbn; auto. Qed.

    Lemma start_prev : forall s t s', start E s t = Ok s' -> fr s' = fr s /\ s_pred s' = s_pred s
      /\ forall v, start E (set_prev s v) t = Ok (set_prev s' v).
    Proof.
      intros s t s' H. unfold start in *. mon H. injection H as <-. rewrite emit_args, emit_pred. repeat split.
      intro w. rewrite Hv. cbn [bind]. rewrite emit_prev. reflexivity.
    Qed.

    Lemma bump_prev : forall s p r s', bump E s p = Ok (r, s') -> fr s' = fr s /\ s_pred s' = s_pred s
      /\ (forall t x, r = Some (t, x) -> p_end x = p_end p) /\ forall v, bump E (set_prev s v) p = Ok (r, set_prev s' v).
    Proof.
      intros s p r s' H. unfold bump in *. destruct (p_empty p).
      - injection H as <- <-. repeat split. discriminate.
      - mon H. injection H as <- <-. rewrite emit_args, emit_pred. repeat split.
        + intros t x X. injection X as <- <-. reflexivity.
        + intro w. rewrite Hv. cbn [bind]. rewrite emit_prev. reflexivity.
    Qed.

    Lemma bump_all_prev : forall n s p r s', bump_all E n s p = Ok (r, s') -> fr s' = fr s /\ s_pred s' = s_pred s
      /\ forall v, bump_all E n (set_prev s v) p = Ok (r, set_prev s' v).
    Proof.
      induction n as [|n IH]; intros s p r s' H; cbn [bump_all] in *; [discriminate|]. mon H. destruct v as [r1 s1].
      destruct (bump_prev _ _ _ _ Hv) as (A & B & _ & C). destruct r1 as [[t x]|].
      - destruct (IH _ _ _ _ H) as (A2 & B2 & C2). repeat split; try congruence. intro w. rewrite C. cbn [bind]. apply C2.
      - injection H as <- <-. repeat split; auto. intro w. rewrite C. reflexivity.
    Qed.

    Lemma rollback_prev : forall s m s', rollback s m = Ok s' -> fr s' = fr s /\ s_pred s' = s_pred s
      /\ forall v, rollback (set_prev s v) m = Ok (set_prev s' v).
    Proof.
      intros s m s' H. unfold rollback in *. cbn [s_events set_prev]. destruct (m <=? length (s_events s)); cbn [guard] in *; [|discriminate].
      injection H as <-. repeat split.
    Qed.

    Lemma forward_prev : forall s a b s', forward_parent s a b = Ok s' -> fr s' = fr s /\ s_pred s' = s_pred s
      /\ forall v, forward_parent (set_prev s v) a b = Ok (set_prev s' v).
    Proof.
      intros s a b s' H. unfold forward_parent in *. cbn [s_events set_prev]. mon H. destruct v; try discriminate. mon H. injection H as <-.
      repeat split. intro w. rewrite Hv. cbn [bind]. rewrite Hv0. reflexivity.
    Qed.

    Lemma reopen_prev : forall s s', reopen s = Ok s' -> fr s' = fr s /\ s_pred s' = s_pred s
      /\ forall v, reopen (set_prev s v) = Ok (set_prev s' v).
    Proof.
      intros s s' H. unfold reopen in *. cbn [s_events s_pred set_prev]. destruct (s_pred s) eqn:P.
      - injection H as <-. repeat split; auto.
      - destruct (rev (s_events s)) as [|[| | |] r]; try discriminate. injection H as <-. repeat split; auto.
    Qed.

    Lemma replace_prev : forall s m t s', replace E s m t = Ok s' -> fr s' = fr s /\ s_pred s' = s_pred s
      /\ forall v, replace E (set_prev s v) m t = Ok (set_prev s' v).
    Proof.
      intros s m t s' H. unfold replace in *. cbn [s_events set_prev]. mon H. mon H. destruct v0; try discriminate. injection H as <-.
      repeat split. intro w. rewrite Hv. cbn [bind]. rewrite Hv0. reflexivity.
    Qed.

    Lemma finish_cached_prev : forall s m s', finish_cached s m = Ok s' -> fr s' = fr s /\ s_pred s' = s_pred s
      /\ forall v, finish_cached (set_prev s v) m = Ok (set_prev s' v).
    Proof.
      intros s m s' H. unfold finish_cached in *. cbn [s_events s_pred set_prev]. destruct (s_pred s) eqn:P.
      - injection H as <-. repeat split; auto.
      - mon H. mon H. destruct v0; try discriminate. injection H as <-. repeat split; auto.
        intro w. rewrite Hv. cbn [bind]. rewrite Hv0. reflexivity.
    Qed.

    Lemma by_text_prev : forall s p text ty r s', bump_by_text E s p text ty = Ok (r, s') -> fr s' = fr s /\ s_pred s' = s_pred s
      /\ (forall t, r = Some t -> p_end t = p_end p) /\ forall v, bump_by_text E (set_prev s v) p text ty = Ok (r, set_prev s' v).
    Proof.
      assert (T : forall f l n p m p', take_text E f l n p = Ok (Some (m, p')) -> p_end p' = p_end p).
      { induction f as [|f IH]; intros l n p m p' H; cbn [take_text] in H;
          (destruct (l =? 0); [injection H as <- <-; reflexivity|]); destruct (p_empty p); try discriminate.
        mon H. destruct (l <? tk_len v); [discriminate|]. apply IH in H. exact H. }
      intros s p text ty r s' H. unfold bump_by_text in *. destruct (p_empty p).
      - injection H as <- <-. repeat split. discriminate.
      - mon H. destruct v as [o i]. mon H. destruct (is_prefix _ _) eqn:P.
        + mon H. destruct v as [[n p']|].
          * mon H. injection H as <- <-. rewrite emit_args, emit_pred. split; [reflexivity|]. split; [reflexivity|].
            split; [intros t X; injection X as <-; eapply T; eauto|].
            intro w. rewrite Hv. cbn [bind]. rewrite Hg. cbn [guard]. rewrite P, Hv0. cbn [bind]. rewrite Hv1. cbn [bind].
            rewrite emit_prev. reflexivity.
          * injection H as <- <-. split; [reflexivity|]. split; [reflexivity|]. split; [discriminate|].
            intro w. rewrite Hv. cbn [bind]. rewrite Hg. cbn [guard]. rewrite P, Hv0. reflexivity.
        + injection H as <- <-. split; [reflexivity|]. split; [reflexivity|]. split; [discriminate|].
          intro w. rewrite Hv. cbn [bind]. rewrite Hg. cbn [guard]. rewrite P. reflexivity.
    Qed.

    Section Rec.
      Variables rec rec0 : nat -> pos -> st -> result.
      Hypothesis S : forall e p s v, cond e p s -> simr (fr s) (s_pred s) (p_end p) (rec e p s) (rec0 e p (set_prev s v)).

      Lemma S' : forall (A : Prop) e p0 s0 p s v r s', here A p0 s0 -> (A -> q e = true) -> fr s = fr s0 -> s_pred s = s_pred s0 ->
        p_end p = p_end p0 -> rec e p s = Ok (r, s') ->
        fr s' = fr s0 /\ s_pred s' = s_pred s0 /\ (forall t, r = Some t -> p_end t = p_end p0) /\ exists v', rec0 e p (set_prev s v) = Ok (r, set_prev s' v').
      Proof.
        intros A e p0 s0 p s v r s' C I X Y Z H. destruct (S e p s v (here_move _ _ _ _ _ _ C I X Y Z) _ _ H) as (A1 & B1 & N1 & y & Y1).
        split; [congruence|]. split; [congruence|]. split; [|exists y; exact Y1]. intros t T. rewrite <- Z. auto.
      Qed.

      Lemma pred_sim : forall e p s v, args_ok (fr s) -> q e = true ->
        simr (fr s) (s_pred s) (p_end p) (parse_pred rec e p s) (parse_pred rec0 e p (set_prev s v)).
      Proof.
        intros e p s v AO QE r s' H. unfold parse_pred in *. mon H. destruct v0 as [r1 s1]. injection H as <- <-.
        destruct (S e p (set_pred s true) v (conj AO (or_introl QE)) _ _ Hv) as (A & B & N & y & Y).
        split; [exact A|]. split; [reflexivity|]. split; [exact N|]. exists y.
        change (set_pred (set_prev s v) true) with (set_prev (set_pred s true) v). rewrite Y. reflexivity.
      Qed.

      Lemma or_sim : forall l p s v, here (forall a, In a l -> q a = true) p s ->
        simr (fr s) (s_pred s) (p_end p) (parse_or rec l p s) (parse_or rec0 l p (set_prev s v)).
      Proof.
        induction l as [|a l IH]; intros p s v C r s' H; cbn [parse_or] in *.
        - injection H as <- <-. repeat split; [discriminate|]. exists v. reflexivity.
        - mon H. destruct v0 as [r1 s1].
          destruct (S' _ a p s p s v r1 s1 C (fun X => X a (or_introl eq_refl)) eq_refl eq_refl eq_refl Hv) as (A & B & N & y & Y).
          rewrite Y. cbn [bind]. destruct r1 as [p1|].
          + injection H as <- <-. repeat split; auto. exists y. reflexivity.
          + rewrite <- A, <- B. eapply IH; [|exact H]. eapply here_move; [exact C| |auto..]. intros X b I. apply X. right. exact I.
      Qed.

      Lemma parts_sim : forall l n p s v m p' s', here (forall a, In a l -> q a = true) p s -> and_parts rec l n p s = Ok (m, p', s') ->
        fr s' = fr s /\ s_pred s' = s_pred s /\ p_end p' = p_end p /\ exists v', and_parts rec0 l n p (set_prev s v) = Ok (m, p', set_prev s' v').
      Proof.
        induction l as [|a l IH]; intros n p s v m p' s' C H; cbn [and_parts] in *.
        - injection H as <- <- <-. repeat split. exists v. reflexivity.
        - mon H. destruct v0 as [r1 s1].
          destruct (S' _ a p s p s v r1 s1 C (fun X => X a (or_introl eq_refl)) eq_refl eq_refl eq_refl Hv) as (A & B & N & y & Y).
          rewrite Y. cbn [bind]. destruct r1 as [p1|].
          + specialize (N _ eq_refl). eapply IH in H; [|eapply here_move; [exact C| |exact A|exact B|exact N]; intros X b I; apply X; right; exact I].
            destruct H as (A2 & B2 & N2 & H). repeat split; try congruence. exact H.
          + injection H as <- <- <-. repeat split; auto. exists y. reflexivity.
      Qed.

      Lemma rep_sim : forall n n' b p s v, n <= n' -> cond b p s ->
        simr (fr s) (s_pred s) (p_end p) (rep_loop rec n b p s) (rep_loop rec0 n' b p (set_prev s v)).
      Proof.
        induction n as [|n IH]; intros n' b p s v L C r s' H; cbn [rep_loop] in *; [discriminate|]. destruct n' as [|n']; [lia|]. cbn [rep_loop].
        mon H. destruct v0 as [r1 s1].
        destruct (S' _ b p s p s v r1 s1 C (fun X => X) eq_refl eq_refl eq_refl Hv) as (A & B & N & y & Y). rewrite Y. cbn [bind]. destruct r1 as [p1|].
        - specialize (N _ eq_refl). eapply IH in H; [|apply le_S_n; exact L|eapply here_move; [exact C|auto|exact A|exact B|exact N]].
          destruct H as (A2 & B2 & N2 & H). split; [congruence|]. split; [congruence|]. split; [intros t T; rewrite (N2 t T); exact N|exact H].
        - injection H as <- <-. split; [exact A|]. split; [exact B|]. split; [intros t T; injection T as <-; reflexivity|]. exists y. reflexivity.
      Qed.

      Lemma finish_prev : forall s v, finish (set_prev s v) = set_prev (finish s) v.
      Proof. intros. apply emit_prev. Qed.
      Lemma start_error_prev : forall s v, start_error (set_prev s v) = set_prev (start_error s) v.
      Proof. intros. apply emit_prev. Qed.

      Lemma skip_sim : forall n n' f b k p s v, n <= n' -> q f = true -> cond b p s ->
        simr (fr s) (s_pred s) (p_end p) (skip_loop E rec n f b k p s) (skip_loop E rec0 n' f b k p (set_prev s v)).
      Proof.
        induction n as [|n IH]; intros n' f b k p s v L QF C r s' H; cbn [skip_loop] in *; [discriminate|]. destruct n' as [|n']; [lia|]. cbn [skip_loop].
        set (s0 := if k then finish s else s) in *.
        assert (K0 : fr s0 = fr s /\ s_pred s0 = s_pred s /\ (if k then finish (set_prev s v) else set_prev s v) = set_prev s0 v).
        { unfold s0. destruct k; [rewrite finish_prev; unfold finish; rewrite emit_args, emit_pred; auto|auto]. }
        destruct K0 as (A0 & B0 & ->). mon H. destruct v0 as [r1 s1].
        destruct (pred_sim f p s0 v) with (r := r1) (s' := s1) as (A1 & B1 & N1 & y1 & Y1); [rewrite A0; apply C|exact QF|exact Hv|].
        rewrite Y1. cbn [bind]. mon H. destruct v0 as [r2 s2].
        assert (K2 : fr s2 = fr s /\ s_pred s2 = s_pred s /\ (forall t, r2 = Some t -> p_end t = p_end p)
          /\ exists v', match r1 with Some _ => rec0 b p (set_prev s1 y1) | None => Ok (None, set_prev s1 y1) end = Ok (r2, set_prev s2 v')).
        { destruct r1 as [p1|].
          - eapply S'; [exact C|auto|congruence|congruence|reflexivity|exact Hv0].
          - injection Hv0 as <- <-. split; [congruence|]. split; [congruence|]. split; [discriminate|]. exists y1. reflexivity. }
        destruct K2 as (A2 & B2 & N2 & y2 & Y2). unfold result in Y2. rewrite Y2. cbn [bind]. destruct r2 as [p2|].
        - injection H as <- <-. split; [exact A2|]. split; [exact B2|]. split; [exact N2|]. exists y2. reflexivity.
        - mon H. mon H. destruct v1 as [r3 s4].
          assert (K3 : fr v0 = fr s /\ s_pred v0 = s_pred s
            /\ (if k then reopen (set_prev s2 y2) else Ok (start_error (set_prev s2 y2))) = Ok (set_prev v0 y2)).
          { destruct k.
            - destruct (reopen_prev _ _ Hv1) as (X1 & X2 & X3). rewrite X3. split; [congruence|]. split; [congruence|reflexivity].
            - injection Hv1 as <-. rewrite start_error_prev. unfold start_error. rewrite emit_args, emit_pred. auto. }
          destruct K3 as (A3 & B3 & Y3). rewrite Y3. cbn [bind].
          destruct (bump_prev _ _ _ _ Hv2) as (A4 & B4 & N4 & Y4). rewrite Y4. cbn [bind]. destruct r3 as [[t p3]|].
          + specialize (N4 _ _ eq_refl).
            eapply IH in H; [|apply le_S_n; exact L|exact QF|eapply here_move; [exact C|auto|rewrite A4; exact A3|rewrite B4; exact B3|exact N4]].
            destruct H as (A5 & B5 & N5 & H). split; [congruence|]. split; [congruence|]. split; [intros u U; rewrite (N5 u U); exact N4|exact H].
          + injection H as <- <-. split; [congruence|]. split; [congruence|]. split; [discriminate|]. exists y2. reflexivity.
      Qed.

      Lemma bind_args_ok : forall l n a b, bind_args E l a = Ok b -> args_ok (a, n) ->
        (forall i x, In (i, x) l -> qa i = true -> match nth_error (g_rules g) x with Some (EVar j) => qa j = true | _ => q x = true end) ->
        args_ok (b, n).
      Proof.
        induction l as [|[i x] l IH]; intros n a b H AO OK; cbn [bind_args] in H; [injection H as <-; exact AO|].
        mon H. mon H. mon H. eapply IH; [exact H| |intros; eapply OK; [right; eauto|auto]].
        destruct AO as [[LA LN] AO]. cbn [fst snd] in *. split; [cbn [fst snd]; rewrite set_nth_length; auto|]. cbn [fst].
        intros j y J QJ. destruct (Nat.eq_dec i j) as [<-|NE].
        - rewrite nth_error_set_nth_eq in J by (apply (index_lt _ _ _ _ Hv1)). injection J as ->.
          specialize (OK _ _ (or_introl eq_refl) QJ). apply index_ok in Hv. rewrite EG in Hv. rewrite Hv in OK.
          destruct v; try (injection Hv0 as <-; exact OK).
          mon Hv0. apply index_ok in Hv2. destruct v as [z|]; cbn [unwrap] in Hv0; [|discriminate]. injection Hv0 as <-.
          eapply AO; eauto.
        - rewrite nth_error_set_nth_neq in J by auto. eapply AO; eauto.
      Qed.

      Section Go.
        Variables go go0 : nat -> pos -> st -> result.
        Variable A : Prop.
        Hypothesis G : forall m p s v, here A p s -> simr (fr s) (s_pred s) (p_end p) (go m p s) (go0 m p (set_prev s v)).

        Lemma G' : forall m p0 s0 p s v r s', here A p0 s0 -> fr s = fr s0 -> s_pred s = s_pred s0 ->
          p_end p = p_end p0 -> go m p s = Ok (r, s') ->
          fr s' = fr s0 /\ s_pred s' = s_pred s0 /\ (forall t, r = Some t -> p_end t = p_end p0) /\ exists v', go0 m p (set_prev s v) = Ok (r, set_prev s' v').
        Proof.
          intros m p0 s0 p s v r s' C X Y Z H. destruct (G m p s v (here_move _ _ _ _ _ _ C (fun x => x) X Y Z) _ _ H) as (A1 & B1 & N1 & y & Y1).
          split; [congruence|]. split; [congruence|]. split; [|exists y; exact Y1]. intros t T. rewrite <- Z. auto.
        Qed.

        Lemma infixes_sim : forall l lhs p s v r s', here A p s -> (A -> forall x, In x l -> q (ix_op x) = true) ->
          try_infixes E rec go l lhs p s = Ok (r, s') ->
          fr s' = fr s /\ s_pred s' = s_pred s /\ (forall t m, r = Some (t, m) -> p_end t = p_end p)
          /\ exists v', try_infixes E rec0 go0 l lhs p (set_prev s v) = Ok (r, set_prev s' v').
        Proof.
          induction l as [|x l IH]; intros lhs p s v r s' C QI H; cbn [try_infixes] in *.
          { injection H as <- <-. repeat split; [discriminate|]. exists v. reflexivity. }
          mon H. destruct (start_prev _ _ _ Hv) as (A1 & B1 & Y1). rewrite Y1. cbn [bind]. mon H. destruct v1 as [r2 s2].
          destruct (S' _ (ix_op x) p s p v0 v r2 s2 C (fun a => QI a x (or_introl eq_refl)) A1 B1 eq_refl Hv0) as (A2 & B2 & N2 & y2 & Y2).
          rewrite Y2. cbn [bind]. destruct r2 as [p2|].
          - specialize (N2 _ eq_refl). mon H. change (mark (set_prev s v)) with (mark s).
            destruct (forward_prev _ _ _ _ Hv1) as (A3 & B3 & Y3). rewrite Y3. cbn [bind]. mon H. destruct v2 as [p4 s4].
            assert (K : fr s4 = fr s /\ s_pred s4 = s_pred s /\ p_end p4 = p_end p
              /\ exists v', (if ix_rhs x then '(r2, s4) <- go0 (Datatypes.S (ix_prio x)) p2 (set_prev v1 y2) ;;
                     match r2 with Some q => Ok (q, s4) | None => Ok (p2, finish (start_error s4)) end
                   else Ok (p2, set_prev v1 y2)) = Ok (p4, set_prev s4 v')).
            { destruct (ix_rhs x).
              - mon Hv2. destruct v2 as [r5 s5].
                destruct (G' (Datatypes.S (ix_prio x)) p s p2 v1 y2 r5 s5 C) as (A5 & B5 & N5 & y5 & Y5); [congruence|congruence|exact N2|exact Hv3|].
                rewrite Y5. cbn [bind]. destruct r5 as [p5|]; injection Hv2 as <- <-.
                + repeat split; auto. exists y5. reflexivity.
                + unfold finish, start_error. rewrite !emit_args, !emit_pred. repeat split; auto. exists y5. rewrite !emit_prev. reflexivity.
              - injection Hv2 as <- <-. split; [congruence|]. split; [congruence|]. split; [exact N2|]. exists y2. reflexivity. }
            destruct K as (A4 & B4 & N4 & y4 & Y4). rewrite Y4. cbn [bind]. mon H. rewrite Hv3. cbn [bind]. injection H as <- <-.
            unfold finish. rewrite emit_args, emit_pred. split; [exact A4|]. split; [exact B4|].
            split; [intros t m T; injection T as <- <-; exact N4|]. exists (Some v2).
            change (set_prev (set_prev s4 y4) (Some v2)) with (set_prev (set_prev s4 (Some v2)) (Some v2)). rewrite emit_prev. reflexivity.
          - mon H. change (mark (set_prev s v)) with (mark s). destruct (rollback_prev _ _ _ Hv1) as (A3 & B3 & Y3). rewrite Y3. cbn [bind].
            eapply IH in H; [|eapply here_move; [exact C|auto|congruence|congruence|reflexivity]|intros a z Z; apply QI; [exact a|right; exact Z]].
            destruct H as (A4 & B4 & H). split; [congruence|]. split; [congruence|]. exact H.
        Qed.

        Lemma ploop_sim : forall n n' l lhs p s v, n <= n' -> here A p s -> (A -> forall x, In x l -> q (ix_op x) = true) ->
          simr (fr s) (s_pred s) (p_end p) (pratt_loop E rec go n l lhs p s) (pratt_loop E rec0 go0 n' l lhs p (set_prev s v)).
        Proof.
          induction n as [|n IH]; intros n' l lhs p s v L C QI r s' H; cbn [pratt_loop] in *; [discriminate|]. destruct n' as [|n']; [lia|]. cbn [pratt_loop].
          mon H. destruct v0 as [r1 s1]. destruct (infixes_sim _ _ _ _ v _ _ C QI Hv) as (A1 & B1 & N1 & y & Y). rewrite Y. cbn [bind].
          destruct r1 as [[p1 m]|].
          - specialize (N1 _ _ eq_refl). eapply IH in H; [|apply le_S_n; exact L|eapply here_move; [exact C|auto|exact A1|exact B1|exact N1]|exact QI].
            destruct H as (A2 & B2 & N2 & H). split; [congruence|]. split; [congruence|]. split; [intros t T; rewrite (N2 t T); exact N1|exact H].
          - injection H as <- <-. split; [exact A1|]. split; [exact B1|]. split; [intros t T; injection T as <-; reflexivity|]. exists y. reflexivity.
        Qed.

        Lemma prefixes_sim : forall l p s v, here A p s -> (A -> forall x, In x l -> q (px_op x) = true) ->
          simr (fr s) (s_pred s) (p_end p) (try_prefixes E rec go l p s) (try_prefixes E rec0 go0 l p (set_prev s v)).
        Proof.
          induction l as [|x l IH]; intros p s v C QI r s' H; cbn [try_prefixes] in *.
          { injection H as <- <-. repeat split; [discriminate|]. exists v. reflexivity. }
          mon H. destruct (start_prev _ _ _ Hv) as (A1 & B1 & Y1). rewrite Y1. cbn [bind]. mon H. destruct v1 as [r2 s2].
          destruct (S' _ (px_op x) p s p v0 v r2 s2 C (fun a => QI a x (or_introl eq_refl)) A1 B1 eq_refl Hv0) as (A2 & B2 & N2 & y2 & Y2).
          rewrite Y2. cbn [bind]. mon H. destruct v1 as [r3 s3].
          assert (K : fr s3 = fr s /\ s_pred s3 = s_pred s /\ (forall t, r3 = Some t -> p_end t = p_end p)
            /\ exists v', match r2 with Some p' => go0 (px_prio x) p' (set_prev s2 y2) | None => Ok (None, set_prev s2 y2) end = Ok (r3, set_prev s3 v')).
          { destruct r2 as [p2|].
            - eapply G'; [exact C|congruence|congruence|apply N2; reflexivity|exact Hv1].
            - injection Hv1 as <- <-. split; [congruence|]. split; [congruence|]. split; [discriminate|]. exists y2. reflexivity. }
          destruct K as (A3 & B3 & N3 & y3 & Y3). unfold result in Y3. rewrite Y3. cbn [bind]. destruct r3 as [p3|].
          - mon H. rewrite Hv2. cbn [bind]. injection H as <- <-. unfold finish. rewrite emit_args, emit_pred.
            split; [exact A3|]. split; [exact B3|]. split; [exact N3|]. exists (Some v1).
            change (set_prev (set_prev s3 y3) (Some v1)) with (set_prev (set_prev s3 (Some v1)) (Some v1)). rewrite emit_prev. reflexivity.
          - mon H. change (mark (set_prev s v)) with (mark s). destruct (rollback_prev _ _ _ Hv2) as (A4 & B4 & Y4). rewrite Y4. cbn [bind].
            eapply IH in H; [|eapply here_move; [exact C|auto|congruence|congruence|reflexivity]|intros a z Z; apply QI; [exact a|right; exact Z]].
            destruct H as (A5 & B5 & H). split; [congruence|]. split; [congruence|]. exact H.
        Qed.
      End Go.

      Lemma pratt_sim : forall t (A : Prop) n n' f f' m p s v, n <= n' -> f <= f' -> here A p s ->
        (A -> (forall a, In a (pt_atoms t) -> q a = true) /\ (forall x, In x (pt_prefixes t) -> q (px_op x) = true)
          /\ (forall x, In x (pt_infixes t) -> q (ix_op x) = true)) ->
        simr (fr s) (s_pred s) (p_end p) (pratt_go E rec f n t m p s) (pratt_go E rec0 f' n' t m p (set_prev s v)).
      Proof.
        intros t A. induction n as [|n IH]; intros n' f f' m p s v L LF C QT r s' H; cbn [pratt_go] in *; [discriminate|].
        destruct n' as [|n']; [lia|]. cbn [pratt_go]. mon H. destruct v0 as [r1 s1].
        assert (K : fr s1 = fr s /\ s_pred s1 = s_pred s /\ (forall t, r1 = Some t -> p_end t = p_end p)
          /\ exists v', pratt_prefix E rec0 (pratt_go E rec0 f' n' t) t p (set_prev s v) = Ok (r1, set_prev s1 v')).
        { unfold pratt_prefix in *. mon Hv. destruct v0 as [r2 s2].
          destruct (or_sim (pt_atoms t) p s v) with (r := r2) (s' := s2) as (A2 & B2 & N2 & y2 & Y2);
            [eapply here_move; [exact C|apply QT|reflexivity..]|exact Hv0|].
          rewrite Y2. cbn [bind]. destruct r2 as [p2|].
          - injection Hv as <- <-. split; [exact A2|]. split; [exact B2|]. split; [exact N2|]. exists y2. reflexivity.
          - eapply (prefixes_sim _ (pratt_go E rec0 f' n' t) A) in Hv.
            + destruct Hv as (A3 & B3 & N3 & y3 & Y3). split; [congruence|]. split; [congruence|]. split; [exact N3|]. exists y3. exact Y3.
            + intros m0 p0 s0 v0 C0. apply IH; [lia|exact LF|exact C0|exact QT].
            + eapply here_move; [exact C|auto|exact A2|exact B2|reflexivity].
            + intro a. apply QT. exact a. }
        destruct K as (A1 & B1 & N1 & y1 & Y1). rewrite Y1. cbn [bind]. destruct r1 as [p1|].
        - specialize (N1 _ eq_refl).
          eapply (ploop_sim _ (pratt_go E rec0 f' n' t) A) in H.
          + destruct H as (A3 & B3 & N3 & y3 & Y3). split; [congruence|]. split; [congruence|]. split; [intros u U; rewrite (N3 u U); exact N1|]. exists y3. exact Y3.
          + intros m0 p0 s0 v0 C0. apply IH; [lia|exact LF|exact C0|exact QT].
          + exact LF.
          + eapply here_move; [exact C|auto|exact A1|exact B1|exact N1].
          + intros a x X. apply QT; [exact a|]. unfold infixes in X. apply filter_In in X. apply X.
        - injection H as <- <-. split; [exact A1|]. split; [exact B1|]. split; [discriminate|]. exists y1. reflexivity.
      Qed.

      (** The same environment with another cache, and without any. *)
      Definition twin (c : option (cache_map * list event)) : env := mkEnv (e_g E) (e_text E) (e_toks E) (e_idx E) c.
      Definition bare : env := twin None.

      (** With this cache instead, cached rules do the same. *)
      Definition cached_alike (c : option (cache_map * list event)) : Prop := forall e b p s v, nth_error (g_rules g) e = Some (ECached b) -> cond e p s ->
        simr (fr s) (s_pred s) (p_end p) (parse_cached E rec b p s) (parse_cached (twin c) rec0 b p (set_prev s v)).

      (** Every entry says what the parser without the cache does at that place. *)
      Definition entries_hold : Prop := match e_cache E with
        | None => True
        | Some (c, evs) => forall off b se ne nt p i s, lookup c (off, b) = Some (se, ne, nt) -> se + ne <= length evs ->
            nth_error (e_idx E) (p_cur p) = Some (off, i) -> END (p_end p) -> s_pred s = false ->
            length (s_ctxs s) = 16 -> length (s_args s) = 16 ->
            exists v, rec0 b p s = Ok (Some (mkPos (p_cur p + nt) (p_end p)), set_prev (set_events s (s_events s ++ sub se (se + ne) evs)) v)
        end.
      Hypothesis V : entries_hold.

      Lemma cached_sim : cached_alike None.
      Proof.
        intros e b p s v R C r s' H. pose proof (Q _ _ R) as QE. cbn in QE. destruct C as [AO [C|[PF PE]]]; [congruence|].
        unfold parse_cached in *. change (get_from_cache (twin None)) with (fun (s : st) (_ : nat) (_ : pos) => Ok (@None pos, s)). cbn beta.
        change (mark (set_prev s v)) with (mark s).
        rewrite emit_prev. set (s0 := emit s (EvCached b 0)) in *.
        assert (P0 : fr s0 = fr s /\ s_pred s0 = s_pred s) by (unfold s0; rewrite emit_args, emit_pred; auto). destruct P0 as [A0 B0].
        mon H. destruct v0 as [r1 s1]. mon H. destruct v0 as [r2 s2]. cbn [bind].
        assert (K : fr s2 = fr s /\ s_pred s2 = s_pred s /\ (forall t, r2 = Some t -> p_end t = p_end p)
          /\ exists v', rec0 b p (set_prev s0 v) = Ok (r2, set_prev s2 v')).
        { unfold get_from_cache in Hv. unfold entries_hold in V. destruct (e_cache E) as [[c evs]|].
          - mon Hv. destruct v0 as [off i]. apply index_ok in Hv1. destruct (lookup c (off, b)) as [[[se ne] nt]|] eqn:LK.
            + mon Hv. injection Hv as <- <-. injection Hv0 as <- <-. apply Nat.leb_le in Hg.
              assert (L16 : length (s_ctxs s0) = 16 /\ length (s_args s0) = 16).
              { destruct AO as [[L1 L2] _]. rewrite <- A0 in L1, L2. cbn [fst snd fr] in L1, L2. auto. }
              destruct (V _ _ _ _ _ p i (set_prev s0 v) LK Hg Hv1 PE (eq_trans B0 PF) (proj1 L16) (proj2 L16)) as (v' & Y).
              split; [exact A0|]. split; [exact B0|]. split; [intros t T; injection T as <-; reflexivity|]. exists v'. rewrite Y. reflexivity.
            + injection Hv as <- <-. eapply (S' (q b = true)); [split; [exact AO|right; auto]|auto|exact A0|exact B0|reflexivity|exact Hv0].
          - injection Hv as <- <-. eapply (S' (q b = true)); [split; [exact AO|right; auto]|auto|exact A0|exact B0|reflexivity|exact Hv0]. }
        destruct K as (A2 & B2 & N2 & y & Y). rewrite Y. cbn [bind]. destruct r2 as [p2|].
        - mon H. injection H as <- <-. destruct (finish_cached_prev _ _ _ Hv1) as (A3 & B3 & Y3). rewrite Y3. cbn [bind].
          split; [congruence|]. split; [congruence|]. split; [exact N2|]. exists y. reflexivity.
        - injection H as <- <-. split; [exact A2|]. split; [exact B2|]. split; [discriminate|]. exists y. reflexivity.
      Qed.

      Lemma inner_sim : forall c f f' e p s v, cached_alike c -> f <= f' -> cond e p s ->
        simr (fr s) (s_pred s) (p_end p) (parse_inner E rec f e p s) (parse_inner (twin c) rec0 f' e p (set_prev s v)).
      Proof.
        intros c f f' e p s v CA L C r s' H. unfold parse_inner in *. mon H. change (e_g (twin c)) with (e_g E). rewrite Hv. cbn [bind].
        apply index_ok in Hv. rewrite EG in Hv. pose proof (Q _ _ Hv) as QE. destruct v0; cbn [quiet_rule] in QE.
        - (* pub *)
          change (parse_pub (twin c)) with (parse_pub E). unfold parse_pub in *. set (s0 := if replaceable then set_repl s None else s) in *.
          assert (P0 : fr s0 = fr s /\ s_pred s0 = s_pred s /\ (if replaceable then set_repl (set_prev s v) None else set_prev s v) = set_prev s0 v)
            by (unfold s0; destruct replaceable; auto).
          destruct P0 as (A0 & B0 & ->). change (mark (set_prev s0 v)) with (mark s0). mon H. destruct (start_prev _ _ _ Hv0) as (A1 & B1 & Y1).
          rewrite Y1. cbn [bind]. mon H. destruct v1 as [r2 s2].
          destruct (S' _ body p s p v0 v r2 s2 C QE) as (A2 & B2 & N2 & y2 & Y2); [congruence|congruence|reflexivity|exact Hv1|].
          rewrite Y2. cbn [bind]. destruct r2 as [p2|].
          + mon H. mon H. injection H as <- <-.
            assert (K : fr v1 = fr s /\ s_pred v1 = s_pred s /\
              match replaceable, s_repl (set_prev s2 y2) with
              | true, Some rty => replace E (set_repl (set_prev s2 y2) None) (mark s0) rty
              | _, _ => Ok (set_prev s2 y2) end = Ok (set_prev v1 y2)).
            { destruct replaceable; [|injection Hv2 as <-; auto]. cbn [s_repl set_prev]. destruct (s_repl s2) as [ty'|].
              - destruct (replace_prev _ _ _ _ Hv2) as (A3 & B3 & Y3). split; [rewrite A3; exact A2|]. split; [rewrite B3; exact B2|]. apply Y3.
              - injection Hv2 as <-. auto. }
            destruct K as (A3 & B3 & Y3). rewrite Y3. cbn [bind]. rewrite Hv3. cbn [bind]. cbn [s_args s_pred set_prev]. unfold finish.
            change (fr (set_prev (emit v1 EvEnd) (Some v2))) with (fr (emit v1 EvEnd)). rewrite emit_args, emit_pred. split; [exact A3|]. split; [exact B3|]. split; [exact N2|]. exists (Some v2). rewrite emit_prev. reflexivity.
          + injection H as <- <-. split; [exact A2|]. split; [exact B2|]. split; [discriminate|]. exists y2. reflexivity.
        - unfold parse_pub_replace in *. mon H. destruct v0 as [r1 s1].
          destruct (S' _ body p s p s v r1 s1 C QE) as (A1 & B1 & N1 & y & Y); [reflexivity|reflexivity|reflexivity|exact Hv0|]. rewrite Y. cbn [bind].
          destruct r1 as [p1|]; injection H as <- <-.
          + split; [exact A1|]. split; [exact B1|]. split; [exact N1|]. exists y. reflexivity.
          + split; [exact A1|]. split; [exact B1|]. split; [discriminate|]. exists y. reflexivity.
        - eapply or_sim; [eapply here_move; [exact C|exact QE|reflexivity..]|exact H].
        - unfold parse_and in *. mon H. destruct v0 as [[n p1] s1].
          destruct (parts_sim _ _ _ _ v _ _ _ (here_move _ _ _ _ _ _ C QE eq_refl eq_refl eq_refl) Hv0) as (A1 & B1 & N1 & y & Y). rewrite Y. cbn [bind].
          destruct (n <? _); [injection H as <- <-; split; [exact A1|]; split; [exact B1|]; split; [discriminate|]; exists y; reflexivity|].
          destruct (n <? _); injection H as <- <-.
          + unfold finish, start_error. rewrite !emit_args, !emit_pred. split; [exact A1|]. split; [exact B1|].
            split; [intros t T; injection T as <-; exact N1|]. exists y. rewrite !emit_prev. reflexivity.
          + split; [exact A1|]. split; [exact B1|]. split; [intros t T; injection T as <-; exact N1|]. exists y. reflexivity.
        - change (parse_token (twin c)) with (parse_token E). unfold parse_token in *. mon H. destruct v0 as [r1 s1].
          destruct (bump_prev _ _ _ _ Hv0) as (A1 & B1 & N1 & Y). rewrite Y. cbn [bind]. destruct r1 as [[t p1]|].
          + mon H. rewrite Hv1. cbn [bind]. destruct (v0 =? t); injection H as <- <-; (split; [exact A1|]; split; [exact B1|]; split; [|exists v; reflexivity]).
            * intros u U. injection U as <-. eapply N1; reflexivity.
            * discriminate.
          + injection H as <- <-. split; [exact A1|]. split; [exact B1|]. split; [discriminate|exists v; reflexivity].
        - change (bump_by_text (twin c)) with (bump_by_text E). destruct (by_text_prev _ _ _ _ _ _ H) as (A1 & B1 & N1 & Y).
          split; [exact A1|]. split; [exact B1|]. split; [exact N1|]. exists v. apply Y.
        - eapply rep_sim; [exact L|eapply here_move; [exact C|exact QE|reflexivity..]|exact H].
        - change (skip_loop (twin c)) with (skip_loop E).
          eapply skip_sim; [exact L|apply QE|eapply here_move; [exact C|apply QE|reflexivity..]|exact H].
        - unfold parse_opt in *. mon H. destruct v0 as [r1 s1].
          destruct (S' _ body p s p s v r1 s1 C QE) as (A1 & B1 & N1 & y & Y); [reflexivity|reflexivity|reflexivity|exact Hv0|]. rewrite Y. cbn [bind].
          destruct r1 as [p1|]; injection H as <- <-; (split; [exact A1|]; split; [exact B1|]; split; [|exists y; reflexivity]).
          + exact N1.
          + intros t T. injection T as <-. reflexivity.
        - unfold parse_not in *. mon H. destruct v0 as [r1 s1]. destruct (pred_sim body p s v) with (r := r1) (s' := s1) as (A1 & B1 & N1 & y & Y);
            [apply C|exact QE|exact Hv0|]. rewrite Y. cbn [bind].
          destruct r1 as [p1|]; injection H as <- <-; (split; [exact A1|]; split; [exact B1|]; split; [|exists y; reflexivity]).
          + discriminate.
          + intros t T. injection T as <-. reflexivity.
        - unfold parse_eof in *. destruct (p_empty p); injection H as <- <-; (split; [reflexivity|]; split; [reflexivity|]; split; [|exists v; reflexivity]).
          + intros t T. injection T as <-. reflexivity.
          + discriminate.
        - change (parse_any (twin c)) with (parse_any E). unfold parse_any in *. mon H. destruct v0 as [r1 s1].
          destruct (bump_prev _ _ _ _ Hv0) as (A1 & B1 & N1 & Y). rewrite Y. cbn [bind].
          destruct r1 as [[t p1]|]; injection H as <- <-; (split; [exact A1|]; split; [exact B1|]; split; [|exists v; reflexivity]).
          + intros u U. injection U as <-. eapply N1; reflexivity.
          + discriminate.
        - change (parse_layer (twin c)) with (parse_layer E). unfold parse_layer in *. mon H. destruct v0 as [r1 s1].
          destruct (pred_sim l p s v) with (r := r1) (s' := s1) as (A1 & B1 & N1 & y & Y); [apply C|apply QE|exact Hv0|]. rewrite Y. cbn [bind].
          destruct r1 as [p1|]; [|injection H as <- <-; split; [exact A1|]; split; [exact B1|]; split; [discriminate|exists y; reflexivity]].
          mon H. destruct v0 as [r2 s2].
          destruct (S e0 (mkPos (p_cur p) (p_cur p1)) s1 y) with (r := r2) (s' := s2) as (A2 & B2 & N2 & y2 & Y2);
            [split; [rewrite A1; apply C|left; apply QE]|exact Hv1|]. rewrite Y2. cbn [bind].
          destruct (p_empty _).
          + injection H as <- <-. split; [congruence|]. split; [congruence|]. split; [|exists y2; reflexivity]. exact N1.
          + mon H. destruct v0 as [p3 s3]. rewrite start_error_prev. destruct (bump_all_prev _ _ _ _ _ Hv2) as (A3 & B3 & Y3). rewrite Y3. cbn [bind].
            injection H as <- <-. unfold start_error in A3, B3. rewrite emit_args in A3. rewrite emit_pred in B3. unfold finish.
            rewrite emit_args, emit_pred. split; [congruence|]. split; [congruence|]. split; [exact N1|]. exists y2. rewrite emit_prev. reflexivity.
        - change (pratt_go (twin c)) with (pratt_go E). eapply pratt_sim; [exact L|exact L|exact C|exact QE|exact H].
        - unfold parse_enter in *. mon H. cbn [s_ctxs set_prev]. rewrite Hv0. cbn [bind]. mon H. destruct v1 as [r1 s1]. mon H. injection H as <- <-.
          destruct (S' _ e0 p s p (set_ctxs s (set_nth ctx true (s_ctxs s))) v r1 s1 C QE) as (A1 & B1 & N1 & y & Y);
            [unfold fr; cbn [s_args s_ctxs set_ctxs]; rewrite set_nth_length; reflexivity|reflexivity|reflexivity|exact Hv1|].
          change (set_ctxs (set_prev s v) (set_nth ctx true (s_ctxs s))) with (set_prev (set_ctxs s (set_nth ctx true (s_ctxs s))) v). rewrite Y.
          cbn [bind s_ctxs set_prev]. rewrite Hv2. cbn [bind]. split; [rewrite <- A1; unfold fr; cbn [s_args s_ctxs set_ctxs]; rewrite set_nth_length; reflexivity|].
          split; [exact B1|]. split; [exact N1|]. exists y. reflexivity.
        - unfold parse_enter in *. mon H. cbn [s_ctxs set_prev]. rewrite Hv0. cbn [bind]. mon H. destruct v1 as [r1 s1]. mon H. injection H as <- <-.
          destruct (S' _ e0 p s p (set_ctxs s (set_nth ctx false (s_ctxs s))) v r1 s1 C QE) as (A1 & B1 & N1 & y & Y);
            [unfold fr; cbn [s_args s_ctxs set_ctxs]; rewrite set_nth_length; reflexivity|reflexivity|reflexivity|exact Hv1|].
          change (set_ctxs (set_prev s v) (set_nth ctx false (s_ctxs s))) with (set_prev (set_ctxs s (set_nth ctx false (s_ctxs s))) v). rewrite Y.
          cbn [bind s_ctxs set_prev]. rewrite Hv2. cbn [bind]. split; [rewrite <- A1; unfold fr; cbn [s_args s_ctxs set_ctxs]; rewrite set_nth_length; reflexivity|].
          split; [exact B1|]. split; [exact N1|]. exists y. reflexivity.
        - unfold parse_is_in in *. mon H. cbn [s_ctxs set_prev]. rewrite Hv0. cbn [bind].
          destruct v0; injection H as <- <-; (split; [reflexivity|]; split; [reflexivity|]; split; [|exists v; reflexivity]).
          + intros t T. injection T as <-. reflexivity.
          + discriminate.
        - change (parse_call (twin c)) with (parse_call E). unfold parse_call in *. mon H. cbn [s_args set_prev]. rewrite Hv0. cbn [bind].
          mon H. destruct v1 as [r1 s1]. injection H as <- <-.
          destruct (S body p (set_args s v0) v) with (r := r1) (s' := s1) as (A1 & B1 & N1 & y & Y).
          + split; [eapply bind_args_ok; [exact Hv0|apply C|apply QE]|]. destruct C as [_ [C|C]]; [left; apply QE; exact C|right; exact C].
          + exact Hv1.
          + change (set_args (set_prev s v) v0) with (set_prev (set_args s v0) v). rewrite Y. cbn [bind].
            split; [unfold fr in *; cbn [s_args s_ctxs set_args] in *; injection A1 as _ A1; rewrite A1; reflexivity|].
            split; [exact B1|]. split; [exact N1|]. exists y. reflexivity.
        - unfold parse_var in *. mon H. mon H. cbn [s_args set_prev]. rewrite Hv0. cbn [bind]. rewrite Hv1. cbn [bind].
          eapply S; [|exact H]. destruct C as [AO C]. split; [exact AO|]. destruct C as [C|C]; [left|right; exact C].
          apply index_ok in Hv0. destruct v0 as [x|]; cbn [unwrap] in Hv1; [|discriminate]. injection Hv1 as <-. eapply AO; [exact Hv0|auto].
        - destruct QE.
        - unfold parse_inject in *. mon H. destruct v0 as [r1 s1]. change (mark (set_prev s v)) with (mark s).
          destruct (S' _ pre p s p s v r1 s1 C (fun x => proj1 (QE x))) as (A1 & B1 & N1 & y & Y); [reflexivity|reflexivity|reflexivity|exact Hv0|]. rewrite Y. cbn [bind].
          destruct r1 as [p1|]; [|injection H as <- <-; split; [exact A1|]; split; [exact B1|]; split; [discriminate|exists y; reflexivity]].
          mon H. destruct v0 as [r2 s2].
          destruct (S' _ body p s p1 s1 y r2 s2 C (fun x => proj2 (QE x))) as (A2 & B2 & N2 & y2 & Y2); [exact A1|exact B1|apply N1; reflexivity|exact Hv1|].
          rewrite Y2. cbn [bind]. destruct r2 as [p2|]; [|injection H as <- <-; split; [exact A2|]; split; [exact B2|]; split; [discriminate|exists y2; reflexivity]].
          mon H. injection H as <- <-. change (mark (set_prev s1 y)) with (mark s1). destruct (pos_eqb p1 p).
          + injection Hv2 as <-. cbn [bind]. split; [exact A2|]. split; [exact B2|]. split; [exact N2|exists y2; reflexivity].
          + destruct (forward_prev _ _ _ _ Hv2) as (A3 & B3 & Y3). rewrite Y3. cbn [bind].
            split; [congruence|]. split; [congruence|]. split; [exact N2|exists y2; reflexivity].
        - eapply CA; [exact Hv|exact C|exact H].
      Qed.

      Lemma step_sim : forall c f f' e p s v, cached_alike c -> f <= f' -> cond e p s ->
        simr (fr s) (s_pred s) (p_end p) (parse_step E rec f e p s) (parse_step (twin c) rec0 f' e p (set_prev s v)).
      Proof.
        intros c f f' e p s v CA L C r s' H. unfold parse_step in *. mon H. destruct v0 as [r1 s1]. change (mark (set_prev s v)) with (mark s).
        destruct (inner_sim c f f' e p s v CA L C r1 s1 Hv) as (A1 & B1 & N1 & y & Y). rewrite Y. cbn [bind]. destruct r1 as [p1|].
        - injection H as <- <-. split; [exact A1|]. split; [exact B1|]. split; [exact N1|exists y; reflexivity].
        - mon H. injection H as <- <-. destruct (rollback_prev _ _ _ Hv0) as (A2 & B2 & Y2). rewrite Y2. cbn [bind].
          split; [congruence|]. split; [congruence|]. split; [discriminate|exists y; reflexivity].
      Qed.
    End Rec.

    (** Entries that hold for the parser with every fuel above [K]. *)
    Definition cache_holds (K : nat) : Prop := forall f, K <= f -> entries_hold (parse_expr bare f).

    Lemma parse_sim : forall K, cache_holds K -> forall f e p s v, cond e p s ->
      simr (fr s) (s_pred s) (p_end p) (parse_expr E f e p s) (parse_expr bare (K + f) e p (set_prev s v)).
    Proof.
      intros K HK. induction f as [|f IH]; intros e p s v C; [intros r s' H; discriminate|].
      rewrite Nat.add_succ_r. cbn [parse_expr]. apply step_sim; [exact IH|apply cached_sim; [exact IH|apply HK; lia]|lia|exact C].
    Qed.
  End Sim.

  Lemma events_sim : forall E K f evs, e_g E = g -> quiet -> cache_holds E (fun n => n = length (e_idx E)) K -> parse_events E f = Ok evs ->
    parse_events (bare E) (K + f) = Ok evs.
  Proof.
    intros E K f evs EG Q HK H. unfold parse_events in *. mon H. destruct v as [r s1].
    destruct (parse_sim E EG (fun n => n = length (e_idx E)) Q K HK f 0 (new_pos E) new_st None) with (r := r) (s' := s1) as (A & B & N & y & Y).
    { split; [|right; split; reflexivity]. split; [split; reflexivity|]. intros i x X _. cbn [fst fr s_args new_st] in X. destruct (Nat.lt_ge_cases i 16) as [L|L].
      - rewrite nth_error_repeat in X by exact L. discriminate.
      - assert (nth_error (repeat (@None nat) 16) i = None) by (apply nth_error_None; rewrite repeat_length; exact L). congruence. }
    { exact Hv. }
    change (new_pos (bare E)) with (new_pos E). change (set_prev new_st None) with new_st in Y. rewrite Y. cbn [bind].
    mon H. rewrite Hv0. cbn [bind]. destruct (p_empty v); [exact H|]. mon H. mon H. destruct v1 as [p3 s3].
    destruct (reopen_prev _ _ Hv1) as (A2 & B2 & Y2). rewrite Y2. cbn [bind]. change (bump_all (bare E)) with (bump_all E). change (e_idx (bare E)) with (e_idx E).
    rewrite start_error_prev. destruct (bump_all_prev _ _ _ _ _ _ Hv2) as (A3 & B3 & Y3). rewrite Y3. cbn [bind].
    injection H as <-. rewrite !finish_prev. reflexivity.
  Qed.
End Quiet.

(** ** Without cached rules *)
Section Uncached.
  Variable E : env.
  Hypothesis U : uncached (e_g E).

  Lemma step_uncached : forall rec f e p s, parse_step E rec f e p s = parse_step (bare E) rec f e p s.
  Proof.
    intros rec f e p s. unfold parse_step, parse_inner. change (e_g (bare E)) with (e_g E).
    destruct (index (g_rules (e_g E)) e) as [x| |] eqn:I; cbn [bind]; [|reflexivity|reflexivity]. apply index_ok in I.
    destruct x; try reflexivity. exfalso. exact (U _ _ I).
  Qed.

  Lemma expr_uncached : forall f e p s, parse_expr E f e p s = parse_expr (bare E) f e p s.
  Proof.
    induction f as [|f IH]; intros e p s; [reflexivity|]. cbn [parse_expr]. rewrite step_uncached.
    destruct (step_mono (bare E) (parse_expr E f) (parse_expr (bare E) f)) with (f := f) (f' := f) (e := e) (p := p) (s := s) as [H|H];
      [intros e1 p1 s1; right; apply IH|lia| |exact H].
    destruct (step_mono (bare E) (parse_expr (bare E) f) (parse_expr E f)) with (f := f) (f' := f) (e := e) (p := p) (s := s) as [H'|H'];
      [intros e1 p1 s1; right; symmetry; apply IH|lia| |symmetry; exact H'].
    congruence.
  Qed.

  Lemma events_uncached : forall f, parse_events E f = parse_events (bare E) f.
  Proof. intros f. unfold parse_events. rewrite expr_uncached. reflexivity. Qed.
End Uncached.
