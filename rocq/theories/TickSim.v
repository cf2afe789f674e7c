(** With a cache that holds the parser makes no more ticks than without. *)
From Coq Require Import List Arith Bool Lia.
From Verif Require Import Base BaseFacts TextModel EditModel LexModel TreeModel GrammarModel ParserModel ParserProofs ConvertModel ReparseModel ReparseSpec
  MonoProofs CacheProofs TickModel TickProofs.
Import ListNotations.

(** A computation after [c] ticks. *)
Definition add {A} (c : nat) (x : ticking A) : ticking A := '(a, n) <- x ;; Ok (a, c + n).

Lemma tbind_ok : forall A B (x : ticking A) (f : A -> ticking B) b n, tbind x f = Ok (b, n) -> exists a k m, x = Ok (a, k) /\ f a = Ok (b, m) /\ n = k + m.
Proof.
  intros A B x f b n H. unfold tbind in H. destruct x as [[a k]| |]; cbn [bind] in H; try discriminate. destruct (f a) as [[b' m]| |] eqn:F; cbn [bind] in H; try discriminate.
  injection H as <- <-. exists a, k, m. auto.
Qed.
Lemma tbind_run : forall A B (a : A) c (f : A -> ticking B), tbind (Ok (a, c)) f = add c (f a).
Proof. reflexivity. Qed.

Ltac tmon H :=
  match type of H with
  | tbind _ _ = Ok _ =>
      let v := fresh "v" in let Hv := fresh "Hv" in let k := fresh "k" in let m := fresh "m" in
      apply tbind_ok in H; destruct H as (v & k & m & Hv & H & ->)
  | _ => mon H
  end.
Ltac inj H := unfold ret in H;
  first [injection H as <- <- <- <- | injection H as <- <- <- | injection H as <- <- | injection H as <-].
Ltac run Y := rewrite Y; rewrite ?tbind_run; cbn [bind].
Ltac fin y := exists y; eexists; split; [unfold add, ret; cbn [bind]; reflexivity|lia].

(** [y] returns [a], after at least [k] ticks. *)
Definition got {A} (y : ticking A) (a : A) (k : nat) : Prop := exists c, y = Ok (a, c) /\ k <= c.

Section Quiet.
  Variable g : grammar.
  Variables q qa : nat -> bool.
  Notation quiet := (quiet g q qa).
  Notation args_ok := (args_ok q qa).

  Section Sim.
    Variable E : env.
    Hypothesis EG : e_g E = g.
    Variable END : nat -> Prop.
    Hypothesis Q : quiet.
    Notation here := (here q qa END).
    Notation cond := (cond q qa END).

    Definition tsim (a : list (option nat) * nat) (b : bool) (n : nat) (x y : tresult) : Prop :=
      forall r s' k, x = Ok (r, s', k) -> fr s' = a /\ s_pred s' = b /\ (forall t, r = Some t -> p_end t = n)
        /\ exists v, got y (r, set_prev s' v) k.

    Section Rec.
      Variables rec rec0 : nat -> pos -> st -> tresult.
      Hypothesis S : forall e p s v, cond e p s -> tsim (fr s) (s_pred s) (p_end p) (rec e p s) (rec0 e p (set_prev s v)).

      Lemma S' : forall (A : Prop) e p0 s0 p s v r s' k, here A p0 s0 -> (A -> q e = true) -> fr s = fr s0 -> s_pred s = s_pred s0 ->
        p_end p = p_end p0 -> rec e p s = Ok (r, s', k) ->
        fr s' = fr s0 /\ s_pred s' = s_pred s0 /\ (forall t, r = Some t -> p_end t = p_end p0) /\ exists v', got (rec0 e p (set_prev s v)) (r, set_prev s' v') k.
      Proof.
        intros A e p0 s0 p s v r s' k C I X Y Z H. destruct (S e p s v (here_move _ _ _ _ _ _ _ _ _ C I X Y Z) _ _ _ H) as (A1 & B1 & N1 & y & Y1).
        split; [congruence|]. split; [congruence|]. split; [|exists y; exact Y1]. intros t T. rewrite <- Z. auto.
      Qed.

      Lemma tpred_sim : forall e p s v, args_ok (fr s) -> q e = true ->
        tsim (fr s) (s_pred s) (p_end p) (t_pred rec e p s) (t_pred rec0 e p (set_prev s v)).
      Proof.
        intros e p s v AO QE r s' k' H. unfold t_pred in *. tmon H. destruct v0 as [r1 s1]. inj H.
        destruct (S e p (set_pred s true) v (conj AO (or_introl QE)) _ _ _ Hv) as (A & B & N & y & c & Y & K).
        split; [exact A|]. split; [reflexivity|]. split; [exact N|].
        change (set_pred (set_prev s v) true) with (set_prev (set_pred s true) v). run Y. fin y.
      Qed.

      Lemma tor_sim : forall l p s v, here (forall a, In a l -> q a = true) p s ->
        tsim (fr s) (s_pred s) (p_end p) (t_or rec l p s) (t_or rec0 l p (set_prev s v)).
      Proof.
        induction l as [|a l IH]; intros p s v C r s' k' H; cbn [t_or] in *.
        - inj H. repeat split; [discriminate|]. fin v.
        - tmon H. destruct v0 as [r1 s1].
          destruct (S' _ a p s p s v r1 s1 _ C (fun X => X a (or_introl eq_refl)) eq_refl eq_refl eq_refl Hv) as (A & B & N & y & c & Y & K).
          run Y. destruct r1 as [p1|].
          + inj H. repeat split; auto. fin y.
          + eapply IH in H; [|eapply here_move; [exact C| |exact A|exact B|reflexivity]; intros X b I; apply X; right; exact I].
            destruct H as (A2 & B2 & N2 & y2 & c2 & Y2 & K2). rewrite Y2. split; [congruence|]. split; [congruence|]. split; [exact N2|]. fin y2.
      Qed.

      Lemma tparts_sim : forall l n p s v m p' s' k', here (forall a, In a l -> q a = true) p s -> t_parts rec l n p s = Ok (m, p', s', k') ->
        fr s' = fr s /\ s_pred s' = s_pred s /\ p_end p' = p_end p /\ exists v', got (t_parts rec0 l n p (set_prev s v)) (m, p', set_prev s' v') k'.
      Proof.
        induction l as [|a l IH]; intros n p s v m p' s' k' C H; cbn [t_parts] in *.
        - inj H. repeat split. fin v.
        - tmon H. destruct v0 as [r1 s1].
          destruct (S' _ a p s p s v r1 s1 _ C (fun X => X a (or_introl eq_refl)) eq_refl eq_refl eq_refl Hv) as (A & B & N & y & c & Y & K).
          run Y. destruct r1 as [p1|].
          + specialize (N _ eq_refl). eapply IH in H; [|eapply here_move; [exact C| |exact A|exact B|exact N]; intros X b I; apply X; right; exact I].
            destruct H as (A2 & B2 & N2 & y2 & c2 & Y2 & K2). rewrite Y2. repeat split; try congruence. fin y2.
          + inj H. repeat split; auto. fin y.
      Qed.

      Lemma trep_sim : forall n n' b p s v, n <= n' -> cond b p s ->
        tsim (fr s) (s_pred s) (p_end p) (t_rep rec n b p s) (t_rep rec0 n' b p (set_prev s v)).
      Proof.
        induction n as [|n IH]; intros n' b p s v L C r s' k' H; cbn [t_rep] in *; [discriminate|]. destruct n' as [|n']; [lia|]. cbn [t_rep].
        tmon H. destruct v0 as [r1 s1].
        destruct (S' _ b p s p s v r1 s1 _ C (fun X => X) eq_refl eq_refl eq_refl Hv) as (A & B & N & y & c & Y & K). run Y. destruct r1 as [p1|].
        - specialize (N _ eq_refl). eapply IH in H; [|apply le_S_n; exact L|eapply here_move; [exact C|auto|exact A|exact B|exact N]].
          destruct H as (A2 & B2 & N2 & y2 & c2 & Y2 & K2). rewrite Y2. split; [congruence|]. split; [congruence|]. split; [intros t T; rewrite (N2 t T); exact N|]. fin y2.
        - inj H. split; [exact A|]. split; [exact B|]. split; [intros t T; injection T as <-; reflexivity|]. fin y.
      Qed.

      Lemma tskip_sim : forall n n' f b k p s v, n <= n' -> q f = true -> cond b p s ->
        tsim (fr s) (s_pred s) (p_end p) (t_skip E rec n f b k p s) (t_skip E rec0 n' f b k p (set_prev s v)).
      Proof.
        induction n as [|n IH]; intros n' f b k p s v L QF C r s' k' H; cbn [t_skip] in *; [discriminate|]. destruct n' as [|n']; [lia|]. cbn [t_skip].
        set (s0 := if k then finish s else s) in *.
        assert (K0 : fr s0 = fr s /\ s_pred s0 = s_pred s /\ (if k then finish (set_prev s v) else set_prev s v) = set_prev s0 v).
        { unfold s0. destruct k; [rewrite finish_prev; unfold finish; rewrite emit_args, emit_pred; auto|auto]. }
        destruct K0 as (A0 & B0 & ->). tmon H. destruct v0 as [r1 s1].
        destruct (tpred_sim f p s0 v) with (r := r1) (s' := s1) (k := k0) as (A1 & B1 & N1 & y1 & c1 & Y1 & K1); [rewrite A0; apply C|exact QF|exact Hv|].
        run Y1. tmon H. destruct v0 as [r2 s2].
        assert (K2 : fr s2 = fr s /\ s_pred s2 = s_pred s /\ (forall t, r2 = Some t -> p_end t = p_end p)
          /\ exists v', got (match r1 with Some _ => rec0 b p (set_prev s1 y1) | None => ret (None, set_prev s1 y1) end) (r2, set_prev s2 v') k1).
        { destruct r1 as [p1|].
          - eapply S'; [exact C|auto|congruence|congruence|reflexivity|exact Hv0].
          - inj Hv0. split; [congruence|]. split; [congruence|]. split; [discriminate|]. fin y1. }
        destruct K2 as (A2 & B2 & N2 & y2 & c2 & Y2 & K2). unfold tresult, ticking in Y2. unfold tresult, ticking. run Y2. destruct r2 as [p2|].
        - inj H. split; [exact A2|]. split; [exact B2|]. split; [exact N2|]. fin y2.
        - tmon H. tmon H. destruct v1 as [r3 s4].
          assert (K3 : fr v0 = fr s /\ s_pred v0 = s_pred s
            /\ (if k then reopen (set_prev s2 y2) else Ok (start_error (set_prev s2 y2))) = Ok (set_prev v0 y2)).
          { destruct k.
            - destruct (reopen_prev _ _ Hv1) as (X1 & X2 & X3). rewrite X3. split; [congruence|]. split; [congruence|reflexivity].
            - injection Hv1 as <-. rewrite start_error_prev. unfold start_error. rewrite emit_args, emit_pred. auto. }
          destruct K3 as (A3 & B3 & Y3). rewrite Y3. cbn [bind].
          destruct (bump_prev _ _ _ _ _ Hv2) as (A4 & B4 & N4 & Y4). rewrite Y4. cbn [bind]. destruct r3 as [[t p3]|].
          + specialize (N4 _ _ eq_refl).
            eapply IH in H; [|apply le_S_n; exact L|exact QF|eapply here_move; [exact C|auto|rewrite A4; exact A3|rewrite B4; exact B3|exact N4]].
            destruct H as (A5 & B5 & N5 & y5 & c5 & Y5 & K5). rewrite Y5. split; [congruence|]. split; [congruence|]. split; [intros u U; rewrite (N5 u U); exact N4|]. fin y5.
          + inj H. split; [congruence|]. split; [congruence|]. split; [discriminate|]. fin y2.
      Qed.

      Section Go.
        Variables go go0 : nat -> pos -> st -> tresult.
        Variable A : Prop.
        Hypothesis G : forall m p s v, here A p s -> tsim (fr s) (s_pred s) (p_end p) (go m p s) (go0 m p (set_prev s v)).

        Lemma G' : forall m p0 s0 p s v r s' k, here A p0 s0 -> fr s = fr s0 -> s_pred s = s_pred s0 ->
          p_end p = p_end p0 -> go m p s = Ok (r, s', k) ->
          fr s' = fr s0 /\ s_pred s' = s_pred s0 /\ (forall t, r = Some t -> p_end t = p_end p0) /\ exists v', got (go0 m p (set_prev s v)) (r, set_prev s' v') k.
        Proof.
          intros m p0 s0 p s v r s' k C X Y Z H. destruct (G m p s v (here_move _ _ _ _ _ _ _ _ _ C (fun x => x) X Y Z) _ _ _ H) as (A1 & B1 & N1 & y & Y1).
          split; [congruence|]. split; [congruence|]. split; [|exists y; exact Y1]. intros t T. rewrite <- Z. auto.
        Qed.

        Lemma tinfixes_sim : forall l lhs p s v r s' k', here A p s -> (A -> forall x, In x l -> q (ix_op x) = true) ->
          t_infixes E rec go l lhs p s = Ok (r, s', k') ->
          fr s' = fr s /\ s_pred s' = s_pred s /\ (forall t m, r = Some (t, m) -> p_end t = p_end p)
          /\ exists v', got (t_infixes E rec0 go0 l lhs p (set_prev s v)) (r, set_prev s' v') k'.
        Proof.
          induction l as [|x l IH]; intros lhs p s v r s' k' C QI H; cbn [t_infixes] in *.
          { inj H. repeat split; [discriminate|]. fin v. }
          tmon H. destruct (start_prev _ _ _ _ Hv) as (A1 & B1 & Y1). rewrite Y1. cbn [bind]. tmon H. destruct v1 as [r2 s2].
          destruct (S' _ (ix_op x) p s p v0 v r2 s2 _ C (fun a => QI a x (or_introl eq_refl)) A1 B1 eq_refl Hv0) as (A2 & B2 & N2 & y2 & c2 & Y2 & K2).
          run Y2. destruct r2 as [p2|].
          - specialize (N2 _ eq_refl). tmon H. change (mark (set_prev s v)) with (mark s).
            destruct (forward_prev _ _ _ _ Hv1) as (A3 & B3 & Y3). rewrite Y3. cbn [bind]. tmon H. destruct v2 as [p4 s4].
            assert (K : fr s4 = fr s /\ s_pred s4 = s_pred s /\ p_end p4 = p_end p
              /\ exists v', got (if ix_rhs x then '(r2, s4) <~ go0 (Datatypes.S (ix_prio x)) p2 (set_prev v1 y2) ;;
                     match r2 with Some q => ret (q, s4) | None => ret (p2, finish (start_error s4)) end
                   else ret (p2, set_prev v1 y2)) (p4, set_prev s4 v') k0).
            { destruct (ix_rhs x).
              - tmon Hv2. destruct v2 as [r5 s5].
                destruct (G' (Datatypes.S (ix_prio x)) p s p2 v1 y2 r5 s5 k1 C) as (A5 & B5 & N5 & y5 & c5 & Y5 & K5); [congruence|congruence|exact N2|exact Hv3|].
                run Y5. destruct r5 as [p5|]; inj Hv2.
                + repeat split; auto. fin y5.
                + unfold finish, start_error. rewrite !emit_args, !emit_pred. repeat split; auto. rewrite !emit_prev. fin y5.
              - inj Hv2. split; [congruence|]. split; [congruence|]. split; [exact N2|]. fin y2. }
            destruct K as (A4 & B4 & N4 & y4 & c4 & Y4 & K4). run Y4. tmon H. rewrite Hv3. cbn [bind]. inj H.
            unfold finish. rewrite emit_args, emit_pred. split; [exact A4|]. split; [exact B4|].
            split; [intros t m T; injection T as <- <-; exact N4|].
            change (set_prev (set_prev s4 y4) (Some v2)) with (set_prev (set_prev s4 (Some v2)) (Some v2)). rewrite emit_prev. fin (Some v2).
          - tmon H. change (mark (set_prev s v)) with (mark s). destruct (rollback_prev _ _ _ Hv1) as (A3 & B3 & Y3). rewrite Y3. cbn [bind].
            eapply IH in H; [|eapply here_move; [exact C|auto|congruence|congruence|reflexivity]|intros a z Z; apply QI; [exact a|right; exact Z]].
            destruct H as (A4 & B4 & N4 & y4 & c4 & Y4 & K4). rewrite Y4. split; [congruence|]. split; [congruence|]. split; [exact N4|]. fin y4.
        Qed.

        Lemma tploop_sim : forall n n' l lhs p s v, n <= n' -> here A p s -> (A -> forall x, In x l -> q (ix_op x) = true) ->
          tsim (fr s) (s_pred s) (p_end p) (t_loop E rec go n l lhs p s) (t_loop E rec0 go0 n' l lhs p (set_prev s v)).
        Proof.
          induction n as [|n IH]; intros n' l lhs p s v L C QI r s' k' H; cbn [t_loop] in *; [discriminate|]. destruct n' as [|n']; [lia|]. cbn [t_loop].
          tmon H. destruct v0 as [r1 s1]. destruct (tinfixes_sim _ _ _ _ v _ _ _ C QI Hv) as (A1 & B1 & N1 & y & c & Y & K). run Y.
          destruct r1 as [[p1 m0]|].
          - specialize (N1 _ _ eq_refl). eapply IH in H; [|apply le_S_n; exact L|eapply here_move; [exact C|auto|exact A1|exact B1|exact N1]|exact QI].
            destruct H as (A2 & B2 & N2 & y2 & c2 & Y2 & K2). rewrite Y2. split; [congruence|]. split; [congruence|]. split; [intros t T; rewrite (N2 t T); exact N1|]. fin y2.
          - inj H. split; [exact A1|]. split; [exact B1|]. split; [intros t T; injection T as <-; reflexivity|]. fin y.
        Qed.

        Lemma tprefixes_sim : forall l p s v, here A p s -> (A -> forall x, In x l -> q (px_op x) = true) ->
          tsim (fr s) (s_pred s) (p_end p) (t_prefixes E rec go l p s) (t_prefixes E rec0 go0 l p (set_prev s v)).
        Proof.
          induction l as [|x l IH]; intros p s v C QI r s' k' H; cbn [t_prefixes] in *.
          { inj H. repeat split; [discriminate|]. fin v. }
          tmon H. destruct (start_prev _ _ _ _ Hv) as (A1 & B1 & Y1). rewrite Y1. cbn [bind]. tmon H. destruct v1 as [r2 s2].
          destruct (S' _ (px_op x) p s p v0 v r2 s2 _ C (fun a => QI a x (or_introl eq_refl)) A1 B1 eq_refl Hv0) as (A2 & B2 & N2 & y2 & c2 & Y2 & K2).
          run Y2. tmon H. destruct v1 as [r3 s3].
          assert (K : fr s3 = fr s /\ s_pred s3 = s_pred s /\ (forall t, r3 = Some t -> p_end t = p_end p)
            /\ exists v', got (match r2 with Some p' => go0 (px_prio x) p' (set_prev s2 y2) | None => ret (None, set_prev s2 y2) end) (r3, set_prev s3 v') k0).
          { destruct r2 as [p2|].
            - eapply G'; [exact C|congruence|congruence|apply N2; reflexivity|exact Hv1].
            - inj Hv1. split; [congruence|]. split; [congruence|]. split; [discriminate|]. fin y2. }
          destruct K as (A3 & B3 & N3 & y3 & c3 & Y3 & K3). unfold tresult, ticking in Y3. unfold tresult, ticking. run Y3. destruct r3 as [p3|].
          - tmon H. rewrite Hv2. cbn [bind]. inj H. unfold finish. rewrite emit_args, emit_pred.
            split; [exact A3|]. split; [exact B3|]. split; [exact N3|].
            change (set_prev (set_prev s3 y3) (Some v1)) with (set_prev (set_prev s3 (Some v1)) (Some v1)). rewrite emit_prev. fin (Some v1).
          - tmon H. change (mark (set_prev s v)) with (mark s). destruct (rollback_prev _ _ _ Hv2) as (A4 & B4 & Y4). rewrite Y4. cbn [bind].
            eapply IH in H; [|eapply here_move; [exact C|auto|congruence|congruence|reflexivity]|intros a z Z; apply QI; [exact a|right; exact Z]].
            destruct H as (A5 & B5 & N5 & y5 & c5 & Y5 & K5). rewrite Y5. split; [congruence|]. split; [congruence|]. split; [exact N5|]. fin y5.
        Qed.
      End Go.

      Lemma tpratt_sim : forall t (A : Prop) n n' f f' m p s v, n <= n' -> f <= f' -> here A p s ->
        (A -> (forall a, In a (pt_atoms t) -> q a = true) /\ (forall x, In x (pt_prefixes t) -> q (px_op x) = true)
          /\ (forall x, In x (pt_infixes t) -> q (ix_op x) = true)) ->
        tsim (fr s) (s_pred s) (p_end p) (t_pratt E rec f n t m p s) (t_pratt E rec0 f' n' t m p (set_prev s v)).
      Proof.
        intros t A. induction n as [|n IH]; intros n' f f' m p s v L LF C QT r s' k' H; cbn [t_pratt] in *; [discriminate|].
        destruct n' as [|n']; [lia|]. cbn [t_pratt]. tmon H. destruct v0 as [r1 s1].
        assert (K : fr s1 = fr s /\ s_pred s1 = s_pred s /\ (forall t, r1 = Some t -> p_end t = p_end p)
          /\ exists v', got (t_prefix E rec0 (t_pratt E rec0 f' n' t) t p (set_prev s v)) (r1, set_prev s1 v') k).
        { unfold t_prefix in *. tmon Hv. destruct v0 as [r2 s2].
          destruct (tor_sim (pt_atoms t) p s v) with (r := r2) (s' := s2) (k := k0) as (A2 & B2 & N2 & y2 & c2 & Y2 & K2);
            [eapply here_move; [exact C|apply QT|reflexivity..]|exact Hv0|].
          run Y2. destruct r2 as [p2|].
          - inj Hv. split; [exact A2|]. split; [exact B2|]. split; [exact N2|]. fin y2.
          - eapply (tprefixes_sim _ (t_pratt E rec0 f' n' t) A) in Hv.
            + destruct Hv as (A3 & B3 & N3 & y3 & c3 & Y3 & K3). rewrite Y3. split; [congruence|]. split; [congruence|]. split; [exact N3|]. fin y3.
            + intros m2 p0 s0 v0 C0. apply IH; [lia|exact LF|exact C0|exact QT].
            + eapply here_move; [exact C|auto|exact A2|exact B2|reflexivity].
            + intro a. apply QT. exact a. }
        destruct K as (A1 & B1 & N1 & y1 & c1 & Y1 & K1). run Y1. destruct r1 as [p1|].
        - specialize (N1 _ eq_refl).
          eapply (tploop_sim _ (t_pratt E rec0 f' n' t) A) in H.
          + destruct H as (A3 & B3 & N3 & y3 & c3 & Y3 & K3). rewrite Y3. split; [congruence|]. split; [congruence|]. split; [intros u U; rewrite (N3 u U); exact N1|]. fin y3.
          + intros m2 p0 s0 v0 C0. apply IH; [lia|exact LF|exact C0|exact QT].
          + exact LF.
          + eapply here_move; [exact C|auto|exact A1|exact B1|exact N1].
          + intros a x X. apply QT; [exact a|]. unfold infixes in X. apply filter_In in X. apply X.
        - inj H. split; [exact A1|]. split; [exact B1|]. split; [discriminate|]. fin y1.
      Qed.

      (** The parser without the cache and without the counter; entries of the cache say what it does. *)
      Variable plain0 : nat -> pos -> st -> result.
      Hypothesis SEEN : seeing rec0 plain0.
      Hypothesis V : entries_hold E END plain0.

      Notation bare := (bare E).

      Lemma seen_ok : forall A (x : ticking A) a, seen x (Ok a) -> exists c, x = Ok (a, c).
      Proof. intros A x a H. unfold seen, forget in H. destruct x as [[b c]| |]; cbn [bind] in H; try discriminate. injection H as ->. eauto. Qed.

      Lemma tcached_sim : forall e b p s v, nth_error (g_rules g) e = Some (ECached b) -> cond e p s ->
        tsim (fr s) (s_pred s) (p_end p) (t_cached E rec b p s) (t_cached bare rec0 b p (set_prev s v)).
      Proof.
        intros e b p s v R C r s' k' H. pose proof (Q _ _ R) as QE. cbn in QE. destruct C as [AO [C|[PF PE]]]; [congruence|].
        unfold t_cached in *. change (get_from_cache bare) with (fun (s : st) (_ : nat) (_ : pos) => Ok (@None pos, s)). cbn beta.
        change (mark (set_prev s v)) with (mark s).
        rewrite emit_prev. set (s0 := emit s (EvCached b 0)) in *.
        assert (P0 : fr s0 = fr s /\ s_pred s0 = s_pred s) by (unfold s0; rewrite emit_args, emit_pred; auto). destruct P0 as [A0 B0].
        tmon H. destruct v0 as [r1 s1]. tmon H. destruct v0 as [r2 s2]. cbn [bind].
        assert (K : fr s2 = fr s /\ s_pred s2 = s_pred s /\ (forall t, r2 = Some t -> p_end t = p_end p)
          /\ exists v', got (rec0 b p (set_prev s0 v)) (r2, set_prev s2 v') k).
        { unfold get_from_cache in Hv. unfold entries_hold in V. destruct (e_cache E) as [[c evs]|].
          - mon Hv. destruct v0 as [off i]. apply index_ok in Hv1. destruct (lookup c (off, b)) as [[[se ne] nt]|] eqn:LK.
            + mon Hv. injection Hv as <- <-. inj Hv0. apply Nat.leb_le in Hg.
              assert (L16 : length (s_ctxs s0) = 16 /\ length (s_args s0) = 16).
              { destruct AO as [[L1 L2] _]. rewrite <- A0 in L1, L2. cbn [fst snd fr] in L1, L2. auto. }
              destruct (V _ _ _ _ _ p i (set_prev s0 v) LK Hg Hv1 PE (eq_trans B0 PF) (proj1 L16) (proj2 L16)) as (v' & Y).
              pose proof (SEEN b p (set_prev s0 v)) as SN. rewrite Y in SN. apply seen_ok in SN. destruct SN as (c0 & SN).
              split; [exact A0|]. split; [exact B0|]. split; [intros t T; injection T as <-; reflexivity|]. exists v', c0. rewrite SN. split; [reflexivity|lia].
            + injection Hv as <- <-. eapply (S' (q b = true)); [split; [exact AO|right; auto]|auto|exact A0|exact B0|reflexivity|exact Hv0].
          - injection Hv as <- <-. eapply (S' (q b = true)); [split; [exact AO|right; auto]|auto|exact A0|exact B0|reflexivity|exact Hv0]. }
        destruct K as (A2 & B2 & N2 & y & c & Y & K). run Y. destruct r2 as [p2|].
        - tmon H. inj H. destruct (finish_cached_prev _ _ _ Hv1) as (A3 & B3 & Y3). rewrite Y3. cbn [bind].
          split; [congruence|]. split; [congruence|]. split; [exact N2|]. fin y.
        - inj H. split; [exact A2|]. split; [exact B2|]. split; [discriminate|]. fin y.
      Qed.

      (** What makes no ticks is as without the counter. *)
      Lemma free_sim : forall a b n (x y : result), simr a b n x y -> tsim a b n (free x) (free y).
      Proof.
        intros a b n x y H r s' k X. unfold free in *. mon X. destruct v as [r1 s1]. inj X. destruct (H _ _ Hv) as (A1 & B1 & N1 & w & Y).
        split; [exact A1|]. split; [exact B1|]. split; [exact N1|]. rewrite Y. cbn [bind]. fin w.
      Qed.

      Lemma tinner_sim : forall f f' e p s v, f <= f' -> cond e p s ->
        tsim (fr s) (s_pred s) (p_end p) (t_inner E rec f e p s) (t_inner bare rec0 f' e p (set_prev s v)).
      Proof.
        intros f f' e p s v L C r s' k' H. unfold t_inner in *. tmon H. change (e_g bare) with (e_g E). rewrite Hv. cbn [bind].
        apply index_ok in Hv. rewrite EG in Hv. pose proof (Q _ _ Hv) as QE. destruct v0; cbn [quiet_rule] in QE.
        - (* pub *)
          change (t_pub bare) with (t_pub E). unfold t_pub in *. set (s0 := if replaceable then set_repl s None else s) in *.
          assert (P0 : fr s0 = fr s /\ s_pred s0 = s_pred s /\ (if replaceable then set_repl (set_prev s v) None else set_prev s v) = set_prev s0 v)
            by (unfold s0; destruct replaceable; auto).
          destruct P0 as (A0 & B0 & ->). change (mark (set_prev s0 v)) with (mark s0). tmon H. destruct (start_prev _ _ _ _ Hv0) as (A1 & B1 & Y1).
          rewrite Y1. cbn [bind]. tmon H. destruct v1 as [r2 s2].
          destruct (S' _ body p s p v0 v r2 s2 k C QE) as (A2 & B2 & N2 & y2 & c2 & Y2 & K2); [congruence|congruence|reflexivity|exact Hv1|].
          run Y2. destruct r2 as [p2|].
          + tmon H. tmon H. inj H.
            assert (K : fr v1 = fr s /\ s_pred v1 = s_pred s /\
              match replaceable, s_repl (set_prev s2 y2) with
              | true, Some rty => replace E (set_repl (set_prev s2 y2) None) (mark s0) rty
              | _, _ => Ok (set_prev s2 y2) end = Ok (set_prev v1 y2)).
            { destruct replaceable; [|injection Hv2 as <-; auto]. cbn [s_repl set_prev]. destruct (s_repl s2) as [ty'|].
              - destruct (replace_prev _ _ _ _ _ Hv2) as (A3 & B3 & Y3). split; [rewrite A3; exact A2|]. split; [rewrite B3; exact B2|]. apply Y3.
              - injection Hv2 as <-. auto. }
            destruct K as (A3 & B3 & Y3). rewrite Y3. cbn [bind]. rewrite Hv3. cbn [bind]. cbn [s_args s_pred set_prev]. unfold finish.
            change (fr (set_prev (emit v1 EvEnd) (Some v2))) with (fr (emit v1 EvEnd)). rewrite emit_args, emit_pred. split; [exact A3|]. split; [exact B3|]. split; [exact N2|]. rewrite emit_prev. fin (Some v2).
          + inj H. split; [exact A2|]. split; [exact B2|]. split; [discriminate|]. fin y2.
        - unfold t_pub_replace in *. tmon H. destruct v0 as [r1 s1].
          destruct (S' _ body p s p s v r1 s1 k C QE) as (A1 & B1 & N1 & y & c & Y & K); [reflexivity|reflexivity|reflexivity|exact Hv0|]. run Y.
          destruct r1 as [p1|]; inj H.
          + split; [exact A1|]. split; [exact B1|]. split; [exact N1|]. fin y.
          + split; [exact A1|]. split; [exact B1|]. split; [discriminate|]. fin y.
        - eapply tor_sim; [eapply here_move; [exact C|exact QE|reflexivity..]|exact H].
        - unfold t_and in *. tmon H. destruct v0 as [[n p1] s1].
          destruct (tparts_sim _ _ _ _ v _ _ _ _ (here_move _ _ _ _ _ _ _ _ _ C QE eq_refl eq_refl eq_refl) Hv0) as (A1 & B1 & N1 & y & c & Y & K). run Y.
          destruct (n <? _); [inj H; split; [exact A1|]; split; [exact B1|]; split; [discriminate|]; fin y|].
          destruct (n <? _); inj H.
          + unfold finish, start_error. rewrite !emit_args, !emit_pred. split; [exact A1|]. split; [exact B1|].
            split; [intros t T; injection T as <-; exact N1|]. rewrite !emit_prev. fin y.
          + split; [exact A1|]. split; [exact B1|]. split; [intros t T; injection T as <-; exact N1|]. fin y.
        - revert r s' k' H. apply free_sim. intros r s' H. change (parse_token bare) with (parse_token E). unfold parse_token in *. mon H. destruct v0 as [r1 s1].
          destruct (bump_prev _ _ _ _ _ Hv0) as (A1 & B1 & N1 & Y). rewrite Y. cbn [bind]. destruct r1 as [[t p1]|].
          + mon H. rewrite Hv1. cbn [bind]. destruct (v0 =? t); injection H as <- <-; (split; [exact A1|]; split; [exact B1|]; split; [|exists v; reflexivity]).
            * intros u U. injection U as <-. eapply N1; reflexivity.
            * discriminate.
          + injection H as <- <-. split; [exact A1|]. split; [exact B1|]. split; [discriminate|exists v; reflexivity].
        - revert r s' k' H. apply free_sim. intros r s' H. change (bump_by_text bare) with (bump_by_text E). destruct (by_text_prev _ _ _ _ _ _ _ H) as (A1 & B1 & N1 & Y).
          split; [exact A1|]. split; [exact B1|]. split; [exact N1|]. exists v. apply Y.
        - eapply trep_sim; [exact L|eapply here_move; [exact C|exact QE|reflexivity..]|exact H].
        - change (t_skip bare) with (t_skip E).
          eapply tskip_sim; [exact L|apply QE|eapply here_move; [exact C|apply QE|reflexivity..]|exact H].
        - unfold t_opt in *. tmon H. destruct v0 as [r1 s1].
          destruct (S' _ body p s p s v r1 s1 k C QE) as (A1 & B1 & N1 & y & c & Y & K); [reflexivity|reflexivity|reflexivity|exact Hv0|]. run Y.
          destruct r1 as [p1|]; inj H; (split; [exact A1|]; split; [exact B1|]; split; [|fin y]).
          + exact N1.
          + intros t T. injection T as <-. reflexivity.
        - unfold t_not in *. tmon H. destruct v0 as [r1 s1]. destruct (tpred_sim body p s v) with (r := r1) (s' := s1) (k := k) as (A1 & B1 & N1 & y & c & Y & K);
            [apply C|exact QE|exact Hv0|]. run Y.
          destruct r1 as [p1|]; inj H; (split; [exact A1|]; split; [exact B1|]; split; [|fin y]).
          + discriminate.
          + intros t T. injection T as <-. reflexivity.
        - revert r s' k' H. apply free_sim. intros r s' H. unfold parse_eof in *. destruct (p_empty p); injection H as <- <-; (split; [reflexivity|]; split; [reflexivity|]; split; [|exists v; reflexivity]).
          + intros t T. injection T as <-. reflexivity.
          + discriminate.
        - revert r s' k' H. apply free_sim. intros r s' H. change (parse_any bare) with (parse_any E). unfold parse_any in *. mon H. destruct v0 as [r1 s1].
          destruct (bump_prev _ _ _ _ _ Hv0) as (A1 & B1 & N1 & Y). rewrite Y. cbn [bind].
          destruct r1 as [[t p1]|]; injection H as <- <-; (split; [exact A1|]; split; [exact B1|]; split; [|exists v; reflexivity]).
          + intros u U. injection U as <-. eapply N1; reflexivity.
          + discriminate.
        - change (t_layer bare) with (t_layer E). unfold t_layer in *. tmon H. destruct v0 as [r1 s1].
          destruct (tpred_sim l p s v) with (r := r1) (s' := s1) (k := k) as (A1 & B1 & N1 & y & c & Y & K); [apply C|apply QE|exact Hv0|]. run Y.
          destruct r1 as [p1|]; [|inj H; split; [exact A1|]; split; [exact B1|]; split; [discriminate|fin y]].
          tmon H. destruct v0 as [r2 s2].
          destruct (S e0 (mkPos (p_cur p) (p_cur p1)) s1 y) with (r := r2) (s' := s2) (k := k0) as (A2 & B2 & N2 & y2 & c2 & Y2 & K2);
            [split; [rewrite A1; apply C|left; apply QE]|exact Hv1|]. run Y2.
          destruct (p_empty _).
          + inj H. split; [congruence|]. split; [congruence|]. split; [exact N1|fin y2].
          + tmon H. destruct v0 as [p3 s3]. rewrite start_error_prev. destruct (bump_all_prev _ _ _ _ _ _ Hv2) as (A3 & B3 & Y3). rewrite Y3. cbn [bind].
            inj H. unfold start_error in A3, B3. rewrite emit_args in A3. rewrite emit_pred in B3. unfold finish.
            rewrite emit_args, emit_pred. split; [congruence|]. split; [congruence|]. split; [exact N1|]. rewrite emit_prev. fin y2.
        - change (t_pratt bare) with (t_pratt E). eapply tpratt_sim; [exact L|exact L|exact C|exact QE|exact H].
        - unfold t_enter in *. tmon H. cbn [s_ctxs set_prev]. rewrite Hv0. cbn [bind]. tmon H. destruct v1 as [r1 s1]. tmon H. inj H.
          destruct (S' _ e0 p s p (set_ctxs s (set_nth ctx true (s_ctxs s))) v r1 s1 k C QE) as (A1 & B1 & N1 & y & c & Y & K);
            [unfold fr; cbn [s_args s_ctxs set_ctxs]; rewrite set_nth_length; reflexivity|reflexivity|reflexivity|exact Hv1|].
          change (set_ctxs (set_prev s v) (set_nth ctx true (s_ctxs s))) with (set_prev (set_ctxs s (set_nth ctx true (s_ctxs s))) v). run Y.
          cbn [bind s_ctxs set_prev]. rewrite Hv2. cbn [bind]. split; [rewrite <- A1; unfold fr; cbn [s_args s_ctxs set_ctxs]; rewrite set_nth_length; reflexivity|].
          split; [exact B1|]. split; [exact N1|]. fin y.
        - unfold t_enter in *. tmon H. cbn [s_ctxs set_prev]. rewrite Hv0. cbn [bind]. tmon H. destruct v1 as [r1 s1]. tmon H. inj H.
          destruct (S' _ e0 p s p (set_ctxs s (set_nth ctx false (s_ctxs s))) v r1 s1 k C QE) as (A1 & B1 & N1 & y & c & Y & K);
            [unfold fr; cbn [s_args s_ctxs set_ctxs]; rewrite set_nth_length; reflexivity|reflexivity|reflexivity|exact Hv1|].
          change (set_ctxs (set_prev s v) (set_nth ctx false (s_ctxs s))) with (set_prev (set_ctxs s (set_nth ctx false (s_ctxs s))) v). run Y.
          cbn [bind s_ctxs set_prev]. rewrite Hv2. cbn [bind]. split; [rewrite <- A1; unfold fr; cbn [s_args s_ctxs set_ctxs]; rewrite set_nth_length; reflexivity|].
          split; [exact B1|]. split; [exact N1|]. fin y.
        - revert r s' k' H. apply free_sim. intros r s' H. unfold parse_is_in in *. mon H. cbn [s_ctxs set_prev]. rewrite Hv0. cbn [bind].
          destruct v0; injection H as <- <-; (split; [reflexivity|]; split; [reflexivity|]; split; [|exists v; reflexivity]).
          + intros t T. injection T as <-. reflexivity.
          + discriminate.
        - change (t_call bare) with (t_call E). unfold t_call in *. tmon H. cbn [s_args set_prev]. rewrite Hv0. cbn [bind].
          tmon H. destruct v1 as [r1 s1]. inj H.
          destruct (S body p (set_args s v0) v) with (r := r1) (s' := s1) (k := k) as (A1 & B1 & N1 & y & c & Y & K).
          + split; [eapply (bind_args_ok g); [exact EG|exact Hv0|apply C|apply QE]|]. destruct C as [_ [C|C]]; [left; apply QE; exact C|right; exact C].
          + exact Hv1.
          + change (set_args (set_prev s v) v0) with (set_prev (set_args s v0) v). run Y.
            split; [unfold fr in *; cbn [s_args s_ctxs set_args] in *; injection A1 as _ A1; rewrite A1; reflexivity|].
            split; [exact B1|]. split; [exact N1|]. fin y.
        - unfold t_var in *. tmon H. tmon H. cbn [s_args set_prev]. rewrite Hv0. cbn [bind]. rewrite Hv1. cbn [bind].
          eapply S; [|exact H]. destruct C as [AO C]. split; [exact AO|]. destruct C as [C|C]; [left|right; exact C].
          apply index_ok in Hv0. destruct v0 as [x|]; cbn [unwrap] in Hv1; [|discriminate]. injection Hv1 as <-. eapply AO; [exact Hv0|auto].
        - destruct QE.
        - unfold t_inject in *. tmon H. destruct v0 as [r1 s1]. change (mark (set_prev s v)) with (mark s).
          destruct (S' _ pre p s p s v r1 s1 k C (fun x => proj1 (QE x))) as (A1 & B1 & N1 & y & c & Y & K); [reflexivity|reflexivity|reflexivity|exact Hv0|]. run Y.
          destruct r1 as [p1|]; [|inj H; split; [exact A1|]; split; [exact B1|]; split; [discriminate|fin y]].
          tmon H. destruct v0 as [r2 s2].
          destruct (S' _ body p s p1 s1 y r2 s2 k0 C (fun x => proj2 (QE x))) as (A2 & B2 & N2 & y2 & c2 & Y2 & K2); [exact A1|exact B1|apply N1; reflexivity|exact Hv1|].
          run Y2. destruct r2 as [p2|]; [|inj H; split; [exact A2|]; split; [exact B2|]; split; [discriminate|fin y2]].
          tmon H. inj H. change (mark (set_prev s1 y)) with (mark s1). destruct (pos_eqb p1 p).
          + injection Hv2 as <-. cbn [bind]. split; [exact A2|]. split; [exact B2|]. split; [exact N2|fin y2].
          + destruct (forward_prev _ _ _ _ Hv2) as (A3 & B3 & Y3). rewrite Y3. cbn [bind].
            split; [congruence|]. split; [congruence|]. split; [exact N2|fin y2].
        - eapply tcached_sim; [exact Hv|exact C|exact H].
      Qed.

      Lemma tstep_sim : forall f f' e p s v, f <= f' -> cond e p s ->
        tsim (fr s) (s_pred s) (p_end p) (t_step E rec f e p s) (t_step bare rec0 f' e p (set_prev s v)).
      Proof.
        intros f f' e p s v L C r s' k' H. unfold t_step, tick in *. mon H. destruct v0 as [[r0 s0] k0]. injection H as <- <- <-. tmon Hv. destruct v0 as [r1 s1].
        change (mark (set_prev s v)) with (mark s).
        destruct (tinner_sim f f' e p s v L C r1 s1 k Hv0) as (A1 & B1 & N1 & y & c & Y & K). run Y. destruct r1 as [p1|].
        - inj Hv. split; [exact A1|]. split; [exact B1|]. split; [exact N1|fin y].
        - tmon Hv. inj Hv. destruct (rollback_prev _ _ _ Hv1) as (A2 & B2 & Y2). rewrite Y2. cbn [bind].
          split; [congruence|]. split; [congruence|]. split; [discriminate|fin y].
      Qed.
    End Rec.

    Lemma tparse_sim : forall K, cache_holds E END K -> forall f e p s v, cond e p s ->
      tsim (fr s) (s_pred s) (p_end p) (t_expr E f e p s) (t_expr (bare E) (K + f) e p (set_prev s v)).
    Proof.
      intros K HK. induction f as [|f IH]; intros e p s v C; [intros r s' k H; discriminate|].
      rewrite Nat.add_succ_r. cbn [t_expr]. eapply tstep_sim; [exact IH|apply expr_seen|apply HK; lia|lia|exact C].
    Qed.
  End Sim.

  Lemma tevents_sim : forall E K f evs k, e_g E = g -> quiet -> cache_holds E (fun n => n = length (e_idx E)) K -> t_events E f = Ok (evs, k) ->
    exists c, t_events (bare E) (K + f) = Ok (evs, c) /\ k <= c.
  Proof.
    intros E K f evs k EG Q HK H. unfold t_events in *. tmon H. destruct v as [r s1].
    destruct (tparse_sim E EG (fun n => n = length (e_idx E)) Q K HK f 0 (new_pos E) new_st None) with (r := r) (s' := s1) (k := k0) as (A & B & N & y & c & Y & KC).
    { split; [|right; split; reflexivity]. split; [split; reflexivity|]. intros i x X _. cbn [fst fr s_args new_st] in X. destruct (Nat.lt_ge_cases i 16) as [L|L].
      - rewrite nth_error_repeat in X by exact L. discriminate.
      - assert (nth_error (repeat (@None nat) 16) i = None) by (apply nth_error_None; rewrite repeat_length; exact L). congruence. }
    { exact Hv. }
    change (new_pos (bare E)) with (new_pos E). change (set_prev new_st None) with new_st in Y. run Y.
    tmon H. rewrite Hv0. cbn [bind]. destruct (p_empty v); [inj H; eexists; split; [unfold add, ret; cbn [bind]; reflexivity|lia]|]. tmon H. tmon H. destruct v1 as [p3 s3].
    destruct (reopen_prev _ _ Hv1) as (A2 & B2 & Y2). rewrite Y2. cbn [bind]. change (bump_all (bare E)) with (bump_all E). change (e_idx (bare E)) with (e_idx E).
    rewrite start_error_prev. destruct (bump_all_prev _ _ _ _ _ _ Hv2) as (A3 & B3 & Y3). rewrite Y3. cbn [bind].
    inj H. rewrite !finish_prev. eexists; split; [unfold add, ret; cbn [bind]; reflexivity|lia].
  Qed.
End Quiet.
