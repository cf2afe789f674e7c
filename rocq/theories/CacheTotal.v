(** A cache whose entries hold does not make the parser panic either: where the parser without the cache returns, so
    does the parser with it. The lookup panics at the end of the file, so the cached rules must not be tried there. *)
From Coq Require Import List Arith Bool Lia.
From Verif Require Import Base BaseFacts LexModel GrammarModel ParserModel ParserProofs MonoProofs ReparseSpec CacheProofs.
Import ListNotations.

Section Total.
  Variable g : grammar.
  Variables q qa late : nat -> bool.

  (** Rules that fail at the end of the file. *)
  Fixpoint stops (n e : nat) : bool :=
    match n with
    | 0 => false
    | S k => match nth_error (g_rules g) e with
        | Some (EToken _) | Some (EContextual _ _) | Some EAny => true
        | Some (EPub _ b _) | Some (EPubReplace _ b) => stops k b
        | Some (EOr l) => forallb (stops k) l
        | Some (EAnd (a :: _) None) => stops k a
        | _ => false
        end
    end.

  (** [late e]: [e] is only tried before the end of the file. Below the rules that are not quiet, cached rules are late. *)
  Definition fits (e b : nat) : bool := q b || negb (late b) || late e.
  Definition punctual (n e : nat) (x : expr) : bool := q e ||
    match x with
    | EPub _ b _ => fits e b
    | EOr l => forallb (fits e) l
    | EAnd [] _ => true
    | EAnd (a :: l) _ => fits e a && forallb (fun b => q b || negb (late b)) l
    | ERep b => q b || negb (late b)
    | EWithSkip f _ => stops n f
    | ECached _ => late e
    | _ => false
    end.

  Variable E : env.
  Hypothesis EG : e_g E = g.
  Hypothesis Q : quiet g q qa.
  Variable N : nat.
  Hypothesis P : forall e x, nth_error (g_rules g) e = Some x -> punctual N e x = true.
  Notation END := (length (e_idx E)).
  Notation B := (bare E).
  Notation args_ok := (args_ok q qa).

  Lemma bump_inside : forall s p t p' s', bump E s p = Ok (Some (t, p'), s') -> p_cur p < END.
  Proof.
    intros s p t p' s' H. unfold bump in H. destruct (p_empty p); [discriminate|]. mon H. unfold token_at in Hv. mon Hv.
    exact (index_lt _ _ _ _ Hv0).
  Qed.

  Lemma stops_ok : forall n e f p s p' s', stops n e = true -> parse_expr B f e p s = Ok (Some p', s') -> p_cur p < END.
  Proof.
    induction n as [|n IH]; intros e f p s p' s' ST H; [discriminate|]. cbn [stops] in ST. destruct f as [|f]; [discriminate|].
    cbn [parse_expr] in H. unfold parse_step in H. mon H. destruct v as [r1 s1]. destruct r1 as [p1|]; [|mon H; discriminate]. clear H.
    unfold parse_inner in Hv. mon Hv. change (e_g B) with (e_g E) in Hv0. apply index_ok in Hv0. rewrite EG in Hv0. rewrite Hv0 in ST. clear Hv0.
    destruct v; try discriminate ST.
    - unfold parse_pub in Hv. mon Hv. mon Hv. destruct v0 as [r2 s2]. destruct r2 as [p2|]; [|discriminate]. exact (IH _ _ _ _ _ _ ST Hv1).
    - unfold parse_pub_replace in Hv. mon Hv. destruct v as [r2 s2]. destruct r2 as [p2|]; [|discriminate]. exact (IH _ _ _ _ _ _ ST Hv0).
    - revert s Hv. induction parts as [|a l IHl]; intros s Hv; cbn [parse_or] in Hv; [discriminate|]. cbn [forallb] in ST. apply andb_true_iff in ST. destruct ST as [S1 S2].
      mon Hv. destruct v as [r2 s2]. destruct r2 as [p2|]; [exact (IH _ _ _ _ _ _ S1 Hv0)|exact (IHl S2 _ Hv)].
    - destruct parts as [|a l]; [discriminate|]. destruct commit; [discriminate|]. unfold parse_and in Hv. mon Hv. destruct v as [[k p2] s2]. cbn [and_parts] in Hv0.
      mon Hv0. destruct v as [r3 s3]. destruct r3 as [p3|]; [exact (IH _ _ _ _ _ _ ST Hv1)|]. injection Hv0 as <- _ _. cbn [length Nat.ltb Nat.leb] in Hv. discriminate Hv.
    - unfold parse_token in Hv. mon Hv. destruct v as [r2 s2]. destruct r2 as [[t p2]|]; [|discriminate]. exact (bump_inside _ _ _ _ _ Hv0).
    - unfold bump_by_text in Hv. destruct (p_empty p); [discriminate|]. mon Hv. exact (index_lt _ _ _ _ Hv0).
    - unfold parse_any in Hv. mon Hv. destruct v as [r2 s2]. destruct r2 as [[t p2]|]; [|discriminate]. exact (bump_inside _ _ _ _ _ Hv0).
  Qed.

  Lemma twin_back : twin B (e_cache E) = E.
  Proof. destruct E. reflexivity. Qed.

  (** Where nothing is cached below. *)
  Lemma quiet_sim : forall f e p s v, args_ok (fr s) -> q e = true ->
    simr (fr s) (s_pred s) (p_end p) (parse_expr B f e p s) (parse_expr E f e p (set_prev s v)).
  Proof.
    assert (H : forall f e p s v, cond q qa (fun _ => False) e p s -> simr (fr s) (s_pred s) (p_end p) (parse_expr B f e p s) (parse_expr E f e p (set_prev s v))).
    { induction f as [|f IH]; intros e p s v C; [intros r s' H; discriminate|]. cbn [parse_expr].
      pose proof (step_sim g q qa B EG (fun _ => False) Q (parse_expr B f) (parse_expr E f) IH (e_cache E) f f e p s v) as H. rewrite twin_back in H.
      apply H; [|lia|exact C]. intros e0 b p0 s0 v0 R [_ [C0|[_ []]]]. pose proof (Q _ _ R) as X. cbn in X. congruence. }
    intros f e p s v AO QE. apply H. split; [exact AO|left; exact QE].
  Qed.

  Definition due (e : nat) (p : pos) (s : st) : Prop :=
    args_ok (fr s) /\ (q e = true \/ (s_pred s = false /\ p_end p = END /\ (late e = true -> p_cur p < END))).

  Lemma due_fits : forall e b p s s', due e p s -> fits e b = true -> q e = false -> fr s' = fr s -> s_pred s' = s_pred s -> due b p s'.
  Proof.
    intros e b p s s' [AO D] F QE X Y. split; [rewrite X; exact AO|]. destruct D as [D|(D1 & D2 & D3)]; [congruence|]. rewrite Y.
    unfold fits in F. apply orb_true_iff in F. destruct F as [F|F]; [apply orb_true_iff in F; destruct F as [F|F]|]; [left; exact F| |right; auto].
    right. split; [exact D1|]. split; [exact D2|]. apply negb_true_iff in F. congruence.
  Qed.

  Lemma due_any : forall e b p s p' s', due e p s -> q b || negb (late b) = true -> q e = false -> fr s' = fr s -> s_pred s' = s_pred s -> p_end p' = p_end p -> due b p' s'.
  Proof.
    intros e b p s p' s' [AO D] F QE X Y Z. split; [rewrite X; exact AO|]. destruct D as [D|(D1 & D2 & D3)]; [congruence|]. rewrite Y, Z.
    apply orb_true_iff in F. destruct F as [F|F]; [left; exact F|]. right. split; [exact D1|]. split; [exact D2|]. apply negb_true_iff in F. congruence.
  Qed.

  (** The entries lie within the recorded events. *)
  Definition entries_fit : Prop := match e_cache E with
    | None => True
    | Some (c, evs) => forall k se ne nt, lookup c k = Some (se, ne, nt) -> se + ne <= length evs
    end.

  Variable K : nat.
  Hypothesis HK : cache_holds E (fun n => n = END) K.
  Hypothesis FIT : entries_fit.

  Section Step.
    Variable f : nat.
    Notation rec := (parse_expr B f).
    Notation rec0 := (parse_expr E f).
    Hypothesis S : forall e p s v, due e p s -> simr (fr s) (s_pred s) (p_end p) (rec e p s) (rec0 e p (set_prev s v)).

    Lemma S2 : forall e p s v r s', due e p s -> rec e p s = Ok (r, s') ->
      fr s' = fr s /\ s_pred s' = s_pred s /\ (forall t, r = Some t -> p_end t = p_end p) /\ exists v', rec0 e p (set_prev s v) = Ok (r, set_prev s' v').
    Proof. intros e p s v r s' D H. exact (S e p s v D r s' H). Qed.

    Lemma or_total : forall e l p s v, due e p s -> q e = false -> forallb (fits e) l = true ->
      simr (fr s) (s_pred s) (p_end p) (parse_or rec l p s) (parse_or rec0 l p (set_prev s v)).
    Proof.
      intros e. induction l as [|a l IH]; intros p s v D QE F r s' H; cbn [parse_or] in *.
      - injection H as <- <-. repeat split; [discriminate|]. exists v. reflexivity.
      - cbn [forallb] in F. apply andb_true_iff in F. destruct F as [F1 F2]. mon H. destruct v0 as [r1 s1].
        destruct (S2 a p s v r1 s1 (due_fits _ _ _ _ _ D F1 QE eq_refl eq_refl) Hv) as (A & C & M & y & Y). rewrite Y. cbn [bind]. destruct r1 as [p1|].
        + injection H as <- <-. repeat split; auto. exists y. reflexivity.
        + rewrite <- A, <- C. eapply IH; [|exact QE|exact F2|exact H]. destruct D as [AO D]. split; [rewrite A; exact AO|rewrite C; exact D].
    Qed.

    Lemma parts_total : forall e p s, due e p s -> q e = false -> forall l n p1 s1 v m p' s', fr s1 = fr s -> s_pred s1 = s_pred s -> p_end p1 = p_end p ->
      forallb (fun b => q b || negb (late b)) l = true -> and_parts rec l n p1 s1 = Ok (m, p', s') ->
      fr s' = fr s /\ s_pred s' = s_pred s /\ p_end p' = p_end p /\ exists v', and_parts rec0 l n p1 (set_prev s1 v) = Ok (m, p', set_prev s' v').
    Proof.
      intros e p s D QE. induction l as [|a l IH]; intros n p1 s1 v m p' s' X Y Z F H; cbn [and_parts] in *.
      - injection H as <- <- <-. repeat split; auto. exists v. reflexivity.
      - cbn [forallb] in F. apply andb_true_iff in F. destruct F as [F1 F2]. mon H. destruct v0 as [r2 s2].
        destruct (S2 a p1 s1 v r2 s2 (due_any _ _ _ _ _ _ D F1 QE X Y Z) Hv) as (A & C & M & y & W). rewrite W. cbn [bind]. destruct r2 as [p2|].
        + specialize (M _ eq_refl). eapply IH; [congruence|congruence|congruence|exact F2|exact H].
        + injection H as <- <- <-. split; [congruence|]. split; [congruence|]. split; [exact Z|]. exists y. reflexivity.
    Qed.

    Lemma rep_total : forall e b n p s v, due e p s -> q e = false -> q b || negb (late b) = true ->
      simr (fr s) (s_pred s) (p_end p) (rep_loop rec n b p s) (rep_loop rec0 n b p (set_prev s v)).
    Proof.
      intros e b n p s v D QE F.
      assert (G : forall n p1 s1 v, fr s1 = fr s -> s_pred s1 = s_pred s -> p_end p1 = p_end p ->
        simr (fr s) (s_pred s) (p_end p) (rep_loop rec n b p1 s1) (rep_loop rec0 n b p1 (set_prev s1 v))).
      { clear n v. induction n as [|n IH]; intros p1 s1 v X Y Z r s' H; cbn [rep_loop] in *; [discriminate|]. mon H. destruct v0 as [r2 s2].
        destruct (S2 b p1 s1 v r2 s2 (due_any _ _ _ _ _ _ D F QE X Y Z) Hv) as (A & C & M & y & W). rewrite W. cbn [bind]. destruct r2 as [p2|].
        - specialize (M _ eq_refl). eapply IH; [congruence|congruence|congruence|exact H].
        - injection H as <- <-. split; [congruence|]. split; [congruence|]. split; [intros t T; injection T as <-; exact Z|]. exists y. reflexivity. }
      exact (G n p s v eq_refl eq_refl eq_refl).
    Qed.

    Lemma skip_total : forall e a b n p s v, due e p s -> q e = false -> q a = true -> stops N a = true ->
      simr (fr s) (s_pred s) (p_end p) (skip_loop E rec n a b false p s) (skip_loop E rec0 n a b false p (set_prev s v)).
    Proof.
      intros e a b n p s v [AO D] QE QA ST. destruct D as [D|(SP & PE & _)]; [congruence|].
      assert (G : forall n k p1 s1 v, fr s1 = fr s -> s_pred s1 = s_pred s -> p_end p1 = p_end p ->
        simr (fr s) (s_pred s) (p_end p) (skip_loop E rec n a b k p1 s1) (skip_loop E rec0 n a b k p1 (set_prev s1 v))).
      2:{ exact (G n false p s v eq_refl eq_refl eq_refl). }
      clear n v. induction n as [|n IH]; intros k p1 s1 v X Y Z r s' H; cbn [skip_loop] in *; [discriminate|].
      set (s0 := if k then finish s1 else s1) in *.
      assert (K0 : fr s0 = fr s /\ s_pred s0 = s_pred s /\ (if k then finish (set_prev s1 v) else set_prev s1 v) = set_prev s0 v).
      { unfold s0. destruct k; [rewrite finish_prev; unfold finish; rewrite emit_args, emit_pred; auto|auto]. }
      destruct K0 as (A0 & B0 & ->). mon H. destruct v0 as [r1 s2].
      assert (K1 : fr s2 = fr s /\ s_pred s2 = s_pred s /\ (r1 <> None -> p_cur p1 < END) /\ exists y, parse_pred rec0 a p1 (set_prev s0 v) = Ok (r1, set_prev s2 y)).
      { unfold parse_pred in *. mon Hv. destruct v0 as [r3 s3]. injection Hv as <- <-.
        destruct (quiet_sim f a p1 (set_pred s0 true) v) with (r := r3) (s' := s3) as (A1 & C1 & M1 & y & W1); [change (fr (set_pred s0 true)) with (fr s0); rewrite A0; exact AO|exact QA|exact Hv0|].
        split; [etransitivity; [exact A1|exact A0]|]. split; [exact B0|].
        split; [intros NN; destruct r3 as [p3|]; [exact (stops_ok _ _ _ _ _ _ _ ST Hv0)|congruence]|]. exists y.
        change (set_pred (set_prev s0 v) true) with (set_prev (set_pred s0 true) v). rewrite W1. reflexivity. }
      destruct K1 as (A1 & B1 & IN & y1 & Y1). rewrite Y1. cbn [bind]. mon H. destruct v0 as [r2 s3].
      assert (K2 : fr s3 = fr s /\ s_pred s3 = s_pred s /\ (forall t, r2 = Some t -> p_end t = p_end p)
        /\ exists v', match r1 with Some _ => rec0 b p1 (set_prev s2 y1) | None => Ok (None, set_prev s2 y1) end = Ok (r2, set_prev s3 v')).
      { destruct r1 as [p2|].
        - destruct (S2 b p1 s2 y1 r2 s3) as (A2 & C2 & M2 & y2 & W2); [|exact Hv0|].
          { split; [rewrite A1; exact AO|]. right. split; [congruence|]. split; [congruence|]. intros _. apply IN. discriminate. }
          split; [congruence|]. split; [congruence|]. split; [intros t T; rewrite (M2 t T); exact Z|]. exists y2. exact W2.
        - injection Hv0 as <- <-. split; [congruence|]. split; [congruence|]. split; [discriminate|]. exists y1. reflexivity. }
      destruct K2 as (A2 & B2 & N2 & y2 & Y2). unfold result in Y2. rewrite Y2. cbn [bind]. destruct r2 as [p2|].
      - injection H as <- <-. split; [exact A2|]. split; [exact B2|]. split; [exact N2|]. exists y2. reflexivity.
      - mon H. mon H. destruct v1 as [r3 s4].
        assert (K3 : fr v0 = fr s /\ s_pred v0 = s_pred s
          /\ (if k then reopen (set_prev s3 y2) else Ok (start_error (set_prev s3 y2))) = Ok (set_prev v0 y2)).
        { destruct k.
          - destruct (reopen_prev _ _ Hv1) as (X1 & X2 & X3). rewrite X3. split; [congruence|]. split; [congruence|reflexivity].
          - injection Hv1 as <-. rewrite start_error_prev. unfold start_error. rewrite emit_args, emit_pred. auto. }
        destruct K3 as (A3 & B3 & Y3). rewrite Y3. cbn [bind].
        destruct (bump_prev _ _ _ _ _ Hv2) as (A4 & B4 & N4 & Y4). rewrite Y4. cbn [bind]. destruct r3 as [[t p3]|].
        + specialize (N4 _ _ eq_refl). eapply IH; [congruence|congruence|congruence|exact H].
        + injection H as <- <-. split; [congruence|]. split; [congruence|]. split; [discriminate|]. exists y2. reflexivity.
    Qed.

    Lemma cached_total : forall e b p s v, due e p s -> q e = false -> late e = true ->
      simr (fr s) (s_pred s) (p_end p) (parse_cached B rec b p s) (parse_cached E rec0 b p (set_prev s v)).
    Proof.
      intros e b p s v [AO D] QE LE r s' H. destruct D as [D|(SP & PE & IN)]; [congruence|]. specialize (IN LE).
      unfold parse_cached in *. change (get_from_cache B) with (fun (s : st) (_ : nat) (_ : pos) => Ok (@None pos, s)) in H. cbn beta in H.
      change (mark (set_prev s v)) with (mark s). rewrite emit_prev. set (s0 := emit s (EvCached b 0)) in *.
      assert (P0 : fr s0 = fr s /\ s_pred s0 = s_pred s) by (unfold s0; rewrite emit_args, emit_pred; auto). destruct P0 as [A0 B0].
      cbn [bind] in H. mon H. destruct v0 as [r2 s2].
      assert (D0 : due b p s0) by (split; [rewrite A0; exact AO|right; split; [congruence|split; [exact PE|intros _; exact IN]]]).
      destruct (S2 b p s0 v r2 s2 D0 Hv) as (A2 & B2 & N2 & y & Y).
      assert (X : exists v', ('(r, s1) <- get_from_cache E (set_prev s0 v) b p ;; match r with Some p' => Ok (Some p', s1) | None => rec0 b p s1 end) = Ok (r2, set_prev s2 v')).
      { unfold get_from_cache. unfold entries_fit in FIT. destruct (e_cache E) as [[c evs]|] eqn:CE; [|cbn [bind]; exists y; exact Y].
        destruct (nth_error (e_idx E) (p_cur p)) as [[off i]|] eqn:IX; [|apply nth_error_None in IX; lia]. unfold index. rewrite IX. cbn [unwrap bind].
        destruct (lookup c (off, b)) as [[[se ne] nt]|] eqn:LK; [|cbn [bind]; exists y; exact Y].
        pose proof (FIT _ _ _ _ LK) as FT. assert (FB : (se + ne <=? length evs) = true) by (apply Nat.leb_le; exact FT). rewrite FB. cbn [guard bind].
        pose proof (HK (K + f) ltac:(lia)) as EH. unfold entries_hold in EH. rewrite CE in EH.
        assert (L16 : length (s_ctxs s0) = 16 /\ length (s_args s0) = 16).
        { destruct AO as [[L1 L2] _]. rewrite <- A0 in L1, L2. cbn [fst snd fr] in L1, L2. auto. }
        destruct (EH off b se ne nt p i s0 LK FT IX PE (eq_trans B0 SP) (proj1 L16) (proj2 L16)) as (v' & W).
        destruct (parse_mono B f (K + f) ltac:(lia) b p s0) as [M|M]; [congruence|].
        assert (EQ : Ok (r2, s2) = Ok (Some (mkPos (p_cur p + nt) (p_end p)), set_prev (set_events s0 (s_events s0 ++ sub se (se + ne) evs)) v')) by congruence.
        injection EQ as -> ->. exists v. reflexivity. }
      destruct X as (v' & X). destruct (get_from_cache E (set_prev s0 v) b p) as [[r3 s3]| |]; cbn [bind] in X |- *; [|discriminate X|discriminate X].
      unfold result in X. rewrite X. cbn [bind]. destruct r2 as [p2|].
      - mon H. injection H as <- <-. destruct (finish_cached_prev _ _ _ Hv0) as (A3 & B3 & Y3). rewrite Y3. cbn [bind].
        split; [congruence|]. split; [congruence|]. split; [exact N2|]. exists v'. reflexivity.
      - injection H as <- <-. split; [congruence|]. split; [congruence|]. split; [discriminate|]. exists v'. reflexivity.
    Qed.

    Lemma inner_total : forall e p s v, due e p s -> q e = false ->
      simr (fr s) (s_pred s) (p_end p) (parse_inner B rec f e p s) (parse_inner E rec0 f e p (set_prev s v)).
    Proof.
      intros e p s v D QE r s' H. unfold parse_inner in *. mon H. change (e_g B) with (e_g E) in Hv. rewrite Hv. cbn [bind].
      apply index_ok in Hv. rewrite EG in Hv. pose proof (P _ _ Hv) as PU. pose proof (Q _ _ Hv) as QR. unfold punctual in PU. rewrite QE in PU. cbn [orb] in PU.
      destruct v0; cbn [quiet_rule] in QR; try discriminate PU.
      - change (parse_pub B) with (parse_pub E) in H. unfold parse_pub in *. set (s0 := if replaceable then set_repl s None else s) in *.
        assert (P0 : fr s0 = fr s /\ s_pred s0 = s_pred s /\ (if replaceable then set_repl (set_prev s v) None else set_prev s v) = set_prev s0 v)
          by (unfold s0; destruct replaceable; auto).
        destruct P0 as (A0 & B0 & ->). change (mark (set_prev s0 v)) with (mark s0). mon H. destruct (start_prev _ _ _ _ Hv0) as (A1 & B1 & Y1).
        rewrite Y1. cbn [bind]. mon H. destruct v1 as [r2 s2].
        destruct (S2 body p v0 v r2 s2) as (A2 & B2 & N2 & y2 & Y2); [eapply due_fits; [exact D|exact PU|exact QE|congruence|congruence]|exact Hv1|].
        rewrite Y2. cbn [bind]. destruct r2 as [p2|].
        + mon H. mon H. injection H as <- <-.
          assert (K0 : fr v1 = fr s /\ s_pred v1 = s_pred s /\
            match replaceable, s_repl (set_prev s2 y2) with
            | true, Some rty => replace E (set_repl (set_prev s2 y2) None) (mark s0) rty
            | _, _ => Ok (set_prev s2 y2) end = Ok (set_prev v1 y2)).
          { destruct replaceable; [|injection Hv2 as <-; split; [congruence|split; [congruence|reflexivity]]]. cbn [s_repl set_prev]. destruct (s_repl s2) as [ty'|].
            - destruct (replace_prev _ _ _ _ _ Hv2) as (A3 & B3 & Y3). change (fr (set_repl s2 None)) with (fr s2) in A3. change (s_pred (set_repl s2 None)) with (s_pred s2) in B3.
              split; [congruence|]. split; [congruence|]. apply Y3.
            - injection Hv2 as <-. split; [congruence|split; [congruence|reflexivity]]. }
          destruct K0 as (A3 & B3 & Y3). rewrite Y3. cbn [bind]. rewrite Hv3. cbn [bind]. cbn [s_args s_pred set_prev]. unfold finish.
          change (fr (set_prev (emit v1 EvEnd) (Some v2))) with (fr (emit v1 EvEnd)). rewrite emit_args, emit_pred. split; [exact A3|]. split; [exact B3|]. split; [exact N2|]. exists (Some v2). rewrite emit_prev. reflexivity.
        + injection H as <- <-. split; [congruence|]. split; [congruence|]. split; [discriminate|]. exists y2. reflexivity.
      - eapply or_total; [exact D|exact QE|exact PU|exact H].
      - unfold parse_and in *. mon H. destruct v0 as [[n p1] s1].
        assert (X : fr s1 = fr s /\ s_pred s1 = s_pred s /\ p_end p1 = p_end p /\ exists v', and_parts rec0 parts 0 p (set_prev s v) = Ok (n, p1, set_prev s1 v')).
        { destruct parts as [|a l]; [injection Hv0 as <- <- <-; repeat split; exists v; reflexivity|]. apply andb_true_iff in PU. destruct PU as [F1 F2].
          cbn [and_parts] in *. mon Hv0. destruct v0 as [r2 s2].
          destruct (S2 a p s v r2 s2 (due_fits _ _ _ _ _ D F1 QE eq_refl eq_refl) Hv1) as (A & C & M & y & W). rewrite W. cbn [bind]. destruct r2 as [p2|].
          - specialize (M _ eq_refl). exact (parts_total e p s D QE l 1 p2 s2 y n p1 s1 A C M F2 Hv0).
          - injection Hv0 as <- <- <-. split; [exact A|]. split; [exact C|]. split; [reflexivity|]. exists y. reflexivity. }
        destruct X as (A1 & B1 & N1 & y & Y). rewrite Y. cbn [bind].
        destruct (n <? _); [injection H as <- <-; split; [exact A1|]; split; [exact B1|]; split; [discriminate|]; exists y; reflexivity|].
        destruct (n <? _); injection H as <- <-.
        + unfold finish, start_error. rewrite !emit_args, !emit_pred. split; [exact A1|]. split; [exact B1|].
          split; [intros t T; injection T as <-; exact N1|]. exists y. rewrite !emit_prev. reflexivity.
        + split; [exact A1|]. split; [exact B1|]. split; [intros t T; injection T as <-; exact N1|]. exists y. reflexivity.
      - eapply rep_total; [exact D|exact QE|exact PU|exact H].
      - change (skip_loop B) with (skip_loop E) in H. eapply skip_total; [exact D|exact QE|apply QR|exact PU|exact H].
      - eapply cached_total; [exact D|exact QE|exact PU|exact H].
    Qed.
  End Step.

  Lemma parse_total : forall f e p s v, due e p s -> simr (fr s) (s_pred s) (p_end p) (parse_expr B f e p s) (parse_expr E f e p (set_prev s v)).
  Proof.
    induction f as [|f IH]; intros e p s v D; [intros r s' H; discriminate|]. destruct (q e) eqn:QE; [apply quiet_sim; [apply D|exact QE]|].
    cbn [parse_expr]. intros r s' H. unfold parse_step in *. mon H. destruct v0 as [r1 s1]. change (mark (set_prev s v)) with (mark s).
    destruct (inner_total f IH e p s v D QE r1 s1 Hv) as (A1 & B1 & N1 & y & Y). rewrite Y. cbn [bind]. destruct r1 as [p1|].
    - injection H as <- <-. split; [exact A1|]. split; [exact B1|]. split; [exact N1|exists y; reflexivity].
    - mon H. injection H as <- <-. destruct (rollback_prev _ _ _ Hv0) as (A2 & B2 & Y2). rewrite Y2. cbn [bind].
      split; [congruence|]. split; [congruence|]. split; [discriminate|exists y; reflexivity].
  Qed.

  Lemma events_total : forall f evs, late 0 = false -> parse_events B f = Ok evs -> parse_events E f = Ok evs.
  Proof.
    intros f evs L0 H. unfold parse_events in *. mon H. destruct v as [r s1]. change (new_pos B) with (new_pos E) in Hv.
    destruct (parse_total f 0 (new_pos E) new_st None) with (r := r) (s' := s1) as (A & C & M & y & Y).
    { split; [|right; split; [reflexivity|split; [reflexivity|congruence]]]. split; [split; reflexivity|]. intros i x X _. cbn [fst fr s_args new_st] in X. destruct (Nat.lt_ge_cases i 16) as [L|L].
      - rewrite nth_error_repeat in X by exact L. discriminate.
      - assert (nth_error (repeat (@None nat) 16) i = None) by (apply nth_error_None; rewrite repeat_length; exact L). congruence. }
    { exact Hv. }
    change (set_prev new_st None) with new_st in Y. rewrite Y. cbn [bind].
    mon H. rewrite Hv0. cbn [bind]. destruct (p_empty v); [exact H|]. mon H. mon H. destruct v1 as [p3 s3].
    destruct (reopen_prev _ _ Hv1) as (A2 & B2 & Y2). rewrite Y2. cbn [bind]. change (bump_all B) with (bump_all E) in Hv2. change (e_idx B) with (e_idx E) in Hv2.
    rewrite start_error_prev. destruct (bump_all_prev _ _ _ _ _ _ Hv2) as (A3 & B3 & Y3). rewrite Y3. cbn [bind].
    injection H as <-. rewrite !finish_prev. reflexivity.
  Qed.
End Total.
