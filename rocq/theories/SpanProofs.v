(** The forests of the tree semantics cover exactly the tokens between the two positions, and can be attached. *)
From Coq Require Import List Arith Bool Lia.
From Verif Require Import Base BaseFacts LexModel LexSpec LexProofs GrammarModel ParserModel ParserProofs ForestSpec SemSpec
  SpanSpec RefineProofs ReshuffleProofs.
Import ListNotations.

Lemma spans_app : forall E k a k' b k'', spans E k a k' -> spans E k' b k'' -> spans E k (a ++ b) k''.
Proof. intros E k a k' b k'' H. induction H; intros; [auto|]. cbn. econstructor; eauto. Qed.

Lemma tokss_app : forall F G, tokss (F ++ G) = tokss F ++ tokss G.
Proof. intros. apply flat_map_app. Qed.

Lemma tokss_node : forall ty pre b, tokss [PNode ty pre b] = tokss (pre ++ b).
Proof. intros. rewrite tokss_app. unfold tokss. cbn [flat_map toks]. rewrite app_nil_r. reflexivity. Qed.

Lemma tokss_cached : forall k b, tokss [PCached k b] = tokss b.
Proof. intros. unfold tokss. cbn [flat_map toks]. rewrite app_nil_r. reflexivity. Qed.

Lemma all_attached_app : forall F G, all_attached (F ++ G) <-> all_attached F /\ all_attached G.
Proof. induction F as [|x F IH]; intros G; cbn; [tauto|]. rewrite IH. tauto. Qed.

Lemma graft_toks : forall F t t', graft F t = Some t' -> toks t' = tokss F ++ toks t.
Proof.
  intros F. fix IH 1. intros [ty pre b|ty n|k b] t' H; try discriminate. destruct pre as [|x xs]; cbn [graft] in H.
  - injection H as <-. reflexivity.
  - destruct (graft F x) as [x'|] eqn:G; [|discriminate]. injection H as <-. cbn [toks flat_map].
    rewrite (IH x x' G). rewrite <- !app_assoc. reflexivity.
Qed.

Lemma graft_attached : forall F t t' ty pre b r, F = PNode ty pre b :: r -> all_attached F -> attached t -> graft F t = Some t' ->
  attached t' /\ exists ty' pre' b', t' = PNode ty' pre' b'.
Proof.
  intros F t t' ty pre b r EF AF. revert t t'. fix IH 1. intros [ty1 pre1 b1|ty1 n|k b1] t' AT H; try discriminate.
  destruct pre1 as [|x xs]; cbn [graft] in H.
  - injection H as <-. split; [|eauto]. apply (proj1 (attached_node _ _ _)) in AT. apply (proj2 (attached_node _ _ _)). clear IH. subst F. tauto.
  - destruct (graft F x) as [x'|] eqn:G; [|discriminate]. injection H as <-. split; [|eauto].
    apply (proj1 (attached_node _ _ _)) in AT. destruct AT as (HD & AP & AB). cbn [all_attached] in AP. destruct AP as [AX AXS].
    destruct (IH x x' AX G) as (AX' & ty2 & pre2 & b2 & ->). apply (proj2 (attached_node _ _ _)). split; [exact I|]. split; [|exact AB].
    split; auto.
Qed.

Section Spans.
  Variable E : env.
  Variable is_ws : nat -> bool.
  Hypothesis IDX : e_idx E = non_ws is_ws (e_toks E).
  Hypothesis LEN : lens (e_toks E) = length (e_text E).
  Hypothesis TIGHT : tight E is_ws.

  (** What an entry of the index says. *)
  Lemma non_ws_split : forall toks len i k o raw, nth_error (non_ws_from is_ws len i toks) k = Some (o, raw) ->
    exists a t b, toks = a ++ t :: b /\ raw = i + length a /\ o = len + lens a /\ is_ws (tk_ty t) = false
      /\ length (filter (fun t => negb (is_ws (tk_ty t))) a) = k.
  Proof.
    induction toks as [|t toks IH]; intros len i k o raw H; [destruct k; discriminate|].
    cbn [non_ws_from] in H. destruct (is_ws (tk_ty t)) eqn:W.
    - destruct (IH _ _ _ _ _ H) as (a & u & b & -> & -> & -> & Wu & C). exists (t :: a), u, b. cbn [length filter]. rewrite W. cbn [negb].
      rewrite lens_cons. repeat split; auto; lia.
    - destruct k as [|k]; cbn in H.
      + injection H as <- <-. exists [], t, toks. cbn. repeat split; auto; unfold lens; cbn; lia.
      + destruct (IH _ _ _ _ _ H) as (a & u & b & -> & -> & -> & Wu & C). exists (t :: a), u, b. cbn [length filter]. rewrite W. cbn [negb length].
        rewrite lens_cons. repeat split; auto; lia.
  Qed.

  Lemma non_ws_length : forall toks len i, length (non_ws_from is_ws len i toks) = length (filter (fun t => negb (is_ws (tk_ty t))) toks).
  Proof.
    induction toks as [|t toks IH]; intros len i; [reflexivity|]. cbn. destruct (is_ws (tk_ty t)); cbn; auto.
  Qed.

  Lemma idx_split : forall k o raw, nth_error (e_idx E) k = Some (o, raw) ->
    exists a t b, e_toks E = a ++ t :: b /\ raw = length a /\ o = lens a /\ is_ws (tk_ty t) = false
      /\ length (filter (fun t => negb (is_ws (tk_ty t))) a) = k.
  Proof.
    intros k o raw H. rewrite IDX in H. apply non_ws_split in H. destruct H as (a & t & b & H). exists a, t, b. exact H.
  Qed.

  Lemma app_same_len : forall A (a b c d : list A), a ++ b = c ++ d -> length a = length c -> a = c /\ b = d.
  Proof.
    induction a as [|x a IH]; intros b [|y c] d H L; try discriminate; auto. cbn in *. injection H as -> H.
    destruct (IH b c d H) as [-> ->]; auto.
  Qed.

  Lemma lens_firstn_le : forall l n, lens (firstn n l) <= lens l.
  Proof.
    intros l n. rewrite <- (firstn_skipn n l) at 2. rewrite lens_app. lia.
  Qed.

  (** The token after entry [k] is entry [k+1] unless whitespace comes first. *)
  Lemma next_entry : forall k o raw o' raw', nth_error (e_idx E) k = Some (o, raw) -> nth_error (e_idx E) (S k) = Some (o', raw') ->
    raw' = raw + 1 \/ exists t, nth_error (e_toks E) (raw + 1) = Some t /\ is_ws (tk_ty t) = true.
  Proof.
    intros k o raw o' raw' H1 H2.
    destruct (idx_split _ _ _ H1) as (a & t & b & Ea & -> & -> & Wt & Ca).
    destruct (idx_split _ _ _ H2) as (a' & t' & b' & Ea' & -> & -> & Wt' & Ca').
    assert (L : length a < length a').
    { destruct (Nat.lt_ge_cases (length a) (length a')); auto. exfalso.
      rewrite Ea in Ea'. 
      assert (Q : a' = firstn (length a') a).
      { apply (f_equal (firstn (length a'))) in Ea'. rewrite firstn_app in Ea'. rewrite firstn_app in Ea'.
        replace (length a' - length a) with 0 in Ea' by lia. rewrite Nat.sub_diag in Ea'. cbn in Ea'.
        rewrite !app_nil_r in Ea'. rewrite firstn_all in Ea'. auto. }
      rewrite <- (firstn_skipn (length a') a) in Ca. rewrite <- Q in Ca. rewrite filter_app, app_length, Ca' in Ca. lia. }
    destruct b as [|u b].
    - exfalso. assert (X := f_equal (@length token) Ea). rewrite Ea' in X. rewrite !app_length in X. cbn in X. lia.
    - destruct (is_ws (tk_ty u)) eqn:Wu.
      + right. exists u. split; auto. rewrite Ea. rewrite nth_error_app2 by lia. replace (length a + 1 - length a) with 1 by lia. reflexivity.
      + left. destruct (Nat.eq_dec (length a') (length a + 1)); auto. exfalso.
        rewrite Ea in Ea'.
        assert (Q : firstn (length a + 2) a' = a ++ [t; u]).
        { apply (f_equal (firstn (length a + 2))) in Ea'. rewrite firstn_app in Ea'. rewrite firstn_app in Ea'.
          replace (length a + 2 - length a') with 0 in Ea' by lia. replace (length a + 2 - length a) with 2 in Ea' by lia.
          cbn [firstn] in Ea'. rewrite app_nil_r in Ea'. rewrite <- Ea'. f_equal. rewrite firstn_all2 by lia. reflexivity. }
        rewrite <- (firstn_skipn (length a + 2) a') in Ca'. rewrite Q in Ca'. rewrite !filter_app, !app_length in Ca'.
        cbn [filter length] in Ca'. rewrite Wt, Wu in Ca'. cbn in Ca'. lia.
  Qed.

  Lemma token_at_ok : forall p t, token_at E p = Ok t -> exists o raw, nth_error (e_idx E) (p_cur p) = Some (o, raw) /\ nth_error (e_toks E) raw = Some t.
  Proof.
    intros p t H. unfold token_at in H. apply bind_ok in H. destruct H as ([o raw] & H1 & H2). apply index_ok in H1. apply index_ok in H2. eauto.
  Qed.

  Lemma one_spans : forall p t q, one E p = Ok (Some (t, q)) -> spans E (p_cur p) [(t, 1)] (p_cur q) /\ p_end q = p_end p.
  Proof.
    intros p t q H. unfold one in H. destruct (p_empty p); [discriminate|]. apply bind_ok in H. destruct H as (tk & H1 & H2).
    injection H2 as <- <-. split; [|reflexivity]. destruct (token_at_ok _ _ H1) as (o & raw & I1 & I2).
    cbn [p_next p_cur]. replace (S (p_cur p)) with (p_cur p + 1) by lia. apply sp_cons; [| |apply sp_nil].
    - split; [assert (p_cur p < length (e_idx E)) by (apply nth_error_Some; congruence); lia|]. intros j L. lia.
    - left. split; auto. eauto 8.
  Qed.

  Lemma all_toks_spans : forall n p T, all_toks E n p = Ok T -> spans E (p_cur p) (tokss T) (p_end p) /\ all_attached T.
  Proof.
    induction n as [|n IH]; intros p T H; [discriminate|]. cbn [all_toks] in H. apply bind_ok in H. destruct H as ([[t q]|] & H1 & H2).
    - apply bind_ok in H2. destruct H2 as (r & H2 & H3). injection H3 as <-. destruct (one_spans _ _ _ H1) as [S1 S2].
      destruct (IH _ _ H2) as [S3 S4]. split; [|cbn; auto]. rewrite <- S2.
      change (tokss (PTok t 1 :: r)) with ([(t, 1)] ++ tokss r). eapply spans_app; eauto.
    - injection H2 as <-. unfold one in H1. destruct (p_empty p) eqn:PE.
      + unfold p_empty in PE. apply Nat.eqb_eq in PE. rewrite <- PE. split; [apply sp_nil|exact I].
      + apply bind_ok in H1. destruct H1 as (? & _ & ?). discriminate.
  Qed.

  Lemma take_text_inv : forall fuel left n p m q, take_text E fuel left n p = Ok (Some (m, q)) ->
    exists d, m = n + d /\ p_cur q = p_cur p + d /\ p_end q = p_end p /\ (0 < d -> 0 < left)
      /\ (0 < d -> exists o raw, nth_error (e_idx E) (p_cur p) = Some (o, raw))
      /\ p_cur p + d <= max (p_cur p) (length (e_idx E)).
  Proof.
    induction fuel as [|f IH]; intros left n p m q H; cbn [take_text] in H; destruct (left =? 0) eqn:L0.
    1,3: injection H as <- <-; exists 0; repeat split; try lia.
    - destruct (p_empty p); discriminate.
    - destruct (p_empty p); [discriminate|]. apply bind_ok in H. destruct H as (t & H1 & H2).
      destruct (left <? tk_len t); [discriminate|]. destruct (IH _ _ _ _ _ H2) as (d & -> & C1 & C2 & _ & _ & C3).
      apply Nat.eqb_neq in L0. destruct (token_at_ok _ _ H1) as (o & raw & I1 & _). exists (S d). cbn [p_next p_cur p_end] in *.
      assert (p_cur p < length (e_idx E)) by (apply nth_error_Some; congruence).
      repeat split; try lia. eauto.
  Qed.

  (** Tokens taken for a contextual token are adjacent. *)
  Lemma take_text_adjacent : forall o0 fin, forall fuel left n p m q o raw,
    take_text E fuel left n p = Ok (Some (m, q)) -> nth_error (e_idx E) (p_cur p) = Some (o, raw) -> o + left = fin ->
    (forall j t, raw < j -> nth_error (e_toks E) j = Some t -> is_ws (tk_ty t) = true -> fin <= lens (firstn j (e_toks E))) ->
    o0 = o ->
    exists d, m = n + d /\ (forall j, j + 1 < d -> exists o o' r, nth_error (e_idx E) (p_cur p + j) = Some (o, r)
        /\ nth_error (e_idx E) (p_cur p + j + 1) = Some (o', r + 1))
      /\ lens (sub raw (raw + d) (e_toks E)) = left.
  Proof.
    intros o0 fin fuel. revert o0. induction fuel as [|f IH]; intros o0 left n p m q o raw H IX EF WS EO; cbn [take_text] in H; destruct (left =? 0) eqn:L0.
    1,3: injection H as <- <-; exists 0; apply Nat.eqb_eq in L0; repeat split; try lia; rewrite Nat.add_0_r; unfold sub; rewrite Nat.sub_diag; cbn; unfold lens; cbn; lia.
    - destruct (p_empty p); discriminate.
    - destruct (p_empty p); [discriminate|]. apply bind_ok in H. destruct H as (t & H1 & H2).
      destruct (left <? tk_len t) eqn:LT; [discriminate|]. apply Nat.ltb_ge in LT. apply Nat.eqb_neq in L0.
      destruct (token_at_ok _ _ H1) as (o1 & raw1 & I1 & I2). rewrite IX in I1. injection I1 as <- <-.
      destruct (idx_split _ _ _ IX) as (a & t' & b & Ea & -> & -> & Wt & Ca).
      assert (t' = t) as -> by (rewrite Ea, nth_mid in I2 by reflexivity; congruence).
      assert (SUB1 : forall d, sub (length a) (length a + S d) (e_toks E) = t :: sub (length a + 1) (length a + 1 + d) (e_toks E)).
      { intros d. rewrite Ea. unfold sub. rewrite (skipn_app (length a)), skipn_all, Nat.sub_diag. cbn [skipn app].
        replace (length a + S d - length a) with (S d) by lia. cbn [firstn]. f_equal.
        replace (length a + 1 + d - (length a + 1)) with d by lia. rewrite skipn_app. rewrite skipn_all2 by lia.
        replace (length a + 1 - length a) with 1 by lia. reflexivity. }
      destruct (Nat.eq_dec (left - tk_len t) 0) as [Z|NZ].
      + rewrite Z in H2. assert (X : m = S n /\ q = p_next p) by (destruct f; cbn in H2; injection H2 as <- <-; auto).
        destruct X as [-> ->]. exists 1. split; [lia|]. split; [intros j Lj; lia|].
        rewrite SUB1. rewrite lens_cons. rewrite Nat.add_0_r. unfold sub. rewrite Nat.sub_diag. cbn [firstn]. unfold lens. cbn. lia.
      + assert (MORE : exists o' raw', nth_error (e_idx E) (S (p_cur p)) = Some (o', raw')).
        { destruct (take_text_inv _ _ _ _ _ _ H2) as (d & Em & _ & _ & _ & EX & _).
          destruct d as [|d]; [|destruct EX as (o' & raw' & X); [lia|cbn in X; eauto]].
          exfalso. destruct f; cbn [take_text] in H2; destruct (left - tk_len t =? 0) eqn:Q;
            try (apply Nat.eqb_eq in Q; lia); destruct (p_empty (p_next p)); try discriminate.
          apply bind_ok in H2. destruct H2 as (u & _ & H2). destruct (_ <? _); [discriminate|].
          destruct (take_text_inv _ _ _ _ _ _ H2) as (d & X & _). lia. }
        destruct MORE as (o' & raw' & I').
        destruct (next_entry _ _ _ _ _ IX I') as [->|(w & Iw & Ww)].
        * destruct (idx_split _ _ _ I') as (a' & t' & b' & Ea' & La' & -> & _ & _).
          assert (Q : a' = a ++ [t]).
          { rewrite Ea in Ea'. replace (a ++ t :: b) with ((a ++ [t]) ++ b) in Ea' by (rewrite <- app_assoc; reflexivity).
            symmetry. apply (proj1 (app_same_len _ _ _ _ _ Ea' ltac:(rewrite app_length; cbn; lia))). }
          assert (LA : lens a' = lens a + tk_len t) by (rewrite Q, lens_app, lens_cons; unfold lens; cbn; lia).
          destruct (IH (lens a') (left - tk_len t) (S n) (p_next p) m q (lens a') (length a + 1) H2) as (d & -> & AD & LD).
          -- exact I'.
          -- lia.
          -- intros j u Lj. apply WS. lia.
          -- reflexivity.
          -- exists (S d). split; [lia|]. split.
             ++ intros [|j] Lj.
                ** rewrite Nat.add_0_r. exists (lens a), (lens a'), (length a). split; auto. rewrite Nat.add_1_r. exact I'.
                ** destruct (AD j ltac:(lia)) as (x & y & r & X & Y). exists x, y, r. cbn [p_next p_cur] in X, Y.
                   replace (p_cur p + S j) with (S (p_cur p) + j) by lia. auto.
             ++ rewrite SUB1, lens_cons, LD. lia.
        * exfalso. assert (LW : length a < length a + 1) by lia. specialize (WS _ _ LW Iw Ww).
          rewrite Ea in WS. rewrite firstn_app in WS. replace (length a + 1 - length a) with 1 in WS by lia. cbn [firstn] in WS.
          rewrite firstn_all2 in WS by lia. rewrite lens_app, lens_cons in WS. unfold lens at 2 in WS. cbn in WS. lia.
  Qed.

  Lemma is_prefix_sub : forall pat (txt : bytes) o, is_prefix pat (skipn o txt) = true -> sub o (o + length pat) txt = pat.
  Proof.
    intros pat txt o H. apply is_prefix_spec in H. destruct H as (r & H). unfold sub. rewrite H.
    replace (o + length pat - o) with (length pat) by lia. rewrite firstn_app, firstn_all, Nat.sub_diag. cbn. apply app_nil_r.
  Qed.

  Lemma by_text_spans : forall i ty txt p q F, nth_error (g_rules (e_g E)) i = Some (EContextual ty txt) ->
    by_text E p txt ty = Ok (Some (q, F)) ->
    p_end q = p_end p /\ spans E (p_cur p) (tokss F) (p_cur q) /\ all_attached F.
  Proof.
    intros i ty txt p q F IR H. unfold by_text in H. destruct (p_empty p) eqn:PE; [discriminate|].
    apply bind_ok in H. destruct H as ([o raw] & H1 & H2). apply index_ok in H1.
    apply guard_ok in H2. destruct H2 as [_ H2]. destruct (is_prefix txt (skipn o (e_text E))) eqn:PF; [|discriminate].
    apply bind_ok in H2. destruct H2 as ([[n q']|] & H2 & H3); [|discriminate].
    apply bind_ok in H3. destruct H3 as (t & H3 & H4). injection H4 as <- <-.
    destruct (take_text_inv _ _ _ _ _ _ H2) as (d & En & C1 & C2 & _ & _ & C3). cbn in En. subst d.
    apply is_prefix_sub in PF.
    destruct (take_text_adjacent o (o + length txt) _ _ _ _ _ _ _ _ H2 H1 eq_refl (TIGHT _ _ _ IR _ _ _ H1 PF) eq_refl) as (d & Ed & AD & LD).
    cbn in Ed. subst d. split; [exact C2|]. split; [|cbn; auto]. rewrite C1. cbn [tokss flat_map toks app].
    apply sp_cons; [| |apply sp_nil].
    - split; [|exact AD]. assert (p_cur p < length (e_idx E)) by (apply nth_error_Some; congruence). lia.
    - right. exists i, ty, txt, o, raw. unfold type_of in H3. apply index_ok in H3. auto.
  Qed.

  (** ** Main induction *)
  Definition SP (p : pos) (r : option (pos * list ptree) * regs) : Prop :=
    match fst r with
    | None => True
    | Some (q, F) => p_end q = p_end p /\ spans E (p_cur p) (tokss F) (p_cur q) /\ all_attached F
    end.

  Lemma SP_nil : forall p h, SP p (Some (p, []), h).
  Proof. intros. split; [reflexivity|]. split; [apply sp_nil|exact I]. Qed.

  Lemma SP_err : forall p q F h h', SP p (Some (q, F), h) -> SP p (Some (q, F ++ [PNode ERROR [] []]), h').
  Proof.
    intros p q F h h' (A & B & C). split; [exact A|]. split; [rewrite tokss_app; cbn; rewrite app_nil_r; exact B|].
    apply (proj2 (all_attached_app _ _)). split; auto. cbn. auto.
  Qed.

  Lemma SP_app : forall p q F h q' G h' h'', SP p (Some (q, F), h) -> SP q (Some (q', G), h') -> SP p (Some (q', F ++ G), h'').
  Proof.
    intros p q F h q' G h' h'' (A & B & C) (A' & B' & C'). split; [cbn in *; congruence|]. split.
    - rewrite tokss_app. eapply spans_app; eauto.
    - apply (proj2 (all_attached_app _ _)). auto.
  Qed.

  Lemma SP_node : forall p q F h h' ty, SP p (Some (q, F), h) -> SP p (Some (q, [PNode ty [] F]), h').
  Proof.
    intros p q F h h' ty (A & B & C). split; [exact A|]. split; [rewrite tokss_node; exact B|].
    cbn [all_attached]. split; auto. apply (proj2 (attached_node _ _ _)). cbn. auto.
  Qed.

  Section Rec.
    Variable rec : reader -> nat -> pos -> regs -> outcome.
    Variable fuel : nat.
    Hypothesis R : forall rd e p h r, rec rd e p h = Ok r -> SP p r.

    Ltac step H := let r := fresh "r" in let h := fresh "h" in let Q := fresh "Q" in
      apply bind_ok in H; destruct H as ([r h] & Q & H).

    Lemma or_spans : forall opts rd p h r, sem_or rec rd opts p h = Ok r -> SP p r.
    Proof.
      induction opts as [|o opts IH]; intros rd p h r H; cbn [sem_or] in H; [injection H as <-; exact I|].
      step H. destruct r0 as [x|]; [injection H as <-; apply (R _ _ _ _ _ Q)|eauto].
    Qed.

    Lemma parts_spans : forall parts rd p h n q F h1, sem_parts rec rd parts p h = Ok (n, q, F, h1) -> SP p (Some (q, F), h1).
    Proof.
      induction parts as [|a parts IH]; intros rd p h n q F h1 H; cbn [sem_parts] in H.
      - injection H as <- <- <- <-. apply SP_nil.
      - step H. destruct r as [[p' G]|]; [|injection H as <- <- <- <-; apply SP_nil].
        apply bind_ok in H. destruct H as ([[[n' q'] G'] h2] & H1 & H2). injection H2 as <- <- <- <-.
        eapply SP_app; [apply (R _ _ _ _ _ Q)|eapply IH; eauto].
    Qed.

    Lemma rep_spans : forall n rd e p h r, sem_rep rec n rd e p h = Ok r -> SP p r.
    Proof.
      induction n as [|n IH]; intros rd e p h r H; [discriminate|]. cbn [sem_rep] in H. step H.
      destruct r0 as [[p' F]|]; [|injection H as <-; apply SP_nil].
      step H. destruct r0 as [[q G]|]; injection H as <-; [|exact I].
      eapply SP_app; [apply (R _ _ _ _ _ Q)|apply (IH _ _ _ _ _ Q0)].
    Qed.

    Lemma skip_spans : forall n rd first body T p0 p h r, sem_skip E rec n rd first body T p h = Ok r ->
      SP p0 (Some (p, T), h) -> SP p0 r.
    Proof.
      induction n as [|n IH]; intros rd first body T p0 p h r H HT; [discriminate|]. cbn [sem_skip] in H. step H. step H.
      destruct r1 as [[p' F]|].
      - injection H as <-. assert (S1 : SP p (Some (p', F), h1)).
        { destruct r0; [apply (R _ _ _ _ _ Q0)|discriminate]. }
        destruct T as [|t T].
        + eapply SP_app; [|exact S1]. exact HT.
        + eapply SP_app; [|exact S1]. eapply SP_node. exact HT.
      - apply bind_ok in H. destruct H as ([[t q]|] & H1 & H2); [|injection H2 as <-; exact I].
        eapply IH; [exact H2|]. destruct (one_spans _ _ _ H1) as [S1 S2].
        eapply SP_app; [exact HT|]. split; [exact S2|]. split; [exact S1|]. cbn. auto.
      Unshelve. all: exact h.
    Qed.

    Section Pratt.
      Variable go : nat -> pos -> regs -> outcome.
      Hypothesis G : forall m p h r, go m p h = Ok r -> SP p r.

      Lemma infixes_spans : forall l rd fresh lhs p0 p h0 h r, sem_infixes E rec go rd l fresh lhs p h = Ok r ->
        SP p0 (Some (p, lhs), h0) -> SP p0 r.
      Proof.
        induction l as [|ix l IH]; intros rd fresh lhs p0 p h0 h r H HL; cbn [sem_infixes] in H; [injection H as <-; exact I|].
        apply bind_ok in H. destruct H as (t & _ & H). step H. destruct r0 as [[p' F]|]; [|eapply IH; eauto].
        apply guard_ok in H. destruct H as [CA H]. apply bind_ok in H. destruct H as ([[p'' G'] h2] & H1 & H2). injection H2 as <-.
        assert (S1 : SP p' (Some (p'', G'), h2)).
        { destruct (ix_rhs ix).
          - step H1. destruct r as [[q GG]|]; injection H1 as <- <- <-; [apply (G _ _ _ _ Q0)|].
            split; [reflexivity|]. split; [apply sp_nil|cbn; auto].
          - injection H1 as <- <- <-. apply SP_nil. }
        pose proof (SP_app _ _ _ _ _ _ _ h2 HL (SP_app _ _ _ _ _ _ _ h2 (R _ _ _ _ _ Q) S1)) as (A & B & C).
        split; [exact A|]. split; [rewrite tokss_node; exact B|]. cbn [all_attached]. split; auto.
        apply (proj1 (all_attached_app _ _)) in C. destruct C as [C1 C2]. apply (proj2 (attached_node _ _ _)). split; [|auto].
        unfold can_attach in CA. apply andb_prop in CA. destruct CA as [_ CA]. destruct lhs as [|[]]; try discriminate; auto.
      Qed.

      Lemma loop_spans : forall n l rd fresh lhs p0 p h r, sem_loop E rec go n rd l fresh lhs p h = Ok r ->
        SP p0 (Some (p, lhs), h) -> SP p0 r.
      Proof.
        induction n as [|n IH]; intros l rd fresh lhs p0 p h r H HL; [discriminate|]. cbn [sem_loop] in H. step H.
        destruct r0 as [[q L]|].
        - eapply IH; [exact H|]. apply (infixes_spans _ _ _ _ _ _ _ _ _ Q HL).
        - injection H as <-. exact HL.
      Qed.

      Lemma prefixes_spans : forall l rd p h r, sem_prefixes E rec go rd l p h = Ok r -> SP p r.
      Proof.
        induction l as [|px l IH]; intros rd p h r H; cbn [sem_prefixes] in H; [injection H as <-; exact I|].
        apply bind_ok in H. destruct H as (t & _ & H). step H. step H. destruct r1 as [[q FG]|]; [|eauto].
        injection H as <-. destruct r0 as [[p' F]|]; [|discriminate]. step Q0. destruct r as [[q' GG]|]; [|discriminate].
        injection Q0 as <- <- <-. eapply SP_node. eapply SP_app; [apply (R _ _ _ _ _ Q)|apply (G _ _ _ _ Q1)].
        Unshelve. exact h.
      Qed.

      Lemma operand_spans : forall t rd p h r, sem_operand E rec go rd t p h = Ok r -> SP p r.
      Proof.
        intros t rd p h r H. unfold sem_operand in H. step H. destruct r0 as [x|].
        - injection H as <-. apply (or_spans _ _ _ _ _ Q).
        - eapply prefixes_spans; eauto.
      Qed.
    End Pratt.

    Lemma go_spans : forall n t rd m p h r, sem_go E rec fuel n rd t m p h = Ok r -> SP p r.
    Proof.
      induction n as [|n IH]; intros t rd m p h r H; [discriminate|]. cbn [sem_go] in H. step H. destruct r0 as [[q F]|].
      - eapply loop_spans; [|exact H|]; [intros; eapply IH; eauto|]. eapply operand_spans; [|exact Q]. intros; eapply IH; eauto.
      - injection H as <-. exact I.
    Qed.

    Lemma step_spans : forall rd e p h r, sem_step E rec fuel rd e p h = Ok r -> SP p r.
    Proof.
      intros rd e p h r H. unfold sem_step in H. apply bind_ok in H. destruct H as (ex & IX & H). apply index_ok in IX.
      destruct ex.
      - unfold sem_pub in H. apply bind_ok in H. destruct H as (t & _ & H). cbv zeta in H. step H. destruct r0 as [[q F]|].
        + apply bind_ok in H. destruct H as ([ty' h2] & _ & H). injection H as <-. eapply SP_node. apply (R _ _ _ _ _ Q).
        + injection H as <-. exact I.
      - step H. destruct r0 as [[q F]|]; injection H as <-; [|exact I]. apply (R _ _ _ _ _ Q).
      - eapply or_spans; eauto.
      - unfold sem_and in H. apply bind_ok in H. destruct H as ([[[n q] F] h1] & Q & H). apply parts_spans in Q.
        destruct (n <? _); [injection H as <-; exact I|]. destruct (n <? _); injection H as <-; [eapply SP_err; eauto|exact Q].
      - apply bind_ok in H. destruct H as ([[t q]|] & H1 & H2); [|injection H2 as <-; exact I].
        apply bind_ok in H2. destruct H2 as (w & _ & H2). destruct (w =? t); injection H2 as <-; [|exact I].
        destruct (one_spans _ _ _ H1) as [S1 S2]. split; [exact S2|]. split; [exact S1|cbn; auto].
      - apply bind_ok in H. destruct H as ([[q F]|] & H1 & H2); injection H2 as <-; [|exact I].
        apply (by_text_spans _ _ _ _ _ _ IX H1).
      - eapply rep_spans; eauto.
      - eapply skip_spans; [exact H|]. apply SP_nil.
      - step H. destruct r0 as [[q F]|]; injection H as <-; [apply (R _ _ _ _ _ Q)|apply SP_nil].
      - step H. destruct r0 as [[q F]|]; injection H as <-; [exact I|apply SP_nil].
      - destruct (p_empty p); injection H as <-; [apply SP_nil|exact I].
      - apply bind_ok in H. destruct H as ([[t q]|] & H1 & H2); injection H2 as <-; [|exact I].
        destruct (one_spans _ _ _ H1) as [S1 S2]. split; [exact S2|]. split; [exact S1|cbn; auto].
      - unfold sem_layer in H. step H. destruct r0 as [[rest F0]|]; [|injection H as <-; exact I]. cbv zeta in H.
        pose proof (R _ _ _ _ _ Q) as (A0 & _ & _).
        step H.
        assert (X : exists lf F, (match r0 with Some x => x | None => (mkPos (p_cur p) (p_cur rest), []) end) = (lf, F)
                    /\ p_end lf = p_cur rest /\ spans E (p_cur p) (tokss F) (p_cur lf) /\ all_attached F).
        { destruct r0 as [[lf F]|].
          - exists lf, F. split; auto. apply (R _ _ _ _ _ Q0).
          - do 2 eexists. split; [reflexivity|]. cbn. split; auto. split; [apply sp_nil|exact I]. }
        destruct X as (lf & F & XE & B1 & B2 & B3). rewrite XE in H.
        destruct (p_empty lf) eqn:PE.
        + injection H as <-. unfold p_empty in PE. apply Nat.eqb_eq in PE. split; [exact A0|]. split; [|exact B3].
          rewrite <- B1, <- PE. exact B2.
        + apply bind_ok in H. destruct H as (T & H1 & H2). injection H2 as <-. destruct (all_toks_spans _ _ _ H1) as [C1 C2].
          split; [exact A0|]. split.
          * rewrite tokss_app, tokss_node. eapply spans_app; [exact B2|]. rewrite <- B1. exact C1.
          * apply (proj2 (all_attached_app _ _)). split; auto. cbn [all_attached]. split; auto. apply (proj2 (attached_node _ _ _)). cbn. auto.
      - eapply go_spans; eauto.
      - apply bind_ok in H. destruct H as (? & _ & H). apply (R _ _ _ _ _ H).
      - apply bind_ok in H. destruct H as (? & _ & H). apply (R _ _ _ _ _ H).
      - apply bind_ok in H. destruct H as (v & _ & H). destruct v; injection H as <-; [apply SP_nil|exact I].
      - apply bind_ok in H. destruct H as (? & _ & H). apply (R _ _ _ _ _ H).
      - apply bind_ok in H. destruct H as (? & _ & H). apply bind_ok in H. destruct H as (? & _ & H). apply (R _ _ _ _ _ H).
      - destruct (h_prev h); [|injection H as <-; exact I]. apply bind_ok in H. destruct H as (v & _ & H).
        destruct v; injection H as <-; [apply SP_nil|exact I].
      - unfold sem_inject in H. step H. destruct r0 as [[after F]|]; [|injection H as <-; exact I]. step H.
        destruct r0 as [[q G]|]; [|injection H as <-; exact I].
        pose proof (SP_app _ _ _ _ _ _ _ h1 (R _ _ _ _ _ Q) (R _ _ _ _ _ Q0)) as S1.
        destruct (pos_eqb after p); [injection H as <-; exact S1|].
        apply guard_ok in H. destruct H as [CA H]. apply bind_ok in H. destruct H as (FG & H1 & H2). injection H2 as <-.
        destruct S1 as (A & B & C). split; [exact A|].
        destruct (grafts F G) as [FG'|] eqn:GR; [|discriminate]. injection H1 as ->.
        destruct G as [|t G]; [discriminate|]. cbn [grafts] in GR. destruct (graft F t) as [t'|] eqn:Gt; [|discriminate]. injection GR as <-.
        apply (proj1 (all_attached_app _ _)) in C. destruct C as [C1 C2]. cbn [all_attached] in C2. destruct C2 as [C2 C3].
        destruct (can_fresh _ _ CA) as (ty & b & rest & EF & _).
        destruct (graft_attached F t t' _ _ _ _ EF C1 C2 Gt) as [C4 _]. split; [|cbn; auto].
        change (tokss (t' :: G)) with (toks t' ++ tokss G). rewrite (graft_toks _ _ _ Gt), <- app_assoc.
        change (toks t ++ tokss G) with (tokss (t :: G)). rewrite <- tokss_app. exact B.
      - step H. destruct r0 as [[q F]|]; injection H as <-; [|exact I]. destruct (R _ _ _ _ _ Q) as (A & B & C).
        split; [exact A|]. split; [rewrite tokss_cached; exact B|]. cbn [all_attached]. split; [apply (proj2 (attached_cached _ _)); exact C|exact I].
      Unshelve. all: exact h.
    Qed.
  End Rec.

  Lemma sem_spans : forall fuel rd e p h r, sem E fuel rd e p h = Ok r -> SP p r.
  Proof.
    induction fuel as [|f IH]; intros rd e p h r H; [discriminate|]. cbn [sem] in H. eapply step_spans; eauto.
  Qed.

  Lemma file_spans : forall fuel t, sem_file E fuel = Ok t -> spans E 0 (tokss [t]) (length (e_idx E)) /\ attached t.
  Proof.
    intros fuel t H. unfold sem_file in H. apply bind_ok in H. destruct H as ([r h] & Q & H). apply bind_ok in H.
    destruct H as ([lf F] & U & H). destruct r as [[lf' F']|]; [|discriminate]. injection U as -> ->.
    destruct (sem_spans _ _ _ _ _ _ Q) as (A & B & C). cbn [new_pos p_end p_cur] in *.
    destruct (p_empty lf) eqn:PE.
    - destruct F as [|x [|]]; try discriminate. injection H as <-. unfold p_empty in PE. apply Nat.eqb_eq in PE.
      rewrite <- A, <- PE. cbn [all_attached] in C. tauto.
    - destruct F as [|[ty pre body| |] [|]]; try discriminate. apply bind_ok in H. destruct H as (T & H1 & H2). injection H2 as <-.
      destruct (all_toks_spans _ _ _ H1) as [C1 C2]. cbn [all_attached] in C. destruct C as [C _].
      rewrite tokss_node in B |- *. split.
      + rewrite app_assoc, tokss_app, tokss_node. eapply spans_app; [exact B|]. rewrite <- A. exact C1.
      + apply (proj1 (attached_node _ _ _)) in C. apply (proj2 (attached_node _ _ _)). destruct C as (P1 & P2 & P3). split; auto. split; auto.
        apply (proj2 (all_attached_app _ _)). split; auto. cbn [all_attached]. split; auto. apply (proj2 (attached_node _ _ _)). cbn. auto.
  Qed.
End Spans.
