(** Languages used as examples and counterexamples beside the reparsing theorems, and a proof that the cached rule of
    one of them is self-contained. *)
From Coq Require Import List Arith Bool Lia.
From Verif Require Import Base BaseFacts TextModel EditModel LexModel LexSpec LexProofs TreeModel GrammarModel ParserModel
  ConvertModel ForestSpec PegSpec SpanSpec SpanProofs WindowProofs ReparseModel ReparseSpec WellFormed.
Import ListNotations.

(** One token per byte: 1 space, 2 "a", 3 "b", 4 "c", 5 "(", 6 ")", 0 (error) for anything else. *)
Definition letter_type (b : nat) : nat :=
  match b with 32 => 1 | 97 => 2 | 98 => 3 | 99 => 4 | 40 => 5 | 41 => 6 | _ => ERROR end.
Definition letter_lexer : lexer := fun txt => match txt with b :: _ => mkTok (letter_type b) 1 | [] => mkTok ERROR 1 end.
Definition letter_ws (ty : nat) : bool := ty =? 1.
Definition letters (rules : list expr) : language :=
  mkLang letter_lexer (mkGrammar (seq 0 16) rules) letter_ws (fun _ _ _ => 0).

Lemma letter_progress : progressing letter_lexer.
Proof. intros [|b r] NE; [congruence|]. cbn. lia. Qed.

Lemma letter_lookahead : one_byte_lookahead letter_lexer.
Proof.
  intros u v t _ L E. unfold t in *. destruct u as [|a u]; [cbn in L; lia|]. cbn [letter_lexer tk_len] in *.
  destruct v as [|b v]; [discriminate|]. cbn [firstn] in E. injection E as -> _. reflexivity.
Qed.

Lemma letter_toks : forall txt ts, lex letter_lexer txt = Ok ts -> ts = map (fun b => mkTok (letter_type b) 1) txt.
Proof.
  intros txt ts H. destruct (lex_ok _ txt letter_progress) as (us & E & T). rewrite H in E. injection E as <-. clear H.
  revert ts T. induction txt as [|b txt IH]; intros ts T; inversion T as [|? ? us NE LX T']; subst; [reflexivity|congruence|].
  cbn [letter_lexer tk_len skipn map] in *. f_equal. apply IH. exact T'.
Qed.

(** file: items; item, cached: "(" "a" ")". Anything else is an error token by token. *)
Definition boxes : language :=
  letters [EPub 7 1 false; ERep 2; EAnd [3; 4] None; ENot 5; EOr [6; 7]; EEof; ECached 8; EAny; EPub 8 9 false;
           EAnd [10; 11; 12] None; EToken 5; EToken 2; EToken 6].

Section Window.
  Variables u str v u' v' : bytes.
  Let tok := fun b => mkTok (letter_type b) 1.
  Let E := new_env None (l_g boxes) letter_ws (u ++ str ++ v) (map tok (u ++ str ++ v)).
  Let E' := new_env None (l_g boxes) letter_ws (u' ++ str ++ v') (map tok (u' ++ str ++ v')).

  Lemma lens_letters : forall l, lens (map tok l) = length l.
  Proof. unfold lens, sum, tok. induction l as [|b l IH]; [reflexivity|]. cbn [map fold_right tk_len length] in *. rewrite IH. reflexivity. Qed.

  Lemma idx_at : forall l off i k o raw, nth_error (non_ws_from letter_ws off i (map tok l)) k = Some (o, raw) ->
    off + k <= o < off + length l /\ raw = i + (o - off) /\ exists b, nth_error l (o - off) = Some b.
  Proof.
    induction l as [|b l IH]; intros off i k o raw H; [destruct k; discriminate|]. cbn [map non_ws_from tok tk_len tk_ty] in H.
    destruct (letter_ws (letter_type b)).
    - apply IH in H. destruct H as (A & B & c & C). cbn [length]. split; [lia|]. split; [lia|]. exists c.
      replace (o - off) with (S (o - (off + 1))) by lia. exact C.
    - destruct k as [|k]; cbn [nth_error] in H.
      + injection H as <- <-. cbn [length]. split; [lia|]. split; [lia|]. exists b. rewrite Nat.sub_diag. reflexivity.
      + apply IH in H. destruct H as (A & B & c & C). cbn [length]. split; [lia|]. split; [lia|]. exists c.
        replace (o - off) with (S (o - (off + 1))) by lia. exact C.
  Qed.

  Lemma idx_shift : forall l off i off' i' k o raw, nth_error (non_ws_from letter_ws off i (map tok l)) k = Some (o, raw) ->
    nth_error (non_ws_from letter_ws off' i' (map tok l)) k = Some (off' + (o - off), i' + (raw - i)).
  Proof.
    induction l as [|b l IH]; intros off i off' i' k o raw H; [destruct k; discriminate|].
    pose proof (idx_at (b :: l) off i k o raw H) as (A & B & _). cbn [map non_ws_from tok tk_len tk_ty] in *.
    destruct (letter_ws (letter_type b)).
    - pose proof (idx_at l _ _ _ _ _ H) as (A' & B' & _). rewrite (IH _ _ (off' + 1) (S i') _ _ _ H). f_equal. f_equal; lia.
    - destruct k as [|k]; cbn [nth_error] in *.
      + injection H as <- <-. f_equal. f_equal; lia.
      + pose proof (idx_at l _ _ _ _ _ H) as (A' & B' & _). rewrite (IH _ _ (off' + 1) (S i') _ _ _ H). f_equal. f_equal; lia.
  Qed.

  Let pre (w : bytes) := length (non_ws letter_ws (map tok w)).

  Lemma idx_parts : forall w x y, non_ws letter_ws (map tok (w ++ x ++ y))
    = non_ws letter_ws (map tok w) ++ non_ws_from letter_ws (length w) (length w) (map tok x)
      ++ non_ws_from letter_ws (length w + length x) (length w + length x) (map tok y).
  Proof.
    intros w x y. unfold non_ws. rewrite !map_app, !(non_ws_app letter_ws [] [] eq_refl), !lens_letters, !map_length. reflexivity.
  Qed.

  (** a token that starts where [x] starts is the first one of [x ++ y] *)
  Lemma first_of : forall w x y c i, nth_error (non_ws letter_ws (map tok (w ++ x ++ y))) c = Some (length w, i) -> c = pre w.
  Proof.
    intros w x y c i H. rewrite idx_parts in H. unfold pre. destruct (Nat.lt_ge_cases c (length (non_ws letter_ws (map tok w)))) as [L|L].
    - rewrite nth_error_app1 in H by exact L. unfold non_ws in H. apply idx_at in H. lia.
    - rewrite nth_error_app2 in H by exact L. destruct (Nat.lt_ge_cases (c - length (non_ws letter_ws (map tok w))) (length (non_ws_from letter_ws (length w) (length w) (map tok x)))) as [M|M].
      + rewrite nth_error_app1 in H by exact M. apply idx_at in H. lia.
      + rewrite nth_error_app2 in H by exact M. apply idx_at in H. destruct x; [cbn [map non_ws_from length] in *|cbn [length] in *]; lia.
  Qed.

  Lemma same_tokens : forall c n c' i i' o raw, nth_error (e_idx E) c = Some (length u, i) -> nth_error (e_idx E') c' = Some (length u', i') ->
    nth_error (e_idx E) (c + n) = Some (o, raw) -> o < length u + length str ->
    forall k, k <= n -> exists t, token_at E (mkPos (c + k) (length (e_idx E))) = Ok t /\ token_at E' (mkPos (c' + k) (length (e_idx E'))) = Ok t
      /\ c' + k < length (e_idx E').
  Proof.
    intros c n c' i i' o raw H H' HN LO k LK. cbn [E E' new_env e_idx] in *.
    pose proof (first_of _ _ _ _ _ H) as ->. pose proof (first_of _ _ _ _ _ H') as ->.
    set (X := non_ws_from letter_ws (length u) (length u) (map tok str)). set (X' := non_ws_from letter_ws (length u') (length u') (map tok str)).
    assert (LX : length X = length X') by (unfold X, X'; rewrite !non_ws_len; reflexivity).
    assert (NX : n < length X).
    { rewrite idx_parts in HN. unfold pre in HN. rewrite nth_error_app2 in HN by lia. replace (_ + n - _) with n in HN by lia.
      destruct (Nat.lt_ge_cases n (length X)) as [|G]; [assumption|]. rewrite nth_error_app2 in HN by exact G. apply idx_at in HN. lia. }
    destruct (nth_error X k) as [[ok rk]|] eqn:XK; [|apply nth_error_None in XK; lia].
    pose proof (idx_shift _ _ _ (length u') (length u') _ _ _ XK) as XK'. fold X' in XK'.
    pose proof (idx_at _ _ _ _ _ _ XK) as (A & B & b & C).
    assert (Q : forall w y, nth_error (map tok (w ++ str ++ y)) (length w + (ok - length u)) = Some (tok b)).
    { intros w y. rewrite nth_error_map, nth_error_app2 by lia. replace (length w + (ok - length u) - length w) with (ok - length u) by lia.
      rewrite nth_error_app1 by (apply nth_error_Some; rewrite C; discriminate). rewrite C. reflexivity. }
    exists (tok b). unfold token_at. cbn [E E' new_env e_idx e_toks p_cur]. rewrite !idx_parts. fold X X'. unfold pre.
    split; [|split].
    - rewrite (proj2 (index_ok _ _ _ (ok, rk))).
      + cbn [bind]. apply index_ok. replace rk with (length u + (ok - length u)) by lia. apply (Q u v).
      + rewrite nth_error_app2 by lia. replace (_ + k - _) with k by lia. rewrite nth_error_app1 by lia. exact XK.
    - rewrite (proj2 (index_ok _ _ _ (length u' + (ok - length u), length u' + (rk - length u)))).
      + cbn [bind]. apply index_ok. replace (length u' + (rk - length u)) with (length u' + (ok - length u)) by lia. apply (Q u' v').
      + rewrite nth_error_app2 by lia. replace (_ + k - _) with k by lia. rewrite nth_error_app1 by lia. exact XK'.
    - rewrite !app_length. lia.
  Qed.

End Window.

(** one token *)
Lemma token_step : forall D f e ty p s q s1, e_g D = l_g boxes -> nth_error (g_rules (l_g boxes)) e = Some (EToken ty) -> ty < 16 ->
  parse_expr D (S f) e p s = Ok (Some q, s1) <->
  p_cur p <> p_end p /\ exists t, token_at D p = Ok t /\ tk_ty t = ty /\ q = p_next p /\ s1 = emit s (EvToken ty 1).
Proof.
  intros D f e ty p s q s1 G R L. cbn [parse_expr]. unfold parse_step, parse_inner. rewrite G.
  rewrite (proj2 (index_ok _ _ _ _) R). cbn [bind]. unfold parse_token, bump, type_of. rewrite G.
  assert (index (g_types (l_g boxes)) ty = Ok ty) as ->. { apply index_ok. cbn [boxes letters l_g g_types]. rewrite nth_error_nth' with (d := 0) by (rewrite seq_length; exact L). f_equal. apply seq_nth. exact L. }
  unfold p_empty. destruct (Nat.eqb_spec (p_cur p) (p_end p)) as [EM|NE].
  { cbn [bind]. split; [|tauto]. intros H. apply bind_ok in H. destruct H as (x & _ & H). discriminate. }
  destruct (token_at D p) as [t| |]; cbn [bind]; try (split; [discriminate|intros (_ & t & Q & _); discriminate]).
  destruct (Nat.eqb_spec ty (tk_ty t)) as [TY|TY].
  - split.
    + intros H. injection H as <- <-. split; [exact NE|]. exists t. rewrite <- TY. auto.
    + intros (_ & t' & Q & _ & -> & ->). rewrite <- TY. reflexivity.
  - split.
    + intros H. cbn [bind] in H. apply bind_ok in H. destruct H as (x & _ & H). discriminate.
    + intros (_ & t' & Q & TY' & _). injection Q as <-. congruence.
Qed.

Lemma item_step : forall D f p s q s1, e_g D = l_g boxes -> s_pred s = false ->
  parse_expr D (S (S (S f))) 8 p s = Ok (Some q, s1) <->
  q = mkPos (p_cur p + 3) (p_end p)
  /\ s1 = set_prev (set_events s (s_events s ++ [EvStart 8 None; EvToken 5 1; EvToken 2 1; EvToken 6 1; EvEnd])) (Some 8)
  /\ (forall k, k < 3 -> p_cur p + k <> p_end p)
  /\ exists t0 t1 t2, token_at D p = Ok t0 /\ token_at D (mkPos (p_cur p + 1) (p_end p)) = Ok t1 /\ token_at D (mkPos (p_cur p + 2) (p_end p)) = Ok t2
     /\ tk_ty t0 = 5 /\ tk_ty t1 = 2 /\ tk_ty t2 = 6.
Proof.
  intros D f p s q s1 G PR. cbn [parse_expr]. unfold parse_step at 1, parse_inner at 1. rewrite G. cbn [boxes letters l_g g_rules index nth_error unwrap bind].
  unfold parse_pub, start, type_of. rewrite G. cbn [boxes letters l_g g_types seq index nth_error unwrap bind].
  unfold parse_step at 1, parse_inner at 1. rewrite G. cbn [boxes letters l_g g_rules index nth_error unwrap bind].
  unfold parse_and, and_parts.
  pose proof (fun e ty p s q s1 => token_step D f e ty p s q s1 G) as TS.
  change (parse_step D (parse_expr D f) f) with (parse_expr D (S f)). remember (parse_expr D (S f)) as run eqn:RUN. clear RUN.
  pose proof (TS 10 5 p (emit s (EvStart 8 None))) as T0. split.
  - intros H.
    destruct (run 10 p (emit s (EvStart 8 None))) as [[[p0|] a0]| |] eqn:R0; cbn [bind] in H; try discriminate.
    2:{ cbn in H. destruct (rollback a0 _) as [?| |]; cbn [bind] in H; try discriminate. destruct (rollback _ _) as [?| |]; discriminate. }
    destruct (run 11 p0 a0) as [[[p1|] a1]| |] eqn:R1; cbn [bind] in H; try discriminate.
    2:{ cbn in H. destruct (rollback a1 _) as [?| |]; cbn [bind] in H; try discriminate. destruct (rollback _ _) as [?| |]; discriminate. }
    destruct (run 12 p1 a1) as [[[p2|] a2]| |] eqn:R2; cbn [bind] in H; try discriminate.
    2:{ cbn in H. destruct (rollback a2 _) as [?| |]; cbn [bind] in H; try discriminate. destruct (rollback _ _) as [?| |]; discriminate. }
    cbn in H. injection H as <- <-.
    apply (TS 10 5) in R0; [|reflexivity|lia]. destruct R0 as (N0 & t0 & A0 & B0 & -> & ->).
    apply (TS 11 2) in R1; [|reflexivity|lia]. destruct R1 as (N1 & t1 & A1 & B1 & -> & ->).
    apply (TS 12 6) in R2; [|reflexivity|lia]. destruct R2 as (N2 & t2 & A2 & B2 & -> & ->).
    destruct p as [c e]. unfold p_next in *. cbn [p_cur p_end] in *.
    split; [f_equal; lia|]. split.
    { unfold finish, emit. rewrite PR. cbn [set_events s_pred s_events]. rewrite PR. cbn [set_events s_pred s_events]. rewrite PR.
      cbn [set_events s_pred s_events]. rewrite PR. cbn [set_events s_pred s_events]. rewrite PR. rewrite <- !app_assoc. reflexivity. }
    split.
    { intros k L. destruct k as [|[|[|k]]]; lia. }
    exists t0, t1, t2. rewrite !Nat.add_1_r. replace (c + 2) with (S (S c)) by lia. repeat (split; [assumption|]). assumption.
  - intros (-> & -> & NE & t0 & t1 & t2 & A0 & A1 & A2 & B0 & B1 & B2). destruct p as [c e]. cbn [p_cur p_end] in *.
    pose proof (NE 0 ltac:(lia)) as N0. pose proof (NE 1 ltac:(lia)) as N1. pose proof (NE 2 ltac:(lia)) as N2. clear NE T0.
    set (a0 := emit s (EvStart 8 None)). set (a1 := emit a0 (EvToken 5 1)). set (a2 := emit a1 (EvToken 2 1)). set (a3 := emit a2 (EvToken 6 1)).
    rewrite (proj2 (TS 10 5 (mkPos c e) a0 (mkPos (c + 1) e) a1 eq_refl ltac:(lia))).
    2:{ cbn [p_cur p_end]. split; [lia|]. exists t0. split; [exact A0|]. split; [exact B0|]. split; [unfold p_next; cbn; f_equal; lia|reflexivity]. }
    cbn [bind]. rewrite (proj2 (TS 11 2 (mkPos (c + 1) e) a1 (mkPos (c + 2) e) a2 eq_refl ltac:(lia))).
    2:{ cbn [p_cur p_end]. split; [lia|]. exists t1. split; [exact A1|]. split; [exact B1|]. split; [unfold p_next; cbn; f_equal; lia|reflexivity]. }
    cbn [bind]. rewrite (proj2 (TS 12 6 (mkPos (c + 2) e) a2 (mkPos (c + 3) e) a3 eq_refl ltac:(lia))).
    2:{ cbn [p_cur p_end]. split; [lia|]. exists t2. split; [exact A2|]. split; [exact B2|]. split; [unfold p_next; cbn; f_equal; lia|reflexivity]. }
    cbn [bind length Nat.ltb Nat.leb]. f_equal. f_equal.
    unfold a3, a2, a1, a0, finish, emit. rewrite PR. cbn [set_events s_pred s_events]. rewrite PR. cbn [set_events s_pred s_events]. rewrite PR.
    cbn [set_events s_pred s_events]. rewrite PR. cbn [set_events s_pred s_events]. rewrite PR. rewrite <- !app_assoc. reflexivity.
Qed.

Lemma boxes_self_contained : self_contained boxes 8.
Proof.
  intros u str v toks u' v' toks' LX LX' E E' fuel p s q s1 evs PR RUN EV _ RE p' s' i IX EN PR' _ _.
  cbn [boxes letters l_lexer] in LX, LX'. apply letter_toks in LX. apply letter_toks in LX'.
  destruct fuel as [|[|[|f]]]; try (cbn in RUN; discriminate).
  apply (proj1 (item_step E _ _ _ _ _ eq_refl PR)) in RUN. destruct RUN as (-> & -> & NE & t0 & t1 & t2 & A0 & A1 & A2 & B0 & B1 & B2).
  cbn [p_cur p_end set_prev set_events s_events] in *. apply app_inv_head in EV. subst evs.
  unfold reaches in RE. cbn [p_cur] in RE. destruct RE as [[Q _]|(_ & (i0 & I0) & o & i2 & t & I2 & T2 & LE)]; [lia|].
  replace (p_cur p + 3 - 1) with (p_cur p + 2) in I2 by lia. subst toks toks'.
  assert (L1 : 1 <= tk_len t).
  { unfold E in T2. cbn [new_env e_toks] in T2. apply nth_error_In in T2. apply in_map_iff in T2. destruct T2 as (b & <- & _). cbn. lia. }
  rewrite app_length in LE.
  assert (SAME : forall k, k <= 2 -> exists t, token_at E (mkPos (p_cur p + k) (length (e_idx E))) = Ok t
    /\ token_at E' (mkPos (p_cur p' + k) (length (e_idx E'))) = Ok t /\ p_cur p' + k < length (e_idx E')).
  { exact (same_tokens u str v u' v' _ 2 _ _ _ _ _ I0 IX I2 ltac:(lia)). }
  exists (Some 8). apply (proj2 (item_step E' _ _ _ _ _ eq_refl PR')). rewrite EN.
  destruct p as [c e], p' as [c' e']. cbn [p_cur p_end] in *. subst e'. replace (c + 3 - c) with 3 by lia.
  destruct (SAME 0 ltac:(lia)) as (x0 & X0 & X0' & Y0). destruct (SAME 1 ltac:(lia)) as (x1 & X1 & X1' & Y1). destruct (SAME 2 ltac:(lia)) as (x2 & X2 & X2' & Y2).
  unfold token_at in *. cbn [p_cur] in *. rewrite Nat.add_0_r in *.
  split; [reflexivity|]. split; [reflexivity|]. split.
  { intros k L. destruct k as [|[|[|k]]]; lia. }
  exists x0, x1, x2. split; [exact X0'|]. split; [exact X1'|]. split; [exact X2'|].
  split; [congruence|]. split; congruence.
Qed.

Lemma boxes_cached : cached_self_contained boxes.
Proof.
  intros e k H. destruct (Nat.lt_ge_cases e 13) as [L|L].
  - do 13 (destruct e as [|e]; [cbn in H; first [discriminate H|injection H as <-; exact boxes_self_contained]|]). lia.
  - assert (nth_error (g_rules (l_g boxes)) e = None) by (apply nth_error_None; cbn; lia). congruence.
Qed.
