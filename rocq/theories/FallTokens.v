(** The tokens of a rule of fall are the same in every text that contains the rule. *)
From Coq Require Import List Arith NArith Bool Lia.
From Verif Require Import Base BaseFacts TextModel TextSpec TextProofs EditModel LexModel LexSpec LexProofs ScanModel ScanSpec ScanProofs
  GrammarModel GrammarData ParserModel RegexModel RegexSpec RegexProofs RegexLang PropsRegex RelexChars RelexLang LexData FallLang CompleteProofs PropsRelex FallMoved
  ForestSpec SemSpec PegSpec PegProofs WindowProofs SpanProofs ConvertModel ReparseModel ReparseSpec ReparseProofs InsideProofs FallCached.
Import ListNotations.
Open Scope list_scope.

Section Tokens.
  Variables (U : tables) (err : bytes -> nat).
  Hypothesis TU : tables_ok U.
  Hypothesis ER : err_ok err.
  Let lx := regex_lexer U longest err fall_rules.

  Definition raw_rule := mkRule 129 raw_re (Some parse_raw_string).
  Definition word_rule := mkRule 130 (Plus (Chr (Cls Word))) None.
  Definition brace_rule := mkRule 120 (Chr (Lit 125)) None.
  Let PR : proper_rules fall_rules := lexed_proper _ _ _ _ lx_fall.
  Let PG : progressing lx := regex_progress U longest err fall_rules longest_picks ER PR.
  Let ND : NoDup (map r_ty fall_rules).
  Proof. apply nodupb_ok. vm_compute. reflexivity. Qed.
  Let IR : In raw_rule fall_rules.
  Proof. apply nth_error_In with (n := 20). reflexivity. Qed.
  Let IW : In word_rule fall_rules.
  Proof. apply nth_error_In with (n := 21). reflexivity. Qed.
  Let IB : In brace_rule fall_rules.
  Proof. apply nth_error_In with (n := 11). reflexivity. Qed.
  Let RAWS : forall r, In r fall_rules -> r_f r <> None -> r = raw_rule.
  Proof. intros r I. unfold fall_rules in I. repeat (destruct I as [<-|I]; [try (intros X; destruct (X eq_refl)); try reflexivity|]). destruct I. Qed.

  (** The lexer does not panic unless there is the start of a raw string, and reads a token if some plain rule matches. *)
  Lemma reads_token : forall s, utf8 s -> (forall n rest, s <> opening n ++ rest) ->
    exists t, next_token U longest err fall_rules s = Ok t /\ lx s = t.
  Proof.
    intros s US NO. destruct (C71_panics _ _ _ _ U longest err s lx_fall longest_picks US) as [A B].
    assert (NP : next_token U longest err fall_rules s <> Panic) by (intros P; apply A in P; destruct P as (_ & n & rest & _ & ES); exact (NO _ _ ES)).
    destruct (B NP) as (t & NT). exists t. split; [exact NT|]. unfold lx, regex_lexer. rewrite NT. reflexivity.
  Qed.

  Lemma not_error : forall s r cs rest, utf8 s -> (forall n rest, s <> opening n ++ rest) -> In r fall_rules -> r_f r = None ->
    chars s = cs ++ rest -> matches U (r_re r) cs -> tk_ty (lx s) <> ERROR.
  Proof.
    intros s r cs rest US NO I RF EC M. destruct (reads_token s US NO) as (t & NT & ->). destruct (C71_token _ _ _ _ _ _ (proj1 PR) longest_picks NT) as [(r' & I' & -> & _)|[_ X]].
    - assert (F : forallb (fun r => negb (r_ty r =? ERROR)) fall_rules = true) by (vm_compute; reflexivity). rewrite forallb_forall in F. specialize (F _ I').
      apply negb_true_iff, Nat.eqb_neq in F. exact F.
    - destruct (X r I cs rest EC M) as (f & F & _). congruence.
  Qed.

  Lemma ascii_head : forall b v, b < 128 -> utf8 (b :: v) -> utf8 v /\ chars (b :: v) = [b] :: chars v.
  Proof.
    intros b v L UB. assert (UV : utf8 v) by (apply (utf8_ascii [] b); assumption). split; [exact UV|].
    assert (F1 : Forall (fun b => b < 128) [b]) by (constructor; [exact L|constructor]).
    change (b :: v) with ([b] ++ v). rewrite (chars_app [b] v (ascii_utf8 _ F1) UV), (ascii_chars [b] F1). reflexivity.
  Qed.

  Lemma brace_read : forall v, utf8 (125 :: v) -> lx (125 :: v) = mkTok 120 1.
  Proof.
    intros v UV. destruct (ascii_head 125 v ltac:(lia) UV) as [_ EC].
    assert (NE : tk_ty (lx (125 :: v)) <> ERROR).
    { apply (not_error _ brace_rule [[125]] (chars v) UV); [intros n rest X; discriminate X|exact IB|reflexivity|exact EC|]. constructor. reflexivity. }
    destruct (starts_in U err fall_rules TU PR eq_refl (125 :: v) 125 v UV eq_refl ltac:(lia) NE) as (r & I & TY & TK & J). fold lx in TY, TK.
    vm_compute in J. destruct J as [J|[]]. assert (J' : r_ty r = r_ty brace_rule) by (symmetry; exact J). pose proof (same_type fall_rules brace_rule r ND IB I J') as ->.
    pose proof (char_one U _ _ brace_rule 125 eq_refl eq_refl TK) as L1. destruct (lx (125 :: v)) as [t n]. cbn in *. congruence.
  Qed.

  Lemma is_brace : forall s, tk_ty (lx s) = 120 -> exists v, s = 125 :: v /\ tk_len (lx s) = 1.
  Proof.
    intros s TY. destruct (lexer_cases U longest err fall_rules longest_picks PR s) as [(r & I & TR & TK)|X]; [fold lx in TR, TK|fold lx in X; rewrite X in TY; discriminate TY].
    rewrite TY in TR. assert (J : r_ty r = r_ty brace_rule) by (symmetry; exact TR). pose proof (same_type fall_rules brace_rule r ND IB I J) as ->.
    pose proof (char_one U _ _ brace_rule 125 eq_refl eq_refl TK) as L1. destruct TK as (cs & rest & EC & M & _). cbn in M. apply matches_lit in M. subst cs.
    exists (concat rest). split; [|exact L1]. rewrite <- (chars_all s), EC. reflexivity.
  Qed.

  (** An identifier that is just the letter r before a hash or a quote is read as such unless there is a raw string. *)
  Lemma word_head : forall s c rest, utf8 s -> tk_ty (lx s) <> ERROR -> s = 114 :: c :: rest -> c = 35 \/ c = 34 -> try_rule U s raw_rule = Ok None ->
    tk_len (lx s) = 1 /\ utf8 (c :: rest).
  Proof.
    intros s c rest US NE ES C TR.
    destruct (starts_in U err fall_rules TU PR eq_refl s 114 (c :: rest) US ES ltac:(lia) NE) as (r & I & TY & TK & J). fold lx in TY, TK.
    split; [|rewrite ES in US; apply (utf8_ascii [] 114); [exact US|lia]].
    vm_compute in J. destruct J as [J|[J|[]]].
    - assert (J' : r_ty r = r_ty raw_rule) by (symmetry; exact J). pose proof (same_type fall_rules raw_rule r ND IR I J') as ->. rewrite (raw_taken U raw_rule s _ eq_refl TK) in TR. discriminate TR.
    - assert (J' : r_ty r = r_ty word_rule) by (symmetry; exact J). pose proof (same_type fall_rules word_rule r ND IW I J') as ->.
      eapply word_one; eauto; try lia; destruct C as [-> | ->]; try reflexivity; lia.
  Qed.

  Lemma hash_or_error : forall c rest, utf8 (c :: rest) -> c = 35 \/ c = 34 -> tk_ty (lx (c :: rest)) = ERROR \/ tk_ty (lx (c :: rest)) = 118.
  Proof.
    intros c rest UC C. destruct (Nat.eq_dec (tk_ty (lx (c :: rest))) ERROR) as [X|NE]; [left; exact X|right].
    destruct (starts_in U err fall_rules TU PR eq_refl (c :: rest) c rest UC eq_refl ltac:(destruct C as [-> | ->]; lia) NE) as (r & I & TY & TK & J). fold lx in TY.
    rewrite TY. destruct C as [-> | ->]; vm_compute in J; [destruct J as [J|[]]; symmetry; exact J|destruct J].
  Qed.

  (** The tokens of a text that ends with a brace, with a hash at most at its start and no errors, are the same before any other text. *)
  Lemma tokens_kept : forall M str v v' B, utf8 str -> utf8 v -> utf8 v' -> tokenizes lx (str ++ v) (M ++ B) -> lens M = length str ->
    Forall (fun t => tk_ty t <> ERROR) M -> Forall (fun t => tk_ty t <> 118) (tl M) -> (exists M0 t, M = M0 ++ [t] /\ tk_ty t = 120) ->
    exists B', tokenizes lx (str ++ v') (M ++ B').
  Proof.
    induction M as [|t M IH]; intros str v v' B US UV UV' T LE NE NH LAST; [destruct LAST as ([|] & t & E & _); discriminate E|].
    pose proof (utf8_app _ _ US UV) as USV. cbn [app] in T. inversion T as [|? t' ts NS A2 A3]; subst t' ts. subst txt.
    rewrite lens_cons in LE. pose proof (Forall_inv NE) as NE1. cbn [tl] in NH. destruct M as [|t2 M].
    - (* the brace *)
      assert (TY : tk_ty t = 120) by (destruct LAST as ([|x M0] & y & E & TY); [injection E as ->; exact TY|injection E as _ E; destruct M0; discriminate E]).
      rewrite <- A2 in TY. destruct (is_brace _ TY) as (w & EW & L1). rewrite A2 in L1. cbn [lens map sum fold_right] in LE. unfold lens in LE. cbn in LE.
      destruct str as [|b str]; [cbn in LE; lia|]. destruct str as [|b' str]; [|cbn in LE; lia]. cbn [app] in EW. injection EW as -> _. cbn [app].
      pose proof (utf8_app _ _ US UV') as UB. cbn [app] in UB. destruct (lex_ok lx (125 :: v') PG) as (ts & _ & T'). inversion T' as [|? t' ts' NS' E1 E2]; subst.
      exists ts'. cbn [app]. rewrite (brace_read _ USV). rewrite (brace_read _ UB) in T'. exact T'.
    - assert (P1 : 0 < tk_len t2).
      { cbn [app] in A3. inversion A3 as [|? ? ? NS2 E2 _]; subst. destruct (PG _ NS2). lia. }
      rewrite lens_cons in LE.
      assert (LT : tk_len (lx (str ++ v)) < length str) by (rewrite A2; lia).
      assert (SAME : lx (str ++ v') = t).
      { rewrite <- A2. apply (local_at U err fall_rules TU (proj1 PR)); auto.
        - intros r I. destruct (r_f r) as [f|] eqn:F; [|left; reflexivity]. rewrite <- F. pose proof (RAWS r I) as X. rewrite X by congruence. right. split; [reflexivity|left; reflexivity].
        - fold lx. rewrite A2. exact NE1.
        - intros r c rest I RF ES C TR. rewrite (RAWS r I) in TR by congruence.
          destruct (word_head _ c rest USV ltac:(rewrite A2; exact NE1) ES C TR) as [L1 UC]. rewrite A2 in L1. rewrite L1, ES in A3. cbn [skipn app] in A3.
          inversion A3 as [|? ? ? _ E2 _]; subst. destruct (hash_or_error c rest UC C) as [X|X].
          + pose proof (Forall_inv (Forall_inv_tail NE)) as Y. cbn beta in Y. apply Y. exact X.
          + pose proof (Forall_inv NH) as Y. cbn beta in Y. apply Y. exact X. }
      assert (AL : aligned (str ++ v) (tk_len t)) by (rewrite <- A2; exact (regex_whole U longest err fall_rules longest_picks ER PR _ NS USV)).
      pose proof (utf8_take _ _ USV AL) as UT. rewrite firstn_app, (proj2 (Nat.sub_0_le (tk_len t) (length str))), firstn_O, app_nil_r in UT by (rewrite A2 in LT; lia).
      assert (UR : utf8 (skipn (tk_len t) str)) by (apply (utf8_rest _ _ UT); rewrite firstn_skipn; exact US).
      assert (SK : forall x, skipn (tk_len t) (str ++ x) = skipn (tk_len t) str ++ x).
      { intros x. rewrite skipn_app. rewrite (proj2 (Nat.sub_0_le (tk_len t) (length str))) by (rewrite A2 in LT; lia). reflexivity. }
      rewrite SK in A3.
      destruct (IH (skipn (tk_len t) str) v v' B UR UV UV' A3) as (B' & T').
      + rewrite skipn_length, lens_cons. lia.
      + exact (Forall_inv_tail NE).
      + exact (Forall_inv_tail NH).
      + destruct LAST as ([|x M0] & y & E & TY); [discriminate E|]. injection E as _ E. eauto.
      + exists B'. cbn [app]. constructor; [destruct str; [cbn in LT; lia|discriminate]|exact SAME|]. rewrite SK. exact T'.
  Qed.

  (** The keywords are read as identifiers. *)
  Lemma keyword : forall s txt r, utf8 s -> txt = pub_text \/ txt = rule_text -> s = txt ++ r -> length txt <= tk_len (lx s) /\ tk_ty (lx s) = 130.
  Proof.
    intros s txt r US TX ES.
    assert (FA : Forall (fun b => b < 128) txt) by (destruct TX as [-> | ->]; repeat (apply Forall_cons; [lia|]); apply Forall_nil).
    assert (FW : Forall (fun b => in_set U (Cls Word) [b] = true) txt).
    { apply Forall_forall. intros b I. cbn [in_set]. rewrite Forall_forall in FA. rewrite (ascii_agree U Word b TU (FA b I)). revert b I. apply Forall_forall.
      destruct TX as [-> | ->]; repeat (apply Forall_cons; [reflexivity|]); apply Forall_nil. }
    pose proof (ascii_utf8 _ FA) as UX. assert (UR : utf8 r) by (apply (utf8_rest txt r UX); rewrite <- ES; exact US).
    assert (EC : chars s = map (fun b => [b]) txt ++ chars r) by (rewrite ES, (chars_app txt r UX UR), (ascii_chars txt FA); reflexivity).
    assert (NO : forall n rest, s <> opening n ++ rest).
    { intros n rest X. rewrite X in ES. destruct TX as [-> | ->]; cbn in ES; [discriminate ES|]. destruct n; cbn in ES; discriminate ES. }
    destruct txt as [|b txt]; [destruct TX as [X|X]; discriminate X|]. pose proof (Forall_inv FW) as W1. pose proof (Forall_inv_tail FW) as W2. cbn [map app] in EC.
    assert (NE : tk_ty (lx s) <> ERROR).
    { apply (not_error s word_rule [[b]] _ US NO IW eq_refl EC). apply (m_seq U (Chr (Cls Word)) (Star (Chr (Cls Word))) [[b]] []); constructor. exact W1. }
    destruct (reads_token s US NO) as (t & NT & LT). destruct (C71_longest _ _ _ _ _ (proj1 PR) NT) as [(before & r0 & after & EL & TY & TR & _)|[-> _]]; [|rewrite LT in NE; destruct (NE eq_refl)].
    assert (I0 : In r0 fall_rules) by (rewrite EL; apply in_or_app; right; left; reflexivity).
    assert (R0 : r0 = word_rule).
    { destruct (starts_in U err fall_rules TU PR eq_refl s b (txt ++ r) US ES (Forall_inv FA) NE) as (r1 & I1 & T1 & TK & J). fold lx in T1, TK.
      assert (r1 = r0) as -> by (apply (same_type fall_rules r0 r1 ND I0 I1); rewrite <- T1, <- TY, LT; reflexivity).
      assert (K : r_ty r0 = 130 \/ r_ty r0 = 129) by (clear -J TX; destruct TX as [X|X]; injection X as -> _; vm_compute in J; [destruct J as [J|[]]|destruct J as [J|[J|[]]]]; auto).
      destruct K as [K|K]; [exact (same_type fall_rules word_rule r0 ND IW I0 K)|]. exfalso. pose proof (same_type fall_rules raw_rule r0 ND IR I0 K) as ->.
      destruct TK as (cs & rest & EC' & M & _). destruct (found_raw U raw_re s (or_introl eq_refl)) as (n & rest' & X); [|exact (NO _ _ X)].
      intros Z. rewrite find_none in Z. exact (Z _ _ EC' M). }
    subst r0. rewrite LT. split; [|exact TY]. unfold try_rule in TR. destruct (find U (r_re word_rule) s) as [m|] eqn:F; [|discriminate TR]. cbn in TR. injection TR as <-.
    unfold find in F. fold (first_end U (r_re word_rule) (chars s)) in F. cbn [r_re word_rule Plus] in F.
    unfold Plus in F. rewrite (seq_first U (Chr (Cls Word)) _ _ (pf_ok U TU (Chr (Cls Word)) eq_refl)) in F.
    assert (F1 : first_end U (Chr (Cls Word)) (chars s) = Some (map (fun b => [b]) txt ++ chars r)) by (rewrite EC; unfold first_end; cbn [ends]; rewrite W1; reflexivity).
    rewrite F1, star_first in F. cbn [option_map] in F. injection F as <-. rewrite ES, app_length.
    assert (LD : length (concat (dropw U (Cls Word) (map (fun b => [b]) txt ++ chars r))) <= length r).
    { clear -W2. induction W2 as [|x l Wx Wl IH]; cbn [map app dropw].
      - rewrite <- (chars_all r) at 2. generalize (chars r). clear. induction l as [|c l IH]; [cbn; lia|]. cbn [dropw]. destruct (in_set U (Cls Word) c); [|lia]. cbn [concat]. rewrite app_length. lia.
      - rewrite Wx. exact IH. }
    lia.
  Qed.
End Tokens.

(** ** Tokens that are not whitespace *)
Lemma list_split : forall (X : Type) (p x q y : list X), p ++ x = q ++ y -> length q <= length p -> exists m, p = q ++ m /\ y = m ++ x.
Proof.
  intros X p x q. revert p. induction q as [|b q IH]; intros p y E L; [exists p; auto|]. destruct p as [|c p]; [cbn in L; lia|]. cbn in E. injection E as -> E.
  destruct (IH p y E ltac:(cbn in L; lia)) as (m & -> & ->). exists m. auto.
Qed.

Section Index.
  Variable ws : nat -> bool.
  Notation solid := (solid ws).

  Lemma solid_plus : forall a b, solid (a ++ b) = solid a + solid b.
  Proof. intros. unfold WindowProofs.solid. rewrite filter_app, app_length. reflexivity. Qed.

  Lemma solid_one : forall t, ws (tk_ty t) = false -> solid [t] = 1.
  Proof. intros t W. unfold WindowProofs.solid. cbn. rewrite W. reflexivity. Qed.

  Lemma idx_at : forall a t b, ws (tk_ty t) = false -> nth_error (non_ws ws (a ++ t :: b)) (solid a) = Some (lens a, length a).
  Proof.
    intros a t b W. unfold non_ws. rewrite (non_ws_app ws [] [] eq_refl). rewrite nth_error_app2 by (rewrite non_ws_len; lia).
    rewrite non_ws_len, Nat.sub_diag. cbn [non_ws_from]. rewrite W. reflexivity.
  Qed.

  Lemma nth_solid : forall M k, k < solid M -> exists x t y, M = x ++ t :: y /\ ws (tk_ty t) = false /\ solid x = k.
  Proof.
    induction M as [|t M IH]; intros k L; [unfold WindowProofs.solid in L; cbn in L; lia|]. change (t :: M) with ([t] ++ M) in L. rewrite solid_plus in L.
    destruct (ws (tk_ty t)) eqn:W.
    - assert (Z : solid [t] = 0) by (unfold WindowProofs.solid; cbn; rewrite W; reflexivity). destruct (IH k ltac:(lia)) as (x & u & y & -> & WU & S). exists (t :: x), u, y.
      split; [reflexivity|]. split; [exact WU|]. change (t :: x) with ([t] ++ x). rewrite solid_plus. lia.
    - rewrite (solid_one t W) in L. destruct k as [|k]; [exists [], t, M; auto|]. destruct (IH k ltac:(lia)) as (x & u & y & -> & WU & S). exists (t :: x), u, y.
      split; [reflexivity|]. split; [exact WU|]. change (t :: x) with ([t] ++ x). rewrite solid_plus, (solid_one t W). lia.
  Qed.
End Index.

Fixpoint psize (t : ptree) : nat :=
  match t with
  | PNode _ pre body => S (list_sum (map psize pre) + list_sum (map psize body))
  | PTok _ _ => 1
  | PCached _ body => S (list_sum (map psize body))
  end.

Lemma psize_in : forall l t, In t l -> psize t <= list_sum (map psize l).
Proof. induction l as [|x l IH]; intros t I; [destruct I|]. destruct I as [->|I]; cbn [map list_sum fold_right]; [lia|]. specialize (IH t I). unfold list_sum in IH. lia. Qed.

(** Without the events of an error node there is no error node. *)
Lemma calm_enc : forall n t fp, psize t <= n -> no_error_node (enc fp t) -> calm t = true.
Proof.
  assert (APP : forall l l', no_error_node (l ++ l') -> no_error_node l /\ no_error_node l').
  { intros l l' H. split; intros fp I; apply (H fp); apply in_or_app; auto. }
  assert (ALL : forall body, (forall t, In t body -> forall fp, no_error_node (enc fp t) -> calm t = true) -> no_error_node (flat_map (enc None) body) -> forallb calm body = true).
  { induction body as [|t body IH]; intros F H; [reflexivity|]. cbn [flat_map] in H. apply APP in H. destruct H as [H1 H2].
    cbn [forallb]. rewrite (F t (or_introl eq_refl) _ H1). apply IH; [|exact H2]. intros u I. apply F. right. exact I. }
  induction n as [|n IH]; intros t fp L H; [destruct t; cbn in L; lia|].
  assert (BODY : forall body, list_sum (map psize body) <= n -> no_error_node (flat_map (enc None) body) -> forallb calm body = true).
  { intros body LB. apply ALL. intros u I fp' HU. apply (IH u fp'); [|exact HU]. pose proof (psize_in body u I). lia. }
  destruct t as [ty pre body|ty k|k body]; cbn [enc calm psize] in *; [|reflexivity|].
  - apply APP in H. destruct H as [HP H]. change (EvStart ty fp :: flat_map (enc None) body ++ [EvEnd]) with ([EvStart ty fp] ++ flat_map (enc None) body ++ [EvEnd]) in H.
    apply APP in H. destruct H as [HS H]. apply APP in H. destruct H as [HB _]. rewrite (BODY body ltac:(lia) HB), andb_true_r.
    assert (TY : (ty =? ERROR) = false) by (apply Nat.eqb_neq; intros ->; apply (HS fp); left; reflexivity). rewrite TY. cbn [negb andb].
    destruct pre as [|x rest]; [reflexivity|]. apply APP in HP. destruct HP as [H1 H2]. cbn [map list_sum fold_right] in L. unfold list_sum in BODY. cbn [forallb].
    rewrite (IH x _ ltac:(lia) H1). apply BODY; [lia|exact H2].
  - apply BODY; [lia|]. intros fp' I. apply (H fp'). right. exact I.
Qed.

Lemma calms_encs : forall F, no_error_node (encs F) -> forallb calm F = true.
Proof.
  induction F as [|t F IH]; intros H; [reflexivity|]. unfold encs in H. cbn [flat_map] in H. cbn [forallb].
  rewrite (calm_enc _ t None (le_n _)) by (intros fp I; apply (H fp); apply in_or_app; left; exact I). apply IH. intros fp I. apply (H fp). apply in_or_app. right. exact I.
Qed.

(** ** The cached rule of fall can be moved *)
Section Movable.
  Variables (U : tables) (err : bytes -> nat) (binder : nat -> list (nat * bytes) -> bool -> nat).
  Hypothesis TU : tables_ok U.
  Hypothesis ER : err_ok err.
  Let L := shipped_lang U err fall_rules fall_grammar fall_ws binder.
  Let lx := regex_lexer U longest err fall_rules.
  Let PR : proper_rules fall_rules := lexed_proper _ _ _ _ lx_fall.
  Let PG : progressing lx := regex_progress U longest err fall_rules longest_picks ER PR.

  Section File.
    Variables (txt : bytes) (toks : list token).
    Hypothesis UT : utf8 txt.
    Hypothesis LX : lex lx txt = Ok toks.
    Let E := new_env None fall_grammar fall_ws txt toks.

    Lemma file_tokens : tokenizes lx txt toks.
    Proof. destruct (lex_ok lx txt PG) as (ts & LX' & T). rewrite LX in LX'. injection LX' as <-. exact T. Qed.

    Lemma file_split : forall k o i, nth_error (e_idx E) k = Some (o, i) ->
      exists a t b, toks = a ++ t :: b /\ i = length a /\ o = lens a /\ fall_ws (tk_ty t) = false /\ solid fall_ws a = k.
    Proof.
      intros k o i H. apply (idx_split E fall_ws eq_refl) in H; [exact H|]. exact (tokenizes_lens _ PG _ _ file_tokens).
    Qed.

    Lemma file_indexed : indexed E.
    Proof.
      intros k LK. destruct (nth_error (e_idx E) k) as [[o i]|] eqn:H; [|apply nth_error_None in H; lia].
      destruct (file_split _ _ _ H) as (a & t & b & ET & -> & -> & _). exists (lens a), (length a), t. split; [reflexivity|]. unfold E. cbn [new_env e_toks]. rewrite ET.
      rewrite nth_error_app2, Nat.sub_diag by lia. reflexivity.
    Qed.

    Lemma file_prefix : forall a b, toks = a ++ b -> utf8 (skipn (lens a) txt) /\ aligned txt (lens a) /\ tokenizes lx (skipn (lens a) txt) b.
    Proof.
      intros a b ET. destruct (C71_shipped _ _ _ _ U longest err lx_fall TU longest_picks ER) as (_ & _ & _ & WH).
      pose proof (WH txt toks (length a) UT LX) as AL. rewrite ET, firstn_app, Nat.sub_diag, firstn_O, app_nil_r, firstn_all in AL.
      split; [exact (utf8_skip _ _ UT AL)|]. split; [exact AL|]. apply tokenizes_drop. rewrite <- ET. exact file_tokens.
    Qed.

    Lemma file_word : forall k o i t x, nth_error (e_idx E) k = Some (o, i) -> nth_error (e_toks E) i = Some t -> x = pub_text \/ x = rule_text ->
      (exists r, skipn o (e_text E) = x ++ r) -> length x <= tk_len t /\ tk_ty t = 130.
    Proof.
      intros k o i t x H T X (r & S). destruct (file_split _ _ _ H) as (a & t' & b & ET & -> & -> & _). destruct (file_prefix _ _ ET) as (UA & _ & TK).
      unfold E in T, S. cbn [new_env e_toks e_text] in T, S. rewrite ET, nth_error_app2, Nat.sub_diag in T by lia. cbn in T. injection T as ->.
      inversion TK as [|? t' ts NE E1 E2]; subst. exact (keyword U err TU _ x r UA X S).
    Qed.
  End File.

  (** The tokens of the text a rule consumed. *)
  Lemma tokens_between : forall u str v toks p q, lex lx (u ++ str ++ v) = Ok toks ->
    let E := new_env None fall_grammar fall_ws (u ++ str ++ v) toks in
    reaches E p q u str -> p_cur p < p_cur q ->
    exists A M B, toks = A ++ M ++ B /\ lens A = length u /\ lens M = length str /\ solid fall_ws A = p_cur p /\ solid fall_ws M = p_cur q - p_cur p
      /\ (exists t M', M = t :: M' /\ fall_ws (tk_ty t) = false) /\ exists M0 t, M = M0 ++ [t] /\ tok_at E (p_cur q - 1) t.
  Proof.
    intros u str v toks p q LX E RE LT. destruct RE as [[EQ _]|(_ & (i & N1) & o & j & t & N2 & N3 & LEN)]; [lia|].
    destruct (file_split _ _ LX _ _ _ N1) as (a & t1 & b & ET & _ & LA & W1 & S1). destruct (file_split _ _ LX _ _ _ N2) as (a2 & t2 & b2 & ET2 & LJ & LO & W2 & S2).
    assert (T2 : t2 = t).
    { unfold E in N3. cbn [new_env e_toks] in N3. rewrite ET2, LJ, nth_error_app2, Nat.sub_diag in N3 by lia. cbn in N3. injection N3 as ->. reflexivity. }
    subst t2. assert (LE : length a <= length a2).
    { destruct (le_lt_dec (length a) (length a2)) as [X|X]; [exact X|]. exfalso. rewrite ET2 in ET. change (t :: b2) with ([t] ++ b2) in ET. rewrite app_assoc in ET.
      symmetry in ET. destruct (list_split _ a (t1 :: b) (a2 ++ [t]) b2 ET) as (m & -> & _); [rewrite app_length; cbn; lia|]. rewrite !solid_plus, (solid_one _ _ W2) in S1. lia. }
    assert (EM : exists M, a2 ++ [t] = a ++ M /\ t1 :: b = M ++ b2).
    { rewrite ET in ET2. change (t :: b2) with ([t] ++ b2) in ET2. rewrite app_assoc in ET2. symmetry in ET2.
      destruct (list_split _ (a2 ++ [t]) b2 a (t1 :: b) ET2) as (m & X & Y); [rewrite app_length; cbn; lia|]. eauto. }
    destruct EM as (M & EM & EB). exists a, M, b2.
    assert (LM : lens a + lens M = lens a2 + tk_len t) by (rewrite <- lens_app, <- EM, lens_app, lens_cons; change (lens []) with 0; lia).
    assert (SM : solid fall_ws a + solid fall_ws M = solid fall_ws a2 + 1) by (rewrite <- solid_plus, <- EM, solid_plus, (solid_one _ _ W2); reflexivity).
    rewrite app_length in LEN. split; [rewrite ET, EB; reflexivity|]. split; [lia|]. split; [lia|]. split; [exact S1|]. split; [lia|].
    destruct M as [|x M]; [exfalso; rewrite app_nil_r in EM; apply (f_equal (@length _)) in EM; rewrite app_length in EM; cbn in EM; lia|].
    split; [exists x, M; split; [reflexivity|]; cbn in EB; injection EB as -> _; exact W1|].
    destruct (exists_last (l := x :: M)) as (M0 & y & EY); [discriminate|]. exists M0, y. split; [exact EY|]. rewrite EY, app_assoc in EM. apply app_inj_tail in EM. destruct EM as [_ <-].
    exists o, j. auto.
  Qed.

  Lemma fall_movable : movable L utf8 76.
  Proof.
    intros u str v toks u' v' toks' UO UN LO LN E E' rd p q h F h1 RP RA L1 L2 P NE RE.
    change (l_lexer L) with lx in LO, LN. change (l_g L) with fall_grammar in E, E'. change (l_ws L) with fall_ws in E, E'.
    pose proof (shape E eq_refl (file_indexed _ _ LO) (file_word _ _ UO LO) rd p h q F h1 RP L1 L2 P (calms_encs F NE)) as RPS.
    pose proof (rp_range _ _ _ _ _ RPS) as RG. destruct (tokens_between u str v toks p q LO RE ltac:(lia)) as (A & M & B & ET & LA & LM & SA & SM & (t1 & M' & EM & W1) & M0 & tl & EL & TL).
    fold E in TL. destruct (rp_last _ _ _ _ _ RPS) as (tl' & TL' & TY').
    assert (tl' = tl) as -> by (destruct TL as (o & r & X & Y), TL' as (o' & r' & X' & Y'); rewrite X in X'; injection X' as <- <-; rewrite Y in Y'; injection Y' as ->; reflexivity).
    assert (TOK : forall x t y, M = x ++ t :: y -> fall_ws (tk_ty t) = false -> nth_error (e_idx E) (p_cur p + solid fall_ws x) = Some (length u + lens x, length A + length x) /\ nth_error toks (length A + length x) = Some t).
    { intros x t y EX W. rewrite EX in ET. split.
      - unfold E. cbn [new_env e_idx]. rewrite ET. replace (A ++ (x ++ t :: y) ++ B) with ((A ++ x) ++ t :: y ++ B) by (rewrite <- !app_assoc; reflexivity).
        rewrite <- SA, <- LA, <- solid_plus, <- lens_app, <- app_length. apply idx_at. exact W.
      - rewrite ET, nth_error_app2 by lia. replace (length A + length x - length A) with (length x) by lia. rewrite <- app_assoc, nth_error_app2, Nat.sub_diag by lia. reflexivity. }
    assert (TAME : forall x t y, M = x ++ t :: y -> tk_ty t <> ERROR /\ (tk_ty t = 118 -> x = [])).
    { intros x t y EX. destruct (fall_ws (tk_ty t)) eqn:W; [split; intros X; rewrite X in W; discriminate W|]. destruct (TOK x t y EX W) as [X1 X2].
      assert (KX : solid fall_ws x < p_cur q - p_cur p) by (rewrite <- SM, EX, solid_plus; change (t :: y) with ([t] ++ y); rewrite solid_plus, (solid_one _ _ W); lia).
      destruct (rp_tame _ _ _ _ _ RPS (p_cur p + solid fall_ws x) ltac:(lia)) as (t' & (o & r & Y1 & Y2) & NE' & HH). rewrite X1 in Y1. injection Y1 as <- <-.
      unfold E in Y2. cbn [new_env e_toks] in Y2. rewrite X2 in Y2. injection Y2 as <-. split; [exact NE'|]. intros X. specialize (HH X). destruct x as [|z x]; [reflexivity|].
      exfalso. rewrite EM in EX. cbn in EX. injection EX as <- _. change (t1 :: x) with ([t1] ++ x) in HH. rewrite solid_plus, (solid_one _ _ W1) in HH. lia. }
    (* the other text *)
    assert (DEC : {k | exists i, nth_error (e_idx E') k = Some (length u', i)} + {forall k i, nth_error (e_idx E') k <> Some (length u', i)}).
    { generalize (e_idx E'). clear. induction l as [|[o i] l IH]; [right; intros [|k] i; discriminate|]. destruct (Nat.eq_dec o (length u')) as [->|N]; [left; exists 0, i; reflexivity|].
      destruct IH as [(k & H)|H]; [left; exists (S k); exact H|right]. intros [|k] j; [intros X; injection X as -> _; congruence|exact (H k j)]. }
    destruct DEC as [(a' & i' & N')|NO]; [|exists 0; intros f p' s' i _ X; destruct (NO _ _ X)].
    destruct (file_split _ _ LN _ _ _ N') as (A' & t' & b' & ET' & _ & LA' & W' & SA').
    destruct (file_prefix _ _ UO LO A (M ++ B) ET) as (UA & AL & TK). destruct (file_prefix _ _ UN LN A' (t' :: b') ET') as (UA' & AL' & TK').
    rewrite LA in UA, AL, TK. rewrite <- LA' in UA', AL', TK'.
    assert (SK : forall x y : bytes, skipn (length x) (x ++ y) = y) by (intros x y; rewrite skipn_app, Nat.sub_diag, skipn_all; reflexivity). rewrite SK in UA, UA', TK, TK'.
    destruct (file_prefix _ _ UO LO (A ++ M) B ltac:(rewrite ET, app_assoc; reflexivity)) as (UV & ALM & _). rewrite lens_app, LA, LM in UV, ALM.
    assert (US : utf8 str).
    { pose proof (utf8_take _ _ UO ALM) as X. replace (u ++ str ++ v) with ((u ++ str) ++ v) in X by (rewrite <- app_assoc; reflexivity).
      rewrite <- app_length, firstn_app, Nat.sub_diag, firstn_O, app_nil_r, firstn_all in X. apply (utf8_rest u); [|exact X].
      pose proof (utf8_take _ _ UO AL) as Y. rewrite firstn_app, Nat.sub_diag, firstn_O, app_nil_r, firstn_all in Y. exact Y. }
    assert (UV0 : utf8 v) by (apply (utf8_rest str v US UA)). assert (UV' : utf8 v') by (apply (utf8_rest str v' US UA')).
    destruct (tokens_kept U err TU ER M str v v' B US UV0 UV' TK LM) as (B' & TB').
    { apply Forall_forall. intros t I. apply in_split in I. destruct I as (x & y & EX). exact (proj1 (TAME x t y EX)). }
    { apply Forall_forall. intros t I X. rewrite EM in I. cbn [List.tl] in I. apply in_split in I. destruct I as (x & y & EX). rewrite EX in EM.
      destruct (TAME (t1 :: x) t y EM) as [_ Z]. discriminate (Z X). }
    { exists M0, tl. auto. }
    pose proof (tokenizes_fun _ _ _ TB' _ TK') as EB'. rewrite <- EB' in ET'.
    assert (TOK' : forall x t y, M = x ++ t :: y -> fall_ws (tk_ty t) = false -> nth_error (e_idx E') (a' + solid fall_ws x) = Some (length u' + lens x, length A' + length x) /\ nth_error toks' (length A' + length x) = Some t).
    { intros x t y EX W. rewrite EX in ET'. split.
      - unfold E'. cbn [new_env e_idx]. rewrite ET'. replace (A' ++ (x ++ t :: y) ++ B') with ((A' ++ x) ++ t :: y ++ B') by (rewrite <- !app_assoc; reflexivity).
        rewrite <- SA', LA', <- solid_plus, <- lens_app, <- app_length. apply idx_at. exact W.
      - rewrite ET', nth_error_app2 by lia. replace (length A' + length x - length A') with (length x) by lia. rewrite <- app_assoc, nth_error_app2, Nat.sub_diag by lia. reflexivity. }
    set (n := p_cur q - p_cur p) in *. set (rd' := mkRd false (repeat false 16) (repeat None 16)).
    assert (SAME : same_toks E E' (p_cur p) a' n).
    { intros k LK. rewrite <- SM in LK. destruct (nth_solid fall_ws M k LK) as (x & t & y & EX & W & SX). destruct (TOK x t y EX W) as [X1 X2]. destruct (TOK' x t y EX W) as [Y1 Y2].
      rewrite SX in *. do 5 eexists. eauto. }
    assert (WIDE : a' + n <= length (e_idx E')).
    { unfold E'. cbn [new_env e_idx]. unfold non_ws. rewrite non_ws_len, ET', !solid_plus. lia. }
    assert (HERE : forall k txt w w2, k < n -> text_here E (mkPos (p_cur p + k) w) txt -> (exists t, tok_at E (p_cur p + k) t /\ tk_len t = length txt) -> text_here E' (mkPos (a' + k) w2) txt).
    { intros k txt w w2 LK (o & r & X1 & X2 & z & X3) (t & (o' & r' & X4 & X5) & TL1). cbn [p_cur] in X1. rewrite <- SM in LK. destruct (nth_solid fall_ws M k LK) as (x & t0 & y & EX & W & SX).
      destruct (TOK x t0 y EX W) as [T1 T2]. destruct (TOK' x t0 y EX W) as [T1' T2']. rewrite SX in *. rewrite T1 in X1, X4. injection X1 as <- <-. injection X4 as <- <-.
      unfold E in X5. cbn [new_env e_toks] in X5. rewrite T2 in X5. injection X5 as <-.
      assert (LX : lens x + length txt <= length str) by (rewrite <- LM, EX, lens_app, lens_cons; lia).
      exists (length u' + lens x), (length A' + length x). cbn [p_cur]. split; [exact T1'|]. unfold E'. cbn [new_env e_text]. split; [rewrite !app_length; lia|].
      unfold E in X3. cbn [new_env e_text] in X3. rewrite <- skipn_skipn, SK in X3 |- *. rewrite skipn_app in X3 |- *. rewrite (proj2 (Nat.sub_0_le (lens x) (length str)) ltac:(lia)) in X3 |- *.
      cbn [skipn] in *. symmetry in X3. destruct (app_split (skipn (lens x) str) v txt z (eq_sym X3)) as (m & EMM & _); [rewrite skipn_length; lia|].
      exists (m ++ v'). rewrite EMM, <- app_assoc. reflexivity. }
    destruct (rule_goes E E' (p_cur p) a' n (length (e_idx E')) eq_refl eq_refl SAME HERE WIDE rd rd' RP eq_refl RA eq_refl p q F RPS L2 eq_refl eq_refl (mkRg None None)) as (pv & P').
    destruct (any_state E' eq_refl eq_refl (file_indexed _ _ LN) rd' (mkPos a' (length (e_idx E'))) _ _ _ _ eq_refl eq_refl ltac:(cbn [p_cur p_end]; lia) (le_n _) P') as (K & HK).
    exists K. intros f p' s' i LK IX PE SP SC SG.
    assert (EP : p_cur p' = a').
    { destruct (file_split _ _ LN _ _ _ IX) as (A2 & t2 & b2 & E2 & _ & LA2 & W2 & SA2). rewrite <- SA2, <- SA'.
      assert (A2 = A') as ->; [|reflexivity]. pose proof (file_tokens _ _ LN) as T. clear -E2 ET' LA2 LA' T PG W2 W' EB' .
      rewrite EB' in ET'. rewrite ET' in E2. assert (POS : Forall (fun t => 0 < tk_len t) toks').
      { clear -T PG. induction T as [|txt t ts N1 N2 N3 IH]; constructor; [destruct (PG _ N1); subst; lia|exact IH]. }
      rewrite ET' in POS. rewrite LA' in LA2. clear -E2 LA2 POS. revert A2 E2 LA2 POS. induction A' as [|x A' IH]; intros A2 E2 LA2 POS; destruct A2 as [|y A2]; [reflexivity| | |].
      - rewrite lens_cons in LA2. cbn in E2. injection E2 as -> _. inversion POS; subst. change (lens []) with 0 in LA2. lia.
      - rewrite lens_cons in LA2. inversion POS; subst. change (lens []) with 0 in LA2. lia.
      - cbn in E2. injection E2 as -> E2. inversion POS; subst. rewrite !lens_cons in LA2. f_equal. apply (IH A2 E2); [lia|assumption]. }
    destruct p' as [pc pe]. cbn [p_cur p_end] in *. subst pc pe. exact (HK f s' LK SP SG).
  Qed.
End Movable.
