(** The work reported for a file: it belongs to the parse it is reported for, does not depend on the fuel, and a reparse
    reports no more than a parse of the new text. *)
From Coq Require Import List Arith Bool Lia.
From Verif Require Import Base BaseFacts TextModel TextSpec TextProofs EditModel LexModel LexSpec LexProofs TreeModel GrammarModel ParserModel ParserProofs ForestSpec SemSpec
  RefineProofs PegSpec PegProofs SpanSpec SpanProofs MonoProofs ConvertModel FileProofs OccurProofs ReparseModel ReparseSpec
  CacheProofs CacheTotal SalvageProofs ReparseProofs PropsLex PropsPeg TickModel TickProofs TickSim.
Import ListNotations.

(** ** Ticks are counted from one *)
Lemma step_ticks : forall E rec f e p s x n, t_step E rec f e p s = Ok (x, n) -> 1 <= n.
Proof. intros E rec f e p s x n H. unfold t_step, tick in H. mon H. destruct v as [a m]. injection H as _ <-. lia. Qed.

Lemma events_ticks : forall E f evs n, t_events E f = Ok (evs, n) -> 1 <= n.
Proof.
  intros E f evs n H. unfold t_events in H. tmon H. destruct f as [|f]; [discriminate Hv|]. cbn [t_expr] in Hv. pose proof (step_ticks _ _ _ _ _ _ _ _ Hv). lia.
Qed.

(** ** The same parse *)
Lemma def_parse_seen : forall L f prev txt toks, seen (t_def_parse L f prev txt toks) (def_parse L f prev txt toks).
Proof.
  intros L f prev txt toks. unfold t_def_parse, def_parse. apply seen_bind. intro ft. apply seen_tbind; [apply events_seen|]. intro evs. apply seen_bind. intro calls. reflexivity.
Qed.

Lemma work_of_parse : forall L f txt x, parse_file L f txt = Ok x <-> exists w, worked_parse L f txt = Ok (x, w).
Proof.
  intros L f txt x. unfold parse_file, worked_parse. destruct (lex (l_lexer L) txt) as [toks| |]; cbn [bind]; [|split; [discriminate|intros (w & W); discriminate]..].
  pose proof (def_parse_seen L f None txt toks) as SN. unfold seen, forget in SN. rewrite <- SN.
  destruct (t_def_parse L f None txt toks) as [[[evs calls] n]| |]; cbn [bind]; [|split; [discriminate|intros (w & W); discriminate]..].
  destruct (file_new txt calls) as [fl| |]; cbn [bind]; [|split; [discriminate|intros (w & W); discriminate]..].
  split; [intros H; injection H as <-; eauto|intros (w & W); injection W as <- _; reflexivity].
Qed.

Lemma work_of_reparse : forall L f fl inc ops x, reparse_file L f fl inc ops = Ok x <-> exists w, worked_reparse L f fl inc ops = Ok (x, w).
Proof.
  intros L f fl inc ops x. unfold reparse_file, worked_reparse. destruct (apply ops (as_text (f_text fl))) as [new| |]; cbn [bind]; [|split; [discriminate|intros (w & W); discriminate]..].
  destruct (relex (l_lexer L) (i_tokens inc) ops new) as [[toks region]| |]; cbn [bind]; [|split; [discriminate|intros (w & W); discriminate]..].
  destruct (salvage (i_events inc) (i_tokens inc) (l_ws L) ops) as [m| |]; cbn [bind]; [|split; [discriminate|intros (w & W); discriminate]..].
  pose proof (def_parse_seen L f (Some (m, i_events inc)) new toks) as SN. unfold seen, forget in SN. rewrite <- SN.
  destruct (t_def_parse L f (Some (m, i_events inc)) new toks) as [[[evs calls] n]| |]; cbn [bind]; [|split; [discriminate|intros (w & W); discriminate]..].
  destruct (file_new new calls) as [f1| |]; cbn [bind]; [|split; [discriminate|intros (w & W); discriminate]..].
  split; [intros H; injection H as <-; eauto|intros (w & W); injection W as <- _; reflexivity].
Qed.

(** ** The fuel *)
Lemma t_def_parse_mono : forall L f f' prev txt toks, f <= f' -> later (t_def_parse L f prev txt toks) (t_def_parse L f' prev txt toks).
Proof.
  intros L f f' prev txt toks LE. unfold t_def_parse. apply later_bind; [apply later_refl|]. intro ft. apply later_tbind; [apply t_events_mono; exact LE|]. intro evs. apply later_refl.
Qed.

Lemma worked_parse_mono : forall L f f' txt, f <= f' -> later (worked_parse L f txt) (worked_parse L f' txt).
Proof.
  intros L f f' txt LE. unfold worked_parse. apply later_bind; [apply later_refl|]. intro toks. apply later_bind; [apply t_def_parse_mono; exact LE|]. intros [[evs calls] n]. apply later_refl.
Qed.

Lemma worked_reparse_mono : forall L f f' fl inc ops, f <= f' -> later (worked_reparse L f fl inc ops) (worked_reparse L f' fl inc ops).
Proof.
  intros L f f' fl inc ops LE. unfold worked_reparse. apply later_bind; [apply later_refl|]. intro new. apply later_bind; [apply later_refl|]. intros [toks region].
  apply later_bind; [apply later_refl|]. intro m. apply later_bind; [apply t_def_parse_mono; exact LE|]. intros [[evs calls] n]. apply later_refl.
Qed.

Lemma later_same : forall A (g : nat -> res A) f f' a b, (forall f f', f <= f' -> later (g f) (g f')) -> g f = Ok a -> g f' = Ok b -> a = b.
Proof.
  intros A g f f' a b M X Y. destruct (Nat.le_ge_cases f f') as [LE|LE]; destruct (M _ _ LE) as [H|H]; congruence.
Qed.

(** ** Without cached rules *)
Section Uncached.
  Variable E : env.
  Hypothesis U : uncached (e_g E).

  Lemma t_step_uncached : forall rec f e p s, t_step E rec f e p s = t_step (bare E) rec f e p s.
  Proof.
    intros rec f e p s. unfold t_step, t_inner. change (e_g (bare E)) with (e_g E).
    destruct (index (g_rules (e_g E)) e) as [x| |] eqn:I; cbn [bind]; [|reflexivity|reflexivity]. apply index_ok in I.
    destruct x; try reflexivity. exfalso. exact (U _ _ I).
  Qed.

  Lemma t_expr_uncached : forall f e p s, t_expr E f e p s = t_expr (bare E) f e p s.
  Proof.
    induction f as [|f IH]; intros e p s; [reflexivity|]. cbn [t_expr]. rewrite t_step_uncached.
    destruct (t_step_mono (bare E) (t_expr E f) (t_expr (bare E) f)) with (f := f) (f' := f) (e := e) (p := p) (s := s) as [H|H];
      [intros e1 p1 s1; right; apply IH|lia| |exact H].
    destruct (t_step_mono (bare E) (t_expr (bare E) f) (t_expr E f)) with (f := f) (f' := f) (e := e) (p := p) (s := s) as [H'|H'];
      [intros e1 p1 s1; right; symmetry; apply IH|lia| |symmetry; exact H'].
    congruence.
  Qed.

  Lemma t_events_uncached : forall f, t_events E f = t_events (bare E) f.
  Proof. intros f. unfold t_events. rewrite t_expr_uncached. reflexivity. Qed.
End Uncached.

(** ** Reparsing *)
Section Reparse.
  Variable L : language.
  Hypothesis PR : progressing (l_lexer L).
  Variable fine : bytes -> Prop.
  Variable safe : bytes -> list edit_op -> Prop.
  Hypothesis FINE : forall old ops new, safe old ops -> apply ops (as_text old) = Ok new -> fine old /\ fine new.
  Hypothesis RELEX : forall old toks ops new, safe old ops -> lex (l_lexer L) old = Ok toks -> apply ops (as_text old) = Ok new ->
    exists region ts, relex (l_lexer L) toks ops new = Ok (ts, region) /\ lex (l_lexer L) new = Ok ts.

  (** The region reported never exceeds the new text. *)
  Lemma region_within : forall old toks ops new ts region, lex (l_lexer L) old = Ok toks -> apply ops (as_text old) = Ok new ->
    relex (l_lexer L) toks ops new = Ok (ts, region) -> region <= length new.
  Proof.
    intros old toks ops new ts region LX AP RL. destruct (lex_ok (l_lexer L) old PR) as (us & LX' & TK). rewrite LX in LX'. injection LX' as <-.
    destruct (C19_relex_covers (l_lexer L) old toks ops new PR (tokenizes_lens _ PR _ _ TK) AP) as (ts' & region' & RL' & _ & R0 & R1).
    rewrite RL in RL'. injection RL' as <- <-.
    destruct (existsb (fun t => tk_ty t =? ERROR) toks) eqn:X.
    - apply existsb_exists in X. destruct X as (t & I & EQ). apply Nat.eqb_eq in EQ. destruct R0 as [-> _]; [apply Exists_exists; eauto|lia].
    - destruct R1 as (kept & _ & _ & SUM); [|lia]. apply Forall_forall. intros t I EQ.
      assert (existsb (fun t => tk_ty t =? ERROR) toks = true) by (apply existsb_exists; exists t; split; [exact I|apply Nat.eqb_eq; exact EQ]). congruence.
  Qed.

  (** A reparse is a parse of the new text with a cache, also in its work. *)
  Lemma worked_unfold : forall fuel0 fuel old f inc ops new m x w, safe old ops -> parse_file L fuel0 old = Ok (f, inc) -> apply ops (as_text old) = Ok new ->
    salvage (i_events inc) (i_tokens inc) (l_ws L) ops = Ok m -> worked_reparse L fuel f inc ops = Ok (x, w) ->
    exists toks, lex (l_lexer L) new = Ok toks /\ w_relexed w <= length new
      /\ ('(events, calls, n) <- t_def_parse L fuel (Some (m, i_events inc)) new toks ;; f1 <- file_new new calls ;; Ok (f1, mkInc toks events, n)) = Ok (x, w_ticks w).
  Proof.
    intros fuel0 fuel old f inc ops new m x w SF H AP SV R. destruct (parse_parts L _ _ _ _ H) as (TX & LX & _).
    destruct (RELEX _ _ _ _ SF LX AP) as (region & ts & RL & LN). exists ts. split; [exact LN|].
    unfold worked_reparse in R. rewrite TX, AP in R. cbn [bind] in R. rewrite RL in R. cbn [bind] in R. rewrite SV in R. cbn [bind] in R.
    mon R. destruct v as [[evs calls] n]. mon R. injection R as <- <-. cbn [w_relexed w_ticks]. split; [exact (region_within _ _ _ _ _ _ LX AP RL)|].
    rewrite Hv. cbn [bind]. rewrite Hv0. reflexivity.
  Qed.

  Lemma reparse_work : forall q qa fuel0 fuel old f inc ops x w, safe old ops -> meaningful L -> quiet (l_g L) q qa -> cached_movable L fine -> ascending ops ->
    parse_file L fuel0 old = Ok (f, inc) -> worked_reparse L fuel f inc ops = Ok (x, w) ->
    exists new fuel1 w1, apply ops (as_text old) = Ok new /\ worked_parse L fuel1 new = Ok (x, w1) /\ w_ticks w <= w_ticks w1 /\ w_relexed w <= w_relexed w1.
  Proof.
    intros q qa fuel0 fuel old f inc ops x w SF ME QU SC AS H R.
    destruct (reparse_applies L _ _ _ _ _ (proj2 (work_of_reparse _ _ _ _ _ _) (ex_intro _ w R))) as (new & m & AP & _ & SV).
    destruct (parse_parts L _ _ _ _ H) as (TX & LX & PE). rewrite TX in AP. exists new.
    destruct (parse_tree L PR _ _ _ _ ME LX PE) as (LEN & t & PT & EV & _).
    destruct (salvage_total L PR _ _ _ _ _ _ ME LX PE AP) as (m' & SV' & EN). rewrite SV in SV'. injection SV' as <-.
    destruct (worked_unfold fuel0 fuel _ _ _ _ _ _ _ _ SF H AP SV R) as (ts & LN & REG & DP). clear R.
    destruct (apply_result _ _ _ AP) as [V NEW]. rewrite EV in EN.
    destruct (FINE _ _ _ SF AP) as [FO FN].
    destruct (holds_cache L PR fine SC old new (i_tokens inc) ts ops t m LX LN V NEW AS FO FN PT EN) as (K & HK).
    mon DP. destruct v as [[evs calls] n]. mon DP. injection DP as <- <-. unfold t_def_parse in Hv. mon Hv. tmon Hv. mon Hv. inj Hv.
    rewrite EV in Hv2. destruct (tevents_sim (l_g L) q qa (new_env (Some (m, encs [t])) (l_g L) (l_ws L) new ts) K fuel v1 k eq_refl QU HK Hv2) as (c & PE2 & LE).
    exists (K + fuel), (mkWork (length new) c). split; [exact AP|]. cbn [w_ticks w_relexed]. split; [|split; [lia|exact REG]].
    unfold worked_parse. rewrite LN. cbn [bind]. unfold t_def_parse. rewrite Hv1. cbn [bind]. unfold bare, twin in PE2. cbn [new_env e_g e_text e_toks e_idx] in PE2.
    unfold new_env. rewrite PE2. rewrite tbind_run. rewrite Hv3. unfold add, ret. cbn [bind]. rewrite Hv0. cbn [bind]. rewrite Nat.add_0_r. reflexivity.
  Qed.

  Lemma reparse_same_work : forall fuel0 fuel old f inc ops x w, safe old ops -> uncached (l_g L) ->
    parse_file L fuel0 old = Ok (f, inc) -> worked_reparse L fuel f inc ops = Ok (x, w) ->
    exists new w1, apply ops (as_text old) = Ok new /\ worked_parse L fuel new = Ok (x, w1) /\ w_ticks w = w_ticks w1 /\ w_relexed w <= w_relexed w1.
  Proof.
    intros fuel0 fuel old f inc ops x w SF U H R.
    destruct (reparse_applies L _ _ _ _ _ (proj2 (work_of_reparse _ _ _ _ _ _) (ex_intro _ w R))) as (new & m & AP & _ & SV).
    destruct (parse_parts L _ _ _ _ H) as (TX & _ & _). rewrite TX in AP. exists new.
    destruct (worked_unfold fuel0 fuel _ _ _ _ _ _ _ _ SF H AP SV R) as (ts & LN & REG & DP).
    exists (mkWork (length new) (w_ticks w)). split; [exact AP|]. cbn [w_ticks w_relexed]. split; [|split; [reflexivity|exact REG]].
    unfold worked_parse. rewrite LN. cbn [bind]. unfold t_def_parse in *. rewrite (t_events_uncached (new_env (Some (m, i_events inc)) (l_g L) (l_ws L) new ts) U) in DP.
    change (bare (new_env (Some (m, i_events inc)) (l_g L) (l_ws L) new ts)) with (new_env None (l_g L) (l_ws L) new ts) in DP.
    mon DP. destruct v as [[evs calls] n]. mon DP. injection DP as <- <-. rewrite Hv. cbn [bind]. rewrite Hv0. reflexivity.
  Qed.
End Reparse.
