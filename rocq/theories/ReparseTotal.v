(** Where parsing the new text returns, reparsing returns the same. *)
From Coq Require Import List Arith Bool Lia.
From Verif Require Import Base BaseFacts TextModel EditModel LexModel LexSpec LexProofs TreeModel GrammarModel ParserModel ForestSpec SemSpec
  RefineProofs PegSpec PegProofs SpanSpec SpanProofs MonoProofs ConvertModel FileProofs OccurProofs ReparseModel ReparseSpec
  CacheProofs CacheTotal SalvageProofs ReparseProofs PropsLex PropsPeg.
Import ListNotations.

Lemma entries_within : forall E0 ws evs ops m, Forall (entry_ok E0 ws evs ops) m -> forall k se ne nt, lookup m k = Some (se, ne, nt) -> se + ne <= length evs.
Proof.
  intros E0 ws evs ops m EN [off b] se ne nt LK. apply lookup_in in LK. rewrite Forall_forall in EN. specialize (EN _ LK). cbn [entry_ok] in EN.
  destruct EN as (l1 & seg & l2 & w & w1 & -> & LS & -> & _). rewrite app_length. cbn [length]. rewrite app_length. lia.
Qed.

Section Reparse.
  Variable L : language.
  Hypothesis PR : progressing (l_lexer L).
  Variable fine : bytes -> Prop.
  Variable safe : bytes -> list edit_op -> Prop.
  Hypothesis FINE : forall old ops new, safe old ops -> apply ops (as_text old) = Ok new -> fine old /\ fine new.
  Hypothesis RELEX : forall old toks ops new, safe old ops -> lex (l_lexer L) old = Ok toks -> apply ops (as_text old) = Ok new ->
    exists region ts, relex (l_lexer L) toks ops new = Ok (ts, region) /\ lex (l_lexer L) new = Ok ts.
  Variables q qa late : nat -> bool.
  Variable N : nat.
  Hypothesis ME : meaningful L.
  Hypothesis QU : quiet (l_g L) q qa.
  Hypothesis PU : forall e x, nth_error (g_rules (l_g L)) e = Some x -> punctual (l_g L) q late N e x = true.
  Hypothesis L0 : late 0 = false.
  Hypothesis SC : cached_movable L fine.

  Lemma reparse_total : forall fuel0 fuel old f inc ops new x, safe old ops -> ascending ops -> parse_file L fuel0 old = Ok (f, inc) ->
    apply ops (as_text old) = Ok new -> parse_file L fuel new = Ok x -> reparse_file L fuel f inc ops = Ok x.
  Proof.
    intros fuel0 fuel old f inc ops new x SF AS H AP PF. destruct (parse_parts L _ _ _ _ H) as (TX & LX & PE).
    destruct (parse_tree L PR _ _ _ _ ME LX PE) as (LEN & t & PT & EV & _).
    destruct (salvage_total L PR _ _ _ _ _ _ ME LX PE AP) as (m & SV & EN).
    destruct (reparse_unfold L safe RELEX fuel0 fuel _ _ _ _ _ _ SF H AP SV) as (ts & LN & RE & PF'). rewrite RE. rewrite PF' in PF. clear RE PF'.
    destruct (apply_result _ _ _ AP) as [V NEW]. rewrite EV in EN. destruct (FINE _ _ _ SF AP) as [FO FN].
    destruct (holds_cache L PR fine SC old new (i_tokens inc) ts ops t m LX LN V NEW AS FO FN PT EN) as (K & HK). rewrite EV.
    apply bind_ok in PF. destruct PF as ([evs calls] & DP & R). unfold def_parse in DP. apply bind_ok in DP. destruct DP as (fty & FT & DP).
    apply bind_ok in DP. destruct DP as (evs' & PE1 & DP). apply bind_ok in DP. destruct DP as (calls' & CV & DP). injection DP as -> ->.
    set (E1 := new_env (Some (m, encs [t])) (l_g L) (l_ws L) new ts) in *.
    assert (FIT : entries_fit E1) by exact (entries_within _ _ _ _ _ EN).
    pose proof (events_total (l_g L) q qa late E1 eq_refl QU N PU K HK FIT fuel evs L0 PE1) as PE2.
    unfold def_parse. rewrite FT. cbn [bind]. fold E1. rewrite PE2. cbn [bind]. rewrite CV. cbn [bind]. exact R.
  Qed.

  Hypothesis PARSES : forall txt, fine txt -> exists x fuel, forall more, parse_file L (fuel + more) txt = Ok x.

  Lemma edits_total : forall history fuel0 old f inc new, all_safe safe old history -> Forall ascending history -> parse_file L fuel0 old = Ok (f, inc) ->
    apply_all history old = Ok new -> exists x fuel, forall more, edit_all L (fuel + more) (f, inc) history = Ok x /\ parse_file L (fuel + more) new = Ok x.
  Proof.
    induction history as [|ops rest IH]; intros fuel0 old f inc new AF AS H AP; cbn [edit_all apply_all fst snd all_safe] in *.
    - injection AP as <-. exists (f, inc), fuel0. intros more. split; [reflexivity|]. destruct (parse_file_mono L fuel0 (fuel0 + more) old ltac:(lia)) as [Q|Q]; congruence.
    - destruct AF as [SF AF]. inversion AS as [|? ? A1 A2]; subst. apply bind_ok in AP. destruct AP as (mid & AP & AR).
      destruct (PARSES mid (proj2 (FINE _ _ _ SF AP))) as ([f1 inc1] & fuel1 & PM).
      destruct (IH (fuel1 + 0) mid f1 inc1 new (AF _ AP) A2 (PM 0) AR) as (x & fuel2 & EX). exists x, (fuel1 + fuel2). intros more.
      rewrite (reparse_total fuel0 (fuel1 + fuel2 + more) old f inc ops mid (f1, inc1) SF A1 H AP).
      + cbn [bind]. replace (fuel1 + fuel2 + more) with (fuel2 + (fuel1 + more)) by lia. apply EX.
      + rewrite <- Nat.add_assoc. apply PM.
  Qed.
End Reparse.
