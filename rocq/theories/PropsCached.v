(** C73: incremental parsing of fall, whose rules are reused when their text was copied. *)
From Coq Require Import List Arith NArith Bool Lia.
From Verif Require Import Base BaseFacts TextModel TextSpec TextProofs EditModel LexModel LexSpec LexProofs ScanModel ScanSpec ScanProofs TreeModel
  GrammarModel GrammarData ParserModel ConvertModel WellFormed CheckProofs PropsCheck ReparseModel ReparseSpec CacheTotal ReparseProofs ReparseTotal PropsReparse AlwaysProofs PropsComplete
  RegexModel RegexSpec RegexProofs RegexLang PropsRegex RelexChars RelexLang LexData FallLang PropsRelex FallTokens.
Import ListNotations.
Open Scope list_scope.

(** The fall language as shipped: its lexical rules, its grammar, its whitespace; any tables of character classes, any way
    of resuming after an error and any whitespace binder. *)
Definition fall_shipped (U : tables) (err : bytes -> nat) (binder : nat -> list (nat * bytes) -> bool -> nat) : language :=
  shipped_lang U err fall_rules fall_grammar fall_ws binder.

Section Fall.
  Variables (U : tables) (err : bytes -> nat) (binder : nat -> list (nat * bytes) -> bool -> nat).
  Hypothesis T : tables_ok U.
  Hypothesis E : err_ok err.
  Notation L := (fall_shipped U err binder).
  Notation safe := (safe_edit (no_bare_raw (regex_lexer U longest err fall_rules))).

  Lemma fall_lexes : progressing (l_lexer L).
  Proof. exact (regex_progress U longest err fall_rules longest_picks E (lexed_proper _ _ _ _ lx_fall)). Qed.

  Lemma fall_relexes : forall old toks ops new, safe old ops -> lex (l_lexer L) old = Ok toks -> apply ops (as_text old) = Ok new ->
    exists region ts, relex (l_lexer L) toks ops new = Ok (ts, region) /\ lex (l_lexer L) new = Ok ts.
  Proof. intros old toks ops new (FI & UO & IU) LX AP. exact (proj2 (C72_fall_relex U err old toks ops new T E FI UO IU LX AP)). Qed.

  Lemma fall_stays : forall old ops new, safe old ops -> apply ops (as_text old) = Ok new -> utf8 old /\ utf8 new.
  Proof.
    intros old ops new (FI & UO & IU) AP. split; [exact UO|]. destruct (lex_ok (l_lexer L) old fall_lexes) as (toks & LX & _).
    exact (proj1 (C72_fall_relex U err old toks ops new T E FI UO IU LX AP)).
  Qed.

  Lemma fall_means : meaningful L.
  Proof.
    assert (SH : shipped (l_g L)) by constructor. destruct (C28_shipped _ SH) as ((c & WF) & PL). destruct (C71_shipped _ _ _ _ U longest err lx_fall T longest_picks E) as (PG & BL & _).
    apply (well_formed_meaningful L c WF PL PG). intros b r W. apply blank_is. exact (BL b r W).
  Qed.

  Lemma fall_cached : cached_movable L utf8.
  Proof.
    intros e k R. change (l_g L) with fall_grammar in R.
    assert (OK : check_from (fun _ x => match x with ECached k => k =? 76 | _ => true end) 0 (g_rules fall_grammar) = true) by (vm_compute; reflexivity).
    apply (check_from_ok _ _ _ OK) in R. apply Nat.eqb_eq in R. subst k. exact (fall_movable U err binder T E).
  Qed.

  (** The cached rule and what leads to it from the rule that skips to the first token of a form. *)
  Definition fall_late (e : nat) : bool := memb e [2; 3; 53; 77].
  Lemma fall_punctual : forall e x, nth_error (g_rules (l_g L)) e = Some x -> punctual (l_g L) fall_quiet fall_late 9 e x = true.
  Proof.
    intros e x R. assert (OK : check_from (punctual fall_grammar fall_quiet fall_late 9) 0 (g_rules fall_grammar) = true) by (vm_compute; reflexivity).
    exact (check_from_ok _ _ _ OK _ _ R).
  Qed.

  Lemma fall_parses : (forall ty sp b, binder ty sp b <= length sp) -> forall txt, utf8 txt -> exists x fuel, forall more, parse_file L (fuel + more) txt = Ok x.
  Proof.
    intros BO txt US. assert (SH : shipped (l_g L)) by constructor. destruct (C71_shipped _ _ _ _ U longest err lx_fall T longest_picks E) as (PG & BL & _ & AL).
    destruct (C28_shipped_parse L txt SH PG) as (f & inc & fuel & H); [intros b r W; apply blank_is; exact (BL b r W)|exact BO|intros toks k; exact (AL txt toks k US)|].
    exists (f, inc), fuel. exact H.
  Qed.
End Fall.

(** * C73 *)

(** One edit: what reparsing with reused rules returns is what parsing the new text returns. *)
Theorem C73_reparse : forall U err binder fuel0 fuel old f inc ops x, tables_ok U -> err_ok err ->
  let L := fall_shipped U err binder in
  utf8 old -> no_bare_raw (l_lexer L) old -> inserts_utf8 ops -> ascending ops ->
  parse_file L fuel0 old = Ok (f, inc) -> reparse_file L fuel f inc ops = Ok x ->
  exists new fuel1, apply ops (as_text old) = Ok new /\ forall more, parse_file L (fuel1 + more) new = Ok x.
Proof.
  intros U err binder fuel0 fuel old f inc ops x T E L UO FI IU AS H R.
  exact (reparse_cached L (fall_lexes U err binder E) utf8 _ (fall_stays U err binder T E) (fall_relexes U err binder T E) fall_quiet (fun _ => true) fuel0 fuel old f inc ops x
    (conj FI (conj UO IU)) (fall_means U err binder T E) fall_is_quiet (fall_cached U err binder T E) AS H R).
Qed.
Print Assumptions C73_reparse.

(** Any number of edits, each to a text of this kind. *)
Theorem C73_history : forall U err binder fuel0 fuel old history f inc x, tables_ok U -> err_ok err ->
  let L := fall_shipped U err binder in
  all_safe (safe_edit (no_bare_raw (l_lexer L))) old history -> Forall ascending history ->
  parse_file L fuel0 old = Ok (f, inc) -> edit_all L fuel (f, inc) history = Ok x ->
  exists new fuel1, apply_all history old = Ok new /\ forall more, parse_file L (fuel1 + more) new = Ok x.
Proof.
  intros U err binder fuel0 fuel old history f inc x T E L AF AS H ED.
  exact (edits_cached L (fall_lexes U err binder E) utf8 _ (fall_stays U err binder T E) (fall_relexes U err binder T E) fall_quiet (fun _ => true) fuel
    (fall_means U err binder T E) fall_is_quiet (fall_cached U err binder T E) history fuel0 old f inc x AF AS H ED).
Qed.
Print Assumptions C73_history.

(** Reparsing does return: with any fuel with which parsing the new text returns. *)
Theorem C73_total : forall U err binder fuel0 fuel old f inc ops new x, tables_ok U -> err_ok err ->
  let L := fall_shipped U err binder in
  utf8 old -> no_bare_raw (l_lexer L) old -> inserts_utf8 ops -> ascending ops ->
  parse_file L fuel0 old = Ok (f, inc) -> apply ops (as_text old) = Ok new ->
  parse_file L fuel new = Ok x -> reparse_file L fuel f inc ops = Ok x.
Proof.
  intros U err binder fuel0 fuel old f inc ops new x T E L UO FI IU AS H AP PF.
  exact (reparse_total L (fall_lexes U err binder E) utf8 _ (fall_stays U err binder T E) (fall_relexes U err binder T E) fall_quiet (fun _ => true) fall_late 9
    (fall_means U err binder T E) fall_is_quiet (fall_punctual U err binder) eq_refl (fall_cached U err binder T E) fuel0 fuel old f inc ops new x (conj FI (conj UO IU)) AS H AP PF).
Qed.
Print Assumptions C73_total.

(** Every text of this kind is parsed, and after any edits of it reparsing and parsing the new text both return, the
    same file. The binder may not claim more tokens than it is shown. *)
Theorem C73_edits : forall U err binder old history new, tables_ok U -> err_ok err -> (forall ty sp b, binder ty sp b <= length sp) ->
  let L := fall_shipped U err binder in
  utf8 old -> all_safe (safe_edit (no_bare_raw (l_lexer L))) old history -> Forall ascending history -> apply_all history old = Ok new ->
  exists start x fuel, forall more, parse_file L (fuel + more) old = Ok start /\ edit_all L (fuel + more) start history = Ok x /\ parse_file L (fuel + more) new = Ok x.
Proof.
  intros U err binder old history new T E BO L UO AF AS AP. destruct (fall_parses U err binder T E BO old UO) as ([f inc] & fuel1 & PO). exists (f, inc).
  destruct (edits_total L (fall_lexes U err binder E) utf8 _ (fall_stays U err binder T E) (fall_relexes U err binder T E) fall_quiet (fun _ => true) fall_late 9
    (fall_means U err binder T E) fall_is_quiet (fall_punctual U err binder) eq_refl (fall_cached U err binder T E) (fall_parses U err binder T E BO)
    history (fuel1 + 0) old f inc new AF AS (PO 0) AP) as (x & fuel2 & EX).
  exists x, (fuel1 + fuel2). intros more. split; [rewrite <- Nat.add_assoc; apply PO|]. replace (fuel1 + fuel2 + more) with (fuel2 + (fuel1 + more)) by lia. apply EX.
Qed.
Print Assumptions C73_edits.

(** ** Case *)

(** In "rule a{b} rule c{d}" the second rule gets another part; the first is reused. *)
Definition real_fall : language := fall_shipped ascii_U one_char (fun _ _ _ => 0).
Definition two_rules : bytes := [114; 117; 108; 101; 32; 97; 123; 98; 125; 32; 114; 117; 108; 101; 32; 99; 123; 100; 125].
Definition second_rule : list edit_op := [Copy (mkRange 0 17); Insert [101; 32]; Copy (mkRange 17 19)].

Example C73_case : tables_ok ascii_U /\ err_ok one_char /\ utf8 two_rules /\ no_bare_raw (l_lexer real_fall) two_rules /\ inserts_utf8 second_rule /\ ascending second_rule /\
  exists f inc x m, parse_file real_fall 300 two_rules = Ok (f, inc) /\ reparse_file real_fall 300 f inc second_rule = Ok x /\
    salvage (i_events inc) (i_tokens inc) (l_ws real_fall) second_rule = Ok m /\ length m = 1.
Proof.
  split; [exact ascii_U_ok|]. split; [exact one_char_ok|]. split; [apply ascii_utf8; repeat (apply Forall_cons; [cbn; lia|]); apply Forall_nil|].
  split. { intros before after H N. assert (LX : exists ts, lex (l_lexer real_fall) two_rules = Ok ts /\ forallb (fun t => negb (tk_ty t =? 118)) ts = true) by (eexists; split; [vm_compute; reflexivity|reflexivity]).
    destruct LX as (ts & LX & NH). rewrite LX in H. injection H as ->. rewrite forallb_forall in NH. specialize (NH (mkTok 118 1)). discriminate NH. apply in_or_app. right. right. left. reflexivity. }
  split; [repeat (apply Forall_cons; [first [exact I | apply ascii_utf8; repeat (apply Forall_cons; [lia|]); apply Forall_nil]|]); apply Forall_nil|].
  split; [apply (ltr_ascending _ 0); cbn; lia|].
  do 4 eexists. split; [vm_compute; reflexivity|]. split; [vm_compute; reflexivity|]. split; [vm_compute; reflexivity|]. reflexivity.
Qed.

(** The same edit as a history of one. *)
Example C73_case_edits : utf8 two_rules /\ all_safe (safe_edit (no_bare_raw (l_lexer real_fall))) two_rules [second_rule] /\ Forall ascending [second_rule] /\
  exists new, apply_all [second_rule] two_rules = Ok new.
Proof.
  destruct C73_case as (_ & _ & UO & NB & IU & AS & _). split; [exact UO|]. split; [|split; [constructor; [exact AS|constructor]|eexists; vm_compute; reflexivity]].
  cbn [all_safe]. split; [split; [exact NB|split; [exact UO|exact IU]]|]. intros new _. exact I.
Qed.
