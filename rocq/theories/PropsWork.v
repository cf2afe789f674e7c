(** C86: the work reported for a parse is the work of that parse, and incremental parsing never costs more of it than
    parsing the new text would. *)
From Coq Require Import List Arith NArith Bool Lia.
From Verif Require Import Base BaseFacts TextModel TextSpec TextProofs EditModel LexModel LexSpec LexProofs ScanModel ScanSpec ScanProofs TreeModel
  GrammarModel GrammarData ParserModel ConvertModel WellFormed CheckProofs PropsCheck ExampleLang ReparseExample ReparseModel ReparseSpec CacheTotal ReparseProofs ReparseTotal PropsReparse AlwaysProofs PropsComplete
  RegexModel RegexSpec RegexProofs RegexLang PropsRegex RelexChars RelexLang LexData FallLang PropsRelex FallTokens PropsCached ParserProofs MonoProofs TickModel TickProofs TickSim WorkProofs.
Import ListNotations.
Open Scope list_scope.

(** ** Specification *)

(** What two reports of work say about each other: no more expressions tried and no more bytes lexed. *)
Definition no_more (w w' : work) : Prop := w_ticks w <= w_ticks w' /\ w_relexed w <= w_relexed w'.

(** Whatever parsing the text reports, at any fuel, [w] is no more, and the file is the same. *)
Definition at_most_parsing (L : language) (txt : bytes) (x : file * incremental) (w : work) : Prop :=
  (exists fuel y w', worked_parse L fuel txt = Ok (y, w')) /\
  forall fuel y w', worked_parse L fuel txt = Ok (y, w') -> y = x /\ no_more w w'.

Lemma at_most : forall L fuel txt x w w', worked_parse L fuel txt = Ok (x, w') -> w_ticks w <= w_ticks w' -> w_relexed w <= w_relexed w' -> at_most_parsing L txt x w.
Proof.
  intros L fuel txt x w w' H A B. split; [eauto|]. intros fuel' y w1 H'.
  assert (EQ := later_same _ (fun f => worked_parse L f txt) _ _ _ _ (fun f f' LE => worked_parse_mono L f f' txt LE) H H').
  injection EQ as <- <-. split; [reflexivity|split; assumption].
Qed.

(** * C86 *)

(** The work reported belongs to the file it is reported with: counting changes neither whether parsing and reparsing
    return nor what they return. A parse reports its whole text as lexed, and something is always counted. *)
Theorem C86_same : forall L fuel txt f inc ops x,
  (parse_file L fuel txt = Ok x <-> exists w, worked_parse L fuel txt = Ok (x, w)) /\
  (reparse_file L fuel f inc ops = Ok x <-> exists w, worked_reparse L fuel f inc ops = Ok (x, w)) /\
  (forall w, worked_parse L fuel txt = Ok (x, w) -> w_relexed w = length txt /\ 1 <= w_ticks w) /\
  (forall w, worked_reparse L fuel f inc ops = Ok (x, w) -> 1 <= w_ticks w).
Proof.
  intros L fuel txt f inc ops x. split; [apply work_of_parse|]. split; [apply work_of_reparse|]. split; intros w H.
  - unfold worked_parse in H. mon H. mon H. destruct v0 as [[evs calls] n]. mon H. injection H as _ <-. cbn [w_relexed w_ticks]. split; [reflexivity|].
    unfold t_def_parse in Hv0. mon Hv0. tmon Hv0. mon Hv0. inj Hv0. pose proof (events_ticks _ _ _ _ Hv3). lia.
  - unfold worked_reparse in H. mon H. mon H. destruct v0 as [toks region]. mon H. mon H. destruct v1 as [[evs calls] n]. mon H. injection H as _ <-. cbn [w_ticks].
    unfold t_def_parse in Hv2. mon Hv2. tmon Hv2. mon Hv2. inj Hv2. pose proof (events_ticks _ _ _ _ Hv5). lia.
Qed.
Print Assumptions C86_same.

(** The work does not depend on the fuel of the model: it is a function of the text, or of the file and the edit. *)
Theorem C86_determined : forall L fuel fuel' txt f inc ops r r',
  (worked_parse L fuel txt = Ok r -> worked_parse L fuel' txt = Ok r' -> r = r') /\
  (worked_reparse L fuel f inc ops = Ok r -> worked_reparse L fuel' f inc ops = Ok r' -> r = r').
Proof.
  intros L fuel fuel' txt f inc ops r r'. split; intros A B.
  - exact (later_same _ (fun g => worked_parse L g txt) _ _ _ _ (fun g g' LE => worked_parse_mono L g g' txt LE) A B).
  - exact (later_same _ (fun g => worked_reparse L g f inc ops) _ _ _ _ (fun g g' LE => worked_reparse_mono L g g' f inc ops LE) A B).
Qed.
Print Assumptions C86_determined.

(** The fall language as shipped, whose rules are reused: an edit costs at most what parsing the new text costs. *)
Theorem C86_fall : forall U err binder fuel0 fuel old f inc ops x w, tables_ok U -> err_ok err ->
  let L := fall_shipped U err binder in
  utf8 old -> no_bare_raw (l_lexer L) old -> inserts_utf8 ops -> ascending ops ->
  parse_file L fuel0 old = Ok (f, inc) -> worked_reparse L fuel f inc ops = Ok (x, w) ->
  exists new, apply ops (as_text old) = Ok new /\ at_most_parsing L new x w.
Proof.
  intros U err binder fuel0 fuel old f inc ops x w T E L UO FI IU AS H R.
  destruct (reparse_work L (fall_lexes U err binder E) utf8 _ (fall_stays U err binder T E) (fall_relexes U err binder T E) fall_quiet (fun _ => true) fuel0 fuel old f inc ops x w
    (conj FI (conj UO IU)) (fall_means U err binder T E) fall_is_quiet (fall_cached U err binder T E) AS H R) as (new & fuel1 & w1 & AP & P & A & B).
  exists new. split; [exact AP|]. exact (at_most _ _ _ _ _ _ P A B).
Qed.
Print Assumptions C86_fall.

(** Also for the last of any number of edits: what earlier edits left behind never makes the next one more expensive. *)
Theorem C86_history : forall U err binder fuel0 fuel old history f inc f1 inc1 ops x w, tables_ok U -> err_ok err ->
  let L := fall_shipped U err binder in
  all_safe (safe_edit (no_bare_raw (l_lexer L))) old (history ++ [ops]) -> Forall ascending (history ++ [ops]) ->
  parse_file L fuel0 old = Ok (f, inc) -> edit_all L fuel (f, inc) history = Ok (f1, inc1) -> worked_reparse L fuel f1 inc1 ops = Ok (x, w) ->
  exists new, apply_all (history ++ [ops]) old = Ok new /\ at_most_parsing L new x w.
Proof.
  intros U err binder fuel0 fuel old history f inc f1 inc1 ops x w T E L AF AS H ED R.
  assert (FIRST : forall h o, all_safe (safe_edit (no_bare_raw (l_lexer L))) o (h ++ [ops]) -> all_safe (safe_edit (no_bare_raw (l_lexer L))) o h
    /\ forall mid, apply_all h o = Ok mid -> safe_edit (no_bare_raw (l_lexer L)) mid ops /\ apply_all (h ++ [ops]) o = apply ops (as_text mid)).
  { clear. induction h as [|a h IH]; intros o A; cbn [app all_safe] in *.
    - split; [exact I|]. intros mid M. cbn in M. injection M as <-. split; [exact (proj1 A)|]. cbn. destruct (apply ops (as_text o)); reflexivity.
    - destruct A as [S A]. split.
      + split; [exact S|]. intros new AP. exact (proj1 (IH new (A new AP))).
      + intros mid M. cbn [apply_all] in M |- *. destruct (apply a (as_text o)) as [new| |] eqn:AP; cbn [bind] in M |- *; try discriminate.
        exact (proj2 (IH new (A new eq_refl)) mid M). }
  destruct (FIRST _ _ AF) as (AF' & LAST). apply Forall_app in AS. destruct AS as (AS & AL). inversion AL as [|? ? AO _]; subst.
  destruct (C73_history U err binder fuel0 fuel old history f inc (f1, inc1) T E AF' AS H ED) as (mid & fuel1 & AM & P).
  destruct (LAST mid AM) as ((FI & UO & IU) & EQ). rewrite EQ.
  exact (C86_fall U err binder (fuel1 + 0) fuel mid f1 inc1 ops x w T E UO FI IU AO (P 0) R).
Qed.
Print Assumptions C86_history.

(** Any grammar whose reused rules do not depend on what surrounds them, with a lexer that looks one byte ahead. *)
Theorem C86_cached : forall L q qa fuel0 fuel old f inc ops x w,
  progressing (l_lexer L) -> one_byte_lookahead (l_lexer L) -> meaningful L ->
  quiet (l_g L) q qa -> cached_self_contained L -> ascending ops ->
  parse_file L fuel0 old = Ok (f, inc) -> worked_reparse L fuel f inc ops = Ok (x, w) ->
  exists new, apply ops (as_text old) = Ok new /\ at_most_parsing L new x w.
Proof.
  intros L q qa fuel0 fuel old f inc ops x w PR ONE ME QU SC AS H R.
  destruct (reparse_work L PR (fun _ => True) _ (fun _ _ _ _ _ => conj I I) (one_byte_safe _ PR ONE) q qa fuel0 fuel old f inc ops x w I ME QU (self_contained_all_movable _ _ SC) AS H R)
    as (new & fuel1 & w1 & AP & P & A & B).
  exists new. split; [exact AP|]. exact (at_most _ _ _ _ _ _ P A B).
Qed.
Print Assumptions C86_cached.

(** The languages without reused rules, as shipped: an edit tries exactly the expressions parsing the new text tries. *)
Theorem C86_uncached : forall g ws names rules U err binder fuel0 fuel old f inc ops x w, lexed g ws names rules -> relexed rules ->
  tables_ok U -> err_ok err -> utf8 old -> inserts_utf8 ops ->
  let L := shipped_lang U err rules g ws binder in
  parse_file L fuel0 old = Ok (f, inc) -> worked_reparse L fuel f inc ops = Ok (x, w) ->
  exists new w', apply ops (as_text old) = Ok new /\ worked_parse L fuel new = Ok (x, w') /\ w_ticks w = w_ticks w' /\ w_relexed w <= w_relexed w'.
Proof.
  intros g ws names rules U err binder fuel0 fuel old f inc ops x w LX RX T E UO IU L H R.
  destruct (C71_shipped _ _ _ _ U longest err LX T longest_picks E) as (PG & _).
  assert (UC : uncached (l_g L)).
  { apply uncachedb_ok. cbn [l_g L shipped_lang]. assert (N : length rules <> length fall_rules /\ length rules <> length rust_rules) by (clear -RX; destruct RX; split; discriminate).
    clear -LX N. destruct LX; try (vm_compute; reflexivity); destruct N as [N M]; exfalso; [apply N|apply M]; reflexivity. }
  exact (reparse_same_work L PG _ (relexed_safe rules U err RX T E) fuel0 fuel old f inc ops x w (conj I (conj UO IU)) UC H R).
Qed.
Print Assumptions C86_uncached.

(** ** Cases *)

(** What an edit reports, beside what parsing the new text reports. *)
Definition costs (L : language) (fuel : nat) (old : bytes) (ops : list edit_op) : res (work * work) :=
  '(f, inc) <- parse_file L fuel old ;;
  '(_, w) <- worked_reparse L fuel f inc ops ;;
  new <- apply ops (as_text old) ;;
  '(_, w') <- worked_parse L fuel new ;;
  Ok (w, w').

Definition cheaper (L : language) (fuel : nat) (old : bytes) (ops : list edit_op) : bool :=
  match costs L fuel old ops with Ok (w, w') => (w_ticks w <? w_ticks w') && (w_relexed w <? w_relexed w') | _ => false end.

(** "rule a{b} rule c{d}", to whose second rule a part is added (the conditions of [C86_fall] are met, [C73_case]): the
    first rule is reused, so the edit reports strictly less of both than parsing the new text. *)
Example C86_fall_case : utf8 two_rules /\ no_bare_raw (l_lexer real_fall) two_rules /\ inserts_utf8 second_rule /\ ascending second_rule /\
  cheaper real_fall 300 two_rules second_rule = true.
Proof.
  destruct C73_case as (_ & _ & UO & NB & IU & AS & _). split; [exact UO|]. split; [exact NB|]. split; [exact IU|]. split; [exact AS|]. vm_compute. reflexivity.
Qed.

(** The counts themselves, for the example grammar of boxes in " (a)": the file, its repetition and once for each of its
    two rounds the sequence, the negation and the end of the text; in the first round also the choice, the cached rule,
    the box, its sequence and its three tokens. When the box is reused, the box, its sequence and its tokens are not tried. *)
Example C86_counts_case : costs boxes 20 boxes_text [Copy (mkRange 3 7)] = Ok (mkWork 1 (2 + 2 * 3 + 2), mkWork 4 (2 + 2 * 3 + 2 + 5)) /\
  ascending [Copy (mkRange 3 7)].
Proof. split; [vm_compute; reflexivity|]. apply (ltr_ascending _ 0). cbn. lia. Qed.

(** A history of two edits, the second as cheap as the first although the file it starts from was itself reparsed. *)
Definition second_cost (L : language) (fuel : nat) (old : bytes) (ops1 ops2 : list edit_op) : res (work * work) :=
  x <- parse_file L fuel old ;;
  '(f1, inc1) <- edit_all L fuel x [ops1] ;;
  '(_, w) <- worked_reparse L fuel f1 inc1 ops2 ;;
  new <- apply_all [ops1; ops2] old ;;
  '(_, w') <- worked_parse L fuel new ;;
  Ok (w, w').

Example C86_history_case : let L := real_fall in let again := [Copy (mkRange 0 17); Insert [101; 32]; Copy (mkRange 17 21)] in
  Forall ascending [second_rule; again] /\
  match second_cost L 300 two_rules second_rule again with Ok (w, w') => (w_ticks w <? w_ticks w') && (w_relexed w <? w_relexed w') | _ => false end = true.
Proof.
  split; [apply Forall_cons; [|apply Forall_cons; [|apply Forall_nil]]; apply (ltr_ascending _ 0); cbn; lia|]. vm_compute. reflexivity.
Qed.

(** A language without reused rules: (a) edited into (ab). *)
Example C86_uncached_case : (exists names, lexed sexp_grammar sexp_ws names sexp_rules) /\ relexed sexp_rules /\
  costs real_sexp 100 [40; 97; 41] [Copy (mkRange 0 2); Insert [98]; Copy (mkRange 2 3)] = Ok (mkWork 3 33, mkWork 4 33).
Proof. split; [eexists; exact lx_sexp|]. split; [constructor|]. vm_compute. reflexivity. Qed.

(** One would also expect the reported region to cover at least the bytes that were typed. It does not when the old text
    had an error: the whole text is lexed again and nothing is reported. *)
Theorem C86_region_refuted : ~ forall L fuel old f inc ops x w, progressing (l_lexer L) -> parse_file L fuel old = Ok (f, inc) -> worked_reparse L fuel f inc ops = Ok (x, w) ->
  length (concat (map (fun o => match o with Insert t => t | _ => [] end) ops)) <= w_relexed w.
Proof.
  intro H. assert (X : exists f inc x w, parse_file calc 20 [46] = Ok (f, inc) /\ worked_reparse calc 20 f inc [Copy (mkRange 0 1); Insert [49]] = Ok (x, w) /\ w_relexed w = 0).
  { do 4 eexists. split; [vm_compute; reflexivity|]. split; [vm_compute; reflexivity|]. reflexivity. }
  destruct X as (f & inc & x & w & P & R & Z). specialize (H calc 20 [46] f inc _ x w calc_progress P R). rewrite Z in H. cbn in H. lia.
Qed.
Print Assumptions C86_region_refuted.

(** The edits meet the conditions of the theorems above it: the refuted statement fails on a reachable file. *)
Example C86_region_case : progressing (l_lexer calc) /\ match costs calc 20 [46] [Copy (mkRange 0 1); Insert [49]] with Ok (w, w') => (w_relexed w =? 0) && (w_relexed w' =? 2) | _ => false end = true.
Proof. split; [exact calc_progress|vm_compute; reflexivity]. Qed.
