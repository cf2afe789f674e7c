(** C87: the metrics of a file are those of the parse that made it. *)
From Coq Require Import List Arith NArith Ascii String Bool Lia.
From Verif Require Import Base BaseFacts TextModel EditModel LexModel TreeModel GrammarModel GrammarData ParserModel ConvertModel ExampleLang ReparseModel TickModel TickSim WorkProofs
  PropsRelex PropsCached PropsWork MetricsModel MetricsSpec MetricsProofs.
Import ListNotations.
Open Scope list_scope.

Lemma millis_of : forall d, whole_millis d (total_nanos d / 1000000).
Proof.
  intros d. unfold whole_millis. pose proof (N.div_mod (total_nanos d) 1000000 ltac:(lia)) as D. pose proof (N.mod_lt (total_nanos d) 1000000 ltac:(lia)) as M. revert D M. generalize (total_nanos d / 1000000)%N, (total_nanos d mod 1000000)%N. intros; lia.
Qed.

Lemma reports_tell : forall k w later, tells (reports k w ++ later) k w.
Proof.
  intros k w later. split; [reflexivity|]. split; [reflexivity|]. split; [|split]; eexists; (split; [reflexivity|apply millis_of]).
Qed.

(** * C87 *)

(** Right after a parse or a reparse the five values can be asked for and are those of that very parse: the work of C86, and
    the elapsed times in whole milliseconds. They stay so whatever the editor asks of the file later. *)
Theorem C87_parse : forall L fuel k txt x ms later ms', metered_parse L fuel k txt = Ok (x, ms) -> ask_all ms later = Ok ms' ->
  exists w, worked_parse L fuel txt = Ok (x, w) /\ tells ms k w /\ tells ms' k w.
Proof.
  intros L fuel k txt x ms later ms' H A. destruct (parse_reports _ _ _ _ _ _ H) as (w & W & ->). apply ask_all_ok in A. subst. exists w. split; [exact W|].
  split; [|apply reports_tell]. pose proof (reports_tell k w []) as T. rewrite List.app_nil_r in T. exact T.
Qed.
Print Assumptions C87_parse.

Theorem C87_reparse : forall L fuel k f inc ops x ms later ms', metered_reparse L fuel k f inc ops = Ok (x, ms) -> ask_all ms later = Ok ms' ->
  exists w, worked_reparse L fuel f inc ops = Ok (x, w) /\ tells ms k w /\ tells ms' k w.
Proof.
  intros L fuel k f inc ops x ms later ms' H A. destruct (reparse_reports _ _ _ _ _ _ _ _ H) as (w & W & ->). apply ask_all_ok in A. subst. exists w. split; [exact W|].
  split; [|apply reports_tell]. pose proof (reports_tell k w []) as T. rewrite List.app_nil_r in T. exact T.
Qed.
Print Assumptions C87_reparse.

(** Measuring has no effect on the file: with times whose milliseconds fit 64 bits, the measured parse returns exactly when the
    parse does, with the same file; so does a reparse; and no question the editor asks later fails. *)
Theorem C87_harmless : forall L fuel k txt f inc ops x ms l, short_clock k -> Forall (fun a => short (snd a)) l ->
  (parse_file L fuel txt = Ok x <-> exists m, metered_parse L fuel k txt = Ok (x, m)) /\
  (reparse_file L fuel f inc ops = Ok x <-> exists m, metered_reparse L fuel k f inc ops = Ok (x, m)) /\
  exists m, ask_all ms l = Ok m.
Proof.
  intros L fuel k txt f inc ops x ms l K F. split; [|split].
  - rewrite work_of_parse. split; [intros (w & W); exact (parse_metered _ _ _ _ _ _ K W)|]. intros (m & M). destruct (parse_reports _ _ _ _ _ _ M) as (w & W & _). eauto.
  - rewrite work_of_reparse. split; [intros (w & W); exact (reparse_metered _ _ _ _ _ _ _ _ K W)|]. intros (m & M). destruct (reparse_reports _ _ _ _ _ _ _ _ M) as (w & W & _). eauto.
  - eexists. apply ask_all_total. exact F.
Qed.
Print Assumptions C87_harmless.

(** In general, asking for a name gives what was first recorded under it, and nothing exactly if nothing was. *)
Theorem C87_get : forall ms name v, (get ms name = Some v <-> first_recorded ms name v) /\
  (get ms name = None <-> Forall (fun m => m_name m <> name) ms) /\
  (forall later, get ms name = Some v -> get (ms ++ later) name = Some v).
Proof. intros ms name v. split; [apply get_first|]. split; [apply get_none|]. intros later. apply get_app. Qed.
Print Assumptions C87_get.

(** So the times of highlighting and diagnostics are those of the first time the file was asked for them. *)
Theorem C87_asked : forall L fuel k txt x ms l ms' a v, metered_parse L fuel k txt = Ok (x, ms) -> ask_all ms l = Ok ms' ->
  (get ms' (ask_tag a) = Some v -> exists d, first_asked l a d /\ whole_millis d v) /\
  (get ms' (ask_tag a) = None <-> ~ In a (map fst l)).
Proof.
  intros L fuel k txt x ms l ms' a v H A. destruct (parse_reports _ _ _ _ _ _ H) as (w & _ & ->). apply ask_all_ok in A. subst. rewrite get_app_none by (destruct a; reflexivity). clear.
  assert (TAG : forall b c, ask_tag b = ask_tag c -> b = c) by (intros [] []; cbn; intro E; try reflexivity; discriminate E).
  induction l as [|[b d] l IH]; cbn [answers map fst snd].
  - split; [discriminate|]. split; [intros _ []|reflexivity].
  - unfold get in *. cbn [List.find m_name]. destruct (String.eqb_spec (ask_tag b) (ask_tag a)) as [EQ|NE].
    + apply TAG in EQ. subst. split.
      * intros H. injection H as <-. exists d. split; [exists [], l; split; [reflexivity|constructor]|apply millis_of].
      * split; [discriminate|]. intros N. exfalso. apply N. left. reflexivity.
    + assert (NB : b <> a) by congruence. destruct IH as [I1 I2]. split.
      * intros H. destruct (I1 H) as (d' & (u & t & -> & F) & M). exists d'. split; [|exact M]. exists ((b, d) :: u), t. split; [reflexivity|]. constructor; assumption.
      * fold (answers l). rewrite I2. cbn [In]. split; [intros N [E|E]; [exact (NB E)|exact (N E)]|]. intros N E. apply N. right. exact E.
Qed.
Print Assumptions C87_asked.

(** What the status bar shows has one line for every value recorded, in order: its name, its decimal digits and its unit. *)
Theorem C87_lines : forall ms, show_metrics ms = of_lines (map (fun m => m_name m ++ ": " ++ decimal (m_value m) ++ " " ++ m_unit m)%string ms) /\
  forall n, all_digits (decimal n) /\ decimal n <> EmptyString /\ value_of 0 (decimal n) = n /\ (forall r, decimal n = String "0" r -> n = 0%N /\ r = EmptyString).
Proof.
  intros ms. split; [induction ms as [|m ms IH]; [reflexivity|]; cbn [show_metrics of_lines map fold_right] in *; unfold of_lines in IH; rewrite <- IH; reflexivity|].
  intros n. split; [apply decimal_digits|]. split; [apply decimal_digits|]. split; [apply value_decimal|]. apply leading_zero.
Qed.
Print Assumptions C87_lines.

(** No two different reports look the same, as long as no name has a colon and no unit a line break; the reports of parses,
    also after questions, are of this kind. *)
Theorem C87_report : (forall ms ms', Forall legible ms -> Forall legible ms' -> show_metrics ms = show_metrics ms' -> ms = ms') /\
  (forall L fuel k txt x ms l ms', metered_parse L fuel k txt = Ok (x, ms) -> ask_all ms l = Ok ms' -> Forall legible ms') /\
  (forall L fuel k f inc ops x ms l ms', metered_reparse L fuel k f inc ops = Ok (x, ms) -> ask_all ms l = Ok ms' -> Forall legible ms').
Proof.
  assert (A : forall k w l, Forall legible (reports k w ++ answers l)).
  { intros k w l. apply Forall_app. split; [unfold reports; repeat constructor; discriminate|]. apply Forall_forall. intros m I. apply in_map_iff in I. destruct I as ((a & d) & <- & _).
    destruct a; repeat constructor; discriminate. }
  split; [exact show_inj|]. split.
  - intros L fuel k txt x ms l ms' H Q. destruct (parse_reports _ _ _ _ _ _ H) as (w & _ & ->). apply ask_all_ok in Q. subst. apply A.
  - intros L fuel k f inc ops x ms l ms' H Q. destruct (reparse_reports _ _ _ _ _ _ _ _ H) as (w & _ & ->). apply ask_all_ok in Q. subst. apply A.
Qed.
Print Assumptions C87_report.

(** One would also expect to be told how long the latest highlighting took. The first is told, for ever. *)
Theorem C87_latest_refuted : ~ forall L fuel k txt x ms before a d ms', metered_parse L fuel k txt = Ok (x, ms) -> ask_all ms (before ++ [(a, d)]) = Ok ms' ->
  exists v, get ms' (ask_tag a) = Some v /\ whole_millis d v.
Proof.
  intro H. set (k := mkClock (mkDuration 0 0) (mkDuration 0 0) (mkDuration 0 0)).
  assert (X : exists x ms ms', metered_parse calc 20 k calc_text = Ok (x, ms) /\ ask_all ms ([(AskHighlight, mkDuration 0 5000000)] ++ [(AskHighlight, mkDuration 1 0)]) = Ok ms' /\ get ms' "highlight" = Some 5%N).
  { do 3 eexists. split; [vm_compute; reflexivity|]. split; [vm_compute; reflexivity|]. reflexivity. }
  destruct X as (x & ms & ms' & P & A & G). destruct (H _ _ _ _ _ _ _ _ _ _ P A) as (v & G' & M). cbn [ask_tag] in G'. rewrite G in G'. injection G' as <-. unfold whole_millis, total_nanos in M. cbn in M. lia.
Qed.
Print Assumptions C87_latest_refuted.

(** ** Cases *)

(** The sum "1 + 2*-3 " parsed in 1, 2 and 0 milliseconds and highlighted in 1.5 seconds. *)
Definition some_clock : clock := mkClock (mkDuration 0 1999999) (mkDuration 0 2000000) (mkDuration 0 999).

Example C87_case : short_clock some_clock /\
  match metered_parse calc 20 some_clock calc_text with
  | Ok (_, ms) => match ask_all ms [(AskHighlight, mkDuration 1 500000000)] with Ok ms' => show_metrics ms' | _ => EmptyString end
  | _ => EmptyString end
  = of_lines ["lexing: 1 ms"; "relexed region: 9 "; "parsing: 2 ms"; "parsing ticks: 20 "; "inode construction: 0 ms"; "highlight: 1500 ms"]%string.
Proof. split; [repeat split; vm_compute; reflexivity|]. vm_compute. reflexivity. Qed.

(** The edit of C86 in the grammar of fall. *)
Example C87_reparse_case : match parse_file real_fall 300 two_rules with
  | Ok (f, inc) => match metered_reparse real_fall 300 some_clock f inc second_rule with Ok (_, ms) => (get ms "relexed region", get ms "parsing ticks", get ms "diagnostics") | _ => (None, None, None) end
  | _ => (None, None, None) end = (Some 4, Some 212, None)%N.
Proof. vm_compute. reflexivity. Qed.

(** Two reports that could be confused if names had colons. *)
Example C87_legible_case : ~ legible (mkMetric "a: 1 b" 2 "") /\ legible (mkMetric "a" 1 "b: 2").
Proof. split; [intros [N _]; cbn in N; tauto|]. split; cbn; repeat split; discriminate. Qed.
