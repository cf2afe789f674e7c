(** fall/tree/src/metrics.rs: what a file reports about how it was made; and how parsing (fall/parse/src/lib.rs) and the
    grammar editor (lang/fall/src/editor/mod.rs) fill it.

    Simplifications: the clock is a parameter: what [instant.elapsed()] returns after each measured part is an argument.
    The [Mutex] is left out: it is locked for a single push, a single search or while the report is written, so a [Metrics]
    is the list of what was pushed, in the order of the pushes.  The count of ticks is unbounded (a [u64] in the code). *)
From Coq Require Import List NArith Ascii String Decimal DecimalString DecimalN.
From Verif Require Import Base TextModel EditModel LexModel TreeModel GrammarModel ParserModel ConvertModel ReparseModel TickModel.
Import ListNotations.
Open Scope list_scope.

(** metrics.rs:44-48 *)
Record metric : Type := mkMetric { m_name : string; m_value : N; m_unit : string }.

(** metrics.rs:5-7, 19-21 [Metrics::new] is the empty list *)
Definition metrics : Type := list metric.

(** metrics.rs:23-25 *)
Definition record (ms : metrics) (name : string) (value : N) (unit : string) : metrics := ms ++ [mkMetric name value unit].

(** std::time::Duration: whole seconds, a [u64], and the nanoseconds of the rest, below 1_000_000_000 *)
Record duration : Type := mkDuration { d_secs : N; d_nanos : N }.

(** Arithmetic of [u64] in a debug build: it panics when the result does not fit. *)
Definition u64 (n : N) : res N := if N.ltb n 18446744073709551616 then Ok n else Panic.

(** metrics.rs:27-30 *)
Definition record_time (ms : metrics) (name : string) (d : duration) : res metrics :=
  s <- u64 (d_secs d * 1000)%N ;;
  v <- u64 (d_nanos d / 1000000 + s)%N ;;
  Ok (record ms name v "ms").

(** metrics.rs:32-37 *)
Definition measure_time {A : Type} (ms : metrics) (name : string) (f : res A) (d : duration) : res (A * metrics) :=
  result <- f ;;
  ms' <- record_time ms name d ;;
  Ok (result, ms').

(** metrics.rs:39-41 *)
Definition get (ms : metrics) (name : string) : option N := option_map m_value (List.find (fun m => String.eqb (m_name m) name) ms).

(** How Rust writes a [u64]: its decimal digits, without leading zeros, 0 for zero. *)
Definition decimal (n : N) : string := NilZero.string_of_uint (N.to_uint n).

(** metrics.rs:50-54 *)
Definition show_metric (m : metric) : string := (m_name m ++ ": " ++ decimal (m_value m) ++ " " ++ m_unit m)%string.

(** metrics.rs:9-16; fall/editor/src/lib.rs:37-39 [metrics] *)
Definition show_metrics (ms : metrics) : string := fold_right (fun m rest => (show_metric m ++ String (ascii_of_nat 10) rest)%string) EmptyString ms.

(** What the clock says: after lexing, after parsing and after building the tree. *)
Record clock : Type := mkClock { k_lexing : duration; k_parsing : duration; k_building : duration }.

(** fall/parse/src/lib.rs:238-280 [ParserDefinition::parse] with its metrics *)
Definition metered_def_parse (L : language) (fuel : nat) (k : clock) (prev : option (cache_map * list event)) (txt : bytes) (toks : list token) (ms : metrics)
  : res (list event * list tb_call * metrics) :=
  file_ty <- file_type (l_g L) ;;
  '((events, ticks), ms1) <- measure_time ms "parsing" (t_events (new_env prev (l_g L) (l_ws L) txt toks) fuel) (k_parsing k) ;;
  let ms2 := record ms1 "parsing ticks" (N.of_nat ticks) "" in
  '(calls, ms3) <- measure_time ms2 "inode construction" (convert (l_ws L) (file_binder L file_ty) (as_text txt) toks events) (k_building k) ;;
  Ok (events, calls, ms3).

(** fall/parse/src/lib.rs:190-206, fall/tree/src/lang.rs:35-41, fall/tree/src/node/imp.rs:107-115: a new [Metrics], filled
    by the parse and kept in the file *)
Definition metered_parse (L : language) (fuel : nat) (k : clock) (txt : bytes) : res (file * incremental * metrics) :=
  '(toks, ms1) <- measure_time [] "lexing" (lex (l_lexer L) txt) (k_lexing k) ;;
  let ms2 := record ms1 "relexed region" (N.of_nat (List.length txt)) "" in
  '(events, calls, ms3) <- metered_def_parse L fuel k None txt toks ms2 ;;
  f <- file_new txt calls ;;
  Ok (f, mkInc toks events, ms3).

(** fall/parse/src/lib.rs:208-234, fall/tree/src/lang.rs:43-53 *)
Definition metered_reparse (L : language) (fuel : nat) (k : clock) (f : file) (inc : incremental) (ops : list edit_op) : res (file * incremental * metrics) :=
  new_text <- apply ops (as_text (f_text f)) ;;
  '((toks, region), ms1) <- measure_time [] "lexing" (relex (l_lexer L) (i_tokens inc) ops new_text) (k_lexing k) ;;
  let ms2 := record ms1 "relexed region" (N.of_nat region) "" in
  m <- salvage (i_events inc) (i_tokens inc) (l_ws L) ops ;;
  '(events, calls, ms3) <- metered_def_parse L fuel k (Some (m, i_events inc)) new_text toks ms2 ;;
  f1 <- file_new new_text calls ;;
  Ok (f1, mkInc toks events, ms3).

(** lang/fall/src/editor/mod.rs:38-48, 98-102: what the editor asks a grammar file for that is measured *)
Inductive asked : Type := AskHighlight | AskDiagnostics.

(** editor/mod.rs:98-102 [record_analysis]: the answer is computed and its time appended to the metrics of the file.
    The answers themselves are those of AnalysisModel.v; here only that they are returned matters. *)
Definition ask_tag (a : asked) : string := match a with AskHighlight => "highlight" | AskDiagnostics => "diagnostics" end.
Definition ask_one (ms : metrics) (a : asked) (d : duration) : res metrics := '(_, ms') <- measure_time ms (ask_tag a) (Ok tt) d ;; Ok ms'.

Fixpoint ask_all (ms : metrics) (l : list (asked * duration)) : res metrics :=
  match l with
  | [] => Ok ms
  | (a, d) :: rest => ms' <- ask_one ms a d ;; ask_all ms' rest
  end.
