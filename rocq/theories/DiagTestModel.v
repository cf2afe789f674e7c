(** Model of the helper with which the diagnostics of grammars are tested (lang/fall/src/analysis/mod.rs 116-141) and of the
    texts of the diagnostics. *)
From Coq Require Import List Arith Bool NArith String Ascii.
From Verif Require Import Base TextModel TreeModel SearchModel LexModel GrammarModel ParserModel ConvertModel DbModel AnalysisModel HarnessModel MetricsModel.
Import ListNotations.
Open Scope list_scope.
Open Scope nat_scope.

(** The bytes of a literal *)
Fixpoint literal (s : string) : bytes := match s with EmptyString => [] | String c r => nat_of_ascii c :: literal r end.
(** [{}] of a [usize] *)
Definition number (n : nat) : bytes := literal (decimal (N.of_nat n)).

(** The texts given to [DiagnosticSink::error] and [warning]: lang/fall/src/analysis/query/resolve_ref_expr.rs 36, all_lex_rules.rs 19,
    all_syn_rules.rs 21, ast_node_traits.rs 23, unused_rules.rs 36, resolve_call.rs 24, 77, 109, 122 and 135, all_context_ids.rs 31,
    resolve_pratt_variant.rs 33, 47, 65, 79, 92-93 and 100 *)
Definition message_text (m : message) : bytes :=
  match m with
  | MUnresolvedReference => literal "Unresolved reference"
  | MDuplicateToken => literal "Duplicate token"
  | MDuplicateRule => literal "Duplicate rule"
  | MUnresolvedTrait => literal "Unresolved trait"
  | MUnusedRule => literal "Unused rule"
  | MWrongArgs expected got => literal "Wrong number of arguments, expected " ++ number expected ++ literal ", got " ++ number got
  | MExpectedArgs expected got => literal "Expected " ++ number expected ++ literal " arguments, got " ++ number got
  | MPrevIs => literal "<prev_is> arguments must be public rules"
  | MContextString => literal "Context should be a single quoted string"
  | MContextOnce name => literal "Context `" ++ name ++ literal "` is used only once"
  | MAtomPriority => literal "Atom rules don't have priority"
  | MSingleAlternative => literal "Expression rule requires a single alternative"
  | MPostfix => literal "Postfix rule requires a single expression and an operation"
  | MPrefix => literal "Prefix rule requires an operation and a single expression"
  | MBin => literal "Binary expression requires a left hand side expression, an operator and a right hand side expression"
  | MBinPriority => literal "Binary expression requires explicit priority"
  end.

(** mod.rs 131-134 *)
Definition severity_letter (s : severity) : bytes := match s with Error => literal "E" | Warning => literal "W" end.

(** mod.rs 135 *)
Definition diagnostic_line (f : file) (d : diagnostic) : res bytes :=
  t <- node_text f root ;; u <- slice t (d_range d) ;; s <- as_str u ;;
  Ok (severity_letter (d_severity d) ++ [32] ++ s ++ [58; 32] ++ message_text (d_message d)).

(** [collect_all_diagnostics] of an analysis nobody else uses (mod.rs 59-78 and 129): a single thread, which takes at most [steps] steps
    of DbModel.v *)
Definition fresh_diagnostics (f : file) (steps : nat) : res (list diagnostic) :=
  cl <- collect_all_diagnostics f (fun _ => CRet) ;;
  match st_threads (run_schedule key_eqb key_kind (fall_exec f) (repeat 0 steps) (start [cl])) with
  | [t] =>
      match t_ctl t with
      | Client CRet => match t_log t with ESnapshot ds :: _ => Ok (sort_diags ds) | _ => Panic end
      | Dead => Panic
      | _ => OutOfFuel
      end
  | _ => Panic
  end.

(** mod.rs 123-127 *)
Definition no_errors_in (f : file) : res unit :=
  l <- subtree (f_nodes f) root ;;
  es <- filter_res (fun n => t <- node_ty (f_nodes f) n ;; Ok (t =? ERROR)) l ;;
  match es with [] => Ok tt | _ => Panic end.

Section Test.
  (** [char::is_whitespace]; the grammar of grammars with a bound on the steps of its parser; a bound on those of the analysis *)
  Variable space : bytes -> bool.
  Variables (L : language) (fuel steps : nat).

  (** lang/fall/src/lib.rs 23-25: [FallFile::wrap] of the root is unwrapped *)
  Definition analysed (code : bytes) : res file :=
    f <- parse_text L fuel code ;; t <- node_ty (f_nodes f) root ;; guard (t =? FALL_FILE) (Ok f).

  (** mod.rs 128-137 *)
  Definition listing (f : file) : res bytes :=
    ds <- fresh_diagnostics f steps ;; ls <- flat_map_res (fun d => s <- diagnostic_line f d ;; Ok [s]) ds ;; Ok (HarnessModel.join [10] ls).

  (** mod.rs 117-141 *)
  Definition check_diagnostics (code expected : bytes) : res unit :=
    f <- analysed code ;; _ <- no_errors_in f ;; actual <- listing f ;; report_diff space expected actual.
End Test.
