(** Model of the commands and providers of the fall plugin: code/fall/src/main.ts, and of code/common.ts the symbols and the context actions,
    over the session of SessionModel.v. *)
From Coq Require Import List Arith Bool.
From Verif Require Import Base TextModel EditModel LexModel TreeModel GrammarModel ParserModel ConvertModel ReparseModel DbModel AnalysisModel RefModel EditorModel FallEditModel
  SessionModel ClientModel.
Import ListNotations.
Open Scope list_scope.

Section Features.
  Variables (L : language) (root : option nat) (known : nat -> bool) (fuel : nat).
  (** What the analysis of a file answers; each file has its own (lang/fall/src/analysis/mod.rs:85-110). *)
  Variable ask : file -> key -> res value.
  (** [collect_all_diagnostics]; its result does not matter here *)
  Variable check : file -> res (list diagnostic).
  (** [TestRenderer::render_one], HarnessModel.v *)
  Variable render : file -> nat -> res bytes.

  (** common.ts:205-213 with 161-169, 17-22 and 24-39: when the file was not there, [getFile] draws the active editor (ScreenModel.v) before it
      returns, and throws if the backend panics over that. *)
  Definition fetch (active : option nat) (s : session) (u : nat) : res (session * option entry) :=
    '(s', x) <- get_file L root known fuel active s u ;;
    _ <- (if known u then
            match docs s u, active with
            | None, Some a =>
                if known a then
                  match docs s' a with
                  | Some y => _ <- fall_highlight (fst y) (ask (fst y)) ;; _ <- check (fst y) ;; Ok tt
                  | None => Ok tt
                  end
                else Ok tt
            | _, _ => Ok tt
            end
          else Ok tt) ;;
    Ok (s', x).

  (** main.ts:57-68 [provideDefinition], lang/fall/src/editor/mod.rs:75-77. A position is represented by its offset (ClientModel.v). *)
  Definition provide_definition (active : option nat) (s : session) (u o : nat) : res (session * option (nat * nat)) :=
    '(s', x) <- fetch active s u ;;
    match x with
    | None => Ok (s', None)
    | Some x => r <- resolve_reference (fst x) (ask (fst x)) (l_ws L) o ;; Ok (s', option_map (to_vs_range (texts s' u)) r)
    end.

  (** main.ts:76-87 [provideReferences], editor/mod.rs:79-81; nothing for documents of other languages. *)
  Definition provide_references (active : option nat) (s : session) (u o : nat) : res (session * list (nat * nat)) :=
    '(s', x) <- fetch active s u ;;
    match x with
    | None => Ok (s', [])
    | Some x => l <- find_usages (fst x) (ask (fst x)) (l_ws L) o ;; Ok (s', map (to_vs_range (texts s' u)) l)
    end.

  (** common.ts:250-262 [provideDocumentSymbols] *)
  Definition provide_symbols (active : option nat) (s : session) (u : nat) : res (session * list (bytes * (nat * nat))) :=
    '(s', x) <- fetch active s u ;;
    match x with
    | None => Ok (s', [])
    | Some x => l <- structure (fst x) ;; Ok (s', map (fun y => (fst y, to_vs_range (texts s' u) (snd y))) l)
    end.

  (** common.ts:288-304 [provideCodeActions] and 136-140: the ids; each comes with the range, for the command below. *)
  Definition provide_actions (active : option nat) (s : session) (u : nat) (sel : nat * nat) : res (session * list bytes) :=
    '(s', x) <- fetch active s u ;;
    match x with
    | None => Ok (s', [])
    | Some x => ids <- context_actions (fst x) (l_ws L) (from_vs_range sel) ;; Ok (s', ids)
    end.

  (** common.ts:50-54, the command, with 42-47 and 142-151: the file is that of the active editor's document, and so is the document that is
      edited. The result is that document with the edits, or nothing. The backend's null is not expected: the loop throws, here [Panic]. *)
  Definition run_action (active : option nat) (s : session) (sel : nat * nat) (id : bytes) : res (session * option (nat * list ((nat * nat) * bytes))) :=
    match active with
    | None => Ok (s, None)
    | Some a =>
        '(s', x) <- fetch active s a ;;
        match x with
        | None => Ok (s', None)
        | Some x =>
            o <- apply_context_action (fst x) (l_ws L) (from_vs_range sel) id ;;
            match o with
            | None => Panic
            | Some ops => js <- edits_of (texts s' a) ops ;; Ok (s', Some (a, js))
            end
        end
    end.

  (** main.ts:96-114 [provideCodeActions]: the number of the test, for the command "Render test". *)
  Definition provide_test (active : option nat) (s : session) (u : nat) (sel : nat * nat) : res (session * option nat) :=
    '(s', x) <- fetch active s u ;;
    match x with
    | None => Ok (s', None)
    | Some x => n <- test_at_offset (fst x) (fst sel) ;; Ok (s', n)
    end.

  (** main.ts:127-139 [provideTextDocumentContent], after the command (26-31) has stored the number, and again whenever a document is saved
      (34-36). Neither a missing editor nor a document of another language is expected: both throw. *)
  Definition provide_rendering (active : option nat) (s : session) (test_n : nat) : res (session * bytes) :=
    match active with
    | None => Panic
    | Some a =>
        '(s', x) <- fetch active s a ;;
        match x with
        | None => Panic
        | Some x => t <- render (fst x) test_n ;; Ok (s', t)
        end
    end.
End Features.
