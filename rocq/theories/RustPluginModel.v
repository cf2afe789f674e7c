(** Model of the Rust plugin: code/rust/src/main.ts and the functions code/rust/native/src/lib.rs adds to the generic backend, over the session of
    SessionModel.v. *)
From Coq Require Import List Arith Bool.
From Verif Require Import Base TextModel EditModel LexModel TreeModel GrammarModel ParserModel ConvertModel ReparseModel EditorModel FallEditModel IndexModel RustEditModel
  SessionModel ClientModel.
Import ListNotations.
Open Scope list_scope.

(** lang/rust/src/editor/mod.rs:119-126: no types have colours; error nodes are marked anyway (fall/editor/src/hl.rs:31-40). *)
Definition rust_highlight (f : file) : res (list (range * hl_tag)) := highlight (f_nodes f) hl_tag HError ERROR [] [].

(** JavaScript's [join], main.ts:36 *)
Fixpoint join (sep : bytes) (l : list bytes) : bytes :=
  match l with [] => [] | x :: r => match r with [] => x | _ => x ++ sep ++ join sep r end end.
(** A space, [$(chevron-right)] and a space, which the status bar shows as an arrow. *)
Definition chevron : bytes := [32; 36; 40; 99; 104; 101; 118; 114; 111; 110; 45; 114; 105; 103; 104; 116; 41; 32].

Section RustPlugin.
  Variables (L : language) (known : nat -> bool) (fuel : nat).

  (** common.ts:205-213 with 161-169, 17-22 and 24-39, as [fetch] in FeatureModel.v: main.ts:12 asks for colours and passes no collection of
      diagnostics. *)
  Definition rust_fetch (active : option nat) (s : session) (u : nat) : res (session * option entry) :=
    '(s', x) <- get_file L None known fuel active s u ;;
    _ <- (if known u then
            match docs s u, active with
            | None, Some a =>
                if known a then
                  match docs s' a with
                  | Some y => _ <- rust_highlight (fst y) ;; Ok tt
                  | None => Ok tt
                  end
                else Ok tt
            | _, _ => Ok tt
            end
          else Ok tt) ;;
    Ok (s', x).

  (** main.ts:94-116 [provideOnTypeFormattingEdits] and lib.rs:53-69. [ch] is the character typed, [o] the offset of the position behind it. *)
  Definition on_type (active : option nat) (s : session) (u o ch : nat) : res (session * option (list ((nat * nat) * bytes))) :=
    '(s', x) <- rust_fetch active s u ;;
    match x with
    | None => Ok (s', None)
    | Some x =>
        if ch =? 32 then
          i <- after_space_typed (fst x) o ;;
          match i with None => Ok (s', None) | Some ins => Ok (s', Some [((o, o), ins)]) end
        else if ch =? 36 then
          e <- expand (fst x) o ;;
          match e with None => Ok (s', None) | Some ops => js <- edits_of (texts s' u) ops ;; Ok (s', Some js) end
        else Ok (s', None)
    end.

  (** main.ts:29-38 and lib.rs:71-77: the text of the bar after the cursor moved to [o]; [None]: the bar keeps its text. *)
  Definition moved_to (active : option nat) (s : session) (u o : nat) : res (session * option bytes) :=
    '(s', x) <- rust_fetch active s u ;;
    match x with
    | None => Ok (s', None)
    | Some x => crumbs <- breadcrumbs (fst x) o ;; Ok (s', Some (join chevron crumbs))
    end.

  (** common.ts:250-262, main.ts:42 *)
  Definition rust_symbols (active : option nat) (s : session) (u : nat) : res (session * list (bytes * (nat * nat))) :=
    '(s', x) <- rust_fetch active s u ;;
    match x with
    | None => Ok (s', [])
    | Some x => l <- rust_structure (fst x) ;; Ok (s', map (fun y => (fst y, to_vs_range (texts s' u) (snd y))) l)
    end.

  (** common.ts:288-304 and 136-140, main.ts:43 *)
  Definition rust_offers (active : option nat) (s : session) (u : nat) (sel : nat * nat) : res (session * list bytes) :=
    '(s', x) <- rust_fetch active s u ;;
    match x with
    | None => Ok (s', [])
    | Some x => ids <- rust_context_actions (fst x) (l_ws L) (from_vs_range sel) ;; Ok (s', ids)
    end.

  (** common.ts:50-54, 42-47 and 142-151 *)
  Definition rust_runs (active : option nat) (s : session) (sel : nat * nat) (id : bytes) : res (session * option (nat * list ((nat * nat) * bytes))) :=
    match active with
    | None => Ok (s, None)
    | Some a =>
        '(s', x) <- rust_fetch active s a ;;
        match x with
        | None => Ok (s', None)
        | Some x =>
            o <- rust_apply_context_action (fst x) (l_ws L) (from_vs_range sel) id ;;
            match o with
            | None => Panic
            | Some ops => js <- edits_of (texts s' a) ops ;; Ok (s', Some (a, js))
            end
        end
    end.
End RustPlugin.

(** A symbol of the workspace as VS Code gets it, main.ts:77-82: the name, the line and column of its start and end, and the file. Its kind is always
    [Class]. *)
Definition information (P : Type) : Type := (bytes * ((nat * nat) * (nat * nat)) * P)%type.

(** main.ts:68-85 [provideWorkspaceSymbols] and lib.rs:45-51; the index is a value of IndexModel.v. *)
Definition workspace_symbols {P} (lower_chars : bytes -> bytes) (limit : nat) (types : list nat) (files1 files2 : list (P * file_symbols)) (q : bytes) : res (list (information P)) :=
  r <- query_index lower_chars limit types files1 files2 q ;; Ok (map (fun x => (sy_name (snd x), sy_lc (snd x), fst x)) r).
