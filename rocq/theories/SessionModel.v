(** Model of the editor plugin: code/common.ts [createPlugin] and [documentToFile] (the copies in code/fall/src and
    code/rust/src are the same), the class of files of code/generic_backend/src/lib.rs, and [parse] and [edit] of
    lang/fall/src/editor/mod.rs and lang/rust/src/editor/mod.rs. *)
From Coq Require Import List Arith Bool.
From Verif Require Import Base TextModel EditModel LexModel TreeModel GrammarModel ParserModel ConvertModel ReparseModel.
Import ListNotations.
Open Scope list_scope.

(** What VS Code calls the text of a document: its characters, each as its UTF-8 bytes. (JavaScript strings may also hold
    halves of surrogate pairs; those are left out.) *)
Definition document : Type := list bytes.

(** The bytes the backend gets for a document or an inserted text: neon turns the JavaScript string into UTF-8. *)
Definition contents (d : document) : bytes := concat d.

(** The length VS Code gives to a text ([offsetAt], [rangeLength]): the number of UTF-16 code units, which is 2 for the
    characters beyond U+FFFF, the ones with 4 bytes, and 1 for the others. *)
Definition units (d : document) : nat := list_sum (map (fun c => if length c =? 4 then 2 else 1) d).

(** code/generic_backend/src/lib.rs:17-19 [EditorFile]: a file with what is needed to reparse it. *)
Definition entry : Type := (file * incremental)%type.

(** lang/fall/src/editor/mod.rs:21-28 and lang/fall/src/analysis/mod.rs:92-98: fall files are wrapped in an analysis, which
    panics unless the root has the right type; lang/rust/src/editor/mod.rs does not check ([None]). *)
Definition wrap (root : option nat) (x : entry) : res entry :=
  match root with
  | None => Ok x
  | Some want => t <- node_ty (f_nodes (fst x)) 0 ;; if t =? want then Ok x else Panic
  end.

(** code/generic_backend/src/lib.rs:42-44 [parse] (and 64-67, 92-101) *)
Definition backend_parse (L : language) (root : option nat) (fuel : nat) (txt : bytes) : res entry :=
  x <- parse_file L fuel txt ;; wrap root x.

(** code/generic_backend/src/lib.rs:45-48 [edit] and 68-81: the edits are converted with the text of the file held. *)
Definition backend_edit (L : language) (root : option nat) (fuel : nat) (x : entry) (es : list vs_edit) : res entry :=
  ops <- from_vs_edits (as_text (f_text (fst x))) es ;; y <- reparse_file L fuel (fst x) (snd x) ops ;; wrap root y.

(** The texts of VS Code's documents, and the variable [docs] of common.ts:160. Documents are numbered (the keys of [docs]
    are their URIs). *)
Record session : Type := mkSession { texts : nat -> document; docs : nat -> option entry }.

Definition set {A} (m : nat -> A) (u : nat) (v : A) : nat -> A := fun w => if w =? u then v else m w.

(** Events VS Code sends. [Changed u i j ins]: one change, which replaces the characters from [i] to [j] of [u]. [Rewritten]:
    any other change event (none or several changes). [Asked u]: a provider or a command calls [getFile] for [u].
    [Switched]: another editor is active. *)
Inductive event : Type :=
| Opened (u : nat) (d : document)
| Changed (u i j : nat) (ins : document)
| Rewritten (u : nat) (d : document)
| Closed (u : nat)
| Asked (u : nat)
| Switched.

(** The text of a document after one change. *)
Definition changed (d : document) (i j : nat) (ins : document) : document := firstn i d ++ ins ++ skipn j d.

Section Plugin.
  Variables (L : language) (root : option nat).
  (** common.ts:174-176 [isKnownDoc]: the file name ends with the extension of the language. *)
  Variable known : nat -> bool.
  Variable fuel : nat.

  (** common.ts:24-27, 42-47 and 205-213: [updateActiveEditor] asks for the file of the active editor's document, which parses
      it if it is not there; [update] (161-169) then calls [updateActiveEditor] again, which finds the file. That the results
      are drawn on the screen is in ScreenModel.v. The virtual documents which [onChange] (17-22) refreshes ask for the same file. *)
  Definition refresh (active : option nat) (s : session) : res session :=
    match active with
    | None => Ok s
    | Some a =>
        if known a then
          match docs s a with
          | Some _ => Ok s
          | None => x <- backend_parse L root fuel (contents (texts s a)) ;; Ok (mkSession (texts s) (set (docs s) a (Some x)))
          end
        else Ok s
    end.

  (** common.ts:161-169 [update]; [None] is [null]. *)
  Definition update (active : option nat) (s : session) (u : nat) (x : option entry) : res session :=
    refresh active (mkSession (texts s) (set (docs s) u x)).

  (** common.ts:205-213: the function [documentToFile] returns. *)
  Definition get_file (active : option nat) (s : session) (u : nat) : res (session * option entry) :=
    if known u then
      s' <- match docs s u with
            | Some _ => Ok s
            | None => x <- backend_parse L root fuel (contents (texts s u)) ;; update active s u (Some x)
            end ;;
      Ok (s', docs s' u)
    else Ok (s, None).

  (** common.ts:178-203, 49: the handlers. [active] is the document of the active editor. VS Code has already changed the
      document when it sends the event: [start] is computed on the new text. *)
  Definition handle (s : session) (ev : event * option nat) : res session :=
    let active := snd ev in
    match fst ev with
    | Opened u d =>
        let s := mkSession (set (texts s) u d) (docs s) in
        if known u then x <- backend_parse L root fuel (contents d) ;; update active s u (Some x) else Ok s
    | Changed u i j ins =>
        let old := texts s u in
        let new := changed old i j ins in
        let s := mkSession (set (texts s) u new) (docs s) in
        if known u then
          match docs s u with
          | Some x =>
              let start := units (firstn i new) in
              let len := units (firstn (j - i) (skipn i old)) in
              y <- backend_edit L root fuel x [mkVs (mkRange start (start + len)) (contents ins)] ;; update active s u (Some y)
          | None => update active s u None
          end
        else Ok s
    | Rewritten u d =>
        let s := mkSession (set (texts s) u d) (docs s) in
        if known u then update active s u None else Ok s
    | Closed u => update active s u None
    | Asked u => '(s', _) <- get_file active s u ;; Ok s'
    | Switched => refresh active s
    end.

  Fixpoint handle_all (s : session) (evs : list (event * option nat)) : res session :=
    match evs with
    | [] => Ok s
    | ev :: rest => s' <- handle s ev ;; handle_all s' rest
    end.
End Plugin.
