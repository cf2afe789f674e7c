(** Model of what the editor plugin does with the backend's answers: code/common.ts [toVsRange], [fromVsRange], [toVsEdits],
    and the methods of [EditorFile] there that return ranges or edits. *)
From Coq Require Import List Arith Bool.
From Verif Require Import Base TextModel EditModel LexModel TreeModel FileEditModel GrammarModel ParserModel ConvertModel EditorModel FormatModel SessionModel.
Import ListNotations.
Open Scope list_scope.

(** VS Code's [positionAt]: the position of an offset in UTF-16 units; offsets behind the end give the end. A position is
    represented by its offset (lines and columns are left out), so that [offsetAt] is the identity. *)
Definition position_at (d : document) (o : nat) : nat := Nat.min o (units d).

(** common.ts:352-357 [toVsRange] *)
Definition to_vs_range (d : document) (r : range) : nat * nat := (position_at d (rstart r), position_at d (rend r)).

(** common.ts:359-361 [fromVsRange]; the backend's deserialization does not check anything. *)
Definition from_vs_range (r : nat * nat) : range := mkRange (fst r) (snd r).

(** common.ts:363-365 [toVsEdits], and the loop in 146-150. *)
Definition client_edits (d : document) (es : list vs_edit) : list ((nat * nat) * bytes) :=
  map (fun e => (to_vs_range d (vs_delete e), vs_insert e)) es.

(** The edits the editor gets for an edit of the tree: lib.rs:144-151 and 176-184 of code/generic_backend, common.ts:119-122. *)
Definition edits_of (d : document) (ops : list edit_op) : res (list ((nat * nat) * bytes)) :=
  es <- to_vs_edits ops ;; Ok (client_edits d es).

Section Client.
  Variables (L : language) (root : option nat) (known : nat -> bool) (fuel : nat).

  (** common.ts:269-277 [provideDocumentFormattingEdits] with 119-122 [reformat]. *)
  Definition format_document (active : option nat) (s : session) (u : nat) : res (session * list ((nat * nat) * bytes)) :=
    '(s', x) <- get_file L root known fuel active s u ;;
    match x with
    | None => Ok (s', [])
    | Some x => ops <- reformat (fst x) ;; js <- edits_of (texts s' u) ops ;; Ok (s', js)
    end.

  (** common.ts:111-116 [extendSelection]. *)
  Definition extend (active : option nat) (s : session) (u : nat) (sel : nat * nat) : res (session * option (nat * nat)) :=
    '(s', x) <- get_file L root known fuel active s u ;;
    match x with
    | None => Ok (s', None)
    | Some x => o <- extend_selection (fst x) (l_ws L) (from_vs_range sel) ;; Ok (s', option_map (to_vs_range (texts s' u)) o)
    end.

  (** common.ts:69-77, the command: one file for all selections (getting it again gives it again), all of them replaced at once.
      The answer null is not expected: [range.start] throws, here [Panic]. *)
  Fixpoint extend_all (active : option nat) (s : session) (u : nat) (sels : list (nat * nat)) : res (list (nat * nat)) :=
    match sels with
    | [] => Ok []
    | sel :: rest =>
        '(s', x) <- extend active s u sel ;;
        match x with
        | None => Panic
        | Some r => rs <- extend_all active s' u rest ;; Ok (r :: rs)
        end
    end.
End Client.
