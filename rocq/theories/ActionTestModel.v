(** Model of the helpers with which the actions of the editor are tested (fall/editor/src/actions.rs 47-77,
    fall/tree/src/test_util.rs 36-45). *)
From Coq Require Import List Arith Bool.
From Verif Require Import Base TextModel EditModel TreeModel LexModel ScanModel ConvertModel AnalysisModel HarnessModel EditorModel FallEditModel RustEditModel.
Import ListNotations.

(** actions.rs 52 and 71: the character that marks the selection *)
Definition marker : bytes := [94].

Section Tests.
  (** [char::is_whitespace]; the implementation of [EditorFileImpl]: [parse], [context_actions] and [apply_context_action] *)
  Variable space : bytes -> bool.
  Variable parse : bytes -> res file.
  Variable actions : file -> range -> res (list bytes).
  Variable apply_action : file -> range -> bytes -> res (option (list edit_op)).

  (** test_util.rs 36-39 and 41-45 *)
  Definition parse_with_caret (input caret : bytes) : res (file * nat) :=
    x <- extract_offset input caret ;; f <- parse (fst x) ;; Ok (f, snd x).
  Definition parse_with_range (input caret : bytes) : res (file * range) :=
    x <- extract_range input caret ;; f <- parse (fst x) ;; Ok (f, snd x).

  (** actions.rs 47-65; the messages of the panics are not modelled *)
  Definition check_context_action (action_id before after : bytes) : res unit :=
    x <- extract_range before marker ;;
    f <- parse (fst x) ;;
    l <- actions f (snd x) ;;
    if negb (existsb (bytes_eqb action_id) l) then Panic else
    o <- apply_action f (snd x) action_id ;;
    match o with
    | None => Panic
    | Some edit =>
        actual <- apply edit (as_text (f_text f)) ;;
        report_diff space (trim_str space after) (trim_str space actual)
    end.

  (** actions.rs 67-77 *)
  Definition check_no_context_action (action_id text : bytes) : res unit :=
    x <- extract_range text marker ;;
    f <- parse (fst x) ;;
    l <- actions f (snd x) ;;
    if existsb (bytes_eqb action_id) l then Panic else Ok tt.
End Tests.

(** The two implementations: grammar files (lang/fall/src/editor/mod.rs 17-68) and Rust files (lang/rust/src/editor/mod.rs
    106-166).  Both parse the text with their language. *)
Section Languages.
  Variables (space : bytes -> bool) (L : language) (fuel : nat) (ws : nat -> bool).
  Definition fall_action_test := check_context_action space (parse_text L fuel) (fun f => context_actions f ws) (fun f => apply_context_action f ws).
  Definition fall_no_action_test := check_no_context_action (parse_text L fuel) (fun f => context_actions f ws).
  Definition rust_action_test := check_context_action space (parse_text L fuel) (fun f => rust_context_actions f ws) (fun f => rust_apply_context_action f ws).
  Definition rust_no_action_test := check_no_context_action (parse_text L fuel) (fun f => rust_context_actions f ws).
End Languages.
