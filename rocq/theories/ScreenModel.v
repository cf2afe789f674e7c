(** Model of what the editor plugin draws: code/common.ts [updateActiveEditor] and [setHighlights], over the session of SessionModel.v. *)
From Coq Require Import List Arith Bool.
From Verif Require Import Base TextModel EditModel LexModel TreeModel GrammarModel ParserModel ConvertModel ReparseModel AnalysisModel FallEditModel SessionModel ClientModel.
Import ListNotations.
Open Scope list_scope.

(** The tags that have a decoration, common.ts:307-325 ([background] and [text] are never sent by the backends, fall/editor/src/hl.rs). *)
Definition same_tag (a b : hl_tag) : bool :=
  match a, b with
  | HError, HError | HComment, HComment | HString, HString | HKeyword, HKeyword | HFunction, HFunction | HParameter, HParameter
  | HBuiltin, HBuiltin | HAttribute, HAttribute | HLiteral, HLiteral => true
  | _, _ => false
  end.

(** A problem VS Code lists: its range, whether it is an error, and the message (common.ts:125-134). *)
Definition problem : Type := ((nat * nat) * bool * message)%type.
Definition to_problem (d : document) (x : diagnostic) : problem :=
  (to_vs_range d (d_range x), match d_severity x with Error => true | Warning => false end, d_message x).

(** What is on the screen: for each document the ranges its editor shows in each colour, and the problems listed. VS Code moves ranges along
    while text is typed until they are set again; that is left out. *)
Record screen : Type := mkScreen { colours : nat -> hl_tag -> list (nat * nat); problems : nat -> list problem }.

(** common.ts:327-350 [setHighlights]: the ranges of each tag, in order. *)
Definition by_tag (d : document) (hs : list (range * hl_tag)) (t : hl_tag) : list (nat * nat) :=
  map (fun h => to_vs_range d (fst h)) (filter (fun h => same_tag (snd h) t) hs).

Section Screen.
  Variables (L : language) (root : option nat) (known : nat -> bool) (fuel : nat).
  (** [file.highlight()] and [file.diagnostics()]. The second may give another order at another moment (C36), so it is also given the
      number of the event. *)
  Variable paint : file -> res (list (range * hl_tag)).
  Variable check : nat -> file -> res (list diagnostic).

  (** common.ts:24-39 [updateActiveEditor], after the file was found or parsed. A panic of the backend is an exception in JavaScript, and
      VS Code goes on with what was done before it: without colours nothing is changed, without diagnostics the list has been cleared. *)
  Definition draw (moment : nat) (active : option nat) (s : session) (scr : screen) : screen :=
    match active with
    | None => scr
    | Some a =>
        if known a then
          match docs s a with
          | None => scr
          | Some x =>
              match paint (fst x) with
              | Ok hs =>
                  mkScreen (set (colours scr) a (by_tag (texts s a) hs))
                    (set (fun _ => []) a (match check moment (fst x) with Ok ds => map (to_problem (texts s a)) ds | _ => [] end))
              | _ => scr
              end
          end
        else scr
    end.

  (** The handlers that end in [updateActiveEditor]: 49 directly, 178-203 and 205-213 through [update] (161-169) and 17-22. *)
  Definition draws (s : session) (ev : event) : bool :=
    match ev with
    | Opened u _ | Changed u _ _ _ | Rewritten u _ => known u
    | Closed _ | Switched => true
    | Asked u => if known u then match docs s u with Some _ => false | None => true end else false
    end.

  Definition handle_drawing (moment : nat) (st : session * screen) (ev : event * option nat) : res (session * screen) :=
    s' <- handle L root known fuel (fst st) ev ;;
    Ok (s', if draws (fst st) (fst ev) then draw moment (snd ev) s' (snd st) else snd st).

  Fixpoint drawing (moment : nat) (st : session * screen) (evs : list (event * option nat)) : res (session * screen) :=
    match evs with
    | [] => Ok st
    | ev :: rest => st' <- handle_drawing moment st ev ;; drawing (S moment) st' rest
    end.
End Screen.
