(** What an editor should show, in terms of the events and the texts. *)
From Coq Require Import List Arith Bool.
From Verif Require Import Base TextModel AnalysisModel AnalysisSpec FallEditModel SessionModel ScreenModel.
Import ListNotations.

(** Another editor becomes the active one only with an event that says so. [a] is the document of the active editor before the events. *)
Fixpoint steady (a : option nat) (evs : list (event * option nat)) : Prop :=
  match evs with
  | [] => True
  | (ev, b) :: rest => (ev = Switched \/ a = b) /\ steady b rest
  end.

(** The document of the active editor after the events. *)
Definition active_after (a : option nat) (evs : list (event * option nat)) : option nat := last (map snd evs) a.

(** The plugin has something to do: an editor was switched, a document was closed, or something happened to a document of this plugin. *)
Definition concerns (known : nat -> bool) (ev : event) : Prop :=
  match ev with
  | Opened u _ | Changed u _ _ _ | Rewritten u _ | Asked u => known u = true
  | Closed _ | Switched => True
  end.

(** The ranges with one colour, in order, for a list of marks. *)
Fixpoint of_tag (ms : list (range * hl_tag)) (t : hl_tag) (rs : list (nat * nat)) : Prop :=
  match ms with
  | [] => rs = []
  | (r, t') :: rest => (t' = t /\ exists rs', rs = (rstart r, rend r) :: rs' /\ of_tag rest t rs') \/ (t' <> t /\ of_tag rest t rs)
  end.

(** What the list of problems has for a diagnostic: the same range, message and severity. *)
Definition listed (d : diagnostic) (p : problem) : Prop :=
  p = ((rstart (d_range d), rend (d_range d)), match d_severity d with Error => true | Warning => false end, d_message d).
