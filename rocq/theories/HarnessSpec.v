(** When tests can be told apart, and what it means that two texts are the same but for whitespace around them. *)
From Coq Require Import List Arith Bool.
From Verif Require Import Base TextModel TextSpec TreeModel ScanSpec AnalysisModel AnalysisSpec CodegenSpec ConvertModel ParserModel GrammarModel DumpModel HarnessModel.
Import ListNotations.
Open Scope list_scope.

(** No line of the test is the separator. The last test may end with one (its last line is not ended). *)
Definition separable (ts : list bytes) : Prop :=
  exists front last, ts = front ++ [last] /\ (forall j, ~ occurs stars last j) /\ Forall (fun t => forall j, ~ occurs stars (t ++ [10]) j) front.

(** [char::is_whitespace] knows line breaks from the letters of names and from quotes. *)
Definition space_ok (space : bytes -> bool) : Prop := space [10] = true /\ forall b, 33 <= b <= 126 -> space [b] = false.

(** The same characters but for whitespace at both ends. *)
Definition same_inside (space : bytes -> bool) (s t : bytes) : Prop :=
  exists a b a' b' core, chars s = a ++ core ++ b /\ chars t = a' ++ core ++ b' /\ Forall (fun c => space c = true) (a ++ b ++ a' ++ b').

(** The text of the test [n] of a grammar: what its raw string encloses, without whitespace around it; a test may lack it. *)
Definition test_text (space : bytes -> bool) (g : file) (n : nat) (o : option bytes) : Prop :=
  match kid g HASH_STRING n with
  | None => o = None
  | Some m => exists b, literal_body (str g m) b /\ o = Some (concat (strip space (chars b)))
  end.

Definition given {A} (l : list (option A)) : list A := flat_map (fun o => match o with Some x => [x] | None => [] end) l.

(** [d] is the textual form of the tree of the text [t]. *)
Definition tree_of (info : nat -> option (bytes * bool)) (debug : bytes -> bytes) (L : language) (fuel : nat) (t d : bytes) : Prop :=
  exists f inc, parse_file L fuel t = Ok (f, inc) /\ dump_file info debug f = Ok d.

(** The record of tests and their trees: each test, an empty line, its tree, and a line of dashes. *)
Definition record (l : list (bytes * bytes)) : bytes := flat_map (fun x => fst x ++ [10; 10] ++ snd x ++ [10] ++ dashes ++ [10]) l.
