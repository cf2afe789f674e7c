(** Specification of C87: what a reader of metrics expects, in terms of [get], of the report and of elapsed time. *)
From Coq Require Import List Arith NArith Ascii String.
From Verif Require Import Base TextModel EditModel LexModel TreeModel GrammarModel ParserModel ConvertModel ReparseModel TickModel MetricsModel.
Import ListNotations.
Open Scope list_scope.

(** The time an elapsed duration stands for, in nanoseconds *)
Definition total_nanos (d : duration) : N := (d_secs d * 1000000000 + d_nanos d)%N.

(** Durations whose milliseconds fit a [u64]: below 584 million years *)
Definition short (d : duration) : Prop := (total_nanos d < 18446744073709551616 * 1000000)%N.
Definition short_clock (k : clock) : Prop := short (k_lexing k) /\ short (k_parsing k) /\ short (k_building k).

Definition nl : ascii := ascii_of_nat 10.

(** [c] does not occur in [s] *)
Fixpoint free_of (c : ascii) (s : string) : Prop :=
  match s with EmptyString => True | String d r => d <> c /\ free_of c r end.

Definition digit (c : ascii) : Prop := 48 <= nat_of_ascii c <= 57.

Fixpoint all_digits (s : string) : Prop := match s with EmptyString => True | String c r => digit c /\ all_digits r end.

(** Names and units that can be told apart: no colon and no line break in a name, no line break in a unit. *)
Definition legible (m : metric) : Prop := free_of ":"%char (m_name m) /\ free_of nl (m_unit m).

(** The number a string of digits stands for, digit by digit *)
Fixpoint value_of (acc : N) (s : string) : N :=
  match s with EmptyString => acc | String c r => value_of (10 * acc + N.of_nat (nat_of_ascii c - 48)) r end.

(** [v] is the number of whole milliseconds in [d]. *)
Definition whole_millis (d : duration) (v : N) : Prop := (v * 1000000 <= total_nanos d < (v + 1) * 1000000)%N.

(** Among [ms], the value first recorded under a name *)
Definition first_recorded (ms : metrics) (name : string) (v : N) : Prop :=
  exists before m after, ms = before ++ m :: after /\ m_name m = name /\ m_value m = v /\ Forall (fun m' => m_name m' <> name) before.

(** What the metrics of a file made with work [w] by clock [k] say when asked. *)
Definition tells (ms : metrics) (k : clock) (w : work) : Prop :=
  get ms "parsing ticks" = Some (N.of_nat (w_ticks w)) /\
  get ms "relexed region" = Some (N.of_nat (w_relexed w)) /\
  (exists v, get ms "lexing" = Some v /\ whole_millis (k_lexing k) v) /\
  (exists v, get ms "parsing" = Some v /\ whole_millis (k_parsing k) v) /\
  (exists v, get ms "inode construction" = Some v /\ whole_millis (k_building k) v).

(** How long the first answer of a kind took *)
Definition first_asked (l : list (asked * duration)) (a : asked) (d : duration) : Prop :=
  exists before after, l = before ++ (a, d) :: after /\ Forall (fun x => fst x <> a) before.

(** The lines of a report, each ended by a line break *)
Definition of_lines (lines : list string) : string := fold_right (fun l rest => (l ++ String nl rest)%string) EmptyString lines.
