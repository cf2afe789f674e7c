(** What a test of diagnostics should accept. *)
From Coq Require Import List Arith Bool NArith String Ascii.
From Verif Require Import Base TextModel TreeModel AnalysisModel MetricsModel.
Import ListNotations.
Open Scope list_scope.
Open Scope nat_scope.
Local Notation length := List.length.

(** [s] is the string [w], all of whose characters are ASCII. *)
Fixpoint spells (w : string) (s : bytes) : Prop :=
  match w, s with
  | EmptyString, [] => True
  | String c w, b :: s => N.of_nat b = N_of_ascii c /\ spells w s
  | _, _ => False
  end.

(** The wording of the messages; numbers are written in decimal (C87). *)
Inductive worded : message -> bytes -> Prop :=
| w_reference : forall s, spells "Unresolved reference" s -> worded MUnresolvedReference s
| w_token : forall s, spells "Duplicate token" s -> worded MDuplicateToken s
| w_rule : forall s, spells "Duplicate rule" s -> worded MDuplicateRule s
| w_trait : forall s, spells "Unresolved trait" s -> worded MUnresolvedTrait s
| w_unused : forall s, spells "Unused rule" s -> worded MUnusedRule s
| w_wrong : forall e g s, spells ("Wrong number of arguments, expected " ++ decimal (N.of_nat e) ++ ", got " ++ decimal (N.of_nat g))%string s -> worded (MWrongArgs e g) s
| w_expected : forall e g s, spells ("Expected " ++ decimal (N.of_nat e) ++ " arguments, got " ++ decimal (N.of_nat g))%string s -> worded (MExpectedArgs e g) s
| w_prev_is : forall s, spells "<prev_is> arguments must be public rules" s -> worded MPrevIs s
| w_context : forall s, spells "Context should be a single quoted string" s -> worded MContextString s
| w_once : forall n a b, spells "Context `" a -> spells "` is used only once" b -> worded (MContextOnce n) (a ++ n ++ b)
| w_atom : forall s, spells "Atom rules don't have priority" s -> worded MAtomPriority s
| w_single : forall s, spells "Expression rule requires a single alternative" s -> worded MSingleAlternative s
| w_postfix : forall s, spells "Postfix rule requires a single expression and an operation" s -> worded MPostfix s
| w_prefix : forall s, spells "Prefix rule requires an operation and a single expression" s -> worded MPrefix s
| w_bin : forall s, spells "Binary expression requires a left hand side expression, an operator and a right hand side expression" s -> worded MBin s
| w_priority : forall s, spells "Binary expression requires explicit priority" s -> worded MBinPriority s.

(** The line of a diagnostic of the text [txt]: E or W, a space, the part of the text it is about, a colon, a space and the message. *)
Definition described (txt : bytes) (d : diagnostic) (s : bytes) : Prop :=
  exists before part after words,
    txt = before ++ part ++ after /\ length before = rstart (d_range d) /\ length before + length part = rend (d_range d) /\
    worded (d_message d) words /\
    s = (match d_severity d with Error => 69 | Warning => 87 end) :: 32 :: part ++ 58 :: 32 :: words.

(** The lines with line breaks between them. *)
Inductive lines_joined : list bytes -> bytes -> Prop :=
| lj_none : lines_joined [] []
| lj_one : forall l, lines_joined [l] l
| lj_more : forall l k ls s, lines_joined (k :: ls) s -> lines_joined (l :: k :: ls) (l ++ 10 :: s).
