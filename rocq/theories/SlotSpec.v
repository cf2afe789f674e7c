(** C94: the slots a generated parser has for contexts and for arguments of rules. *)
From Coq Require Import List Arith.
From Verif Require Import Base TreeModel GrammarModel ParserModel AnalysisSpec CodegenSpec.
Import ListNotations.
Open Scope list_scope.

(** The numbers of contexts in an instruction (those of parameters are [params_in]). *)
Definition contexts_in (x : expr) : list nat :=
  match x with EEnter c _ | EExit c _ | EIsIn c => [c] | _ => [] end.

(** The grammar file names at most [k] contexts, and its rules have at most [k] parameters, all rules together. *)
Definition few_names (k : nat) (f : file) : Prop :=
  (exists l, context_list f l /\ length l <= k) /\ length (flat_map (params f) (rules f)) <= k.

(** The tables of the parser have [k] slots. *)
Definition slots (k : nat) (s : st) : Prop := length (s_ctxs s) = k /\ length (s_args s) = k.

(** Why instruction [x] may panic, if not for want of a slot: what it runs panics, or a parameter was given no argument. *)
Definition other_reason (E : env) (fuel : nat) (p : pos) (s : st) (x : expr) : Prop :=
  match x with
  | EIsIn _ => False
  | EEnter i b => parse_expr E fuel b p (set_ctxs s (set_nth i true (s_ctxs s))) = Panic
  | EExit i b => parse_expr E fuel b p (set_ctxs s (set_nth i false (s_ctxs s))) = Panic
  | EVar i => nth_error (s_args s) i = Some None \/ exists b, nth_error (s_args s) i = Some (Some b) /\ parse_expr E fuel b p s = Panic
  | ECall b l =>
      (exists v e j, In (v, e) l /\ nth_error (g_rules (e_g E)) e = Some (EVar j) /\ nth_error (s_args s) j = Some None) \/
      (exists a, length a = length (s_args s) /\ parse_expr E fuel b p (set_args s a) = Panic)
  | _ => True
  end.
