(** Which nodes are found inside which in grammar files: the check of NestCheck.v for the grammar of fall. *)
From Coq Require Import List Arith Bool.
From Verif Require Import Base LexModel GrammarModel GrammarData AnalysisModel DeriveSpec ShapeCheck FallShape NestCheck.
Import ListNotations.

(** The nodes (not tokens) that are children of each kind of node. *)
Definition operands : list nat := [REF_EXPR; CALL_EXPR; BLOCK_EXPR; OPT_EXPR; REP_EXPR].
Definition fall_nesting : nesting :=
  [(FALL_FILE, [TOKENIZER_DEF; SYN_RULE; VERBATIM_DEF; AST_DEF; TEST_DEF]);
   (TOKENIZER_DEF, [LEX_RULE]); (LEX_RULE, [ATTRIBUTES; STRING]);
   (SYN_RULE, [ATTRIBUTES; PARAMETERS; BLOCK_EXPR]); (PARAMETERS, [PARAMETER]);
   (ATTRIBUTES, [ATTRIBUTE]); (ATTRIBUTE, [ATTRIBUTE_VALUE]);
   (BLOCK_EXPR, [SEQ_EXPR]); (SEQ_EXPR, operands); (CALL_EXPR, operands); (OPT_EXPR, operands); (REP_EXPR, operands);
   (AST_DEF, [AST_NODE_DEF; AST_CLASS_DEF; AST_TRAIT_DEF]); (AST_NODE_DEF, [METHOD_DEF]); (AST_TRAIT_DEF, [METHOD_DEF]);
   (METHOD_DEF, [AST_SELECTOR])].

(** ** Finding a table (nothing depends on how) *)
Fixpoint insert (x : nat) (l : list nat) : list nat :=
  match l with [] => [x] | y :: r => if x <? y then x :: l else if x =? y then l else y :: insert x r end.
Fixpoint grow_from (t : list (list (list (option nat) * list nat))) (e : nat) (l : list (list (list (option nat) * list nat))) :=
  match l with
  | [] => []
  | x :: r => map (fun p => (fst p, match nstep fall_nesting fall_grammar t e (fst p) with Some i => fold_right insert (snd p) i | None => snd p end)) x :: grow_from t (S e) r
  end.
Fixpoint grow (n : nat) t := match n with 0 => t | S m => grow m (grow_from t 0 t) end.

Definition fall_nest_table := Eval vm_compute in grow 40 (map (map (fun p => (fst p, []))) fall_table).

Lemma fall_nest_ok : nest_ok fall_nesting fall_grammar fall_nest_table = true.
Proof. vm_compute. reflexivity. Qed.
