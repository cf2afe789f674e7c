(** What the accessors of the shipped modules need, and the checks on the grammars that nodes have it. *)
From Coq Require Import List Arith Bool String.
From Verif Require Import Base TextModel LexModel GrammarModel GrammarData AnalysisModel CodegenModel FallLang DeriveSpec ShapeCheck FallShape NameData AccessorData RuntimeModel RuntimeCheck OwnsProofs.
Import ListNotations.
Open Scope list_scope.

(** The node types of a module: its names, without the error (fall.rs 6-61 and so on). *)
Definition types_of (names : list (nat * (string * bool))) : list (bytes * bool) := map (fun x => (FallLang.text_of (fst (snd x)), snd (snd x))) (List.tl names).

Definition needs_of (r : list (bytes * bytes * (nat * list nat))) : demands :=
  mkDemands (map (fun x => snd (snd x)) r) (combine (map (fun x => fst (snd x)) r) (seq 0 (List.length r))) [] 1 1 2 1.
Definition fall_needs : list (bytes * bytes * (nat * list nat)) := Eval vm_compute in required (types_of fall_names) fall_ast 1.
Definition rust_needs : list (bytes * bytes * (nat * list nat)) := Eval vm_compute in required (types_of rust_names) rust_ast 1.
Definition bnf_needs : list (bytes * bytes * (nat * list nat)) := Eval vm_compute in required (types_of bnf_names) bnf_ast 1.
Lemma fall_needs_are : required (types_of fall_names) fall_ast 1 = fall_needs.
Proof. vm_compute. reflexivity. Qed.
Lemma rust_needs_are : required (types_of rust_names) rust_ast 1 = rust_needs.
Proof. vm_compute. reflexivity. Qed.
Lemma bnf_needs_are : required (types_of bnf_names) bnf_ast 1 = bnf_needs.
Proof. vm_compute. reflexivity. Qed.

(** Error-free grammar files *)
Definition fall_needs_table : table := Eval vm_compute in
  refine fall_grammar (needs_of fall_needs) 40
    (explore fall_grammar (mkInfo (map (fun _ => true) fall_needs) true true) 3000 [(0, no_args)] (map (fun _ => []) (g_rules fall_grammar))).
Lemma fall_needs_ok : table_ok (needs_of fall_needs) fall_grammar fall_needs_table = true.
Proof. vm_compute. reflexivity. Qed.

(** All files: the needs that are not met only after a commit *)
Definition risky_types : list nat := [SYN_RULE; VERBATIM_DEF; AST_NODE_DEF; AST_CLASS_DEF; AST_TRAIT_DEF].
Lemma fall_owns : forallb (fun r => listed (fst (snd r)) risky_types || owns_b fall_grammar (fst (snd r)) (snd (snd r)) 6) fall_needs = true.
Proof. vm_compute. reflexivity. Qed.
Lemma rust_owns : forallb (fun r => owns_b rust_grammar (fst (snd r)) (snd (snd r)) 6) rust_needs = true.
Proof. vm_compute. reflexivity. Qed.
Lemma bnf_owns : forallb (fun r => owns_b bnf_grammar (fst (snd r)) (snd (snd r)) 6) bnf_needs = true.
Proof. vm_compute. reflexivity. Qed.

(** Error-free BNF files: productions have no alternatives, and alternatives no terminals and nonterminals, as children *)
Definition bnf_find (D : demands) : table :=
  refine bnf_grammar D 20 (explore bnf_grammar (mkInfo [] true true) 500 [(0, no_args)] (map (fun _ => []) (g_rules bnf_grammar))).
Definition prod_lacks : demands := mkDemands [] [] [108] 106 1 2 1.
Definition alt_lacks : demands := mkDemands [] [] [103; 104] 108 1 2 1.
Definition prod_table : table := Eval vm_compute in bnf_find prod_lacks.
Definition alt_table : table := Eval vm_compute in bnf_find alt_lacks.
Lemma prod_ok : table_ok prod_lacks bnf_grammar prod_table = true.
Proof. vm_compute. reflexivity. Qed.
Lemma alt_ok : table_ok alt_lacks bnf_grammar alt_table = true.
Proof. vm_compute. reflexivity. Qed.
