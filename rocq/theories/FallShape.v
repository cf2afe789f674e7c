(** What the nodes of an error-free grammar file contain: the check of ShapeCheck.v for the grammar of fall. *)
From Coq Require Import List Arith Bool.
From Verif Require Import Base LexModel GrammarModel GrammarData AnalysisModel DeriveSpec ShapeCheck.
Import ListNotations.

(** ** Finding a table (nothing depends on how) *)
Section Find.
  Variable g : grammar.
  Definition below (e : nat) (a : list (option nat)) : list (nat * list (option nat)) :=
    match nth_error (g_rules g) e with
    | Some (EPub _ b _) | Some (EOpt b) | Some (ERep b) | Some (EWithSkip _ b) | Some (EEnter _ b) | Some (EExit _ b) | Some (ECached b) | Some (ELayer _ b) => [(b, a)]
    | Some (EOr l) | Some (EAnd l _) => map (fun x => (x, a)) l
    | Some (ECall b l) => match bound g l a with Some a' => [(b, a')] | None => [] end
    | Some (EVar i) => match nth_error a i with Some (Some x) => [(x, a)] | _ => [] end
    | Some (EPratt t) => map (fun x => (x, a)) (pt_atoms t ++ map px_op (pt_prefixes t) ++ map ix_op (pt_infixes t))
    | _ => []
    end.
  Variable top : info.
  Fixpoint explore (fuel : nat) (todo : list (nat * list (option nat))) (t : table) : table :=
    match fuel, todo with
    | S f, (e, a) :: rest =>
        match get t e a with
        | Some _ => explore f rest t
        | None => explore f (below e a ++ rest) (set_nth e ((a, top) :: nth e t []) t)
        end
    | _, _ => t
    end.
  Variable D : demands.
  Fixpoint refine_from (t : table) (e : nat) (l : table) : table :=
    match l with
    | [] => []
    | x :: r => map (fun p => (fst p, match step D g t e (fst p) with Some i => i | None => snd p end)) x :: refine_from t (S e) r
    end.
  Fixpoint refine (n : nat) (t : table) : table := match n with 0 => t | S m => refine m (refine_from t 0 t) end.
End Find.

Definition fall_demands : demands := mkDemands
  [[IDENT]; [IDENT; SIMPLE_STRING]; [BLOCK_EXPR]; [AST_SELECTOR]]
  [(CALL_EXPR, 0); (LEX_RULE, 0); (PARAMETER, 0); (ATTRIBUTE, 0); (AST_SELECTOR, 0); (AST_NODE_DEF, 0); (AST_CLASS_DEF, 0); (AST_TRAIT_DEF, 0);
   (REF_EXPR, 1); (SYN_RULE, 2); (METHOD_DEF, 3)]
  (filter (fun t => negb (t =? BLOCK_EXPR)) expr_types) SYN_RULE REF_EXPR SYN_RULE SIMPLE_STRING.

Definition fall_table : table := Eval vm_compute in
  refine fall_grammar fall_demands 40
    (explore fall_grammar (mkInfo [true; true; true; true] true true) 3000 [(0, no_args)] (map (fun _ => []) (g_rules fall_grammar))).

Lemma fall_table_ok : table_ok fall_demands fall_grammar fall_table = true.
Proof. vm_compute. reflexivity. Qed.
