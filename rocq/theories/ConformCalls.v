(** The model resolves calls as the unit tests of lang/fall/src/analysis/query/resolve_call.rs 148-231 expect (the tests of
    diagnostics there are in PropsDiagTest.v).  These are checks of the model, not claims about all inputs. *)
From Coq Require Import List Arith Bool String.
From Verif Require Import Base TextModel TreeModel SearchModel LexModel ConvertModel ScanModel DbModel AnalysisModel AnalysisProofs FallLang RefModel FallEditModel HarnessModel DiagTestModel.
Import ListNotations.
Open Scope string_scope.
Open Scope nat_scope.
Open Scope list_scope.

Section Show.
  Variable f : file.
  (** [Debug] of an AST node: the name of its type and its range *)
  Definition shown (name : string) (n : nat) : res bytes :=
    r <- node_range (f_nodes f) n ;;
    Ok (literal name ++ literal "@[" ++ number (rstart r) ++ literal "; " ++ number (rend r) ++ literal ")").
  (** The expressions of the tests are references. *)
  Definition expr (n : nat) : res bytes := t <- node_ty (f_nodes f) n ;; guard (t =? REF_EXPR) (shown "RefExpr" n).
  Definition args (name : string) (l : list bytes) : bytes := literal name ++ literal "(" ++ HarnessModel.join (literal ", ") l ++ literal ")".
  Definition in_brackets (l : list bytes) : bytes := literal "[" ++ HarnessModel.join (literal ", ") l ++ literal "]".
  Fixpoint all_shown {A} (g : A -> res bytes) (l : list A) : res (list bytes) :=
    match l with [] => Ok [] | x :: r => b <- g x ;; bs <- all_shown g r ;; Ok (b :: bs) end.
  (** The derived [Debug] of [CallKind], lang/fall/src/analysis/mod.rs *)
  Definition debug_call (c : call_kind) : res bytes :=
    match c with
    | CkEof => Ok (literal "Eof") | CkAny => Ok (literal "Any") | CkCommit => Ok (literal "Commit")
    | CkNot e => x <- expr e ;; Ok (args "Not" [x])
    | CkLayer a b => x <- expr a ;; y <- expr b ;; Ok (args "Layer" [x; y])
    | CkWithSkip a b => x <- expr a ;; y <- expr b ;; Ok (args "WithSkip" [x; y])
    | CkEnter i e => x <- expr e ;; Ok (args "Enter" [number i; x])
    | CkExit i e => x <- expr e ;; Ok (args "Exit" [number i; x])
    | CkIsIn i => Ok (args "IsIn" [number i])
    | CkInject a b => x <- expr a ;; y <- expr b ;; Ok (args "Inject" [x; y])
    | CkPrevIs l => xs <- all_shown (shown "SynRule") l ;; Ok (args "PrevIs" [in_brackets xs])
    | CkRuleCall r l =>
        x <- shown "SynRule" r ;;
        xs <- all_shown (fun pe : nat * nat => p <- shown "Parameter" (fst pe) ;; e <- expr (snd pe) ;; Ok (args "" [p; e])) l ;;
        Ok (args "RuleCall" [x; in_brackets xs])
    end.
End Show.

(** resolve_call.rs 233-251 *)
Definition resolved (text : string) : res bytes :=
  x <- extract_offset (FallLang.text_of text) [94] ;;
  p <- parse_file fall_lang 1000 (fst x) ;;
  let f := fst p in
  l <- find_leaf_at_offset (f_nodes f) root (snd x) ;;
  leaf <- unwrap (left_biased l) ;;
  o <- ast_ancestor (f_nodes f) (is_ty CALL_EXPR) leaf ;;
  call <- unwrap o ;;
  v <- direct 4 f (QCall call) ;;
  match v with VCall (Some c) => debug_call f c | _ => Panic end.

Definition call_tests : list (string * string) :=
  [("rule foo { <^eof> }", "Eof");
   ("rule foo { <^any> }", "Any");
   ("rule foo { <^commit> }", "Commit");
   ("rule foo { <^not a> }", "Not(RefExpr@[16; 17))");
   ("rule foo { <^with_skip a b> }", "WithSkip(RefExpr@[22; 23), RefExpr@[24; 25))");
   ("rule foo { <^layer a b> }", "Layer(RefExpr@[18; 19), RefExpr@[20; 21))");
   ("rule foo { <^enter 'ctx' a> }", "Enter(0, RefExpr@[24; 25))");
   ("rule foo { <^exit  'ctx' a> }", "Exit(0, RefExpr@[24; 25))");
   ("rule foo { <is_in 'ctx1'> <^enter 'ctx2' a>  }", "Enter(1, RefExpr@[40; 41))");
   ("rule foo { <is_in 'ctx1'> <^exit  'ctx2' a>  }", "Exit(1, RefExpr@[40; 41))");
   ("rule foo { <enter 'ctx1' a> <enter 'ctx2' b> <^is_in 'ctx2'> }", "IsIn(1)");
   ("rule foo { <^not bar>}", "Not(RefExpr@[16; 19))");
   ("pub rule foo {} pub rule bar {} rule baz { <^prev_is foo bar> }", "PrevIs([SynRule@[0; 15), SynRule@[16; 31)])");
   ("rule foo { <^bar a b>} rule bar(x, y) { }", "RuleCall(SynRule@[22; 40), [(Parameter@[31; 32), RefExpr@[16; 17)), (Parameter@[34; 35), RefExpr@[18; 19))])")].
Example calls_conform : map (fun x => resolved (fst x)) call_tests = map (fun x => Ok (literal (snd x))) call_tests.
Proof. vm_compute. reflexivity. Qed.
