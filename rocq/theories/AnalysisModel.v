(** Model of lang/fall/src/analysis: the queries, as programs run by the database of DbModel.v, and
    [collect_all_diagnostics]; and of the AST accessors they use (lang/fall/syntax/src/fall.rs, ast_ext.rs).
    Names and texts are byte strings; [Text] compares, orders and hashes by content (fall/text/src/text.rs
    113-158). *)
From Coq Require Import List Arith Bool NArith.
From Verif Require Import Base TextModel TreeModel SearchModel IndexModel DbModel.
Import ListNotations.

(** ** Node types, fall.rs 3-57 (only those used here) *)
Definition PUB := 109.
Definition PIPE := 112.
Definition STAR := 113.
Definition QUESTION := 114.
Definition DOT := 115.
Definition COLON := 117.
Definition L_ANGLE := 123.
Definition R_ANGLE := 124.
Definition SIMPLE_STRING := 128.
Definition HASH_STRING := 129.
Definition IDENT := 130.
Definition FALL_FILE := 131.
Definition SYN_RULE := 132.
Definition PARAMETERS := 133.
Definition PARAMETER := 134.
Definition REF_EXPR := 135.
Definition SEQ_EXPR := 136.
Definition BLOCK_EXPR := 137.
Definition OPT_EXPR := 138.
Definition REP_EXPR := 139.
Definition CALL_EXPR := 140.
Definition TOKENIZER_DEF := 141.
Definition LEX_RULE := 142.
Definition TEST_DEF := 143.
Definition ATTRIBUTES := 144.
Definition ATTRIBUTE := 145.
Definition ATTRIBUTE_VALUE := 146.
Definition STRING := 147.
Definition VERBATIM_DEF := 148.
Definition AST_DEF := 149.
Definition AST_NODE_DEF := 150.
Definition AST_CLASS_DEF := 151.
Definition AST_TRAIT_DEF := 152.
Definition METHOD_DEF := 153.
Definition AST_SELECTOR := 154.

(** [Expr::wrap], fall.rs 816-838: the class of expression nodes *)
Definition expr_types : list nat := [REF_EXPR; CALL_EXPR; BLOCK_EXPR; OPT_EXPR; REP_EXPR; SEQ_EXPR].
Definition is_expr (ty : nat) : bool := existsb (Nat.eqb ty) expr_types.

(** Strings of the sources *)
Definition s_atom : bytes := [97; 116; 111; 109].
Definition s_postfix : bytes := [112; 111; 115; 116; 102; 105; 120].
Definition s_prefix : bytes := [112; 114; 101; 102; 105; 120].
Definition s_bin : bytes := [98; 105; 110].
Definition s_pratt : bytes := [112; 114; 97; 116; 116].
Definition s_type : bytes := [116; 121; 112; 101].
Definition s_any : bytes := [97; 110; 121].
Definition s_commit : bytes := [99; 111; 109; 109; 105; 116].
Definition s_eof : bytes := [101; 111; 102].
Definition s_not : bytes := [110; 111; 116].
Definition s_is_in : bytes := [105; 115; 95; 105; 110].
Definition s_layer : bytes := [108; 97; 121; 101; 114].
Definition s_with_skip : bytes := [119; 105; 116; 104; 95; 115; 107; 105; 112].
Definition s_inject : bytes := [105; 110; 106; 101; 99; 116].
Definition s_enter : bytes := [101; 110; 116; 101; 114].
Definition s_exit : bytes := [101; 120; 105; 116].
Definition s_prev_is : bytes := [112; 114; 101; 118; 95; 105; 115].

(** [iter().find(p)] where [p] may panic *)
Fixpoint find_res {A} (p : A -> res bool) (l : list A) : res (option A) :=
  match l with
  | [] => Ok None
  | a :: r => b <- p a ;; if b then Ok (Some a) else find_res p r
  end.

Fixpoint assoc {A} (k : bytes) (l : list (bytes * A)) : option A :=
  match l with
  | [] => None
  | (k', a) :: r => if bytes_eqb k k' then Some a else assoc k r
  end.

(** [str::rfind] of one byte *)
Fixpoint rfind_byte (q : nat) (s : bytes) : option nat :=
  match s with
  | [] => None
  | b :: r => match rfind_byte q r with
              | Some i => Some (S i)
              | None => if b =? q then Some 0 else None
              end
  end.

(** ast_ext.rs 175-180.  The quotes are one byte long, so cutting next to them is allowed. *)
Definition lit_body (lit : bytes) : res bytes :=
  let q := if is_prefix [39] lit then 39 else 34 in
  s <- unwrap (find_sub [q] lit) ;;
  e <- unwrap (rfind_byte q lit) ;;
  guard (s + 1 <=? e) (Ok (sub (s + 1) e lit)).

(** [str::parse::<u32>().ok()]: an optional plus sign and decimal digits, below 2^32 *)
Fixpoint digits (acc : N) (s : bytes) : option N :=
  match s with
  | [] => Some acc
  | b :: r => if (48 <=? b) && (b <=? 57) then
                let acc' := (acc * 10 + N.of_nat (b - 48))%N in
                if (acc' <? 4294967296)%N then digits acc' r else None
              else None
  end.
Definition parse_u32 (s : bytes) : option N :=
  match s with
  | [] => None
  | [43] => None
  | 43 :: r => digits 0 r
  | _ => digits 0 s
  end.

(** ** Results of the queries; query/mod.rs *)
Inductive ref_kind : Type :=
| RToken (n : nat)
| RRule (n : nat)
| RParam (n : nat).

Inductive call_kind : Type :=
| CkEof | CkAny | CkCommit
| CkNot (e : nat)
| CkLayer (a b : nat)
| CkWithSkip (a b : nat)
| CkEnter (ctx e : nat)
| CkExit (ctx e : nat)
| CkIsIn (ctx : nat)
| CkRuleCall (rule : nat) (args : list (nat * nat))
| CkPrevIs (rules : list nat)
| CkInject (a b : nat).

Inductive pratt_variant : Type :=
| PAtom (e : nat)
| PBin (op : nat) (priority : N)
| PPostfix (op : nat) (priority : N)
| PPrefix (op : nat) (priority : N).

Inductive arity : Type := Single | Optional | Many.
Inductive child_kind : Type := CAstNode (n : nat) | CAstClass (n : nat) | CToken (n : nat).
Inductive method_kind : Type :=
| NodeAccessor (c : child_kind) (a : arity)
| TextAccessor (lex_rule : nat) (a : arity).

(** The nine cached queries, db.rs 18-26; AST wrappers are equal when their nodes are. *)
Inductive key : Type :=
| QLex | QSyn | QCtx | QUnused
| QRef (n : nat) | QCall (n : nat) | QPratt (n : nat) | QMethod (n : nat) | QTraits (n : nat).

Definition key_eqb (a b : key) : bool :=
  match a, b with
  | QLex, QLex | QSyn, QSyn | QCtx, QCtx | QUnused, QUnused => true
  | QRef n, QRef m | QCall n, QCall m | QPratt n, QPratt m | QMethod n, QMethod m | QTraits n, QTraits m => n =? m
  | _, _ => false
  end.

(** One mutex per kind, db.rs 129-181 *)
Definition key_kind (k : key) : nat :=
  match k with
  | QLex => 0 | QSyn => 1 | QCtx => 2 | QRef _ => 3 | QCall _ => 4 | QUnused => 5 | QPratt _ => 6
  | QMethod _ => 7 | QTraits _ => 8
  end.

Inductive value : Type :=
| VMap (m : list (bytes * nat))
| VNames (l : list bytes)
| VUnit
| VRef (r : option ref_kind)
| VCall (c : option call_kind)
| VPratt (p : option pratt_variant)
| VMethod (m : option method_kind)
| VTraits (l : list nat).

(** ** Diagnostics; fall_editor::Diagnostic, diagnostics.rs 14-28.  The message text is a constructor. *)
Inductive severity : Type := Error | Warning.
Inductive message : Type :=
| MUnresolvedReference
| MDuplicateToken
| MDuplicateRule
| MUnresolvedTrait
| MUnusedRule
| MWrongArgs (expected got : nat)       (* "Wrong number of arguments, expected {}, got {}" *)
| MExpectedArgs (expected got : nat)    (* "Expected {} arguments, got {}" *)
| MPrevIs                               (* "<prev_is> arguments must be public rules" *)
| MContextString                        (* "Context should be a single quoted string" *)
| MContextOnce (name : bytes)           (* "Context `{}` is used only once" *)
| MAtomPriority | MSingleAlternative | MPostfix | MPrefix | MBin | MBinPriority.

Record diagnostic : Type := mkDiag { d_range : range; d_severity : severity; d_message : message }.

Definition prg := prog key value diagnostic.

(** Run a computation on the file inside a query body; its panic is the query's panic. *)
Definition lift {A} (r : res A) (c : A -> prg) : prg :=
  match r with Ok a => c a | _ => Fail end.
Notation "x <~ e1 ;; e2" := (lift e1 (fun x => e2)) (at level 61, e1 at next level, right associativity).

(** [db.get(query::AllSynRules)] etc. with the result type known statically in Rust *)
Definition get_map (k : key) (c : list (bytes * nat) -> prg) : prg :=
  Ask k (fun v => match v with VMap m => c m | _ => Fail end).
Definition get_names (c : list bytes -> prg) : prg :=
  Ask QCtx (fun v => match v with VNames l => c l | _ => Fail end).
Definition get_ref (n : nat) (c : option ref_kind -> prg) : prg :=
  Ask (QRef n) (fun v => match v with VRef r => c r | _ => Fail end).
Definition get_call (n : nat) (c : option call_kind -> prg) : prg :=
  Ask (QCall n) (fun v => match v with VCall r => c r | _ => Fail end).

Section Analysis.
  Variable f : file.
  Notation nodes := (f_nodes f).

  (** ** AST accessors *)

  (** [node.text()] used as a string *)
  Definition text_of (n : nat) : res bytes := t <- node_text f n ;; as_str t.

  (** [AstChildren], fall/tree/src/ast.rs 27-38; [wrap] tests the node type *)
  Definition ast_children (wrap : nat -> bool) (n : nat) : res (list nat) :=
    cs <- node_children nodes n ;;
    filter_res (fun c => ty <- node_ty nodes c ;; Ok (wrap ty)) cs.

  Definition ast_child (wrap : nat -> bool) (n : nat) : res (option nat) :=
    l <- ast_children wrap n ;; Ok (hd_error l).

  (** [child_of_type_exn(node, ty).text()], search.rs *)
  Definition child_text (n ty : nat) : res bytes :=
    c <- child_of_type nodes n ty ;; m <- unwrap c ;; text_of m.

  Definition is_ty (ty : nat) : nat -> bool := fun t => t =? ty.

  (** fall.rs 210-226 *)
  Definition file_syn_rules : res (list nat) := ast_children (is_ty SYN_RULE) root.
  Definition file_tokenizer : res (option nat) := ast_child (is_ty TOKENIZER_DEF) root.
  Definition file_ast_def : res (option nat) := ast_child (is_ty AST_DEF) root.

  (** The rules of the tokenizer, [file.tokenizer_def()] and fall.rs 246-250 *)
  Definition file_lex_rules : res (list nat) :=
    t <- file_tokenizer ;;
    match t with None => Ok [] | Some td => ast_children (is_ty LEX_RULE) td end.

  (** fall.rs 297-313 *)
  Definition rule_name_ident (n : nat) : res (option nat) := child_of_type nodes n IDENT.
  Definition rule_name (n : nat) : res (option bytes) :=
    i <- rule_name_ident n ;;
    match i with None => Ok None | Some m => s <- text_of m ;; Ok (Some s) end.
  Definition rule_body (n : nat) : res nat := e <- ast_child is_expr n ;; unwrap e.
  Definition rule_parameters (n : nat) : res (option nat) := ast_child (is_ty PARAMETERS) n.

  (** The [Parameter]s of [rule.parameters()], none if there is no list *)
  Definition rule_params (n : nat) : res (list nat) :=
    p <- rule_parameters n ;;
    match p with None => Ok [] | Some ps => ast_children (is_ty PARAMETER) ps end.

  (** [attributes()] and [Attributes::find], fall.rs 271, 298, 381-385, ast_ext.rs 154-162 *)
  Definition find_attribute (n : nat) (name : bytes) : res (option nat) :=
    a <- ast_child (is_ty ATTRIBUTES) n ;;
    match a with
    | None => Ok None
    | Some attrs =>
        l <- ast_children (is_ty ATTRIBUTE) attrs ;;
        find_res (fun m => s <- child_text m IDENT ;; Ok (bytes_eqb s name)) l
    end.

  (** ast_ext.rs 164-173 *)
  Definition attribute_text (n : nat) : res (option bytes) :=
    v <- ast_child (is_ty ATTRIBUTE_VALUE) n ;;
    match v with None => Ok None | Some m => s <- text_of m ;; Ok (Some s) end.
  Definition attribute_u32 (n : nat) : res (option N) :=
    t <- attribute_text n ;; Ok (match t with None => None | Some s => parse_u32 s end).

  (** ast_ext.rs 70-110 *)
  Definition is_pub (n : nat) : res bool :=
    c <- child_of_type nodes n PUB ;; Ok (match c with Some _ => true | None => false end).
  Definition is_pratt (n : nat) : res bool :=
    a <- find_attribute n s_pratt ;; Ok (match a with Some _ => true | None => false end).
  Definition ty_name (n : nat) : res (option bytes) :=
    p <- is_pub n ;;
    if negb p then Ok None else
    b <- is_pratt n ;;
    if b then Ok None else
    a <- find_attribute n s_type ;;
    match a with
    | Some m => attribute_text m
    | None => rule_name n
    end.

  (** ast_ext.rs 65-67, 42-49 *)
  Definition token_name (n : nat) : res bytes :=
    c <- child_of_type nodes n STRING ;;
    match c with
    | None => child_text n IDENT
    | Some m => r <- text_of m ;; if is_prefix [39] r then Ok r else child_text n IDENT
    end.

  (** ast_ext.rs 135-141 *)
  Definition reference_name (n : nat) : res bytes :=
    c <- child_of_type nodes n IDENT ;;
    match c with
    | Some m => text_of m
    | None => child_text n SIMPLE_STRING
    end.

  (** fall.rs 696-703 *)
  Definition fn_name (n : nat) : res bytes := child_text n IDENT.
  Definition call_args (n : nat) : res (list nat) := ast_children is_expr n.

  (** ast_ext.rs 143-152 *)
  Definition context_name (n : nat) : res (option bytes) :=
    s <- fn_name n ;;
    if negb (bytes_eqb s s_is_in || bytes_eqb s s_enter || bytes_eqb s s_exit) then Ok None else
    l <- call_args n ;;
    match l with
    | [] => Ok None
    | arg :: _ =>
        c <- child_of_type nodes arg SIMPLE_STRING ;;
        match c with None => Ok None | Some m => t <- text_of m ;; b <- lit_body t ;; Ok (Some b) end
    end.

  (** diagnostics.rs 14-28 *)
  Definition diag (sev : severity) (n : nat) (m : message) : res diagnostic :=
    r <- node_range nodes n ;; Ok (mkDiag r sev m).

  (** ** The queries *)

  (** query/all_lex_rules.rs 10-25.  The map keeps the last rule of a name (inserting replaces). *)
  Fixpoint all_lex (rules : list nat) (m : list (bytes * nat)) (tys : list bytes) (ds : list diagnostic)
    : res (list (bytes * nat) * list diagnostic) :=
    match rules with
    | [] => Ok (m, ds)
    | r :: rest =>
        name <- token_name r ;;
        ty <- child_text r IDENT ;;
        d <- diag Error r MDuplicateToken ;;
        let dup := existsb (bytes_eqb ty) tys in
        all_lex rest ((name, r) :: m) (ty :: tys) (if dup then ds ++ [d] else ds)
    end.
  Definition q_lex : prg :=
    rules <~ file_lex_rules ;;
    x <~ all_lex rules [] [] [] ;;
    Ret (VMap (fst x)) (snd x).

  (** query/all_syn_rules.rs 10-28.  The first rule of a name stays. *)
  Fixpoint all_syn (rules : list nat) (m : list (bytes * nat)) (ds : list diagnostic)
    : res (list (bytes * nat) * list diagnostic) :=
    match rules with
    | [] => Ok (m, ds)
    | r :: rest =>
        i <- rule_name_ident r ;;
        match i with
        | None => all_syn rest m ds
        | Some ident =>
            name <- text_of ident ;;
            match assoc name m with
            | None => all_syn rest ((name, r) :: m) ds
            | Some _ => d <- diag Error ident MDuplicateRule ;; all_syn rest m (ds ++ [d])
            end
        end
    end.
  Definition q_syn : prg :=
    rules <~ file_syn_rules ;;
    x <~ all_syn rules [] [] ;;
    Ret (VMap (fst x)) (snd x).

  (** query/all_context_ids.rs 11-36; the [BTreeMap] is a list ordered by name. *)
  Fixpoint ctx_insert (name : bytes) (call : nat) (m : list (bytes * option nat)) : list (bytes * option nat) :=
    match m with
    | [] => [(name, Some call)]
    | (k, v) :: r =>
        if bytes_eqb name k then (k, None) :: r
        else if bytes_ltb name k then (name, Some call) :: m
        else (k, v) :: ctx_insert name call r
    end.
  Definition all_contexts : res (list (bytes * option nat)) :=
    bottom_up nodes (fun m n =>
      ty <- node_ty nodes n ;;
      if ty =? CALL_EXPR then
        c <- context_name n ;;
        match c with None => Ok m | Some name => Ok (ctx_insert name n m) end
      else Ok m) root [].
  Fixpoint ctx_warnings (m : list (bytes * option nat)) : res (list diagnostic) :=
    match m with
    | [] => Ok []
    | (_, None) :: r => ctx_warnings r
    | (k, Some call) :: r => d <- diag Warning call (MContextOnce k) ;; ds <- ctx_warnings r ;; Ok (d :: ds)
    end.
  Definition q_ctx : prg :=
    m <~ all_contexts ;;
    ds <~ ctx_warnings m ;;
    Ret (VNames (map fst m)) ds.

  (** query/resolve_ref_expr.rs 12-38, with find_syn_rule.rs and find_lex_rule.rs 7-10 *)
  Definition q_ref (n : nat) : prg :=
    name <~ reference_name n ;;
    rule <~ (a <- ast_ancestor nodes (is_ty SYN_RULE) n ;; unwrap a) ;;
    params <~ rule_params rule ;;
    p <~ find_res (fun p => s <- child_text p IDENT ;; Ok (bytes_eqb s name)) params ;;
    match p with
    | Some param => Ret (VRef (Some (RParam param))) []
    | None =>
        get_map QSyn (fun m =>
        match assoc name m with
        | Some r => Ret (VRef (Some (RRule r))) []
        | None =>
            get_map QLex (fun m =>
            match assoc name m with
            | Some r => Ret (VRef (Some (RToken r))) []
            | None =>
                parent <~ (p <- node_parent nodes n ;; unwrap p) ;;
                ty <~ node_ty nodes parent ;;
                silent <~
                  (if ty =? CALL_EXPR then
                     c <- context_name parent ;;
                     match c with
                     | None => Ok false
                     | Some _ => l <- call_args parent ;; Ok (match l with a :: _ => a =? n | [] => false end)
                     end
                   else Ok false) ;;
                if silent then Ret (VRef None) []
                else d <~ diag Error n MUnresolvedReference ;; Ret (VRef None) [d]
            end)
        end)
    end.

  (** query/resolve_call.rs 128-138; continues with the number of the context *)
  Definition resolve_context (call : nat) (ds : list diagnostic) (c : nat -> call_kind) : prg :=
    name <~ context_name call ;;
    match name with
    | Some s =>
        get_names (fun l => Ret (VCall (option_map c (position (bytes_eqb s) l))) ds)
    | None =>
        l <~ call_args call ;;
        a <~ unwrap (hd_error l) ;;
        d <~ diag Error a MContextString ;;
        Ret (VCall None) (ds ++ [d])
    end.

  (** 64-81 *)
  Fixpoint prev_is (call : nat) (args : list nat) (rules : list nat) (ds : list diagnostic) : prg :=
    match args with
    | [] => Ret (VCall (Some (CkPrevIs rules))) ds
    | a :: rest =>
        d <~ diag Error call MPrevIs ;;
        ty <~ node_ty nodes a ;;
        if ty =? REF_EXPR then
          get_ref a (fun r =>
          match r with
          | Some (RRule rule) =>
              t <~ ty_name rule ;;
              match t with
              | Some _ => prev_is call rest (rules ++ [rule]) ds
              | None => prev_is call rest rules (ds ++ [d])
              end
          | _ => prev_is call rest rules (ds ++ [d])
          end)
        else prev_is call rest rules (ds ++ [d])
    end.

  (** 17-126 *)
  Definition q_call (n : nat) : prg :=
    args <~ call_args n ;;
    name <~ fn_name n ;;
    whole <~ node_range nodes n ;;
    let n_args := length args in
    let expect k := if k =? n_args then [] else [mkDiag whole Error (MWrongArgs k n_args)] in
    let zero k := Ret (VCall (Some k)) (expect 0) in
    let one k := match args with a :: _ => k a | [] => Ret (VCall None) (expect 1) end in
    let two k := match args with a :: b :: _ => k a b | _ => Ret (VCall None) (expect 2) end in
    if bytes_eqb name s_any then zero CkAny
    else if bytes_eqb name s_commit then zero CkCommit
    else if bytes_eqb name s_eof then zero CkEof
    else if bytes_eqb name s_not then one (fun a => Ret (VCall (Some (CkNot a))) (expect 1))
    else if bytes_eqb name s_is_in then one (fun _ => resolve_context n (expect 1) CkIsIn)
    else if bytes_eqb name s_layer then two (fun a b => Ret (VCall (Some (CkLayer a b))) (expect 2))
    else if bytes_eqb name s_with_skip then two (fun a b => Ret (VCall (Some (CkWithSkip a b))) (expect 2))
    else if bytes_eqb name s_inject then two (fun a b => Ret (VCall (Some (CkInject a b))) (expect 2))
    else if bytes_eqb name s_enter then two (fun _ b => resolve_context n (expect 2) (fun c => CkEnter c b))
    else if bytes_eqb name s_exit then two (fun _ b => resolve_context n (expect 2) (fun c => CkExit c b))
    else if bytes_eqb name s_prev_is then prev_is n args [] []
    else
      let unresolved :=
        i <~ (c <- child_of_type nodes n IDENT ;; unwrap c) ;;
        d <~ diag Error i MUnresolvedReference ;;
        Ret (VCall None) [d] in
      get_map QSyn (fun m =>
      match assoc name m with
      | None => unresolved
      | Some rule =>
          ps <~ rule_parameters rule ;;
          match ps with
          | None => unresolved
          | Some p =>
              params <~ ast_children (is_ty PARAMETER) p ;;
              let k := length params in
              Ret (VCall (Some (CkRuleCall rule (combine params args))))
                (if k =? n_args then [] else [mkDiag whole Error (MExpectedArgs k n_args)])
          end
      end).

  (** query/unused_rules.rs 12-40 *)
  Fixpoint used_by_refs (l : list nat) (used : list nat) (c : list nat -> prg) : prg :=
    match l with
    | [] => c used
    | n :: rest =>
        get_ref n (fun r => used_by_refs rest (match r with Some (RRule x) => x :: used | _ => used end) c)
    end.
  Fixpoint used_by_calls (l : list nat) (used : list nat) (c : list nat -> prg) : prg :=
    match l with
    | [] => c used
    | n :: rest =>
        get_call n (fun r => used_by_calls rest (match r with Some (CkRuleCall x _) => x :: used | _ => used end) c)
    end.
  Fixpoint unused_warnings (used : list nat) (rules : list nat) : res (list diagnostic) :=
    match rules with
    | [] => Ok []
    | r :: rest =>
        ds <- unused_warnings used rest ;;
        if existsb (Nat.eqb r) used then Ok ds else
        i <- rule_name_ident r ;;
        match i with None => Ok ds | Some ident => d <- diag Warning ident MUnusedRule ;; Ok (d :: ds) end
    end.
  Definition q_unused : prg :=
    refs <~ descendants_of_type nodes root REF_EXPR ;;
    calls <~ descendants_of_type nodes root CALL_EXPR ;;
    rules <~ file_syn_rules ;;
    used_by_refs refs [] (fun u =>
    used_by_calls calls u (fun u =>
    let used := match rules with r :: _ => r :: u | [] => u end in
    ds <~ unused_warnings used rules ;;
    Ret VUnit ds)).

  (** query/resolve_pratt_variant.rs 9-109 *)
  Definition find_kind (n : nat) : res (option (bytes * option N)) :=
    l <- ast_child (is_ty ATTRIBUTES) n ;;
    match l with
    | None => Ok None
    | Some _ =>
        k <- fold_res (fun acc name =>
               match acc with
               | Some _ => Ok acc
               | None => a <- find_attribute n name ;; Ok (option_map (fun m => (name, m)) a)
               end) None [s_atom; s_postfix; s_prefix; s_bin] ;;
        match k with
        | None => Ok None
        | Some (name, m) => p <- attribute_u32 m ;; Ok (Some (name, p))
        end
    end.
  Definition q_pratt (n : nat) : prg :=
    i <~ rule_name_ident n ;;
    match i with
    | None => Ret (VPratt None) []
    | Some ident =>
        k <~ find_kind n ;;
        match k with
        | None => Ret (VPratt None) []
        | Some (kind, priority) =>
            if bytes_eqb kind s_atom then
              d <~ diag Error ident MAtomPriority ;;
              b <~ rule_body n ;;
              Ret (VPratt (Some (PAtom b))) (match priority with Some _ => [d] | None => [] end)
            else
              body <~ rule_body n ;;
              ty <~ node_ty nodes body ;;
              if negb (ty =? BLOCK_EXPR) then Ret (VPratt None) [] else
              alts <~ ast_children is_expr body ;;
              match alts with
              | [alt] =>
                  aty <~ node_ty nodes alt ;;
                  if negb (aty =? SEQ_EXPR) then Ret (VPratt None) [] else
                  parts <~ ast_children is_expr alt ;;
                  let prio := match priority with Some p => p | None => 999%N end in
                  if bytes_eqb kind s_postfix then
                    match parts with
                    | [_; op] => Ret (VPratt (Some (PPostfix op prio))) []
                    | _ => d <~ diag Error body MPostfix ;; Ret (VPratt None) [d]
                    end
                  else if bytes_eqb kind s_prefix then
                    match parts with
                    | [op; _] => Ret (VPratt (Some (PPrefix op prio))) []
                    | _ => d <~ diag Error body MPrefix ;; Ret (VPratt None) [d]
                    end
                  else
                    match parts, priority with
                    | [_; op; _], Some p => Ret (VPratt (Some (PBin op p))) []
                    | [_; _; _], None => d <~ diag Error ident MBinPriority ;; Ret (VPratt None) [d]
                    | _, _ => d <~ diag Error body MBin ;; Ret (VPratt None) [d]
                    end
              | _ => d <~ diag Error body MSingleAlternative ;; Ret (VPratt None) [d]
              end
        end
    end.

  (** query/resolve_method.rs 30-42 *)
  Definition method_child (selector : nat) : res (option child_kind) :=
    a <- file_ast_def ;;
    match a with
    | None => Ok None
    | Some ast =>
        let named n := s <- child_text n IDENT ;; c <- child_text selector IDENT ;; Ok (bytes_eqb s c) in
        ns <- ast_children (is_ty AST_NODE_DEF) ast ;;
        x <- find_res named ns ;;
        match x with
        | Some n => Ok (Some (CAstNode n))
        | None =>
            cs <- ast_children (is_ty AST_CLASS_DEF) ast ;;
            y <- find_res named cs ;;
            match y with
            | Some n => Ok (Some (CAstClass n))
            | None =>
                ls <- file_lex_rules ;;
                z <- find_res named ls ;;
                Ok (option_map CToken z)
            end
        end
    end.
  (** 7-28 *)
  Definition q_method (n : nat) : prg :=
    s <~ (x <- ast_child (is_ty AST_SELECTOR) n ;; unwrap x) ;;
    ck <~ method_child s ;;
    match ck with
    | None => Ret (VMethod None) []
    | Some k =>
        opt <~ child_of_type nodes s QUESTION ;;
        many <~ child_of_type nodes s STAR ;;
        dot <~ child_of_type nodes s DOT ;;
        let ar := match opt with Some _ => Optional | None => match many with Some _ => Many | None => Single end end in
        match dot, k with
        | Some _, CToken t => Ret (VMethod (Some (TextAccessor t ar))) []
        | Some _, _ => Ret (VMethod None) []
        | None, _ => Ret (VMethod (Some (NodeAccessor k ar))) []
        end
    end.

  (** query/ast_node_traits.rs 10-28 *)
  Fixpoint skip_to_colon (l : list nat) : res (list nat) :=
    match l with
    | [] => Ok []
    | n :: r => ty <- node_ty nodes n ;; if ty =? COLON then Ok l else skip_to_colon r
    end.
  Fixpoint trait_map (l : list nat) (m : list (bytes * nat)) : res (list (bytes * nat)) :=
    match l with
    | [] => Ok m
    | n :: r => s <- child_text n IDENT ;; trait_map r ((s, n) :: m)
    end.
  Fixpoint find_traits (m : list (bytes * nat)) (refs : list nat) (acc : list nat) (ds : list diagnostic)
    : res (list nat * list diagnostic) :=
    match refs with
    | [] => Ok (acc, ds)
    | r :: rest =>
        s <- text_of r ;;
        match assoc s m with
        | Some t => find_traits m rest (acc ++ [t]) ds
        | None => d <- diag Error r MUnresolvedTrait ;; find_traits m rest acc (ds ++ [d])
        end
    end.
  Definition q_traits (n : nat) : prg :=
    a <~ file_ast_def ;;
    m <~ (match a with
          | None => Ok []
          | Some ast => l <- ast_children (is_ty AST_TRAIT_DEF) ast ;; trait_map l []
          end) ;;
    cs <~ node_children nodes n ;;
    rest <~ skip_to_colon cs ;;
    refs <~ filter_res (fun c => ty <- node_ty nodes c ;; Ok (ty =? IDENT)) rest ;;
    x <~ find_traits m refs [] [] ;;
    Ret (VTraits (fst x)) (snd x).

  (** The queries by key *)
  Definition fall_exec (k : key) : prg :=
    match k with
    | QLex => q_lex
    | QSyn => q_syn
    | QCtx => q_ctx
    | QUnused => q_unused
    | QRef n => q_ref n
    | QCall n => q_call n
    | QPratt n => q_pratt n
    | QMethod n => q_method n
    | QTraits n => q_traits n
    end.

  (** ** [collect_all_diagnostics], mod.rs 58-79 *)

  (** The query the visitor runs on a node, 61-65 *)
  Definition visit_key (ty n : nat) : list key :=
    if ty =? REF_EXPR then [QRef n] else if ty =? CALL_EXPR then [QCall n]
    else if ty =? SYN_RULE then [QPratt n] else if ty =? AST_NODE_DEF then [QTraits n] else [].

  (** 59-68: the keys asked for, in order *)
  Definition collect_keys : res (list key) :=
    l <- bottom_up nodes (fun acc n => ty <- node_ty nodes n ;; Ok (acc ++ visit_key ty n)) root [] ;;
    Ok (l ++ [QUnused; QLex]).

  Fixpoint ask_all (l : list key) (c : client key value diagnostic) : client key value diagnostic :=
    match l with
    | [] => c
    | k :: r => CAsk k (fun _ => ask_all r c)
    end.

  (** 59-70: ask for all of them and copy the diagnostics *)
  Definition collect_client (c : list diagnostic -> client key value diagnostic) : res (client key value diagnostic) :=
    l <- collect_keys ;; Ok (ask_all l (CCollect c)).
End Analysis.

(** 71-77: [sort_by_key] is a stable sort; modelled as insertion sort.  The key is compared as a tuple. *)
Definition priority (s : severity) : nat := match s with Error => 0 | Warning => 1 end.

Definition diag_ltb (a b : diagnostic) : bool :=
  let pa := priority (d_severity a) in let pb := priority (d_severity b) in
  (pa <? pb) || ((pa =? pb) &&
  ((rstart (d_range a) <? rstart (d_range b)) || ((rstart (d_range a) =? rstart (d_range b)) &&
  (rend (d_range a) <? rend (d_range b))))).

(** Insert [d] before the first element that is not smaller. *)
Fixpoint insert_diag (d : diagnostic) (l : list diagnostic) : list diagnostic :=
  match l with
  | [] => [d]
  | x :: r => if diag_ltb x d then x :: insert_diag d r else d :: l
  end.

Fixpoint sort_diags (l : list diagnostic) : list diagnostic :=
  match l with [] => [] | d :: r => insert_diag d (sort_diags r) end.

(** 59-78 [collect_all_diagnostics]: what the caller does with the sorted list is [c]. *)
Definition collect_all_diagnostics (f : file) (c : list diagnostic -> client key value diagnostic)
  : res (client key value diagnostic) := collect_client f (fun ds => c (sort_diags ds)).
