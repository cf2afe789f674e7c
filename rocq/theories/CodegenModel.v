(** Model of the parser generator, fall/gen/src/generate/codegen.rs and fall/gen/src/util.rs, and of the AST accessors
    only it uses (lang/fall/syntax/src/ast_ext.rs). *)
From Coq Require Import List Arith Bool NArith.
From Verif Require Import Base TextModel TreeModel SearchModel GrammarModel DbModel AnalysisModel.
Import ListNotations.

(** [Result<T>], codegen.rs:15: [None] is an [Err]; the messages are not modelled. *)
Definition outcome (A : Type) : Type := res (option A).
(** [let x = e?; k] *)
Definition try {A B} (x : outcome A) (k : A -> outcome B) : outcome B :=
  o <- x ;; match o with Some a => k a | None => Ok None end.
Notation "x <! e1 ;; e2" := (try e1 (fun x => e2)) (at level 61, e1 at next level, right associativity).
Notation "' p <! e1 ;; e2" := (try e1 (fun p => e2)) (at level 61, p pattern, e1 at next level, right associativity).
(** [Ok(x)] *)
Definition done {A} (a : A) : outcome A := Ok (Some a).
(** [o.ok_or(..)] *)
Definition ok_or {A} (o : option A) : outcome A := Ok o.

(** [iter.map(g).collect::<Result<Vec<_>>>()] where [g] works on a state *)
Fixpoint try_map {S A B} (g : A -> S -> outcome (B * S)) (l : list A) (s : S) : outcome (list B * S) :=
  match l with
  | [] => done ([], s)
  | a :: r =>
      '(b, s1) <! g a s ;;
      '(bs, s2) <! try_map g r s1 ;;
      done (b :: bs, s2)
  end.
(** The same without a state *)
Fixpoint try_list {A B} (g : A -> outcome B) (l : list A) : outcome (list B) :=
  match l with
  | [] => done []
  | a :: r => b <! g a ;; bs <! try_list g r ;; done (b :: bs)
  end.

(** Strings of the sources *)
Definition s_contextual : bytes := [99; 111; 110; 116; 101; 120; 116; 117; 97; 108].
Definition s_skip : bytes := [115; 107; 105; 112].
Definition s_replaceable : bytes := [114; 101; 112; 108; 97; 99; 101; 97; 98; 108; 101].
Definition s_replaces : bytes := [114; 101; 112; 108; 97; 99; 101; 115].
Definition s_cached : bytes := [99; 97; 99; 104; 101; 100].
(** "<commit>" *)
Definition s_commit_call : bytes := [60; 99; 111; 109; 109; 105; 116; 62].

(** [char::to_ascii_uppercase], byte by byte (bytes of longer characters stay) *)
Definition upper (b : nat) : nat := if (97 <=? b) && (b <=? 122) then b - 32 else b.
(** util.rs:3-5 *)
Definition scream (s : bytes) : bytes := map upper s.
(** [s.split("_")] *)
Fixpoint split_underscore (s : bytes) (word : bytes) : list bytes :=
  match s with
  | [] => [rev word]
  | b :: r => if b =? 95 then rev word :: split_underscore r [] else split_underscore r (b :: word)
  end.
(** util.rs:7-12; [w[..1]] panics on the empty word and inside a longer character *)
Definition camel_word (w : bytes) : res bytes :=
  a <- str_index w (mkRange 0 1) ;; b <- str_index w (mkRange 1 (length w)) ;; Ok (map upper a ++ b).
Definition camel (s : bytes) : res bytes :=
  ws <- fold_res (fun acc w => c <- camel_word w ;; Ok (acc ++ c)) [] (split_underscore s []) ;; Ok ws.

(** What the template prints for an accessor (codegen.rs:349-407), with the type names already printed *)
Inductive accessor : Type :=
| AText (optional : bool) (node_type : bytes)
| AChild (a : arity) (type_name : bytes)
| AToken (optional : bool) (node_type : bytes).
(** codegen.rs:411-443 *)
Record ctx_method : Type := mkMethod { cm_name : bytes; cm_body : accessor }.
Record ctx_node : Type := mkCtxNode { cn_struct : bytes; cn_type : bytes; cn_methods : list ctx_method }.
Record ctx_class : Type := mkCtxClass { cc_enum : bytes; cc_variants : list (bytes * bytes) }.
Record ctx_trait : Type := mkCtxTrait { ct_name : bytes; ct_methods : list ctx_method; ct_impl_for : list bytes }.
Record ctx_lex_rule : Type := mkCtxLex { cl_ty : bytes; cl_re : bytes; cl_fn : option bytes }.
Record ctx_ast : Type := mkCtxAst { ca_nodes : list ctx_node; ca_classes : list ctx_class; ca_traits : list ctx_trait }.
(** The context of the template, codegen.rs:50-115 *)
Record context : Type := mkContext {
  cx_types : list (bytes * bool);
  cx_rules : list expr;
  cx_lex : list ctx_lex_rule;
  cx_verbatim : option bytes;
  cx_ast : option ctx_ast }.

Section Codegen.
  Variable f : file.
  (** What [analysis] answers *)
  Variable ask : key -> res value.
  (** [regex::escape], [format!("{:?}", _)] and [str::trim], of other crates *)
  Variable escape debug : bytes -> bytes.
  Variable trim : bytes -> bytes.
  Notation nodes := (f_nodes f).

  (** ** Accessors *)

  (** ast_ext.rs:51-63, 75-95, 155-157 *)
  Definition has_attribute (n : nat) (name : bytes) : res bool :=
    a <- find_attribute f n name ;; Ok (match a with Some _ => true | None => false end).
  (** fall.rs: [LexRule::node_type] *)
  Definition node_type (n : nat) : res bytes := child_text f n IDENT.
  (** ast_ext.rs:65-67 *)
  Definition lex_re (n : nat) : res (option bytes) :=
    c <- child_of_type nodes n STRING ;;
    match c with None => Ok None | Some m => s <- text_of f m ;; Ok (Some s) end.
  (** ast_ext.rs:10-21 *)
  Definition token_re (n : nat) : res (option bytes) :=
    r <- lex_re n ;;
    match r with
    | None => Ok None
    | Some raw => b <- lit_body raw ;; Ok (Some (if is_prefix [114] raw then b else escape b))
    end.
  (** ast_ext.rs:23-34 *)
  Definition token_text (n : nat) : res (option bytes) :=
    r <- lex_re n ;;
    match r with
    | None => Ok None
    | Some raw => if is_prefix [114] raw then Ok None else b <- lit_body raw ;; Ok (Some b)
    end.
  (** ast_ext.rs:36-40 *)
  Definition extern_fn (n : nat) : res (option bytes) :=
    l <- children_of_type nodes n STRING ;;
    match nth_error l 1 with None => Ok None | Some m => s <- text_of f m ;; b <- lit_body s ;; Ok (Some b) end.

  (** ** Tables *)

  (** codegen.rs:25-42 *)
  Definition node_types : res (list (bytes * bool)) :=
    ls <- file_lex_rules f ;;
    ts <- flat_map_res (fun r => n <- node_type r ;; s <- has_attribute r s_skip ;; Ok [(n, s)]) ls ;;
    rs <- file_syn_rules f ;;
    ps <- flat_map_res (fun r =>
            p <- is_pub f r ;;
            if negb p then Ok [] else
            a <- find_attribute f r s_type ;;
            match a with
            | Some _ => Ok []
            | None => n <- rule_name f r ;; Ok (match n with Some s => [(s, false)] | None => [] end)
            end) rs ;;
    Ok (ts ++ ps).

  Section Tables.
  Variable types : list (bytes * bool).

  (** codegen.rs:123-125, 135-138: the place of the first type of that name, counted from 1 *)
  Definition type_ref (name : bytes) : option nat :=
    option_map S (position (fun x => bytes_eqb (fst x) name) types).
  (** codegen.rs:121-126 *)
  Definition syn_rule_ty (rule : nat) : res (option nat) :=
    n <- ty_name f rule ;; Ok (match n with Some s => type_ref s | None => None end).
  (** codegen.rs:128-131 *)
  Definition syn_rule_ref (rule : nat) : res nat :=
    rs <- file_syn_rules f ;; unwrap (position (Nat.eqb rule) rs).
  (** codegen.rs:133-139 *)
  Definition lex_rule_ty (rule : nat) : res nat := n <- node_type rule ;; unwrap (type_ref n).
  (** codegen.rs:141-149 *)
  Definition param_ref (param : nat) : res nat :=
    rs <- file_syn_rules f ;;
    ps <- flat_map_res (rule_params f) rs ;;
    unwrap (position (Nat.eqb param) ps).

  (** The answers of the analysis, with the result type known statically in Rust *)
  Definition ask_ref (n : nat) : res (option ref_kind) :=
    v <- ask (QRef n) ;; match v with VRef o => Ok o | _ => Panic end.
  Definition ask_call (n : nat) : res (option call_kind) :=
    v <- ask (QCall n) ;; match v with VCall o => Ok o | _ => Panic end.
  Definition ask_pratt (n : nat) : res (option pratt_variant) :=
    v <- ask (QPratt n) ;; match v with VPratt o => Ok o | _ => Panic end.
  Definition ask_method (n : nat) : res (option method_kind) :=
    v <- ask (QMethod n) ;; match v with VMethod o => Ok o | _ => Panic end.
  Definition ask_traits (n : nat) : res (list nat) :=
    v <- ask (QTraits n) ;; match v with VTraits l => Ok l | _ => Panic end.

  (** ** Expressions *)

  (** codegen.rs:193-197; the table under construction is the state *)
  Definition push (x : expr) (tab : list expr) : nat * list expr := (length tab, tab ++ [x]).

  (** codegen.rs:205-207 *)
  Definition is_commit (n : nat) : res bool := s <- text_of f n ;; Ok (bytes_eqb s s_commit_call).

  (** [iter.position(p)] where [p] may panic *)
  Fixpoint position_res {A} (p : A -> res bool) (l : list A) : res (option nat) :=
    match l with
    | [] => Ok None
    | a :: r => b <- p a ;; if b then Ok (Some 0) else o <- position_res p r ;; Ok (option_map S o)
    end.

  (** [opt_expr.expr()], [rep_expr.expr()] *)
  Definition inner_expr (n : nat) : res nat := o <- ast_child f is_expr n ;; unwrap o.

  (** codegen.rs:199-287.  The fuel bounds the depth. *)
  Fixpoint gen_expr (fuel : nat) (n : nat) (tab : list expr) : outcome (nat * list expr) :=
    match fuel with
    | 0 => OutOfFuel
    | S fuel =>
        let gen := gen_expr fuel in
        let one (c : nat -> expr) (e : nat) := '(a, tab) <! gen e tab ;; done (push (c a) tab) in
        let two (c : nat -> nat -> expr) (e1 e2 : nat) :=
          '(a, tab) <! gen e1 tab ;; '(b, tab) <! gen e2 tab ;; done (push (c a b) tab) in
        t <- node_ty nodes n ;;
        if t =? BLOCK_EXPR then
          alts <- ast_children f is_expr n ;;
          '(l, tab) <! try_map gen alts tab ;; done (push (EOr l) tab)
        else if t =? SEQ_EXPR then
          parts <- ast_children f is_expr n ;;
          commit <- position_res is_commit parts ;;
          rest <- filter_res (fun p => b <- is_commit p ;; Ok (negb b)) parts ;;
          '(l, tab) <! try_map gen rest tab ;; done (push (EAnd l commit) tab)
        else if t =? REF_EXPR then
          r <- ask_ref n ;;
          k <! ok_or r ;;
          match k with
          | RToken rule =>
              ty <- lex_rule_ty rule ;;
              c <- has_attribute rule s_contextual ;;
              if c then
                s <- token_text rule ;; text <! ok_or s ;; done (push (EContextual ty text) tab)
              else done (push (EToken ty) tab)
          | RRule rule => i <- syn_rule_ref rule ;; done (i, tab)
          | RParam p => i <- param_ref p ;; done (push (EVar i) tab)
          end
        else if t =? CALL_EXPR then
          c <- ask_call n ;;
          k <! ok_or c ;;
          match k with
          | CkEof => done (push EEof tab)
          | CkAny => done (push EAny tab)
          | CkEnter i e => one (EEnter i) e
          | CkExit i e => one (EExit i) e
          | CkIsIn i => done (push (EIsIn i) tab)
          | CkNot e => one ENot e
          | CkLayer a b => two ELayer a b
          | CkWithSkip a b => two EWithSkip a b
          | CkInject a b => two EInject a b
          | CkRuleCall rule args =>
              i <- syn_rule_ref rule ;;
              '(l, tab) <! try_map (fun x tab => p <- param_ref (fst x) ;; '(e, tab) <! gen (snd x) tab ;; done ((p, e), tab)) args tab ;;
              done (push (ECall i l) tab)
          | CkPrevIs rules =>
              tys <- flat_map_res (fun r => o <- syn_rule_ty r ;; t <- unwrap o ;; Ok [t]) rules ;;
              done (push (EPrevIs tys) tab)
          | CkCommit => Panic
          end
        else if t =? OPT_EXPR then e <- inner_expr n ;; one EOpt e
        else if t =? REP_EXPR then e <- inner_expr n ;; one ERep e
        else Panic  (* not a node of the class [Expr] *)
    end.

  (** codegen.rs:290-301 *)
  Definition alt_to_rule (alt : nat) : outcome nat :=
    t <- node_ty nodes alt ;;
    if negb (t =? SEQ_EXPR) then Ok None else
    parts <- ast_children f is_expr alt ;;
    match parts with
    | p :: _ =>
        t <- node_ty nodes p ;;
        if negb (t =? REF_EXPR) then Ok None else
        r <- ask_ref p ;;
        Ok (match r with Some (RRule rule) => Some rule | _ => None end)
    | [] => Ok None
    end.

  (** codegen.rs:308-344, the loop *)
  Fixpoint gen_pratt (fuel : nat) (alts : list nat) (result : pratt_table) (tab : list expr) : outcome (pratt_table * list expr) :=
    match alts with
    | [] => done (result, tab)
    | alt :: rest =>
        rule <! alt_to_rule alt ;;
        o <- syn_rule_ty rule ;;
        ty <! ok_or o ;;
        v <- ask_pratt rule ;;
        k <! ok_or v ;;
        match k with
        | PAtom _ =>
            i <- syn_rule_ref rule ;;
            gen_pratt fuel rest (mkPratt (pt_atoms result ++ [i]) (pt_prefixes result) (pt_infixes result)) tab
        | PPostfix op p =>
            '(e, tab) <! gen_expr fuel op tab ;;
            gen_pratt fuel rest (mkPratt (pt_atoms result) (pt_prefixes result) (pt_infixes result ++ [mkInfix ty e (N.to_nat p) false])) tab
        | PPrefix op p =>
            '(e, tab) <! gen_expr fuel op tab ;;
            gen_pratt fuel rest (mkPratt (pt_atoms result) (pt_prefixes result ++ [mkPrefix ty e (N.to_nat p)]) (pt_infixes result)) tab
        | PBin op p =>
            '(e, tab) <! gen_expr fuel op tab ;;
            gen_pratt fuel rest (mkPratt (pt_atoms result) (pt_prefixes result) (pt_infixes result ++ [mkInfix ty e (N.to_nat p) true])) tab
        end
    end.

  (** [assert_eq!(self.expressions.len() - 1, body)] *)
  Definition check_last (body : nat) (tab : list expr) {A} (k : outcome A) : outcome A :=
    l <- usub (length tab) 1 ;; guard (l =? body) k.

  (** codegen.rs:151-191 *)
  Definition gen_rule (fuel : nat) (rule : nat) (tab : list expr) : outcome (expr * list expr) :=
    pratt <- is_pratt f rule ;;
    e <- rule_body f rule ;;
    '(body, tab) <!
      (if pratt then
         t <- node_ty nodes e ;;
         if t =? BLOCK_EXPR then
           alts <- ast_children f is_expr e ;;
           '(p, tab) <! gen_pratt fuel alts (mkPratt [] [] []) tab ;;
           done (push (EPratt p) tab)
         else Panic
       else gen_expr fuel e tab) ;;
    o <- syn_rule_ty rule ;;
    replaces <- has_attribute rule s_replaces ;;
    cached <- has_attribute rule s_cached ;;
    match o, replaces, cached with
    | Some ty, true, _ => done (EPubReplace ty body, tab)
    | Some ty, false, false => r <- has_attribute rule s_replaceable ;; done (EPub ty body r, tab)
    | Some ty, false, true =>
        let '(b, tab) := push (ECached body) tab in
        r <- has_attribute rule s_replaceable ;; done (EPub ty b r, tab)
    | None, false, true => check_last body tab (done (ECached body, tab))
    | None, false, false => check_last body tab (x <- unwrap (nth_error tab body) ;; done (x, removelast tab))
    | None, true, _ => Panic
    end.

  (** codegen.rs:57-60, the loop *)
  Fixpoint gen_rules (fuel : nat) (rules : list nat) (i : nat) (tab : list expr) : outcome (list expr) :=
    match rules with
    | [] => done tab
    | r :: rest =>
        '(x, tab) <! gen_rule fuel r tab ;;
        gen_rules fuel rest (S i) (set_nth i x tab)
    end.

  (** codegen.rs:54-60 *)
  Definition gen_table (fuel : nat) : outcome (list expr) :=
    rules <- file_syn_rules f ;; gen_rules fuel rules 0 (map (fun _ => EAny) rules).
  End Tables.

  (** codegen.rs:64-71 *)
  Definition gen_lex : outcome (list ctx_lex_rule) :=
    t <- file_tokenizer f ;;
    td <! ok_or t ;;
    ls <- ast_children f (is_ty LEX_RULE) td ;;
    ls <- filter_res (fun r => c <- has_attribute r s_contextual ;; Ok (negb c)) ls ;;
    try_list (fun r =>
      o <- token_re r ;; re <! ok_or o ;;
      n <- node_type r ;; g <- extern_fn r ;; done (mkCtxLex n (debug re) g)) ls.

  (** codegen.rs:75, ast_ext.rs:113-117; [has_whitespace_binder], line 77, is not modelled *)
  Definition verbatim : res (option bytes) :=
    v <- ast_child f (is_ty VERBATIM_DEF) root ;;
    match v with
    | None => Ok None
    | Some n => s <- child_text f n HASH_STRING ;; b <- lit_body s ;; Ok (Some (trim b))
    end.

  (** codegen.rs:349-407 *)
  Definition gen_method (n : nat) : outcome ctx_method :=
    o <- ask_method n ;;
    d <! ok_or o ;;
    name <- child_text f n IDENT ;;
    let child x a := s <- child_text f x IDENT ;; c <- camel s ;; done (mkMethod name (AChild a c)) in
    match d with
    | TextAccessor r Single => s <- node_type r ;; done (mkMethod name (AText false (scream s)))
    | TextAccessor r Optional => s <- node_type r ;; done (mkMethod name (AText true (scream s)))
    | TextAccessor _ Many => Panic
    | NodeAccessor (CAstNode x) a => child x a
    | NodeAccessor (CAstClass x) a => child x a
    | NodeAccessor (CToken r) Single => s <- node_type r ;; done (mkMethod name (AToken false (scream s)))
    | NodeAccessor (CToken r) Optional => s <- node_type r ;; done (mkMethod name (AToken true (scream s)))
    | NodeAccessor (CToken _) Many => Panic
    end.
  Definition gen_methods (n : nat) : outcome (list ctx_method) :=
    ms <- ast_children f (is_ty METHOD_DEF) n ;; try_list gen_method ms.

  (** ast_ext.rs:130-132 *)
  Definition class_variants (n : nat) : res (list bytes) :=
    l <- children_of_type nodes n IDENT ;; flat_map_res (fun i => s <- text_of f i ;; Ok [s]) (tl l).

  (** codegen.rs:80-112 *)
  Definition gen_ast (ast : nat) : outcome ctx_ast :=
    ns <- ast_children f (is_ty AST_NODE_DEF) ast ;;
    nodes_ <! try_list (fun n =>
      s <- child_text f n IDENT ;; c <- camel s ;;
      ms <! gen_methods n ;; done (mkCtxNode c (scream s) ms)) ns ;;
    cs <- ast_children f (is_ty AST_CLASS_DEF) ast ;;
    classes <! try_list (fun n =>
      s <- child_text f n IDENT ;; c <- camel s ;;
      vs <- class_variants n ;;
      l <- flat_map_res (fun v => c <- camel v ;; Ok [(scream v, c)]) vs ;;
      done (mkCtxClass c l)) cs ;;
    ts <- ast_children f (is_ty AST_TRAIT_DEF) ast ;;
    traits <! try_list (fun t =>
      s <- child_text f t IDENT ;; c <- camel s ;;
      ms <! gen_methods t ;;
      ins <- filter_res (fun n => l <- ask_traits n ;; Ok (existsb (Nat.eqb t) l)) ns ;;
      l <- flat_map_res (fun n => s <- child_text f n IDENT ;; c <- camel s ;; Ok [c]) ins ;;
      done (mkCtxTrait c ms l)) ts ;;
    done (mkCtxAst nodes_ classes traits).

  (** codegen.rs:24-115 [Codegen::new] and [generate] *)
  Definition generate : outcome context :=
    types <- node_types ;;
    tab <! gen_table types (S (length nodes)) ;;
    lex <! gen_lex ;;
    v <- verbatim ;;
    a <- file_ast_def f ;;
    match a with
    | None => done (mkContext types tab lex v None)
    | Some ast => x <! gen_ast ast ;; done (mkContext types tab lex v (Some x))
    end.

  (** generate/mod.rs:16-40, the template: type number [i] of the context is node type [100 + i], and the first of the
      parser's types is ERROR *)
  Definition grammar_of (c : context) : grammar :=
    mkGrammar (0 :: map (Nat.add 100) (seq 0 (length (cx_types c)))) (cx_rules c).
End Codegen.
