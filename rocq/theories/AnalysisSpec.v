(** What the analysis of a grammar file should say, in terms of the nodes of the file. *)
From Coq Require Import List Arith Bool NArith Sorted.
From Verif Require Import Base TextModel TreeModel DbModel DbSpec AnalysisModel IndexSpec.
Import ListNotations.

(** ** Selections from lists *)

(** [a] is the first (last) element of [l] with property [P]. *)
Definition first_such {A} (P : A -> Prop) (l : list A) (a : A) : Prop :=
  exists pre post, l = pre ++ a :: post /\ P a /\ forall x, In x pre -> ~ P x.
Definition last_such {A} (P : A -> Prop) (l : list A) (a : A) : Prop :=
  exists pre post, l = pre ++ a :: post /\ P a /\ forall x, In x post -> ~ P x.
Definition none_such {A} (P : A -> Prop) (l : list A) : Prop := forall x, In x l -> ~ P x.

(** [out] lists, in order, the elements [x] of [l] with [P pre x], where [pre] are the elements before [x]. *)
Inductive picks {A} (P : list A -> A -> Prop) : list A -> list A -> list A -> Prop :=
| pk_nil : forall pre, picks P pre [] []
| pk_yes : forall pre x l out, P pre x -> picks P (pre ++ [x]) l out -> picks P pre (x :: l) (x :: out)
| pk_no : forall pre x l out, ~ P pre x -> picks P (pre ++ [x]) l out -> picks P pre (x :: l) out.

Section View.
  Variable f : file.

  (** ** The nodes of the file *)
  Definition valid (n : nat) : Prop := n < length (f_nodes f).
  Definition at_node {A} (d : A) (g : node_data -> A) (n : nat) : A :=
    match nth_error (f_nodes f) n with Some x => g x | None => d end.
  Definition ty (n : nat) : nat := at_node 0 n_ty n.
  Definition kids (n : nat) : list nat := at_node [] n_children n.
  Definition par (n : nat) : option nat := at_node None n_parent n.
  Definition rng (n : nat) : range := at_node (mkRange 0 0) n_range n.
  Definition str (n : nat) : bytes := sub (rstart (rng n)) (rend (rng n)) (f_text f).

  Definition is_a (t n : nat) : Prop := valid n /\ ty n = t.
  Definition kids_of (t n : nat) : list nat := filter (fun c => ty c =? t) (kids n).
  Definition kid (t n : nat) : option nat := hd_error (kids_of t n).
  Definition exprs (n : nat) : list nat := filter (fun c => is_expr (ty c)) (kids n).

  (** ** Grammar files *)
  Definition name_of (n : nat) : option bytes := option_map str (kid IDENT n).
  Definition rules : list nat := kids_of SYN_RULE 0.
  Definition tokens : list nat :=
    match kid TOKENIZER_DEF 0 with Some t => kids_of LEX_RULE t | None => [] end.
  Definition params (r : nat) : list nat :=
    match kid PARAMETERS r with Some p => kids_of PARAMETER p | None => [] end.

  (** A token is called by its quoted text if it is defined by one, otherwise by its name. *)
  Definition token_called (s : bytes) (t : nat) : Prop :=
    match kid STRING t with
    | Some m => if is_prefix [39] (str m) then str m = s else name_of t = Some s
    | None => name_of t = Some s
    end.

  (** The name written in a reference. *)
  Definition ref_name (n : nat) : option bytes :=
    match kid IDENT n with
    | Some i => Some (str i)
    | None => option_map str (kid SIMPLE_STRING n)
    end.

  (** The innermost rule around a node. *)
  Inductive enclosing_rule : nat -> nat -> Prop :=
  | er_here : forall n, ty n = SYN_RULE -> enclosing_rule n n
  | er_up : forall n p r, ty n <> SYN_RULE -> par n = Some p -> enclosing_rule p r -> enclosing_rule n r.

  Definition named (s : bytes) (n : nat) : Prop := name_of n = Some s.

  (** What a reference in rule [r] with the name [s] means. *)
  Inductive means (r : nat) (s : bytes) : option ref_kind -> Prop :=
  | mean_param : forall p, first_such (named s) (params r) p -> means r s (Some (RParam p))
  | mean_rule : forall x, none_such (named s) (params r) -> first_such (named s) rules x ->
      means r s (Some (RRule x))
  | mean_token : forall t, none_such (named s) (params r) -> none_such (named s) rules ->
      last_such (token_called s) tokens t -> means r s (Some (RToken t))
  | mean_nothing : none_such (named s) (params r) -> none_such (named s) rules ->
      none_such (token_called s) tokens -> means r s None.

  Definition resolves (n : nat) (o : option ref_kind) : Prop :=
    exists r s, enclosing_rule n r /\ ref_name n = Some s /\ means r s o.

  (** ** Diagnostics *)
  Definition error_at (n : nat) (m : message) : diagnostic := mkDiag (rng n) Error m.
  Definition warning_at (n : nat) (m : message) : diagnostic := mkDiag (rng n) Warning m.

  (** ** Attributes *)

  (** [x] is the attribute [s] of rule [r] (the first one if it is repeated). *)
  Definition attr (r : nat) (s : bytes) (x : nat) : Prop :=
    exists a, kid ATTRIBUTES r = Some a /\ first_such (named s) (kids_of ATTRIBUTE a) x.
  Definition no_attr (r : nat) (s : bytes) : Prop := forall x, ~ attr r s x.
  Definition attr_value (x : nat) : option bytes := option_map str (kid ATTRIBUTE_VALUE x).

  (** Rule [r] makes nodes of a type of its own, called [s]. *)
  Definition makes_type (r : nat) (s : bytes) : Prop :=
    kid PUB r <> None /\ no_attr r s_pratt /\
    ((exists x, attr r s_type x /\ attr_value x = Some s) \/ (no_attr r s_type /\ name_of r = Some s)).

  (** ** Calls *)
  Definition context_functions : list bytes := [s_is_in; s_enter; s_exit].
  Definition builtins : list bytes :=
    [s_any; s_commit; s_eof; s_not; s_is_in; s_layer; s_with_skip; s_inject; s_enter; s_exit; s_prev_is].

  (** Call [c] names the context [b]: its first argument is a quoted string. *)
  Definition names_context (c : nat) (b : bytes) : Prop :=
    exists fn a m, name_of c = Some fn /\ In fn context_functions /\ hd_error (exprs c) = Some a
      /\ kid SIMPLE_STRING a = Some m /\ str m = 39 :: b ++ [39].

  (** Reference [n] is the string that names the context of a call. *)
  Definition is_context_string (n : nat) : Prop :=
    exists c b, par n = Some c /\ ty c = CALL_EXPR /\ names_context c b /\ hd_error (exprs c) = Some n.

  (** Call [n] calls rule [r]. *)
  Definition calls_rule (n r : nat) : Prop :=
    exists s, name_of n = Some s /\ ~ In s builtins /\ first_such (named s) rules r /\ kid PARAMETERS r <> None.

  (** The contexts of the file, in the order of their names; the number of a context is its place. *)
  Definition context_list (l : list bytes) : Prop :=
    StronglySorted lex_lt l /\ forall b, In b l <-> exists c, is_a CALL_EXPR c /\ names_context c b.
  Definition context_number (b : bytes) (i : nat) : Prop := exists l, context_list l /\ nth_error l i = Some b.

  Definition arity_error (k n : nat) : list diagnostic :=
    if length (exprs n) =? k then [] else [error_at n (MWrongArgs k (length (exprs n)))].

  (** The arguments of [<prev_is ..>] that count, and how many do not. *)
  Inductive public_args : list nat -> list nat -> nat -> Prop :=
  | pa_nil : public_args [] [] 0
  | pa_yes : forall a r s l rs k, ty a = REF_EXPR -> resolves a (Some (RRule r)) -> makes_type r s ->
      public_args l rs k -> public_args (a :: l) (r :: rs) k
  | pa_no : forall a l rs k,
      ~ (ty a = REF_EXPR /\ exists r s, resolves a (Some (RRule r)) /\ makes_type r s) ->
      public_args l rs k -> public_args (a :: l) rs (S k).

  (** What a call means, and what is reported about it. *)
  Inductive call_means (n : nat) : option call_kind -> list diagnostic -> Prop :=
  | cm_any : named s_any n -> call_means n (Some CkAny) (arity_error 0 n)
  | cm_commit : named s_commit n -> call_means n (Some CkCommit) (arity_error 0 n)
  | cm_eof : named s_eof n -> call_means n (Some CkEof) (arity_error 0 n)
  | cm_not : forall a l, named s_not n -> exprs n = a :: l -> call_means n (Some (CkNot a)) (arity_error 1 n)
  | cm_layer : forall a b l, named s_layer n -> exprs n = a :: b :: l ->
      call_means n (Some (CkLayer a b)) (arity_error 2 n)
  | cm_with_skip : forall a b l, named s_with_skip n -> exprs n = a :: b :: l ->
      call_means n (Some (CkWithSkip a b)) (arity_error 2 n)
  | cm_inject : forall a b l, named s_inject n -> exprs n = a :: b :: l ->
      call_means n (Some (CkInject a b)) (arity_error 2 n)
  | cm_is_in : forall c i, named s_is_in n -> names_context n c -> context_number c i ->
      call_means n (Some (CkIsIn i)) (arity_error 1 n)
  | cm_enter : forall c i a b l, named s_enter n -> exprs n = a :: b :: l -> names_context n c ->
      context_number c i -> call_means n (Some (CkEnter i b)) (arity_error 2 n)
  | cm_exit : forall c i a b l, named s_exit n -> exprs n = a :: b :: l -> names_context n c ->
      context_number c i -> call_means n (Some (CkExit i b)) (arity_error 2 n)
  | cm_no_string : forall s k a l, In (s, k) [(s_is_in, 1); (s_enter, 2); (s_exit, 2)] -> named s n ->
      exprs n = a :: l -> k <= length (exprs n) -> (forall c, ~ names_context n c) ->
      call_means n None (arity_error k n ++ [error_at a MContextString])
  | cm_too_few : forall s k, In (s, k) [(s_not, 1); (s_is_in, 1); (s_layer, 2); (s_with_skip, 2); (s_inject, 2); (s_enter, 2); (s_exit, 2)] ->
      named s n -> length (exprs n) < k -> call_means n None (arity_error k n)
  | cm_prev_is : forall rs k, named s_prev_is n -> public_args (exprs n) rs k ->
      call_means n (Some (CkPrevIs rs)) (repeat (error_at n MPrevIs) k)
  | cm_rule : forall r, calls_rule n r ->
      call_means n (Some (CkRuleCall r (combine (params r) (exprs n))))
        (if length (params r) =? length (exprs n) then []
         else [error_at n (MExpectedArgs (length (params r)) (length (exprs n)))])
  | cm_unknown : forall s i, named s n -> ~ In s builtins -> (forall r, ~ calls_rule n r) -> kid IDENT n = Some i ->
      call_means n None [error_at i MUnresolvedReference].

  (** ** Expression rules (operator precedence) *)

  (** The attribute that decides: the first of these four that is present. *)
  Definition variant_attr (r : nat) (s : bytes) (x : nat) : Prop :=
    exists pre post, [s_atom; s_postfix; s_prefix; s_bin] = pre ++ s :: post /\ attr r s x
      /\ forall k, In k pre -> no_attr r k.
  Definition priority_of (x : nat) : option N := match attr_value x with Some v => parse_u32 v | None => None end.

  (** The parts of the single alternative of the body of [r]. *)
  Definition body_parts (r b : nat) (parts : list nat) : Prop :=
    hd_error (exprs r) = Some b /\ ty b = BLOCK_EXPR /\ exists a, exprs b = [a] /\ ty a = SEQ_EXPR /\ exprs a = parts.

  Inductive pratt_means (r : nat) : option pratt_variant -> list diagnostic -> Prop :=
  | pm_no_name : name_of r = None -> pratt_means r None []
  | pm_plain : (forall s x, ~ variant_attr r s x) -> pratt_means r None []
  | pm_atom : forall i x b, kid IDENT r = Some i -> variant_attr r s_atom x -> hd_error (exprs r) = Some b ->
      pratt_means r (Some (PAtom b)) (match priority_of x with Some _ => [error_at i MAtomPriority] | None => [] end)
  | pm_no_block : forall s x b, name_of r <> None -> variant_attr r s x -> s <> s_atom ->
      hd_error (exprs r) = Some b -> ty b <> BLOCK_EXPR -> pratt_means r None []
  | pm_alternatives : forall s x b, name_of r <> None -> variant_attr r s x -> s <> s_atom ->
      hd_error (exprs r) = Some b -> ty b = BLOCK_EXPR -> length (exprs b) <> 1 ->
      pratt_means r None [error_at b MSingleAlternative]
  | pm_no_sequence : forall s x b a, name_of r <> None -> variant_attr r s x -> s <> s_atom ->
      hd_error (exprs r) = Some b -> ty b = BLOCK_EXPR -> exprs b = [a] -> ty a <> SEQ_EXPR -> pratt_means r None []
  | pm_postfix : forall x b e op, name_of r <> None -> variant_attr r s_postfix x -> body_parts r b [e; op] ->
      pratt_means r (Some (PPostfix op (match priority_of x with Some p => p | None => 999%N end))) []
  | pm_postfix_bad : forall x b parts, name_of r <> None -> variant_attr r s_postfix x -> body_parts r b parts ->
      length parts <> 2 -> pratt_means r None [error_at b MPostfix]
  | pm_prefix : forall x b op e, name_of r <> None -> variant_attr r s_prefix x -> body_parts r b [op; e] ->
      pratt_means r (Some (PPrefix op (match priority_of x with Some p => p | None => 999%N end))) []
  | pm_prefix_bad : forall x b parts, name_of r <> None -> variant_attr r s_prefix x -> body_parts r b parts ->
      length parts <> 2 -> pratt_means r None [error_at b MPrefix]
  | pm_bin : forall x b l op r' p, name_of r <> None -> variant_attr r s_bin x -> body_parts r b [l; op; r'] ->
      priority_of x = Some p -> pratt_means r (Some (PBin op p)) []
  | pm_bin_priority : forall i x b parts, kid IDENT r = Some i -> variant_attr r s_bin x -> body_parts r b parts ->
      length parts = 3 -> priority_of x = None -> pratt_means r None [error_at i MBinPriority]
  | pm_bin_bad : forall x b parts, name_of r <> None -> variant_attr r s_bin x -> body_parts r b parts ->
      length parts <> 3 -> pratt_means r None [error_at b MBin].

  (** ** AST definitions *)
  Definition ast_parts (t : nat) : list nat := match kid AST_DEF 0 with Some a => kids_of t a | None => [] end.

  (** The trait names written after the colon of a node definition. *)
  Definition trait_refs (n : nat) (l : list nat) : Prop :=
    exists pre post, kids n = pre ++ post /\ none_such (fun c => ty c = COLON) pre
      /\ (match post with [] => True | c :: _ => ty c = COLON end) /\ l = filter (fun c => ty c =? IDENT) post.

  (** Each is the last trait of that name, or reported. *)
  Inductive traits_mean : list nat -> list nat -> list diagnostic -> Prop :=
  | tm_nil : traits_mean [] [] []
  | tm_yes : forall i l t ts ds, last_such (named (str i)) (ast_parts AST_TRAIT_DEF) t -> traits_mean l ts ds ->
      traits_mean (i :: l) (t :: ts) ds
  | tm_no : forall i l ts ds, none_such (named (str i)) (ast_parts AST_TRAIT_DEF) -> traits_mean l ts ds ->
      traits_mean (i :: l) ts (error_at i MUnresolvedTrait :: ds).

  (** What a selector of an accessor method selects: a node definition, a class or a token of that name. *)
  Inductive selects (s : bytes) : option child_kind -> Prop :=
  | se_node : forall x, first_such (named s) (ast_parts AST_NODE_DEF) x -> selects s (Some (CAstNode x))
  | se_class : forall x, none_such (named s) (ast_parts AST_NODE_DEF) -> first_such (named s) (ast_parts AST_CLASS_DEF) x ->
      selects s (Some (CAstClass x))
  | se_token : forall x, kid AST_DEF 0 <> None -> none_such (named s) (ast_parts AST_NODE_DEF) ->
      none_such (named s) (ast_parts AST_CLASS_DEF) -> first_such (named s) tokens x -> selects s (Some (CToken x))
  | se_none : none_such (named s) (ast_parts AST_NODE_DEF) -> none_such (named s) (ast_parts AST_CLASS_DEF) ->
      (kid AST_DEF 0 = None \/ none_such (named s) tokens) -> selects s None.

  Definition selector_arity (sel : nat) : arity :=
    match kid QUESTION sel, kid STAR sel with Some _, _ => Optional | None, Some _ => Many | None, None => Single end.

  (** With a dot only the text of a token can be selected. *)
  Inductive method_means (n : nat) : option method_kind -> Prop :=
  | mm_node : forall sel s c, kid AST_SELECTOR n = Some sel -> named s sel -> selects s (Some c) -> kid DOT sel = None ->
      method_means n (Some (NodeAccessor c (selector_arity sel)))
  | mm_text : forall sel s t, kid AST_SELECTOR n = Some sel -> named s sel -> selects s (Some (CToken t)) ->
      kid DOT sel <> None -> method_means n (Some (TextAccessor t (selector_arity sel)))
  | mm_dot : forall sel s c, kid AST_SELECTOR n = Some sel -> named s sel -> selects s (Some c) ->
      (forall t, c <> CToken t) -> kid DOT sel <> None -> method_means n None
  | mm_none : forall sel s, kid AST_SELECTOR n = Some sel -> named s sel -> selects s None -> method_means n None.

  (** Rule [r] is used somewhere in the file. *)
  Definition used (r : nat) : Prop :=
    (exists n, is_a REF_EXPR n /\ resolves n (Some (RRule r))) \/ (exists n, is_a CALL_EXPR n /\ calls_rule n r).

  (** ** What each query reports *)

  (** An element before it has the same name. *)
  Definition repeated (pre : list nat) (x : nat) : Prop := exists y s, In y pre /\ named s y /\ named s x.

  (** [c] is the only call that names the context [b]. *)
  Definition only_call (c : nat) (b : bytes) : Prop :=
    is_a CALL_EXPR c /\ names_context c b /\ forall c', is_a CALL_EXPR c' -> names_context c' b -> c' = c.

  Inductive used_once : list bytes -> list diagnostic -> Prop :=
  | uo_nil : used_once [] []
  | uo_yes : forall b c l ds, only_call c b -> used_once l ds -> used_once (b :: l) (warning_at c (MContextOnce b) :: ds)
  | uo_no : forall b l ds, (forall c, ~ only_call c b) -> used_once l ds -> used_once (b :: l) ds.

  (** The first rule of the file counts as used. *)
  Inductive unused_rules : list nat -> list diagnostic -> Prop :=
  | un_nil : unused_rules [] []
  | un_yes : forall r i l ds, hd_error rules <> Some r -> ~ used r -> kid IDENT r = Some i -> unused_rules l ds ->
      unused_rules (r :: l) (warning_at i MUnusedRule :: ds)
  | un_no : forall r l ds, (hd_error rules = Some r \/ used r \/ name_of r = None) -> unused_rules l ds ->
      unused_rules (r :: l) ds.

  (** The answer to a key and what is reported about it. *)
  Definition says (k : key) (v : value) (ds : list diagnostic) : Prop :=
    match k with
    | QLex => exists out, picks repeated [] tokens out /\ ds = map (fun t => error_at t MDuplicateToken) out
    | QSyn => exists out, picks repeated [] rules out
        /\ Forall2 (fun r d => exists i, kid IDENT r = Some i /\ d = error_at i MDuplicateRule) out ds
    | QCtx => exists l, v = VNames l /\ context_list l /\ used_once l ds
    | QUnused => unused_rules rules ds
    | QRef n => exists o, v = VRef o /\ resolves n o
        /\ ((o = None /\ ~ is_context_string n /\ ds = [error_at n MUnresolvedReference])
            \/ ((o <> None \/ is_context_string n) /\ ds = []))
    | QCall n => exists o, v = VCall o /\ call_means n o ds
    | QPratt n => exists o, v = VPratt o /\ pratt_means n o ds
    | QMethod n => exists o, v = VMethod o /\ method_means n o /\ ds = []
    | QTraits n => exists refs ts, v = VTraits ts /\ trait_refs n refs /\ traits_mean refs ts ds
    end.

  (** ** Files on which no accessor of the AST panics *)
  Record complete : Prop := mkComplete {
    co_ref : forall n, is_a REF_EXPR n -> ref_name n <> None /\ exists r, enclosing_rule n r;
    co_named : forall n t, In t [CALL_EXPR; LEX_RULE; PARAMETER; ATTRIBUTE; AST_SELECTOR; AST_NODE_DEF; AST_CLASS_DEF; AST_TRAIT_DEF] ->
      is_a t n -> name_of n <> None;
    co_string : forall n, is_a SIMPLE_STRING n -> exists b, str n = 39 :: b ++ [39];
    co_body : forall n, is_a SYN_RULE n -> exprs n <> [];
    co_selector : forall n, is_a METHOD_DEF n -> kid AST_SELECTOR n <> None }.

  (** ** Asking through the public API *)

  (** The keys [Analysis] lets its users ask for (a [RefExpr] wraps a node of that type, and so on), and those
      [collect_all_diagnostics] asks for itself. *)
  Definition api_key (k : key) : Prop :=
    match k with
    | QRef n => is_a REF_EXPR n
    | QCall n => is_a CALL_EXPR n
    | QPratt n => is_a SYN_RULE n
    | QMethod n => is_a METHOD_DEF n
    | QTraits n => is_a AST_NODE_DEF n
    | QUnused | QLex => True
    | QSyn | QCtx => False
    end.

  (** Duplicate rules are looked for only when some reference or call makes the analysis look for rules, and
      contexts are counted only when the number of some context is needed. *)
  Definition looks_for_rules : Prop :=
    (exists n r s, is_a REF_EXPR n /\ enclosing_rule n r /\ ref_name n = Some s /\ none_such (named s) (params r))
    \/ (exists n s, is_a CALL_EXPR n /\ name_of n = Some s /\ ~ In s builtins).
  Definition needs_contexts : Prop :=
    exists n s b, is_a CALL_EXPR n /\ name_of n = Some s /\ names_context n b
      /\ (s = s_is_in \/ 2 <= length (exprs n)).

  (** The queries whose diagnostics are reported. *)
  Definition reported (k : key) : Prop :=
    match k with
    | QSyn => looks_for_rules
    | QCtx => needs_contexts
    | QMethod _ => False
    | _ => api_key k
    end.
End View.

(** The order of the result of [collect_all_diagnostics]. *)
Definition severity_rank (s : severity) : nat := match s with Error => 0 | Warning => 1 end.
Definition diag_le (a b : diagnostic) : Prop :=
  severity_rank (d_severity a) < severity_rank (d_severity b) \/
  (d_severity a = d_severity b /\
   (rstart (d_range a) < rstart (d_range b) \/
    (rstart (d_range a) = rstart (d_range b) /\ rend (d_range a) <= rend (d_range b)))).

(** Two diagnostics the order does not tell apart. *)
Definition same_place (a b : diagnostic) : Prop := diag_le a b /\ diag_le b a.

(** ** Runs of the analysis *)

(** The clients of an analysis of [f] use its public API only. *)
Definition api_clients (f : file) (cs : list (client key value diagnostic)) : Prop :=
  forall c k, In c cs -> asks (fall_exec f) c k -> api_key f k.

(** [t] is what has become of client number [i], which started as [c0], after the threads have taken the steps
    [l]. *)
Definition has_run (f : file) (cs : list (client key value diagnostic)) (l : list nat) (i : nat)
  (c0 : client key value diagnostic) (t : thread key value diagnostic) : Prop :=
  nth_error cs i = Some c0 /\
  nth_error (st_threads (run_schedule key_eqb key_kind (fall_exec f) l (start cs))) i = Some t.

(** In some run with any number of threads, a thread called [collect_all_diagnostics] (after it had observed
    [before]); the call copied the recorded diagnostics [ds] and returned them sorted. *)
Definition collect_returns (f : file) (ds out : list diagnostic) : Prop :=
  exists cs l i c0 t before during after k cl,
    api_clients f cs /\ has_run f cs l i c0 t /\
    t_log t = after ++ ESnapshot ds :: during ++ before /\
    (forall e, In e during -> exists q v, e = EAnswer q v) /\
    follows c0 before cl /\ collect_all_diagnostics f k = Ok cl /\ out = sort_diags ds.

(** In some run, [v] was the answer to [q]. *)
Definition answers (f : file) (q : key) (v : value) : Prop :=
  exists cs l i c0 t, has_run f cs l i c0 t /\ In (EAnswer q v) (t_log t).
