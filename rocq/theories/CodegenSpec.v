(** What the parser table generated from a grammar file should contain, in terms of the nodes of the file. *)
From Coq Require Import List Arith Bool NArith.
From Verif Require Import Base TextModel TreeModel GrammarModel DbModel AnalysisModel AnalysisSpec CodegenModel.
Import ListNotations.

Section Spec.
  Variable f : file.
  Notation ty := (ty f).
  Notation kid := (kid f).
  Notation exprs := (exprs f).
  Notation str := (str f).
  Notation name_of := (name_of f).
  Notation rules := (rules f).
  Notation tokens := (tokens f).

  (** Rule or token [r] carries the attribute [s]. *)
  Definition has_attr (r : nat) (s : bytes) : bool :=
    match kid ATTRIBUTES r with
    | Some a => existsb (fun x => match name_of x with Some n => bytes_eqb n s | None => false end) (kids_of f ATTRIBUTE a)
    | None => false
    end.

  (** ** Numbers *)

  (** The node types: the tokens, then the public rules that do not borrow their type.  The flag says that the type is
      skipped by the parser. *)
  Definition type_list : list (bytes * bool) :=
    flat_map (fun t => match name_of t with Some s => [(s, has_attr t s_skip)] | None => [] end) tokens ++
    flat_map (fun r => match kid PUB r, has_attr r s_type, name_of r with Some _, false, Some s => [(s, false)] | _, _, _ => [] end) rules.

  (** Type [s] has number [i]: its place in the list, counted from 1 (0 is the type of errors). *)
  Definition type_number (s : bytes) (i : nat) : Prop :=
    exists pre b post, type_list = pre ++ (s, b) :: post /\ ~ In s (map fst pre) /\ i = S (length pre).
  (** Nodes made by rule [r] get the type number [i]. *)
  Definition rule_type (r i : nat) : Prop := exists s, makes_type f r s /\ type_number s i.
  Definition token_type (t i : nat) : Prop := exists s, name_of t = Some s /\ type_number s i.

  (** The number of a rule is its place, that of a parameter its place among the parameters of all rules. *)
  Definition rule_number (r i : nat) : Prop := nth_error rules i = Some r.
  Definition param_number (p i : nat) : Prop := nth_error (flat_map (params f) rules) i = Some p.

  (** ** Literals *)

  (** The text between the outermost quotes of the literal. *)
  Definition quote_of (s : bytes) : nat := if is_prefix [39] s then 39 else 34.
  Definition literal_body (s b : bytes) : Prop :=
    exists pre post, s = pre ++ quote_of s :: b ++ quote_of s :: post /\ ~ In (quote_of s) pre /\ ~ In (quote_of s) post.
  (** A raw literal. *)
  Definition raw (s : bytes) : bool := is_prefix [114] s.
  (** Token [t] is defined by the plain text [b]. *)
  Definition plain_text (t : nat) (b : bytes) : Prop :=
    exists m, kid STRING t = Some m /\ raw (str m) = false /\ literal_body (str m) b.

  (** ** Expressions *)
  Definition is_commit_part (a : nat) : bool := bytes_eqb (str a) s_commit_call.
  (** How many parts come before [<commit>]. *)
  Inductive commit_place : list nat -> option nat -> Prop :=
  | cp_none : forall l, (forall a, In a l -> is_commit_part a = false) -> commit_place l None
  | cp_some : forall pre a post, (forall x, In x pre -> is_commit_part x = false) -> is_commit_part a = true ->
      commit_place (pre ++ a :: post) (Some (length pre)).
  Definition real_parts (e : nat) : list nat := filter (fun a => negb (is_commit_part a)) (exprs e).

  Definition call_is (n : nat) (k : call_kind) : Prop := exists ds, call_means f n (Some k) ds.

  Section Table.
  Variable tab : list expr.

  (** [compiled e i]: expression [e] of the file is number [i] of the table; [written e x]: it is the instruction [x].
      A reference to a rule is the number of the rule. *)
  Inductive compiled : nat -> nat -> Prop :=
  | c_rule : forall e r i, ty e = REF_EXPR -> resolves f e (Some (RRule r)) -> rule_number r i -> compiled e i
  | c_entry : forall e x i, length rules <= i -> nth_error tab i = Some x -> written e x -> compiled e i
  with written : nat -> expr -> Prop :=
  | w_block : forall e l, ty e = BLOCK_EXPR -> Forall2 compiled (exprs e) l -> written e (EOr l)
  | w_seq : forall e l c, ty e = SEQ_EXPR -> Forall2 compiled (real_parts e) l -> commit_place (exprs e) c -> written e (EAnd l c)
  | w_token : forall e t i, ty e = REF_EXPR -> resolves f e (Some (RToken t)) -> has_attr t s_contextual = false ->
      token_type t i -> written e (EToken i)
  | w_contextual : forall e t i b, ty e = REF_EXPR -> resolves f e (Some (RToken t)) -> has_attr t s_contextual = true ->
      token_type t i -> plain_text t b -> written e (EContextual i b)
  | w_param : forall e p i, ty e = REF_EXPR -> resolves f e (Some (RParam p)) -> param_number p i -> written e (EVar i)
  | w_opt : forall e a l i, ty e = OPT_EXPR -> exprs e = a :: l -> compiled a i -> written e (EOpt i)
  | w_rep : forall e a l i, ty e = REP_EXPR -> exprs e = a :: l -> compiled a i -> written e (ERep i)
  | w_eof : forall e, ty e = CALL_EXPR -> call_is e CkEof -> written e EEof
  | w_any : forall e, ty e = CALL_EXPR -> call_is e CkAny -> written e EAny
  | w_not : forall e a i, ty e = CALL_EXPR -> call_is e (CkNot a) -> compiled a i -> written e (ENot i)
  | w_layer : forall e a b i j, ty e = CALL_EXPR -> call_is e (CkLayer a b) -> compiled a i -> compiled b j -> written e (ELayer i j)
  | w_with_skip : forall e a b i j, ty e = CALL_EXPR -> call_is e (CkWithSkip a b) -> compiled a i -> compiled b j -> written e (EWithSkip i j)
  | w_inject : forall e a b i j, ty e = CALL_EXPR -> call_is e (CkInject a b) -> compiled a i -> compiled b j -> written e (EInject i j)
  | w_enter : forall e c a i, ty e = CALL_EXPR -> call_is e (CkEnter c a) -> compiled a i -> written e (EEnter c i)
  | w_exit : forall e c a i, ty e = CALL_EXPR -> call_is e (CkExit c a) -> compiled a i -> written e (EExit c i)
  | w_is_in : forall e c, ty e = CALL_EXPR -> call_is e (CkIsIn c) -> written e (EIsIn c)
  | w_call : forall e r i args l, ty e = CALL_EXPR -> call_is e (CkRuleCall r args) -> rule_number r i ->
      Forall2 (fun a x => param_number (fst a) (fst x)) args l ->
      Forall2 compiled (map snd args) (map snd l) -> written e (ECall i l)
  | w_prev_is : forall e rs l, ty e = CALL_EXPR -> call_is e (CkPrevIs rs) -> Forall2 rule_type rs l -> written e (EPrevIs l).

  (** ** Operator precedence *)

  (** Alternative [a] of the body of an expression rule stands for rule [r]. *)
  Definition alternative (a r : nat) : Prop :=
    ty a = SEQ_EXPR /\ exists p l, exprs a = p :: l /\ ty p = REF_EXPR /\ resolves f p (Some (RRule r)).
  Definition variant (r : nat) (v : pratt_variant) : Prop := exists ds, pratt_means f r (Some v) ds.

  Inductive operators : list nat -> list nat -> list prefix -> list infix -> Prop :=
  | o_nil : operators [] [] [] []
  | o_atom : forall a r t b i l at_ px ix, alternative a r -> rule_type r t -> variant r (PAtom b) -> rule_number r i ->
      operators l at_ px ix -> operators (a :: l) (i :: at_) px ix
  | o_prefix : forall a r t op p i l at_ px ix, alternative a r -> rule_type r t -> variant r (PPrefix op p) -> compiled op i ->
      operators l at_ px ix -> operators (a :: l) at_ (mkPrefix t i (N.to_nat p) :: px) ix
  | o_postfix : forall a r t op p i l at_ px ix, alternative a r -> rule_type r t -> variant r (PPostfix op p) -> compiled op i ->
      operators l at_ px ix -> operators (a :: l) at_ px (mkInfix t i (N.to_nat p) false :: ix)
  | o_bin : forall a r t op p i l at_ px ix, alternative a r -> rule_type r t -> variant r (PBin op p) -> compiled op i ->
      operators l at_ px ix -> operators (a :: l) at_ px (mkInfix t i (N.to_nat p) true :: ix).

  (** ** Rules *)

  (** What the body of rule [r] is. *)
  Inductive body_is (r : nat) : expr -> Prop :=
  | b_plain : forall b l x, has_attr r s_pratt = false -> exprs r = b :: l -> written b x -> body_is r x
  | b_pratt : forall b l at_ px ix, has_attr r s_pratt = true -> exprs r = b :: l -> ty b = BLOCK_EXPR ->
      operators (exprs b) at_ px ix -> body_is r (EPratt (mkPratt at_ px ix)).
  (** The body of rule [r] is number [i]. *)
  Definition body_at (r i : nat) : Prop := length rules <= i /\ exists x, nth_error tab i = Some x /\ body_is r x.
  Definition typeless (r : nat) : Prop := forall i, ~ rule_type r i.

  (** What rule [r] is: a node, what replaces a node, or just its body; remembered if it is marked so. *)
  Inductive rule_is (r : nat) : expr -> Prop :=
  | r_node : forall t i, rule_type r t -> has_attr r s_replaces = false -> has_attr r s_cached = false -> body_at r i ->
      rule_is r (EPub t i (has_attr r s_replaceable))
  | r_cached_node : forall t i j, rule_type r t -> has_attr r s_replaces = false -> has_attr r s_cached = true -> body_at r i ->
      length rules <= j -> nth_error tab j = Some (ECached i) -> rule_is r (EPub t j (has_attr r s_replaceable))
  | r_replace : forall t i, rule_type r t -> has_attr r s_replaces = true -> body_at r i -> rule_is r (EPubReplace t i)
  | r_cached : forall i, typeless r -> has_attr r s_replaces = false -> has_attr r s_cached = true -> body_at r i ->
      rule_is r (ECached i)
  | r_body : forall x, typeless r -> has_attr r s_replaces = false -> has_attr r s_cached = false -> body_is r x -> rule_is r x.

  (** The table is that of the file. *)
  Definition table_of_file : Prop :=
    forall i r, nth_error rules i = Some r -> exists x, nth_error tab i = Some x /\ rule_is r x.
  End Table.

  (** ** What can be compiled *)
  Inductive compilable : nat -> Prop :=
  | k_block : forall e, ty e = BLOCK_EXPR -> (forall a, In a (exprs e) -> compilable a) -> compilable e
  | k_seq : forall e, ty e = SEQ_EXPR -> (forall a, In a (exprs e) -> is_commit_part a = false -> compilable a) -> compilable e
  | k_rule : forall e r, ty e = REF_EXPR -> resolves f e (Some (RRule r)) -> compilable e
  | k_param : forall e p, ty e = REF_EXPR -> resolves f e (Some (RParam p)) -> compilable e
  | k_token : forall e t, ty e = REF_EXPR -> resolves f e (Some (RToken t)) ->
      (has_attr t s_contextual = true -> exists b, plain_text t b) -> compilable e
  | k_opt : forall e a l, ty e = OPT_EXPR \/ ty e = REP_EXPR -> exprs e = a :: l -> compilable a -> compilable e
  | k_call0 : forall e k, ty e = CALL_EXPR -> call_is e k -> (k = CkEof \/ k = CkAny \/ exists c, k = CkIsIn c) -> compilable e
  | k_call1 : forall e k a, ty e = CALL_EXPR -> call_is e k -> (k = CkNot a \/ exists c, k = CkEnter c a \/ k = CkExit c a) ->
      compilable a -> compilable e
  | k_call2 : forall e k a b, ty e = CALL_EXPR -> call_is e k -> (k = CkLayer a b \/ k = CkWithSkip a b \/ k = CkInject a b) ->
      compilable a -> compilable b -> compilable e
  | k_call : forall e r args, ty e = CALL_EXPR -> call_is e (CkRuleCall r args) ->
      (forall p a, In (p, a) args -> compilable a) -> compilable e
  | k_prev_is : forall e rs, ty e = CALL_EXPR -> call_is e (CkPrevIs rs) -> (forall r, In r rs -> exists i, rule_type r i) -> compilable e.

  Definition operator_of (v : pratt_variant) : option nat :=
    match v with PAtom _ => None | PPrefix op _ | PPostfix op _ | PBin op _ => Some op end.
  Definition compilable_rule (r : nat) : Prop :=
    exists b l, exprs r = b :: l /\ (has_attr r s_replaces = true -> exists t, rule_type r t) /\
      (has_attr r s_pratt = false -> compilable b) /\
      (has_attr r s_pratt = true -> ty b = BLOCK_EXPR /\
         forall a, In a (exprs b) -> exists x t v, alternative a x /\ rule_type x t /\ variant x v /\
           forall op, operator_of v = Some op -> compilable op).

  (** ** Tokens *)
  Section Lexer.
  Variable escape debug : bytes -> bytes.

  (** The pattern of token [t] is [b]. *)
  Definition pattern (t : nat) (b : bytes) : Prop :=
    exists m c, kid STRING t = Some m /\ literal_body (str m) c /\ b = if raw (str m) then c else escape c.
  (** The function that goes with it: the second literal. *)
  Definition custom (t : nat) (o : option bytes) : Prop :=
    match nth_error (kids_of f STRING t) 1 with
    | Some m => exists b, literal_body (str m) b /\ o = Some b
    | None => o = None
    end.
  Definition lex_rule_is (t : nat) (x : ctx_lex_rule) : Prop :=
    name_of t = Some (cl_ty x) /\ (exists b, pattern t b /\ cl_re x = debug b) /\ custom t (cl_fn x).
  Definition matched_tokens : list nat := filter (fun t => negb (has_attr t s_contextual)) tokens.
  End Lexer.

  (** ** References inside a table *)
  Definition mentions (x : expr) : list nat :=
    match x with
    | EPub _ b _ | EPubReplace _ b | ERep b | EOpt b | ENot b | EEnter _ b | EExit _ b | ECached b => [b]
    | EOr l | EAnd l _ => l
    | EWithSkip a b | ELayer a b | EInject a b => [a; b]
    | EPratt t => pt_atoms t ++ map px_op (pt_prefixes t) ++ map ix_op (pt_infixes t)
    | ECall b l => b :: map snd l
    | EToken _ | EContextual _ _ | EEof | EAny | EIsIn _ | EVar _ | EPrevIs _ => []
    end.
  Definition types_in (x : expr) : list nat :=
    match x with
    | EPub t _ _ | EPubReplace t _ | EToken t | EContextual t _ => [t]
    | EPratt t => map px_ty (pt_prefixes t) ++ map ix_ty (pt_infixes t)
    | EPrevIs l => l
    | _ => []
    end.
  Definition params_in (x : expr) : list nat :=
    match x with EVar v => [v] | ECall _ l => map fst l | _ => [] end.
  (** Nothing in [x] dangles, where only entries below [k] may be mentioned. *)
  Definition refers_below (k : nat) (x : expr) : Prop :=
    (forall j, In j (mentions x) -> j < k) /\
    (forall t, In t (types_in x) -> 1 <= t <= length type_list) /\
    (forall p, In p (params_in x) -> p < length (flat_map (params f) rules)) /\
    (match x with EAnd l (Some c) => c <= length l | _ => True end).
  (** Rules mention entries of the table, other entries only rules and entries before them. *)
  Definition closed (tab : list expr) : Prop :=
    forall k x, nth_error tab k = Some x -> refers_below (if k <? length rules then length tab else k) x.

  (** The body of every rule is a block, as the syntax of grammar files demands. *)
  Definition block_bodies : Prop := forall r, In r rules -> exists b l, exprs r = b :: l /\ ty b = BLOCK_EXPR.
End Spec.
