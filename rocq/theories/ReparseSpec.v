(** Specification vocabulary for incremental reparsing. *)
From Coq Require Import List Arith Bool.
From Verif Require Import Base TextModel EditModel LexModel LexSpec GrammarModel ParserModel ForestSpec PegSpec SpanSpec ConvertModel.
Import ListNotations.

(** No rule is cached. *)
Definition uncached (g : grammar) : Prop := forall e b, nth_error (g_rules g) e <> Some (ECached b).

(** An edit reads the old text from left to right, as edits made with the builder do. *)
Definition ascending (ops : list edit_op) : Prop :=
  forall pre c mid c' post, ops = pre ++ Copy c :: mid ++ Copy c' :: post -> rend c <= rstart c'.

(** A history of edits of plain text. *)
Fixpoint apply_all (history : list (list edit_op)) (txt : bytes) : res bytes :=
  match history with
  | [] => Ok txt
  | ops :: rest => new <- apply ops (as_text txt) ;; apply_all rest new
  end.

(** The tokens from [p] up to [q] come after [u] in the text and spell [str]. *)
Definition reaches (E : env) (p q : pos) (u str : bytes) : Prop :=
  (p_cur q = p_cur p /\ str = [])
  \/ (p_cur p < p_cur q
      /\ (exists i, nth_error (e_idx E) (p_cur p) = Some (length u, i))
      /\ exists o i t, nth_error (e_idx E) (p_cur q - 1) = Some (o, i) /\ nth_error (e_toks E) i = Some t
           /\ length (u ++ str) = o + tk_len t).

Definition no_error_node (evs : list event) : Prop := forall fp, ~ In (EvStart ERROR fp) evs.

(** The outcome of rule [k] depends only on the text it consumed: if it succeeds on the text [str] without error nodes,
    then in any other text where a token starts right before [str], it succeeds on [str] with the same events, whatever
    the contexts, arguments and previous node are there, and leaves no request to replace a node type. *)
Definition self_contained (L : language) (k : nat) : Prop :=
  forall u str v toks u' v' toks',
  lex (l_lexer L) (u ++ str ++ v) = Ok toks -> lex (l_lexer L) (u' ++ str ++ v') = Ok toks' ->
  let E := new_env None (l_g L) (l_ws L) (u ++ str ++ v) toks in
  let E' := new_env None (l_g L) (l_ws L) (u' ++ str ++ v') toks' in
  forall fuel p s q s1 evs, s_pred s = false -> parse_expr E fuel k p s = Ok (Some q, s1) ->
  s_events s1 = s_events s ++ evs -> no_error_node evs -> reaches E p q u str ->
  forall p' s' i, nth_error (e_idx E') (p_cur p') = Some (length u', i) -> p_end p' = length (e_idx E') ->
  s_pred s' = false -> length (s_ctxs s') = 16 -> length (s_args s') = 16 ->
  exists prev, parse_expr E' fuel k p' s'
    = Ok (Some (mkPos (p_cur p' + (p_cur q - p_cur p)) (p_end p')), set_prev (set_events s' (s_events s' ++ evs)) prev).

(** Every cached rule is. *)
Definition cached_self_contained (L : language) : Prop :=
  forall e k, nth_error (g_rules (l_g L)) e = Some (ECached k) -> self_contained L k.

(** Where cached rules may be used. [q e]: no cached rule can run below [e]; [qa i]: nor below what is passed for
    parameter [i]. Predicates, the covers and the bodies of layers must be such, and no rule asks for the previous node. *)
Definition quiet_rule (g : grammar) (q qa : nat -> bool) (e : nat) (x : expr) : Prop :=
  match x with
  | EPub _ b _ | EPubReplace _ b | ERep b | EOpt b | EEnter _ b | EExit _ b => q e = true -> q b = true
  | EOr l | EAnd l _ => q e = true -> forall a, In a l -> q a = true
  | EToken _ | EContextual _ _ | EEof | EAny | EIsIn _ => True
  | EWithSkip f b => q f = true /\ (q e = true -> q b = true)
  | ENot b => q b = true
  | ELayer l b => q l = true /\ q b = true
  | EPratt t => q e = true ->
      (forall a, In a (pt_atoms t) -> q a = true) /\ (forall x, In x (pt_prefixes t) -> q (px_op x) = true)
      /\ (forall x, In x (pt_infixes t) -> q (ix_op x) = true)
  | ECall b l => (q e = true -> q b = true)
      /\ forall i a, In (i, a) l -> qa i = true ->
           match nth_error (g_rules g) a with Some (EVar j) => qa j = true | _ => q a = true end
  | EVar i => q e = true -> qa i = true
  | EPrevIs _ => False
  | EInject a b => q e = true -> q a = true /\ q b = true
  | ECached _ => q e = false
  end.
Definition quiet (g : grammar) (q qa : nat -> bool) : Prop := forall e x, nth_error (g_rules g) e = Some x -> quiet_rule g q qa e x.

(** Every text has a tree, and contextual tokens do not contain whitespace. *)
Definition meaningful (L : language) : Prop :=
  forall txt toks, lex (l_lexer L) txt = Ok toks ->
  (exists t, peg_file (new_env None (l_g L) (l_ws L) txt toks) t) /\ no_ws_byte (l_g L) (l_ws L) txt toks.
