(** What a grammar means, as a relation between an expression, a position and the trees it produces.
    This is the reading of the Fall documentation: ordered choice, greedy repetition, commit, layers, skipping,
    contexts, parameters and precedence climbing. It mentions no fuel, events, marks or rollbacks.

    [peg E rd e p h r h']: in the environment [E], expression number [e], started at position [p], yields [r]:
    [None] for failure, [Some (q, F)] for success up to [q] with the forest [F]. [rd] holds what an expression sees
    but cannot change (predicate mode, contexts, arguments), [h] and [h'] the two registers, which survive
    failures as they do in the implementation. *)
From Coq Require Import List Arith Bool.
From Verif Require Import Base LexModel GrammarModel ParserModel ForestSpec SemSpec.
Import ListNotations.

Section Peg.
  Variable E : env.

  Definition rule (e : nat) (x : expr) : Prop := nth_error (g_rules (e_g E)) e = Some x.
  Definition type (i t : nat) : Prop := nth_error (g_types (e_g E)) i = Some t.

  (** Non-whitespace token number [k]. *)
  Definition tok_at (k : nat) (t : token) : Prop :=
    exists o raw, nth_error (e_idx E) k = Some (o, raw) /\ nth_error (e_toks E) raw = Some t.

  Definition at_end (p : pos) : Prop := p_cur p = p_end p.

  (** The token at [p] has type [t] and the next position is [q]. *)
  Definition eat (p : pos) (t : nat) (q : pos) : Prop :=
    ~ at_end p /\ (exists x, tok_at (p_cur p) x /\ tk_ty x = t) /\ q = mkPos (S (p_cur p)) (p_end p).

  (** All tokens up to the end of the window. *)
  Inductive eats : pos -> list ptree -> Prop :=
  | eats_end : forall p, at_end p -> eats p []
  | eats_tok : forall p t q F, eat p t q -> eats q F -> eats p (PTok t 1 :: F).

  (** [n] whole tokens of total length [len] lead from [p] to [q]. *)
  Inductive whole : pos -> nat -> nat -> pos -> Prop :=
  | whole_nil : forall p, whole p 0 0 p
  | whole_cons : forall p t len n q, ~ at_end p -> tok_at (p_cur p) t -> len <> 0 ->
      whole (mkPos (S (p_cur p)) (p_end p)) len n q -> whole p (tk_len t + len) (S n) q
  | whole_last : forall p t, ~ at_end p -> tok_at (p_cur p) t -> tk_len t <> 0 ->
      whole p (tk_len t) 1 (mkPos (S (p_cur p)) (p_end p)).

  (** No whole number of tokens from [p] on has total length [len]: the window ends before, or a token goes past. *)
  Inductive cut_short : pos -> nat -> Prop :=
  | cut_end : forall p len, len <> 0 -> at_end p -> cut_short p len
  | cut_long : forall p t len, len <> 0 -> ~ at_end p -> tok_at (p_cur p) t -> len < tk_len t -> cut_short p len
  | cut_more : forall p t len, ~ at_end p -> tok_at (p_cur p) t ->
      cut_short (mkPos (S (p_cur p)) (p_end p)) len -> cut_short p (tk_len t + len).

  (** The text at token [p] starts with [text]. *)
  Definition text_here (p : pos) (text : bytes) : Prop :=
    exists o raw, nth_error (e_idx E) (p_cur p) = Some (o, raw) /\ o <= length (e_text E)
      /\ exists r, skipn o (e_text E) = text ++ r.
  Definition text_not_here (p : pos) (text : bytes) : Prop :=
    exists o raw, nth_error (e_idx E) (p_cur p) = Some (o, raw) /\ o <= length (e_text E)
      /\ ~ exists r, skipn o (e_text E) = text ++ r.

  (** Arguments of a call, bound one after the other. An argument that is itself a parameter is looked up. *)
  Inductive binds : list (nat * nat) -> list (option nat) -> list (option nat) -> Prop :=
  | bi_nil : forall a, binds [] a a
  | bi_expr : forall i e rest a b x, rule e x -> (forall j, x <> EVar j) -> i < length a ->
      binds rest (set_nth i (Some e) a) b -> binds ((i, e) :: rest) a b
  | bi_var : forall i e rest a b j v, rule e (EVar j) -> nth_error a j = Some (Some v) -> i < length a ->
      binds rest (set_nth i (Some v) a) b -> binds ((i, e) :: rest) a b.

  (** Something an operator or a suffix can be attached to: a plain node comes first. [fresh]: it comes from an
      atom rather than from an earlier operator. *)
  Definition operand (rd : reader) (fresh : bool) (F : list ptree) : Prop :=
    r_pred rd = false /\ exists ty pre b r, F = PNode ty pre b :: r /\ (fresh = true -> pre = []).

  Definition pred_of (rd : reader) : reader := mkRd true (r_ctxs rd) (r_args rd).
  Definition with_ctx (rd : reader) (c : nat) (b : bool) : reader := mkRd (r_pred rd) (set_nth c b (r_ctxs rd)) (r_args rd).
  Definition with_args (rd : reader) (a : list (option nat)) : reader := mkRd (r_pred rd) (r_ctxs rd) a.
  Definition error_node (F : list ptree) : ptree := PNode ERROR [] F.

  Inductive peg : reader -> nat -> pos -> regs -> option (pos * list ptree) -> regs -> Prop :=
  (* pub rules: a node around the body *)
  | peg_pub : forall rd e ty t body p h q F h1, rule e (EPub ty body false) -> type ty t ->
      peg rd body p h (Some (q, F)) h1 ->
      peg rd e p h (Some (q, [PNode t [] F])) (mkRg (Some t) (h_repl h1))
  | peg_pub_repl : forall rd e ty t body p h q F h1 t', rule e (EPub ty body true) -> type ty t ->
      peg rd body p (mkRg (h_prev h) None) (Some (q, F)) h1 ->
      match h_repl h1 with None => t' = t | Some i => r_pred rd = false /\ type i t' end ->
      peg rd e p h (Some (q, [PNode t' [] F])) (mkRg (Some t) None)
  | peg_pub_fail : forall rd e ty t body rp p h h1, rule e (EPub ty body rp) -> type ty t ->
      peg rd body p (if rp then mkRg (h_prev h) None else h) None h1 -> peg rd e p h None h1
  | peg_replace : forall rd e ty body p h q F h1, rule e (EPubReplace ty body) ->
      peg rd body p h (Some (q, F)) h1 -> peg rd e p h (Some (q, F)) (mkRg (h_prev h1) (Some ty))
  | peg_replace_fail : forall rd e ty body p h h1, rule e (EPubReplace ty body) -> peg rd body p h None h1 -> peg rd e p h None h1
  (* choice and sequence *)
  | peg_or : forall rd e l p h r h1, rule e (EOr l) -> first_of rd l p h r h1 -> peg rd e p h r h1
  | peg_and_all : forall rd e l c p h q F h1, rule e (EAnd l c) -> match c with Some k => k <= length l | None => True end ->
      in_order rd l p h (length l) q F h1 -> peg rd e p h (Some (q, F)) h1
  | peg_and_commit : forall rd e l c p h n q F h1, rule e (EAnd l (Some c)) -> c <= n -> n < length l ->
      in_order rd l p h n q F h1 -> peg rd e p h (Some (q, F ++ [error_node []])) h1
  | peg_and_fail : forall rd e l c p h n q F h1, rule e (EAnd l c) -> n < match c with Some k => k | None => length l end ->
      in_order rd l p h n q F h1 -> peg rd e p h None h1
  (* tokens *)
  | peg_token : forall rd e ty t p h q, rule e (EToken ty) -> type ty t -> eat p t q -> peg rd e p h (Some (q, [PTok t 1])) h
  | peg_token_other : forall rd e ty t p h t' q, rule e (EToken ty) -> type ty t -> eat p t' q -> t' <> t -> peg rd e p h None h
  | peg_token_end : forall rd e ty p h, rule e (EToken ty) -> at_end p -> peg rd e p h None h
  | peg_ctx : forall rd e ty t text p h n q, rule e (EContextual ty text) -> type ty t -> ~ at_end p -> text_here p text ->
      whole p (length text) n q -> peg rd e p h (Some (q, [PTok t n])) h
  | peg_ctx_partial : forall rd e ty text p h, rule e (EContextual ty text) -> ~ at_end p -> text_here p text ->
      cut_short p (length text) -> peg rd e p h None h
  | peg_ctx_other : forall rd e ty text p h, rule e (EContextual ty text) -> ~ at_end p -> text_not_here p text -> peg rd e p h None h
  | peg_ctx_end : forall rd e ty text p h, rule e (EContextual ty text) -> at_end p -> peg rd e p h None h
  | peg_any : forall rd e t p h q, rule e EAny -> eat p t q -> peg rd e p h (Some (q, [PTok t 1])) h
  | peg_any_end : forall rd e p h, rule e EAny -> at_end p -> peg rd e p h None h
  | peg_eof : forall rd e p h, rule e EEof -> at_end p -> peg rd e p h (Some (p, [])) h
  | peg_eof_fail : forall rd e p h, rule e EEof -> ~ at_end p -> peg rd e p h None h
  (* options, repetitions, predicates *)
  | peg_opt : forall rd e b p h x h1, rule e (EOpt b) -> peg rd b p h (Some x) h1 -> peg rd e p h (Some x) h1
  | peg_opt_none : forall rd e b p h h1, rule e (EOpt b) -> peg rd b p h None h1 -> peg rd e p h (Some (p, [])) h1
  | peg_not : forall rd e b p h h1, rule e (ENot b) -> peg (pred_of rd) b p h None h1 -> peg rd e p h (Some (p, [])) h1
  | peg_not_fail : forall rd e b p h x h1, rule e (ENot b) -> peg (pred_of rd) b p h (Some x) h1 -> peg rd e p h None h1
  | peg_rep : forall rd e b p h q F h1, rule e (ERep b) -> greedy rd b p h q F h1 -> peg rd e p h (Some (q, F)) h1
  | peg_skip : forall rd e f b p h r h1, rule e (EWithSkip f b) -> skipping rd f b [] p h r h1 -> peg rd e p h r h1
  (* layers: the cover fixes the window in which the body runs; what the body leaves is an error *)
  | peg_layer_none : forall rd e l b p h h1, rule e (ELayer l b) -> peg (pred_of rd) l p h None h1 -> peg rd e p h None h1
  | peg_layer : forall rd e l b p h c F0 h1 r left_ F h2 T, rule e (ELayer l b) -> peg (pred_of rd) l p h (Some (c, F0)) h1 ->
      peg rd b (mkPos (p_cur p) (p_cur c)) h1 r h2 ->
      match r with Some x => x = (left_, F) | None => left_ = mkPos (p_cur p) (p_cur c) /\ F = [] end ->
      eats left_ T ->
      peg rd e p h (Some (c, match T with [] => F | _ => F ++ [error_node T] end)) h2
  (* contexts and parameters *)
  | peg_enter : forall rd e c b p h r h1, rule e (EEnter c b) -> c < length (r_ctxs rd) -> peg (with_ctx rd c true) b p h r h1 -> peg rd e p h r h1
  | peg_exit : forall rd e c b p h r h1, rule e (EExit c b) -> c < length (r_ctxs rd) -> peg (with_ctx rd c false) b p h r h1 -> peg rd e p h r h1
  | peg_in : forall rd e c p h, rule e (EIsIn c) -> nth_error (r_ctxs rd) c = Some true -> peg rd e p h (Some (p, [])) h
  | peg_not_in : forall rd e c p h, rule e (EIsIn c) -> nth_error (r_ctxs rd) c = Some false -> peg rd e p h None h
  | peg_call : forall rd e b l a p h r h1, rule e (ECall b l) -> binds l (r_args rd) a -> peg (with_args rd a) b p h r h1 -> peg rd e p h r h1
  | peg_var : forall rd e i e' p h r h1, rule e (EVar i) -> nth_error (r_args rd) i = Some (Some e') -> peg rd e' p h r h1 -> peg rd e p h r h1
  (* the node parsed just before *)
  | peg_prev : forall rd e tys p h t, rule e (EPrevIs tys) -> h_prev h = Some t -> among tys t true -> peg rd e p h (Some (p, [])) h
  | peg_prev_other : forall rd e tys p h t, rule e (EPrevIs tys) -> h_prev h = Some t -> among tys t false -> peg rd e p h None h
  | peg_prev_none : forall rd e tys p h, rule e (EPrevIs tys) -> h_prev h = None -> peg rd e p h None h
  (* a prefix that becomes the first child of what follows *)
  | peg_inject : forall rd e a b p h q F h1 q2 G h2 FG, rule e (EInject a b) -> peg rd a p h (Some (q, F)) h1 -> q <> p ->
      peg rd b q h1 (Some (q2, G)) h2 -> operand rd true F -> grafts F G = Some FG -> peg rd e p h (Some (q2, FG)) h2
  | peg_inject_empty : forall rd e a b p h F h1 q2 G h2, rule e (EInject a b) -> peg rd a p h (Some (p, F)) h1 ->
      peg rd b p h1 (Some (q2, G)) h2 -> peg rd e p h (Some (q2, F ++ G)) h2
  | peg_inject_no_pre : forall rd e a b p h h1, rule e (EInject a b) -> peg rd a p h None h1 -> peg rd e p h None h1
  | peg_inject_no_body : forall rd e a b p h q F h1 h2, rule e (EInject a b) -> peg rd a p h (Some (q, F)) h1 ->
      peg rd b q h1 None h2 -> peg rd e p h None h2
  | peg_cached : forall rd e b p h q F h1, rule e (ECached b) -> peg rd b p h (Some (q, F)) h1 -> peg rd e p h (Some (q, [PCached b F])) h1
  | peg_cached_fail : forall rd e b p h h1, rule e (ECached b) -> peg rd b p h None h1 -> peg rd e p h None h1
  | peg_pratt : forall rd e t p h r h1, rule e (EPratt t) -> climbing rd t 0 p h r h1 -> peg rd e p h r h1

  (** Whether the type [t] is in the list (the first match decides). *)
  with among : list nat -> nat -> bool -> Prop :=
  | among_nil : forall t, among [] t false
  | among_here : forall i l t, type i t -> among (i :: l) t true
  | among_later : forall i x l t b, type i x -> x <> t -> among l t b -> among (i :: l) t b

  (** Ordered choice. *)
  with first_of : reader -> list nat -> pos -> regs -> option (pos * list ptree) -> regs -> Prop :=
  | fo_none : forall rd p h, first_of rd [] p h None h
  | fo_here : forall rd a l p h x h1, peg rd a p h (Some x) h1 -> first_of rd (a :: l) p h (Some x) h1
  | fo_later : forall rd a l p h h1 r h2, peg rd a p h None h1 -> first_of rd l p h1 r h2 -> first_of rd (a :: l) p h r h2

  (** [in_order rd l p h n q F h']: the first [n] parts match one after the other, and no more. *)
  with in_order : reader -> list nat -> pos -> regs -> nat -> pos -> list ptree -> regs -> Prop :=
  | io_all : forall rd p h, in_order rd [] p h 0 p [] h
  | io_stop : forall rd a l p h h1, peg rd a p h None h1 -> in_order rd (a :: l) p h 0 p [] h1
  | io_more : forall rd a l p h p1 F h1 n q G h2, peg rd a p h (Some (p1, F)) h1 -> in_order rd l p1 h1 n q G h2 ->
      in_order rd (a :: l) p h (S n) q (F ++ G) h2

  (** Greedy repetition. *)
  with greedy : reader -> nat -> pos -> regs -> pos -> list ptree -> regs -> Prop :=
  | gr_stop : forall rd b p h h1, peg rd b p h None h1 -> greedy rd b p h p [] h1
  | gr_more : forall rd b p h p1 F h1 q G h2, peg rd b p h (Some (p1, F)) h1 -> greedy rd b p1 h1 q G h2 -> greedy rd b p h q (F ++ G) h2

  (** Skip tokens up to the first place where both [f] (as a predicate) and [b] match; they go into an error node. *)
  with skipping : reader -> nat -> nat -> list ptree -> pos -> regs -> option (pos * list ptree) -> regs -> Prop :=
  | sk_found : forall rd f b sk p h x h1 q F h2, peg (pred_of rd) f p h (Some x) h1 -> peg rd b p h1 (Some (q, F)) h2 ->
      skipping rd f b sk p h (Some (q, match sk with [] => F | _ => error_node sk :: F end)) h2
  | sk_no_first : forall rd f b sk p h h1 t q r h2, peg (pred_of rd) f p h None h1 -> eat p t q ->
      skipping rd f b (sk ++ [PTok t 1]) q h1 r h2 -> skipping rd f b sk p h r h2
  | sk_no_body : forall rd f b sk p h x h1 h2 t q r h3, peg (pred_of rd) f p h (Some x) h1 -> peg rd b p h1 None h2 -> eat p t q ->
      skipping rd f b (sk ++ [PTok t 1]) q h2 r h3 -> skipping rd f b sk p h r h3
  | sk_end_no_first : forall rd f b sk p h h1, peg (pred_of rd) f p h None h1 -> at_end p -> skipping rd f b sk p h None h1
  | sk_end_no_body : forall rd f b sk p h x h1 h2, peg (pred_of rd) f p h (Some x) h1 -> peg rd b p h1 None h2 -> at_end p ->
      skipping rd f b sk p h None h2

  (** Precedence climbing: an operand, then operators of priority at least [m]. *)
  with climbing : reader -> pratt_table -> nat -> pos -> regs -> option (pos * list ptree) -> regs -> Prop :=
  | cl_atom : forall rd t m p h p1 F h1 r h2, first_of rd (pt_atoms t) p h (Some (p1, F)) h1 ->
      chain rd t m true F p1 h1 r h2 -> climbing rd t m p h (Some r) h2
  | cl_prefix : forall rd t m p h h0 p1 F h1 r h2, first_of rd (pt_atoms t) p h None h0 ->
      prefixed rd t (pt_prefixes t) p h0 (Some (p1, F)) h1 ->
      chain rd t m true F p1 h1 r h2 -> climbing rd t m p h (Some r) h2
  | cl_none : forall rd t m p h h0 h1, first_of rd (pt_atoms t) p h None h0 ->
      prefixed rd t (pt_prefixes t) p h0 None h1 -> climbing rd t m p h None h1

  with prefixed : reader -> pratt_table -> list prefix -> pos -> regs -> option (pos * list ptree) -> regs -> Prop :=
  | px_none : forall rd t p h, prefixed rd t [] p h None h
  | px_here : forall rd t x l p h ty p1 F h1 q G h2, type (px_ty x) ty -> peg rd (px_op x) p h (Some (p1, F)) h1 ->
      climbing rd t (px_prio x) p1 h1 (Some (q, G)) h2 ->
      prefixed rd t (x :: l) p h (Some (q, [PNode ty [] (F ++ G)])) (mkRg (Some ty) (h_repl h2))
  | px_no_operand : forall rd t x l p h ty p1 F h1 h2 r h3, type (px_ty x) ty -> peg rd (px_op x) p h (Some (p1, F)) h1 ->
      climbing rd t (px_prio x) p1 h1 None h2 -> prefixed rd t l p h2 r h3 -> prefixed rd t (x :: l) p h r h3
  | px_later : forall rd t x l p h ty h1 r h2, type (px_ty x) ty -> peg rd (px_op x) p h None h1 ->
      prefixed rd t l p h1 r h2 -> prefixed rd t (x :: l) p h r h2

  (** [chain]: extend the operand [lhs] by operators as long as one matches. *)
  with chain : reader -> pratt_table -> nat -> bool -> list ptree -> pos -> regs -> pos * list ptree -> regs -> Prop :=
  | ch_stop : forall rd t m fresh lhs p h h1, infixed rd t (infixes t m) fresh lhs p h None h1 -> chain rd t m fresh lhs p h (p, lhs) h1
  | ch_more : forall rd t m fresh lhs p h q F h1 r h2, infixed rd t (infixes t m) fresh lhs p h (Some (q, F)) h1 ->
      chain rd t m false F q h1 r h2 -> chain rd t m fresh lhs p h r h2

  (** The first operator of the list that matches here; its right operand binds tighter than it. *)
  with infixed : reader -> pratt_table -> list infix -> bool -> list ptree -> pos -> regs -> option (pos * list ptree) -> regs -> Prop :=
  | ix_none : forall rd t fresh lhs p h, infixed rd t [] fresh lhs p h None h
  | ix_later : forall rd t x l fresh lhs p h ty h1 r h2, type (ix_ty x) ty -> peg rd (ix_op x) p h None h1 ->
      infixed rd t l fresh lhs p h1 r h2 -> infixed rd t (x :: l) fresh lhs p h r h2
  | ix_postfix : forall rd t x l fresh lhs p h ty p1 F h1, type (ix_ty x) ty -> peg rd (ix_op x) p h (Some (p1, F)) h1 ->
      operand rd fresh lhs -> ix_rhs x = false ->
      infixed rd t (x :: l) fresh lhs p h (Some (p1, [PNode ty lhs F])) (mkRg (Some ty) (h_repl h1))
  | ix_binary : forall rd t x l fresh lhs p h ty p1 F h1 q G h2, type (ix_ty x) ty -> peg rd (ix_op x) p h (Some (p1, F)) h1 ->
      operand rd fresh lhs -> ix_rhs x = true -> climbing rd t (S (ix_prio x)) p1 h1 (Some (q, G)) h2 ->
      infixed rd t (x :: l) fresh lhs p h (Some (q, [PNode ty lhs (F ++ G)])) (mkRg (Some ty) (h_repl h2))
  | ix_no_rhs : forall rd t x l fresh lhs p h ty p1 F h1 h2, type (ix_ty x) ty -> peg rd (ix_op x) p h (Some (p1, F)) h1 ->
      operand rd fresh lhs -> ix_rhs x = true -> climbing rd t (S (ix_prio x)) p1 h1 None h2 ->
      infixed rd t (x :: l) fresh lhs p h (Some (p1, [PNode ty lhs (F ++ [error_node []])])) (mkRg (Some ty) (h_repl h2)).

  (** A whole file: the start rule must match; what it leaves goes into an error node at the end of the root. *)
  Inductive peg_file : ptree -> Prop :=
  | pf_all : forall q t h, peg (mkRd false (repeat false 16) (repeat None 16)) 0 (mkPos 0 (length (e_idx E))) (mkRg None None) (Some (q, [t])) h ->
      at_end q -> peg_file t
  | pf_rest : forall q ty pre body h T, peg (mkRd false (repeat false 16) (repeat None 16)) 0 (mkPos 0 (length (e_idx E))) (mkRg None None)
        (Some (q, [PNode ty pre body])) h ->
      ~ at_end q -> eats q T -> peg_file (PNode ty pre (body ++ [error_node T])).
End Peg.
