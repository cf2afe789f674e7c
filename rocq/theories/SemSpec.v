(** What a grammar means, read as a recursive definition over trees: ordered choice, greedy repetition, commit,
    layers, skipping, contexts, parameters and precedence climbing build forests directly. There are no events,
    marks, rollbacks or forward parents here; failure simply yields no forest.

    Two registers survive failures, as in the implementation: the type of the last completed node ([h_prev])
    and the pending replacement type ([h_repl]).
    [Panic] stands for both a crash of the interpreter and for forests that cannot be attached
    (an operator or an injected prefix whose left neighbour is not a plain node). *)
From Coq Require Import List Arith Bool.
From Verif Require Import Base LexModel GrammarModel ParserModel ForestSpec.
Import ListNotations.

(** What an expression can see but not change. *)
Record reader : Type := mkRd { r_pred : bool; r_ctxs : list bool; r_args : list (option nat) }.
(** The registers. *)
Record regs : Type := mkRg { h_prev : option nat; h_repl : option nat }.

Definition outcome := res (option (pos * list ptree) * regs).

Section Sem.
  Variable E : env.

  Definition ok (p : pos) (F : list ptree) (h : regs) : outcome := Ok (Some (p, F), h).
  Definition no (h : regs) : outcome := Ok (None, h).

  (** One token. *)
  Definition one (p : pos) : res (option (nat * pos)) :=
    if p_empty p then Ok None else t <- token_at E p ;; Ok (Some (tk_ty t, p_next p)).

  (** All tokens up to the end of the window. *)
  Fixpoint all_toks (fuel : nat) (p : pos) : res (list ptree) :=
    match fuel with
    | 0 => OutOfFuel
    | S f =>
        o <- one p ;;
        match o with
        | None => Ok []
        | Some (t, p') => r <- all_toks f p' ;; Ok (PTok t 1 :: r)
        end
    end.

  (** A contextual token: the text at the cursor starts with [text] and whole tokens make it up. *)
  Definition by_text (p : pos) (text : bytes) (ty : nat) : res (option (pos * list ptree)) :=
    if p_empty p then Ok None
    else
      '(start, _) <- index (e_idx E) (p_cur p) ;;
      guard (start <=? length (e_text E))
        (if is_prefix text (skipn start (e_text E)) then
           r <- take_text E (S (length (e_idx E))) (length text) 0 p ;;
           match r with
           | None => Ok None
           | Some (n, p') => t <- type_of E ty ;; Ok (Some (p', [PTok t n]))
           end
         else Ok None).

  (** An operator may take [lhs] as its left operand; [fresh] tells that [lhs] comes from an atom. *)
  Definition can_attach (rd : reader) (fresh : bool) (lhs : list ptree) : bool :=
    negb (r_pred rd) &&
    match lhs with
    | PNode _ [] _ :: _ => true
    | PNode _ (_ :: _) _ :: _ => negb fresh
    | _ => false
    end.

  Section Rec.
    Variable rec : reader -> nat -> pos -> regs -> outcome.
    Variable fuel : nat.

    Definition as_pred (rd : reader) : reader := mkRd true (r_ctxs rd) (r_args rd).

    Definition sem_pub (rd : reader) (ty body : nat) (rp : bool) (p : pos) (h : regs) : outcome :=
      t <- type_of E ty ;;
      let h0 := if rp then mkRg (h_prev h) None else h in
      '(r, h1) <- rec rd body p h0 ;;
      match r with
      | None => no h1
      | Some (p', F) =>
          '(ty', h2) <-
            (match rp, h_repl h1 with
             | true, Some rty =>
                 guard (negb (r_pred rd)) (t' <- type_of E rty ;; Ok (t', mkRg (h_prev h1) None))
             | _, _ => Ok (t, h1)
             end) ;;
          ok p' [PNode ty' [] F] (mkRg (Some t) (h_repl h2))
      end.

    Fixpoint sem_or (rd : reader) (opts : list nat) (p : pos) (h : regs) : outcome :=
      match opts with
      | [] => no h
      | o :: rest =>
          '(r, h1) <- rec rd o p h ;;
          match r with Some x => Ok (Some x, h1) | None => sem_or rd rest p h1 end
      end.

    (** How many parts matched, and what they produced. *)
    Fixpoint sem_parts (rd : reader) (parts : list nat) (p : pos) (h : regs) : res (nat * pos * list ptree * regs) :=
      match parts with
      | [] => Ok (0, p, [], h)
      | a :: rest =>
          '(r, h1) <- rec rd a p h ;;
          match r with
          | None => Ok (0, p, [], h1)
          | Some (p', F) => '(n, q, G, h2) <- sem_parts rd rest p' h1 ;; Ok (S n, q, F ++ G, h2)
          end
      end.

    Definition sem_and (rd : reader) (parts : list nat) (commit : option nat) (p : pos) (h : regs) : outcome :=
      '(n, q, F, h1) <- sem_parts rd parts p h ;;
      if n <? (match commit with Some c => c | None => length parts end) then no h1
      else if n <? length parts then ok q (F ++ [PNode ERROR [] []]) h1
      else ok q F h1.

    Definition sem_layer (rd : reader) (l e : nat) (p : pos) (h : regs) : outcome :=
      '(r, h1) <- rec (as_pred rd) l p h ;;
      match r with
      | None => no h1
      | Some (rest, _) =>
          let layer := mkPos (p_cur p) (p_cur rest) in
          '(r2, h2) <- rec rd e layer h1 ;;
          let '(left_, F) := match r2 with Some x => x | None => (layer, []) end in
          if p_empty left_ then ok rest F h2
          else T <- all_toks (S (length (e_idx E))) left_ ;; ok rest (F ++ [PNode ERROR [] T]) h2
      end.

    Fixpoint sem_rep (n : nat) (rd : reader) (body : nat) (p : pos) (h : regs) : outcome :=
      match n with
      | 0 => OutOfFuel
      | S n' =>
          '(r, h1) <- rec rd body p h ;;
          match r with
          | None => ok p [] h1
          | Some (p', F) =>
              '(r2, h2) <- sem_rep n' rd body p' h1 ;;
              match r2 with Some (q, G) => ok q (F ++ G) h2 | None => no h2 end
          end
      end.

    (** [skipped]: the tokens skipped so far. *)
    Fixpoint sem_skip (n : nat) (rd : reader) (first body : nat) (skipped : list ptree) (p : pos) (h : regs) : outcome :=
      match n with
      | 0 => OutOfFuel
      | S n' =>
          '(r, h1) <- rec (as_pred rd) first p h ;;
          '(r2, h2) <- (match r with Some _ => rec rd body p h1 | None => no h1 end) ;;
          match r2 with
          | Some (p', F) => ok p' ((match skipped with [] => [] | _ => [PNode ERROR [] skipped] end) ++ F) h2
          | None =>
              o <- one p ;;
              match o with
              | None => no h2
              | Some (t, p') => sem_skip n' rd first body (skipped ++ [PTok t 1]) p' h2
              end
          end
      end.

    Definition sem_inject (rd : reader) (pre body : nat) (p : pos) (h : regs) : outcome :=
      '(r, h1) <- rec rd pre p h ;;
      match r with
      | None => no h1
      | Some (after, F) =>
          '(r2, h2) <- rec rd body after h1 ;;
          match r2 with
          | None => no h2
          | Some (q, G) =>
              if pos_eqb after p then ok q (F ++ G) h2
              else guard (can_attach rd true F) (FG <- unwrap (grafts F G) ;; ok q FG h2)
          end
      end.

    Section Pratt.
      Variable go : nat -> pos -> regs -> outcome.

      (** The first operator of the table that matches here, with its right operand. *)
      Fixpoint sem_infixes (rd : reader) (l : list infix) (fresh : bool) (lhs : list ptree) (p : pos) (h : regs) : outcome :=
        match l with
        | [] => no h
        | ix :: rest =>
            t <- type_of E (ix_ty ix) ;;
            '(r, h1) <- rec rd (ix_op ix) p h ;;
            match r with
            | None => sem_infixes rd rest fresh lhs p h1
            | Some (p', F) =>
                guard (can_attach rd fresh lhs)
                  ('(p'', G, h2) <-
                     (if ix_rhs ix then
                        '(r2, h2) <- go (S (ix_prio ix)) p' h1 ;;
                        match r2 with
                        | Some (q, G) => Ok (q, G, h2)
                        | None => Ok (p', [PNode ERROR [] []], h2)
                        end
                      else Ok (p', [], h1)) ;;
                   ok p'' [PNode t lhs (F ++ G)] (mkRg (Some t) (h_repl h2)))
            end
        end.

      Fixpoint sem_loop (n : nat) (rd : reader) (l : list infix) (fresh : bool) (lhs : list ptree) (p : pos) (h : regs)
        : outcome :=
        match n with
        | 0 => OutOfFuel
        | S n' =>
            '(r, h1) <- sem_infixes rd l fresh lhs p h ;;
            match r with
            | None => ok p lhs h1
            | Some (p', lhs') => sem_loop n' rd l false lhs' p' h1
            end
        end.

      Fixpoint sem_prefixes (rd : reader) (l : list prefix) (p : pos) (h : regs) : outcome :=
        match l with
        | [] => no h
        | px :: rest =>
            t <- type_of E (px_ty px) ;;
            '(r, h1) <- rec rd (px_op px) p h ;;
            '(r2, h2) <- (match r with
                          | Some (p', F) =>
                              '(r2, h2) <- go (px_prio px) p' h1 ;;
                              match r2 with Some (q, G) => ok q (F ++ G) h2 | None => no h2 end
                          | None => no h1
                          end) ;;
            match r2 with
            | Some (q, FG) => ok q [PNode t [] FG] (mkRg (Some t) (h_repl h2))
            | None => sem_prefixes rd rest p h2
            end
        end.

      Definition sem_operand (rd : reader) (t : pratt_table) (p : pos) (h : regs) : outcome :=
        '(r, h1) <- sem_or rd (pt_atoms t) p h ;;
        match r with
        | Some x => Ok (Some x, h1)
        | None => sem_prefixes rd (pt_prefixes t) p h1
        end.
    End Pratt.

    Fixpoint sem_go (n : nat) (rd : reader) (t : pratt_table) (min_prior : nat) (p : pos) (h : regs) : outcome :=
      match n with
      | 0 => OutOfFuel
      | S n' =>
          '(r, h1) <- sem_operand (sem_go n' rd t) rd t p h ;;
          match r with
          | None => no h1
          | Some (p', lhs) => sem_loop (sem_go n' rd t) fuel rd (infixes t min_prior) true lhs p' h1
          end
      end.

    Definition sem_step (rd : reader) (e : nat) (p : pos) (h : regs) : outcome :=
      ex <- index (g_rules (e_g E)) e ;;
      match ex with
      | EPub ty body rp => sem_pub rd ty body rp p h
      | EPubReplace ty body =>
          '(r, h1) <- rec rd body p h ;;
          match r with None => no h1 | Some (q, F) => ok q F (mkRg (h_prev h1) (Some ty)) end
      | EOr parts => sem_or rd parts p h
      | EAnd parts commit => sem_and rd parts commit p h
      | EToken ty =>
          o <- one p ;;
          match o with
          | None => no h
          | Some (t, q) => want <- type_of E ty ;; if want =? t then ok q [PTok t 1] h else no h
          end
      | EContextual ty text =>
          o <- by_text p text ty ;;
          match o with None => no h | Some (q, F) => ok q F h end
      | ERep body => sem_rep fuel rd body p h
      | EWithSkip first body => sem_skip fuel rd first body [] p h
      | EOpt body =>
          '(r, h1) <- rec rd body p h ;;
          match r with None => ok p [] h1 | Some (q, F) => ok q F h1 end
      | ENot body =>
          '(r, h1) <- rec (as_pred rd) body p h ;;
          match r with None => ok p [] h1 | Some _ => no h1 end
      | EEof => if p_empty p then ok p [] h else no h
      | EAny =>
          o <- one p ;;
          match o with None => no h | Some (t, q) => ok q [PTok t 1] h end
      | ELayer l b => sem_layer rd l b p h
      | EPratt t => sem_go fuel rd t 0 p h
      | EEnter c b =>
          _ <- index (r_ctxs rd) c ;; rec (mkRd (r_pred rd) (set_nth c true (r_ctxs rd)) (r_args rd)) b p h
      | EExit c b =>
          _ <- index (r_ctxs rd) c ;; rec (mkRd (r_pred rd) (set_nth c false (r_ctxs rd)) (r_args rd)) b p h
      | EIsIn c => v <- index (r_ctxs rd) c ;; if v then ok p [] h else no h
      | ECall b l => a <- bind_args E l (r_args rd) ;; rec (mkRd (r_pred rd) (r_ctxs rd) a) b p h
      | EVar i => o <- index (r_args rd) i ;; e' <- unwrap o ;; rec rd e' p h
      | EPrevIs tys =>
          match h_prev h with
          | None => no h
          | Some t => v <- any_type E tys t ;; if v then ok p [] h else no h
          end
      | EInject a b => sem_inject rd a b p h
      | ECached b =>
          '(r, h1) <- rec rd b p h ;;
          match r with None => no h1 | Some (q, F) => ok q [PCached b F] h1 end
      end.
  End Rec.

  Fixpoint sem (fuel : nat) (rd : reader) (e : nat) (p : pos) (h : regs) : outcome :=
    match fuel with
    | 0 => OutOfFuel
    | S f => sem_step (sem f) f rd e p h
    end.

  (** The tree of a whole file: the start rule must match; unparsed tokens go into a final ERROR child. *)
  Definition sem_file (fuel : nat) : res ptree :=
    '(r, _) <- sem fuel (mkRd false (repeat false 16) (repeat None 16)) 0 (new_pos E) (mkRg None None) ;;
    '(left_, F) <- unwrap r ;;
    if p_empty left_ then
      match F with [t] => Ok t | _ => Panic end
    else
      match F with
      | [PNode ty pre body] =>
          T <- all_toks (S (length (e_idx E))) left_ ;; Ok (PNode ty pre (body ++ [PNode ERROR [] T]))
      | _ => Panic
      end.
End Sem.
