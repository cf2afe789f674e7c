(** The parser of ParserModel with its tick counter (parser.rs:15, 68, 84-86; expr.rs:38-46): every call of [parse_expr]
    is one tick.

    Simplification: the counter is not a field of the parser but a number each function returns beside its result, the
    number of ticks made by the calls it made; these numbers are added up where the code makes one call after the other.
    The code never reads or resets the counter, so the sum for the whole run is the final value of the field. The counter is a
    u64 in the code and unbounded here.

    The functions are those of ParserModel, line by line; where a line there calls [parse_expr] or a function that does, [<~]
    stands here in place of [<-]. *)
From Coq Require Import List Arith Bool.
From Verif Require Import Base TextModel EditModel LexModel TreeModel GrammarModel ParserModel ConvertModel ReparseModel.
Import ListNotations.

(** A result and the number of ticks made on the way. *)
Definition ticking (A : Type) := res (A * nat).
Definition ret {A} (a : A) : ticking A := Ok (a, 0).
Definition tbind {A B} (x : ticking A) (f : A -> ticking B) : ticking B :=
  '(a, n) <- x ;; '(b, m) <- f a ;; Ok (b, n + m).
(** parser.rs:84-86 *)
Definition tick {A} (x : ticking A) : ticking A := '(a, n) <- x ;; Ok (a, S n).

Notation "x <~ e1 ;; e2" := (tbind e1 (fun x => e2)) (at level 61, e1 at next level, right associativity).
Notation "' p <~ e1 ;; e2" := (tbind e1 (fun p => e2)) (at level 61, p pattern, e1 at next level, right associativity).

(** A function that makes no ticks *)
Definition free {A} (x : res A) : ticking A := a <- x ;; ret a.

Section Parser.
  Variable E : env.

  Definition tresult := ticking (option pos * st).

  Section Rec.
    (** [parse_expr] with less fuel *)
    Variable rec : nat -> pos -> st -> tresult.
    (** fuel for the loops *)
    Variable fuel : nat.

    (** expr.rs:48-54 *)
    Definition t_pred (e : nat) (p : pos) (s : st) : tresult :=
      '(r, s1) <~ rec e p (set_pred s true) ;; ret (r, set_pred s1 (s_pred s)).

    (** expr.rs:128-144 *)
    Definition t_pub (ty body : nat) (replaceable : bool) (p : pos) (s : st) : tresult :=
      let s0 := if replaceable then set_repl s None else s in
      let m := mark s0 in
      s1 <- start E s0 ty ;;
      '(r, s2) <~ rec body p s1 ;;
      match r with
      | None => ret (None, s2)
      | Some p' =>
          s3 <- (match replaceable, s_repl s2 with
                 | true, Some rty => replace E (set_repl s2 None) m rty
                 | _, _ => Ok s2
                 end) ;;
          let s4 := finish s3 in
          t <- type_of E ty ;;
          ret (Some p', set_prev s4 (Some t))
      end.

    (** expr.rs:146-153 *)
    Definition t_pub_replace (ty body : nat) (p : pos) (s : st) : tresult :=
      '(r, s1) <~ rec body p s ;;
      match r with
      | None => ret (None, s1)
      | Some p' => ret (Some p', set_repl s1 (Some ty))
      end.

    (** expr.rs:155-161 *)
    Fixpoint t_or (opts : list nat) (p : pos) (s : st) : tresult :=
      match opts with
      | [] => ret (None, s)
      | o :: rest =>
          '(r, s1) <~ rec o p s ;;
          match r with
          | Some p' => ret (Some p', s1)
          | None => t_or rest p s1
          end
      end.

    (** expr.rs:170-177 *)
    Fixpoint t_parts (parts : list nat) (consumed : nat) (p : pos) (s : st) : ticking (nat * pos * st) :=
      match parts with
      | [] => ret (consumed, p, s)
      | part :: rest =>
          '(r, s1) <~ rec part p s ;;
          match r with
          | Some p' => t_parts rest (S consumed) p' s1
          | None => ret (consumed, p, s1)
          end
      end.

    (** expr.rs:163-186 *)
    Definition t_and (parts : list nat) (commit : option nat) (p : pos) (s : st) : tresult :=
      '(consumed, p', s1) <~ t_parts parts 0 p s ;;
      if consumed <? (match commit with Some c => c | None => length parts end) then ret (None, s1)
      else if consumed <? length parts then ret (Some p', finish (start_error s1))
      else ret (Some p', s1).

    (** expr.rs:206-211 *)
    Definition t_opt (body : nat) (p : pos) (s : st) : tresult :=
      '(r, s1) <~ rec body p s ;;
      match r with Some p' => ret (Some p', s1) | None => ret (Some p, s1) end.

    (** expr.rs:213-221 *)
    Definition t_not (e : nat) (p : pos) (s : st) : tresult :=
      '(r, s1) <~ t_pred e p s ;;
      match r with None => ret (Some p, s1) | Some _ => ret (None, s1) end.

    (** expr.rs:229-246 *)
    Definition t_layer (l e : nat) (p : pos) (s : st) : tresult :=
      '(r, s1) <~ t_pred l p s ;;
      match r with
      | None => ret (None, s1)
      | Some rest =>
          let layer := mkPos (p_cur p) (p_cur rest) in
          '(r2, s2) <~ rec e layer s1 ;;
          let leftovers := match r2 with Some q => q | None => layer end in
          if p_empty leftovers then ret (Some rest, s2)
          else
            '(_, s3) <- bump_all E (S (length (e_idx E))) (start_error s2) leftovers ;;
            ret (Some rest, finish s3)
      end.

    (** expr.rs:248-257 *)
    Fixpoint t_rep (n : nat) (body : nat) (p : pos) (s : st) : tresult :=
      match n with
      | 0 => OutOfFuel
      | S n' =>
          '(r, s1) <~ rec body p s ;;
          match r with
          | Some p' => t_rep n' body p' s1
          | None => ret (Some p, s1)
          end
      end.

    (** expr.rs:259-286 *)
    Fixpoint t_skip (n : nat) (first body : nat) (skipped : bool) (p : pos) (s : st) : tresult :=
      match n with
      | 0 => OutOfFuel
      | S n' =>
          let s0 := if skipped then finish s else s in
          '(r, s1) <~ t_pred first p s0 ;;
          '(r2, s2) <~ (match r with Some _ => rec body p s1 | None => ret (None, s1) end) ;;
          match r2 with
          | Some p' => ret (Some p', s2)
          | None =>
              s3 <- (if skipped then reopen s2 else Ok (start_error s2)) ;;
              '(b, s4) <- bump E s3 p ;;
              match b with
              | None => ret (None, s4)
              | Some (_, p') => t_skip n' first body true p' s4
              end
          end
      end.

    (** expr.rs:288-298 *)
    Definition t_enter (ctx e : nat) (v : bool) (p : pos) (s : st) : tresult :=
      old <- index (s_ctxs s) ctx ;;
      '(r, s1) <~ rec e p (set_ctxs s (set_nth ctx v (s_ctxs s))) ;;
      _ <- index (s_ctxs s1) ctx ;;
      ret (r, set_ctxs s1 (set_nth ctx old (s_ctxs s1))).

    (** expr.rs:319-335 *)
    Definition t_call (body : nat) (l : list (nat * nat)) (p : pos) (s : st) : tresult :=
      a <- bind_args E l (s_args s) ;;
      '(r, s1) <~ rec body p (set_args s a) ;;
      ret (r, set_args s1 (s_args s)).

    (** expr.rs:337-343 *)
    Definition t_var (i : nat) (p : pos) (s : st) : tresult :=
      o <- index (s_args s) i ;; e <- unwrap o ;; rec e p s.

    (** expr.rs:360-372 *)
    Definition t_inject (pre body : nat) (p : pos) (s : st) : tresult :=
      let prefix_mark := mark s in
      '(r, s1) <~ rec pre p s ;;
      match r with
      | None => ret (None, s1)
      | Some after =>
          let body_mark := mark s1 in
          '(r2, s2) <~ rec body after s1 ;;
          match r2 with
          | None => ret (None, s2)
          | Some p' =>
              s3 <- (if pos_eqb after p then Ok s2 else forward_parent s2 prefix_mark body_mark) ;;
              ret (Some p', s3)
          end
      end.

    (** expr.rs:374-381, parser.rs:102-118: an entry of the cache costs no ticks *)
    Definition t_cached (body : nat) (p : pos) (s : st) : tresult :=
      let m := mark s in
      let s0 := emit s (EvCached body 0) in
      '(r, s1) <- get_from_cache E s0 body p ;;
      '(r2, s2) <~ (match r with Some p' => ret (Some p', s1) | None => rec body p s1 end) ;;
      match r2 with
      | None => ret (None, s2)
      | Some p' => s3 <- finish_cached s2 m ;; ret (Some p', s3)
      end.

    Section Pratt.
      (** [pratt_go] with less fuel: minimal priority, position, state *)
      Variable go : nat -> pos -> st -> tresult.

      (** pratt.rs:26-47 *)
      Fixpoint t_infixes (l : list infix) (lhs : nat) (p : pos) (s : st) : ticking (option (pos * nat) * st) :=
        match l with
        | [] => ret (None, s)
        | ix :: rest =>
            let m := mark s in
            s1 <- start E s (ix_ty ix) ;;
            '(r, s2) <~ rec (ix_op ix) p s1 ;;
            match r with
            | Some p' =>
                s3 <- forward_parent s2 lhs m ;;
                '(p'', s4) <~
                  (if ix_rhs ix then
                     '(r2, s4) <~ go (S (ix_prio ix)) p' s3 ;;
                     match r2 with
                     | Some q => ret (q, s4)
                     | None => ret (p', finish (start_error s4))
                     end
                   else ret (p', s3)) ;;
                t <- type_of E (ix_ty ix) ;;
                ret (Some (p'', m), finish (set_prev s4 (Some t)))
            | None => s3 <- rollback s2 m ;; t_infixes rest lhs p s3
            end
        end.

      (** pratt.rs:25-51 *)
      Fixpoint t_loop (n : nat) (l : list infix) (lhs : nat) (p : pos) (s : st) : tresult :=
        match n with
        | 0 => OutOfFuel
        | S n' =>
            '(r, s1) <~ t_infixes l lhs p s ;;
            match r with
            | Some (p', lhs') => t_loop n' l lhs' p' s1
            | None => ret (Some p, s1)
            end
        end.

      (** pratt.rs:62-73 *)
      Fixpoint t_prefixes (l : list prefix) (p : pos) (s : st) : tresult :=
        match l with
        | [] => ret (None, s)
        | px :: rest =>
            let m := mark s in
            s1 <- start E s (px_ty px) ;;
            '(r, s2) <~ rec (px_op px) p s1 ;;
            '(r2, s3) <~ (match r with Some p' => go (px_prio px) p' s2 | None => ret (None, s2) end) ;;
            match r2 with
            | Some q => t <- type_of E (px_ty px) ;; ret (Some q, finish (set_prev s3 (Some t)))
            | None => s4 <- rollback s3 m ;; t_prefixes rest p s4
            end
        end.

      (** pratt.rs:54-74 *)
      Definition t_prefix (t : pratt_table) (p : pos) (s : st) : tresult :=
        '(r, s1) <~ t_or (pt_atoms t) p s ;;
        match r with
        | Some p' => ret (Some p', s1)
        | None => t_prefixes (pt_prefixes t) p s1
        end.
    End Pratt.

    (** pratt.rs:13-52 *)
    Fixpoint t_pratt (n : nat) (t : pratt_table) (min_prior : nat) (p : pos) (s : st) : tresult :=
      match n with
      | 0 => OutOfFuel
      | S n' =>
          let lhs := mark s in
          '(r, s1) <~ t_prefix (t_pratt n' t) t p s ;;
          match r with
          | None => ret (None, s1)
          | Some p' => t_loop (t_pratt n' t) fuel (infixes t min_prior) lhs p' s1
          end
      end.

    (** expr.rs:56-125 *)
    Definition t_inner (e : nat) (p : pos) (s : st) : tresult :=
      ex <- index (g_rules (e_g E)) e ;;
      match ex with
      | EPub ty body r => t_pub ty body r p s
      | EPubReplace ty body => t_pub_replace ty body p s
      | EOr parts => t_or parts p s
      | EAnd parts commit => t_and parts commit p s
      | EToken ty => free (parse_token E ty p s)
      | EContextual ty text => free (bump_by_text E s p text ty)
      | ERep body => t_rep fuel body p s
      | EWithSkip first body => t_skip fuel first body false p s
      | EOpt body => t_opt body p s
      | ENot body => t_not body p s
      | EEof => free (parse_eof p s)
      | EAny => free (parse_any E p s)
      | ELayer l b => t_layer l b p s
      | EPratt t => t_pratt fuel t 0 p s
      | EEnter c b => t_enter c b true p s
      | EExit c b => t_enter c b false p s
      | EIsIn c => free (parse_is_in c p s)
      | ECall b l => t_call b l p s
      | EVar i => t_var i p s
      | EPrevIs tys => free (parse_prev_is E tys p s)
      | EInject a b => t_inject a b p s
      | ECached b => t_cached b p s
      end.

    (** expr.rs:38-46: one tick, then the expression *)
    Definition t_step (e : nat) (p : pos) (s : st) : tresult :=
      let m := mark s in
      tick ('(r, s1) <~ t_inner e p s ;;
            match r with
            | None => s2 <- rollback s1 m ;; ret (None, s2)
            | Some p' => ret (Some p', s1)
            end).
  End Rec.

  (** expr.rs:38-46 *)
  Fixpoint t_expr (fuel : nat) (e : nat) (p : pos) (s : st) : tresult :=
    match fuel with
    | 0 => OutOfFuel
    | S f => t_step (t_expr f) f e p s
    end.

  (** expr.rs:12-35, parser.rs:80-82 *)
  Definition t_events (fuel : nat) : ticking (list event) :=
    '(r, s1) <~ t_expr fuel 0 (new_pos E) new_st ;;
    leftover <- unwrap r ;;
    if p_empty leftover then ret (s_events s1)
    else
      s2 <- reopen s1 ;;
      '(_, s3) <- bump_all E (S (length (e_idx E))) (start_error s2) leftover ;;
      ret (s_events (finish (finish s3))).
End Parser.

(** lib.rs:238-280 [ParserDefinition::parse] with the ticks it records as a metric (260) *)
Definition t_def_parse (L : language) (fuel : nat) (prev : option (cache_map * list event)) (txt : bytes) (toks : list token)
  : ticking (list event * list tb_call) :=
  file_ty <- file_type (l_g L) ;;
  events <~ t_events (new_env prev (l_g L) (l_ws L) txt toks) fuel ;;
  calls <- convert (l_ws L) (file_binder L file_ty) (as_text txt) toks events ;;
  ret (events, calls).

(** What a file reports of the work done for it: the metrics "relexed region" and "parsing ticks". *)
Record work : Type := mkWork { w_relexed : nat; w_ticks : nat }.

(** lib.rs:190-206, lang.rs:35-41: [parse_file] with the work *)
Definition worked_parse (L : language) (fuel : nat) (txt : bytes) : res (file * incremental * work) :=
  toks <- lex (l_lexer L) txt ;;
  '(events, calls, n) <- t_def_parse L fuel None txt toks ;;
  f <- file_new txt calls ;;
  Ok (f, mkInc toks events, mkWork (length txt) n).

(** lib.rs:208-234, lang.rs:43-53: [reparse_file] with the work *)
Definition worked_reparse (L : language) (fuel : nat) (f : file) (inc : incremental) (ops : list edit_op) : res (file * incremental * work) :=
  new_text <- apply ops (as_text (f_text f)) ;;
  '(toks, region) <- relex (l_lexer L) (i_tokens inc) ops new_text ;;
  m <- salvage (i_events inc) (i_tokens inc) (l_ws L) ops ;;
  '(events, calls, n) <- t_def_parse L fuel (Some (m, i_events inc)) new_text toks ;;
  f1 <- file_new new_text calls ;;
  Ok (f1, mkInc toks events, mkWork region n).
