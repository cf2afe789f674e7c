(** Model of fall/parse/src/syn_engine/{parser,expr,pratt}.rs: the event-emitting interpreter.

    Simplification: the tick counter (parser.rs:15, 84-86), a statistic only, is left out. *)
From Coq Require Import List Arith Bool.
From Verif Require Import Base LexModel GrammarModel.
Import ListNotations.

(** Cache entries: ((text position, expression), (first event, number of events, number of tokens));
    the hash map is an association list, the most recently inserted entry first. *)
Definition cache_map := list ((nat * nat) * (nat * nat * nat)).

(** The immutable part of parser.rs:8-13 [Parser]. [e_idx] is [non_ws_indexes]. *)
Record env : Type := mkEnv {
  e_g : grammar;
  e_text : bytes;
  e_toks : list token;
  e_idx : list (nat * nat);
  e_cache : option (cache_map * list event) }.

(** The mutable part, parser.rs:16-21. *)
Record st : Type := mkSt {
  s_events : list event;
  s_repl : option nat;
  s_pred : bool;
  s_ctxs : list bool;
  s_args : list (option nat);
  s_prev : option nat }.

(** parser.rs:24-25 [Pos] *)
Record pos : Type := mkPos { p_cur : nat; p_end : nat }.

(** parser.rs:28-30 *)
Definition p_next (p : pos) : pos := mkPos (S (p_cur p)) (p_end p).
(** parser.rs:32-34 *)
Definition p_empty (p : pos) : bool := p_cur p =? p_end p.
(** derived [PartialEq] *)
Definition pos_eqb (a b : pos) : bool := (p_cur a =? p_cur b) && (p_end a =? p_end b).

Definition set_events (s : st) (ev : list event) : st :=
  mkSt ev (s_repl s) (s_pred s) (s_ctxs s) (s_args s) (s_prev s).
Definition set_repl (s : st) (r : option nat) : st :=
  mkSt (s_events s) r (s_pred s) (s_ctxs s) (s_args s) (s_prev s).
Definition set_pred (s : st) (b : bool) : st :=
  mkSt (s_events s) (s_repl s) b (s_ctxs s) (s_args s) (s_prev s).
Definition set_ctxs (s : st) (c : list bool) : st :=
  mkSt (s_events s) (s_repl s) (s_pred s) c (s_args s) (s_prev s).
Definition set_args (s : st) (a : list (option nat)) : st :=
  mkSt (s_events s) (s_repl s) (s_pred s) (s_ctxs s) a (s_prev s).
Definition set_prev (s : st) (t : option nat) : st :=
  mkSt (s_events s) (s_repl s) (s_pred s) (s_ctxs s) (s_args s) t.

(** parser.rs:47-57 [non_ws_indexes] *)
Fixpoint non_ws_from (is_ws : nat -> bool) (len i : nat) (toks : list token) : list (nat * nat) :=
  match toks with
  | [] => []
  | t :: r =>
      let rest := non_ws_from is_ws (len + tk_len t) (S i) r in
      if is_ws (tk_ty t) then rest else (len, i) :: rest
  end.
Definition non_ws (is_ws : nat -> bool) (toks : list token) : list (nat * nat) := non_ws_from is_ws 0 0 toks.

(** parser.rs:40-77 [Parser::new]; the argument and context tables have 16 slots *)
Definition new_env (cache : option (cache_map * list event)) (g : grammar) (is_ws : nat -> bool) (text : bytes)
  (toks : list token) : env := mkEnv g text toks (non_ws is_ws toks) cache.
Definition new_st : st := mkSt [] None false (repeat false 16) (repeat None 16) None.
Definition new_pos (E : env) : pos := mkPos 0 (length (e_idx E)).

Section Parser.
  Variable E : env.

  (** parser.rs:239-245 [p[ty_idx]] *)
  Definition type_of (ty : nat) : res nat := index (g_types (e_g E)) ty.

  (** parser.rs:231-237 [p[pos]] *)
  Definition token_at (p : pos) : res token :=
    '(_, i) <- index (e_idx E) (p_cur p) ;; index (e_toks E) i.

  (** parser.rs:224-228 *)
  Definition emit (s : st) (e : event) : st := if s_pred s then s else set_events s (s_events s ++ [e]).

  (** parser.rs:139-141 [mark] is the number of events *)
  Definition mark (s : st) : nat := length (s_events s).

  (** parser.rs:143-150 *)
  Definition rollback (s : st) (m : nat) : res st :=
    guard (m <=? length (s_events s)) (Ok (set_events s (firstn m (s_events s)))).

  (** parser.rs:89-92, 214-218 *)
  Definition start (s : st) (ty : nat) : res st := t <- type_of ty ;; Ok (emit s (EvStart t None)).

  (** parser.rs:94-96 *)
  Definition start_error (s : st) : st := emit s (EvStart ERROR None).

  (** parser.rs:98-100 *)
  Definition finish (s : st) : st := emit s EvEnd.

  (** parser.rs:130-137; popping leaves the shorter list *)
  Definition reopen (s : st) : res st :=
    if s_pred s then Ok s
    else match rev (s_events s) with
         | EvEnd :: r => Ok (set_events s (rev r))
         | _ => Panic
         end.

  (** parser.rs:152-158 *)
  Definition replace (s : st) (m ty : nat) : res st :=
    t <- type_of ty ;;
    e <- index (s_events s) m ;;
    match e with
    | EvStart _ fp => Ok (set_events s (set_nth m (EvStart t fp) (s_events s)))
    | _ => Panic
    end.

  (** parser.rs:160-166 *)
  Definition forward_parent (s : st) (child parent : nat) : res st :=
    e <- index (s_events s) child ;;
    match e with
    | EvStart ty _ =>
        d <- usub parent child ;; Ok (set_events s (set_nth child (EvStart ty (Some d)) (s_events s)))
    | _ => Panic
    end.

  (** parser.rs:168-175 *)
  Definition bump (s : st) (p : pos) : res (option (nat * pos) * st) :=
    if p_empty p then Ok (None, s)
    else t <- token_at p ;; Ok (Some (tk_ty t, p_next p), emit s (EvToken (tk_ty t) 1)).

  (** parser.rs:191-202: [while leftover > 0]; the fuel bounds the number of tokens taken *)
  Fixpoint take_text (fuel leftover n : nat) (p : pos) : res (option (nat * pos)) :=
    if leftover =? 0 then Ok (Some (n, p))
    else if p_empty p then Ok None
    else
      match fuel with
      | 0 => OutOfFuel
      | S f =>
          t <- token_at p ;;
          if leftover <? tk_len t then Ok None
          else take_text f (leftover - tk_len t) (S n) (p_next p)
      end.

  (** parser.rs:177-208; slicing past the end of the text panics *)
  Definition bump_by_text (s : st) (p : pos) (text : bytes) (ty : nat) : res (option pos * st) :=
    if p_empty p then Ok (None, s)
    else
      '(start, _) <- index (e_idx E) (p_cur p) ;;
      guard (start <=? length (e_text E))
        (if is_prefix text (skipn start (e_text E)) then
           r <- take_text (S (length (e_idx E))) (length text) 0 p ;;
           match r with
           | None => Ok (None, s)
           | Some (n, p') => t <- type_of ty ;; Ok (Some p', emit s (EvToken t n))
           end
         else Ok (None, s)).

  (** hash-map lookup *)
  Fixpoint lookup (c : cache_map) (k : nat * nat) : option (nat * nat * nat) :=
    match c with
    | [] => None
    | (k', v) :: r => if (fst k' =? fst k) && (snd k' =? snd k) then Some v else lookup r k
    end.

  (** parser.rs:102-112; the events are appended in predicate mode too, as in the code *)
  Definition get_from_cache (s : st) (e : nat) (p : pos) : res (option pos * st) :=
    match e_cache E with
    | None => Ok (None, s)
    | Some (c, evs) =>
        '(off, _) <- index (e_idx E) (p_cur p) ;;
        match lookup c (off, e) with
        | None => Ok (None, s)
        | Some (se, ne, nt) =>
            guard (se + ne <=? length evs)
              (Ok (Some (mkPos (p_cur p + nt) (p_end p)), set_events s (s_events s ++ sub se (se + ne) evs)))
        end
    end.

  (** parser.rs:120-128 *)
  Definition finish_cached (s : st) (m : nat) : res st :=
    if s_pred s then Ok s
    else
      len <- usub (length (s_events s)) (m + 1) ;;
      e <- index (s_events s) m ;;
      match e with
      | EvCached key _ => Ok (set_events s (set_nth m (EvCached key len) (s_events s)))
      | _ => Panic
      end.

  (** The remaining-tokens loops of expr.rs:27-29 and 239-241 *)
  Fixpoint bump_all (fuel : nat) (s : st) (p : pos) : res (pos * st) :=
    match fuel with
    | 0 => OutOfFuel
    | S f =>
        '(r, s1) <- bump s p ;;
        match r with
        | None => Ok (p, s1)
        | Some (_, p') => bump_all f s1 p'
        end
    end.

  Definition result := res (option pos * st).

  Section Rec.
    (** [parse_expr] with less fuel *)
    Variable rec : nat -> pos -> st -> result.
    (** fuel for the loops *)
    Variable fuel : nat.

    (** expr.rs:48-54 *)
    Definition parse_pred (e : nat) (p : pos) (s : st) : result :=
      '(r, s1) <- rec e p (set_pred s true) ;; Ok (r, set_pred s1 (s_pred s)).

    (** expr.rs:128-144 *)
    Definition parse_pub (ty body : nat) (replaceable : bool) (p : pos) (s : st) : result :=
      let s0 := if replaceable then set_repl s None else s in
      let m := mark s0 in
      s1 <- start s0 ty ;;
      '(r, s2) <- rec body p s1 ;;
      match r with
      | None => Ok (None, s2)
      | Some p' =>
          s3 <- (match replaceable, s_repl s2 with
                 | true, Some rty => replace (set_repl s2 None) m rty
                 | _, _ => Ok s2
                 end) ;;
          let s4 := finish s3 in
          t <- type_of ty ;;
          Ok (Some p', set_prev s4 (Some t))
      end.

    (** expr.rs:146-153 *)
    Definition parse_pub_replace (ty body : nat) (p : pos) (s : st) : result :=
      '(r, s1) <- rec body p s ;;
      match r with
      | None => Ok (None, s1)
      | Some p' => Ok (Some p', set_repl s1 (Some ty))
      end.

    (** expr.rs:155-161 *)
    Fixpoint parse_or (opts : list nat) (p : pos) (s : st) : result :=
      match opts with
      | [] => Ok (None, s)
      | o :: rest =>
          '(r, s1) <- rec o p s ;;
          match r with
          | Some p' => Ok (Some p', s1)
          | None => parse_or rest p s1
          end
      end.

    (** expr.rs:170-177; returns the number of parts matched *)
    Fixpoint and_parts (parts : list nat) (consumed : nat) (p : pos) (s : st) : res (nat * pos * st) :=
      match parts with
      | [] => Ok (consumed, p, s)
      | part :: rest =>
          '(r, s1) <- rec part p s ;;
          match r with
          | Some p' => and_parts rest (S consumed) p' s1
          | None => Ok (consumed, p, s1)
          end
      end.

    (** expr.rs:163-186 *)
    Definition parse_and (parts : list nat) (commit : option nat) (p : pos) (s : st) : result :=
      '(consumed, p', s1) <- and_parts parts 0 p s ;;
      if consumed <? (match commit with Some c => c | None => length parts end) then Ok (None, s1)
      else if consumed <? length parts then Ok (Some p', finish (start_error s1))
      else Ok (Some p', s1).

    (** expr.rs:188-197 *)
    Definition parse_token (ty : nat) (p : pos) (s : st) : result :=
      '(r, s1) <- bump s p ;;
      match r with
      | None => Ok (None, s1)
      | Some (t, p') =>
          want <- type_of ty ;;
          if want =? t then Ok (Some p', s1) else Ok (None, s1)
      end.

    (** expr.rs:86-87 *)
    Definition parse_any (p : pos) (s : st) : result :=
      '(r, s1) <- bump s p ;;
      match r with
      | None => Ok (None, s1)
      | Some (_, p') => Ok (Some p', s1)
      end.

    (** expr.rs:206-211 *)
    Definition parse_opt (body : nat) (p : pos) (s : st) : result :=
      '(r, s1) <- rec body p s ;;
      match r with Some p' => Ok (Some p', s1) | None => Ok (Some p, s1) end.

    (** expr.rs:213-221 *)
    Definition parse_not (e : nat) (p : pos) (s : st) : result :=
      '(r, s1) <- parse_pred e p s ;;
      match r with None => Ok (Some p, s1) | Some _ => Ok (None, s1) end.

    (** expr.rs:223-227 *)
    Definition parse_eof (p : pos) (s : st) : result :=
      if p_empty p then Ok (Some p, s) else Ok (None, s).

    (** expr.rs:229-246; [cut_suffix] is parser.rs:210-212 *)
    Definition parse_layer (l e : nat) (p : pos) (s : st) : result :=
      '(r, s1) <- parse_pred l p s ;;
      match r with
      | None => Ok (None, s1)
      | Some rest =>
          let layer := mkPos (p_cur p) (p_cur rest) in
          '(r2, s2) <- rec e layer s1 ;;
          let leftovers := match r2 with Some q => q | None => layer end in
          if p_empty leftovers then Ok (Some rest, s2)
          else
            '(_, s3) <- bump_all (S (length (e_idx E))) (start_error s2) leftovers ;;
            Ok (Some rest, finish s3)
      end.

    (** expr.rs:248-257 *)
    Fixpoint rep_loop (n : nat) (body : nat) (p : pos) (s : st) : result :=
      match n with
      | 0 => OutOfFuel
      | S n' =>
          '(r, s1) <- rec body p s ;;
          match r with
          | Some p' => rep_loop n' body p' s1
          | None => Ok (Some p, s1)
          end
      end.

    (** expr.rs:259-286 *)
    Fixpoint skip_loop (n : nat) (first body : nat) (skipped : bool) (p : pos) (s : st) : result :=
      match n with
      | 0 => OutOfFuel
      | S n' =>
          let s0 := if skipped then finish s else s in
          '(r, s1) <- parse_pred first p s0 ;;
          '(r2, s2) <- (match r with Some _ => rec body p s1 | None => Ok (None, s1) end) ;;
          match r2 with
          | Some p' => Ok (Some p', s2)
          | None =>
              s3 <- (if skipped then reopen s2 else Ok (start_error s2)) ;;
              '(b, s4) <- bump s3 p ;;
              match b with
              | None => Ok (None, s4)
              | Some (_, p') => skip_loop n' first body true p' s4
              end
          end
      end.

    (** expr.rs:288-298 *)
    Definition parse_enter (ctx e : nat) (v : bool) (p : pos) (s : st) : result :=
      old <- index (s_ctxs s) ctx ;;
      '(r, s1) <- rec e p (set_ctxs s (set_nth ctx v (s_ctxs s))) ;;
      _ <- index (s_ctxs s1) ctx ;;
      Ok (r, set_ctxs s1 (set_nth ctx old (s_ctxs s1))).

    (** expr.rs:312-317 *)
    Definition parse_is_in (ctx : nat) (p : pos) (s : st) : result :=
      b <- index (s_ctxs s) ctx ;; if b then Ok (Some p, s) else Ok (None, s).

    (** expr.rs:324-331 *)
    Fixpoint bind_args (l : list (nat * nat)) (a : list (option nat)) : res (list (option nat)) :=
      match l with
      | [] => Ok a
      | (i, e) :: rest =>
          ex <- index (g_rules (e_g E)) e ;;
          v <- (match ex with
                | EVar j => o <- index a j ;; unwrap o
                | _ => Ok e
                end) ;;
          _ <- index a i ;;
          bind_args rest (set_nth i (Some v) a)
      end.

    (** expr.rs:319-335 *)
    Definition parse_call (body : nat) (l : list (nat * nat)) (p : pos) (s : st) : result :=
      a <- bind_args l (s_args s) ;;
      '(r, s1) <- rec body p (set_args s a) ;;
      Ok (r, set_args s1 (s_args s)).

    (** expr.rs:337-343 *)
    Definition parse_var (i : nat) (p : pos) (s : st) : result :=
      o <- index (s_args s) i ;; e <- unwrap o ;; rec e p s.

    (** expr.rs:350-355 *)
    Fixpoint any_type (tys : list nat) (t : nat) : res bool :=
      match tys with
      | [] => Ok false
      | ty :: rest => x <- type_of ty ;; if x =? t then Ok true else any_type rest t
      end.

    (** expr.rs:345-358 *)
    Definition parse_prev_is (tys : list nat) (p : pos) (s : st) : result :=
      match s_prev s with
      | None => Ok (None, s)
      | Some t => b <- any_type tys t ;; if b then Ok (Some p, s) else Ok (None, s)
      end.

    (** expr.rs:360-372 *)
    Definition parse_inject (pre body : nat) (p : pos) (s : st) : result :=
      let prefix_mark := mark s in
      '(r, s1) <- rec pre p s ;;
      match r with
      | None => Ok (None, s1)
      | Some after =>
          let body_mark := mark s1 in
          '(r2, s2) <- rec body after s1 ;;
          match r2 with
          | None => Ok (None, s2)
          | Some p' =>
              s3 <- (if pos_eqb after p then Ok s2 else forward_parent s2 prefix_mark body_mark) ;;
              Ok (Some p', s3)
          end
      end.

    (** expr.rs:374-381, parser.rs:114-118 *)
    Definition parse_cached (body : nat) (p : pos) (s : st) : result :=
      let m := mark s in
      let s0 := emit s (EvCached body 0) in
      '(r, s1) <- get_from_cache s0 body p ;;
      '(r2, s2) <- (match r with Some p' => Ok (Some p', s1) | None => rec body p s1 end) ;;
      match r2 with
      | None => Ok (None, s2)
      | Some p' => s3 <- finish_cached s2 m ;; Ok (Some p', s3)
      end.

    Section Pratt.
      (** [pratt_go] with less fuel: minimal priority, position, state *)
      Variable go : nat -> pos -> st -> result.

      (** pratt.rs:26-47: one pass over the infix table; [Some] carries the new position and left mark *)
      Fixpoint try_infixes (l : list infix) (lhs : nat) (p : pos) (s : st) : res (option (pos * nat) * st) :=
        match l with
        | [] => Ok (None, s)
        | ix :: rest =>
            let m := mark s in
            s1 <- start s (ix_ty ix) ;;
            '(r, s2) <- rec (ix_op ix) p s1 ;;
            match r with
            | Some p' =>
                s3 <- forward_parent s2 lhs m ;;
                '(p'', s4) <-
                  (if ix_rhs ix then
                     '(r2, s4) <- go (S (ix_prio ix)) p' s3 ;;
                     match r2 with
                     | Some q => Ok (q, s4)
                     | None => Ok (p', finish (start_error s4))
                     end
                   else Ok (p', s3)) ;;
                t <- type_of (ix_ty ix) ;;
                Ok (Some (p'', m), finish (set_prev s4 (Some t)))
            | None => s3 <- rollback s2 m ;; try_infixes rest lhs p s3
            end
        end.

      (** pratt.rs:25-51 *)
      Fixpoint pratt_loop (n : nat) (l : list infix) (lhs : nat) (p : pos) (s : st) : result :=
        match n with
        | 0 => OutOfFuel
        | S n' =>
            '(r, s1) <- try_infixes l lhs p s ;;
            match r with
            | Some (p', lhs') => pratt_loop n' l lhs' p' s1
            | None => Ok (Some p, s1)
            end
        end.

      (** pratt.rs:62-73 *)
      Fixpoint try_prefixes (l : list prefix) (p : pos) (s : st) : result :=
        match l with
        | [] => Ok (None, s)
        | px :: rest =>
            let m := mark s in
            s1 <- start s (px_ty px) ;;
            '(r, s2) <- rec (px_op px) p s1 ;;
            '(r2, s3) <- (match r with Some p' => go (px_prio px) p' s2 | None => Ok (None, s2) end) ;;
            match r2 with
            | Some q => t <- type_of (px_ty px) ;; Ok (Some q, finish (set_prev s3 (Some t)))
            | None => s4 <- rollback s3 m ;; try_prefixes rest p s4
            end
        end.

      (** pratt.rs:54-74 *)
      Definition pratt_prefix (t : pratt_table) (p : pos) (s : st) : result :=
        '(r, s1) <- parse_or (pt_atoms t) p s ;;
        match r with
        | Some p' => Ok (Some p', s1)
        | None => try_prefixes (pt_prefixes t) p s1
        end.
    End Pratt.

    (** pratt.rs:13-52; [parse_pratt] (5-11) is [pratt_go] with minimal priority 0 *)
    Fixpoint pratt_go (n : nat) (t : pratt_table) (min_prior : nat) (p : pos) (s : st) : result :=
      match n with
      | 0 => OutOfFuel
      | S n' =>
          let lhs := mark s in
          '(r, s1) <- pratt_prefix (pratt_go n' t) t p s ;;
          match r with
          | None => Ok (None, s1)
          | Some p' => pratt_loop (pratt_go n' t) fuel (infixes t min_prior) lhs p' s1
          end
      end.

    (** expr.rs:56-125 *)
    Definition parse_inner (e : nat) (p : pos) (s : st) : result :=
      ex <- index (g_rules (e_g E)) e ;;
      match ex with
      | EPub ty body r => parse_pub ty body r p s
      | EPubReplace ty body => parse_pub_replace ty body p s
      | EOr parts => parse_or parts p s
      | EAnd parts commit => parse_and parts commit p s
      | EToken ty => parse_token ty p s
      | EContextual ty text => bump_by_text s p text ty
      | ERep body => rep_loop fuel body p s
      | EWithSkip first body => skip_loop fuel first body false p s
      | EOpt body => parse_opt body p s
      | ENot body => parse_not body p s
      | EEof => parse_eof p s
      | EAny => parse_any p s
      | ELayer l b => parse_layer l b p s
      | EPratt t => pratt_go fuel t 0 p s
      | EEnter c b => parse_enter c b true p s
      | EExit c b => parse_enter c b false p s
      | EIsIn c => parse_is_in c p s
      | ECall b l => parse_call b l p s
      | EVar i => parse_var i p s
      | EPrevIs tys => parse_prev_is tys p s
      | EInject a b => parse_inject a b p s
      | ECached b => parse_cached b p s
      end.

    (** expr.rs:38-46 *)
    Definition parse_step (e : nat) (p : pos) (s : st) : result :=
      let m := mark s in
      '(r, s1) <- parse_inner e p s ;;
      match r with
      | None => s2 <- rollback s1 m ;; Ok (None, s2)
      | Some p' => Ok (Some p', s1)
      end.
  End Rec.

  (** expr.rs:38-46: recursion depth and loop iterations are bounded by the fuel *)
  Fixpoint parse_expr (fuel : nat) (e : nat) (p : pos) (s : st) : result :=
    match fuel with
    | 0 => OutOfFuel
    | S f => parse_step (parse_expr f) f e p s
    end.

  (** expr.rs:12-35 *)
  Definition parse_events (fuel : nat) : res (list event) :=
    '(r, s1) <- parse_expr fuel 0 (new_pos E) new_st ;;
    leftover <- unwrap r ;;
    if p_empty leftover then Ok (s_events s1)
    else
      s2 <- reopen s1 ;;
      '(_, s3) <- bump_all (S (length (e_idx E))) (start_error s2) leftover ;;
      Ok (s_events (finish (finish s3))).
End Parser.
