(** Model of fall/parse/src/syn_engine/convert.rs and of fall/parse/src/lib.rs [parse] / [ParserDefinition::parse]:
    from events to calls on the tree builder. *)
From Coq Require Import List Arith Bool.
From Verif Require Import Base TextModel TreeModel LexModel GrammarModel ParserModel.
Import ListNotations.

(** convert.rs:45-60: follow the forward parents from event [idx]. A chain that never ends (a forward parent
    of 0) runs out of any fuel; a chain that ends visits each event at most once. *)
Fixpoint chase (fuel : nat) (events : list event) (idx : nat) : res (list (nat * nat)) :=
  match fuel with
  | 0 => OutOfFuel
  | S f =>
      e <- index events idx ;;
      match e with
      | EvStart ty fwd =>
          match fwd with
          | Some d => r <- chase f events (idx + d) ;; Ok ((idx, ty) :: r)
          | None => Ok [(idx, ty)]
          end
      | _ => Panic
      end
  end.

(** convert.rs:61-64: the nodes of a chain are opened outermost first *)
Definition opened (chain : list (nat * nat)) : list event :=
  map (fun c => EvStart (snd c) None) (rev chain).

(** convert.rs:37-67: [es] is what is left of [events], from number [i] on; [holes] has its last element
    first. The result is returned rather than pushed to. *)
Fixpoint reshuffle_from (events : list event) (i : nat) (holes : list nat) (es : list event) : res (list event) :=
  match es with
  | [] => Ok []
  | e :: rest =>
      if match holes with h :: _ => h =? i | [] => false end then reshuffle_from events (S i) (tl holes) rest
      else
        match e with
        | EvStart _ (Some _) =>
            chain <- chase (S (length events)) events i ;;
            r <- reshuffle_from events (S i) (tl (map fst chain ++ holes)) rest ;;
            Ok (opened chain ++ r)
        | _ => r <- reshuffle_from events (S i) holes rest ;; Ok (e :: r)
        end
  end.

(** convert.rs:32-68 *)
Definition reshuffle (events : list event) : res (list event) := reshuffle_from events 0 [] events.

(** A token with its text, convert.rs:17-22 *)
Notation ttok := (token * text)%type (only parsing).

Fixpoint token_texts (txt : text) (len : nat) (toks : list token) : res (list ttok) :=
  match toks with
  | [] => Ok []
  | t :: rest =>
      r <- from_len len (tk_len t) ;;
      x <- slice txt r ;;
      rs <- token_texts txt (len + tk_len t) rest ;;
      Ok ((t, x) :: rs)
  end.

(** The leaf calls for raw tokens, convert.rs:96-98, 130-133, 152-155 *)
Definition leaf_calls (ts : list ttok) : list tb_call := map (fun t => CLeaf (tk_ty (fst t)) (tk_len (fst t))) ts.

Section Convert.
  Variable is_ws : nat -> bool.
  (** type of the node, whitespace beside it, [true] for leading whitespace *)
  Variable binder : nat -> list (nat * text) -> bool -> res nat.

  (** convert.rs:108-113 and [take_while] in 151 *)
  Fixpoint spaces (ts : list ttok) : list ttok :=
    match ts with
    | t :: r => if is_ws (tk_ty (fst t)) then t :: spaces r else []
    | [] => []
    end.
  Definition for_binder (ts : list ttok) : list (nat * text) := map (fun t => (tk_ty (fst t), snd t)) ts.

  (** convert.rs:83-106; returns the calls made, [right_edge] and [n_events] *)
  Definition go (fill : list ttok -> list event -> res (list tb_call * nat * nat))
    (ty : nat) (tokens : list ttok) (events : list event) : res (list tb_call * nat * nat) :=
    '(calls, n_tokens, n_events) <- fill tokens events ;;
    guard (n_tokens <=? length tokens)
      (let tokens := skipn n_tokens tokens in
       right_ws <- binder ty (for_binder (spaces tokens)) false ;;
       guard (right_ws <=? length tokens)
         (Ok (CStart ty :: calls ++ leaf_calls (firstn right_ws tokens) ++ [CFinish], n_tokens + right_ws, n_events))).

  (** convert.rs:115-172; returns the calls made, [n_tokens] and [n_events]. Every round takes an event, so
      fuel above the number of events is enough. *)
  Fixpoint fill (fuel : nat) (tokens : list ttok) (events : list event) : res (list tb_call * nat * nat) :=
    match fuel with
    | 0 => OutOfFuel
    | S f =>
        match events with
        | [] => Panic
        | EvStart ty _ :: rest =>
            let leading := spaces tokens in
            bound <- binder ty (for_binder leading) true ;;
            left_wd <- usub (length leading) bound ;;
            '(calls, right_edge, child_events) <- go (fill f) ty (skipn left_wd tokens) rest ;;
            guard ((right_edge <=? length (skipn left_wd tokens)) && (child_events <=? length rest))
              ('(calls', n_tokens, n_events) <- fill f (skipn right_edge (skipn left_wd tokens)) (skipn child_events rest) ;;
               Ok (leaf_calls (firstn left_wd tokens) ++ calls ++ calls', left_wd + right_edge + n_tokens, S (child_events + n_events)))
        | EvEnd :: _ => Ok ([], 0, 1)
        | EvToken ty n :: rest =>
            let white := spaces tokens in
            let tokens := skipn (length white) tokens in
            guard (n <=? length tokens)
              ('(calls', n_tokens, n_events) <- fill f (skipn n tokens) rest ;;
               Ok (leaf_calls white ++ CLeaf ty (sum (map (fun t => tk_len (fst t)) (firstn n tokens))) :: calls',
                   length white + n + n_tokens, S n_events))
        | EvCached _ _ :: rest =>
            '(calls', n_tokens, n_events) <- fill f tokens rest ;; Ok (calls', n_tokens, S n_events)
        end
    end.

  (** convert.rs:5-30 *)
  Definition convert (txt : text) (toks : list token) (events : list event) : res (list tb_call) :=
    events <- reshuffle events ;;
    match events with
    | [] => Panic
    | first :: rest =>
        tokens <- token_texts txt 0 toks ;;
        match first with
        | EvStart ty _ => '(calls, _, _) <- go (fill (S (length rest))) ty tokens rest ;; Ok calls
        | _ => Panic
        end
    end.
End Convert.

(** The user's part of a language definition (fall/parse/src/lib.rs:60-75 and the [LanguageImpl] of the
    generated code): the whitespace-like types and the whitespace binder. *)
Record language : Type := mkLang {
  l_lexer : lexer;
  l_g : grammar;
  l_ws : nat -> bool;
  l_binder : nat -> list (nat * bytes) -> bool -> nat }.

(** lib.rs:253-256 *)
Definition file_type (g : grammar) : res nat :=
  e <- index (g_rules g) 0 ;;
  match e with EPub ty _ _ => index (g_types g) ty | _ => Panic end.

(** lib.rs:273: [to_cow] reads each space; it panics off character boundaries (fall/text/src/text.rs:88-90) *)
Fixpoint own_spaces (sp : list (nat * text)) : res (list (nat * bytes)) :=
  match sp with
  | [] => Ok []
  | (t, x) :: r => b <- as_str x ;; bs <- own_spaces r ;; Ok ((t, b) :: bs)
  end.

(** lib.rs:269-276 *)
Definition file_binder (L : language) (file_ty : nat) (ty : nat) (sp : list (nat * text)) (leading : bool) : res nat :=
  if ty =? file_ty then Ok (length sp)
  else owned <- own_spaces sp ;; Ok (l_binder L ty owned leading).

(** lib.rs:238-280 [ParserDefinition::parse]; metrics left out. Returns the events and the builder calls. *)
Definition def_parse (L : language) (fuel : nat) (prev : option (cache_map * list event)) (txt : bytes) (toks : list token)
  : res (list event * list tb_call) :=
  file_ty <- file_type (l_g L) ;;
  events <- parse_events (new_env prev (l_g L) (l_ws L) txt toks) fuel ;;
  calls <- convert (l_ws L) (file_binder L file_ty) (as_text txt) toks events ;;
  Ok (events, calls).

(** What is kept for the next edit, lib.rs:185-188 *)
Record incremental : Type := mkInc { i_tokens : list token; i_events : list event }.

(** lib.rs:190-206 [parse], followed by fall/tree/src/lang.rs:35-41 [Language::parse]. Returns the new file. *)
Definition parse_file (L : language) (fuel : nat) (txt : bytes) : res (file * incremental) :=
  toks <- lex (l_lexer L) txt ;;
  '(events, calls) <- def_parse L fuel None txt toks ;;
  f <- file_new txt calls ;;
  Ok (f, mkInc toks events).
