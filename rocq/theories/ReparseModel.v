(** Model of the incremental path: salvaging old events (fall/parse/src/syn_engine/mod.rs:40-122), [reparse]
    (fall/parse/src/lib.rs:208-234) and [Language::reparse] (fall/tree/src/lang.rs:43-53), which is [File::edit]
    (fall/tree/src/node/mod.rs:47-49). *)
From Coq Require Import List Arith Bool.
From Verif Require Import Base TextModel EditModel LexModel TreeModel GrammarModel ParserModel ConvertModel.
Import ListNotations.

(** Where the walk over the old tokens is: the tokens not yet passed and the text position, mod.rs:48-49.
    Simplification: the code keeps the index of the next token instead of the remaining tokens. *)
Definition walk : Type := (list token * nat)%type.

(** mod.rs:51-54 *)
Definition w_bump (w : walk) : res walk :=
  match fst w with [] => Panic | t :: r => Ok (r, snd w + tk_len t) end.

(** mod.rs:56-60 *)
Fixpoint w_skip (is_ws : nat -> bool) (toks : list token) (p : nat) : walk :=
  match toks with
  | [] => ([], p)
  | t :: r => if is_ws (tk_ty t) then w_skip is_ws r (p + tk_len t) else (t :: r, p)
  end.

(** mod.rs:63-65 *)
Fixpoint w_bumps (n : nat) (w : walk) : res walk :=
  match n with 0 => Ok w | S k => w1 <- w_bump w ;; w_bumps k w1 end.

(** mod.rs:62-67 *)
Definition w_eat (is_ws : nat -> bool) (n : nat) (w : walk) : res walk :=
  w1 <- w_bumps n w ;; Ok (w_skip is_ws (fst w1) (snd w1)).

(** mod.rs:86-95, the events of one cached segment: what is left of the events and the walk, the number of tokens,
    and whether there was an error node *)
Fixpoint segment (is_ws : nat -> bool) (n : nat) (evs : list event) (w : walk) (n_tokens : nat) (has_error : bool)
  : res (list event * walk * nat * bool) :=
  match n with
  | 0 => Ok (evs, w, n_tokens, has_error)
  | S k =>
      match evs with
      | [] => Panic
      | EvToken _ m :: r => w1 <- w_eat is_ws m w ;; segment is_ws k r w1 (n_tokens + m) has_error
      | EvStart ty _ :: r => segment is_ws k r w n_tokens (if ty =? ERROR then true else has_error)
      | _ :: r => segment is_ws k r w n_tokens has_error
      end
  end.

(** mod.rs:104-115: the places of one segment in the new text. [inserted] does not grow when the segment is found. *)
Fixpoint place (key : nat) (val : nat * nat * nat) (rng : range) (inserted : nat) (ops : list edit_op) (m : cache_map)
  : res cache_map :=
  match ops with
  | [] => Ok m
  | Copy copy :: rest =>
      if is_subrange_of rng copy then
        d <- usub (rstart rng) (rstart copy) ;;
        place key val rng inserted rest (((inserted + d, key), val) :: m)
      else
        l <- usub (rend copy) (rstart copy) ;; place key val rng (inserted + l) rest m
  | Insert t :: rest => place key val rng (inserted + length t) rest m
  end.

(** mod.rs:74-119, the loop over the events; the fuel bounds the number of rounds *)
Fixpoint salvage_loop (fuel : nat) (is_ws : nat -> bool) (ops : list edit_op) (evs : list event) (start_event : nat) (w : walk)
  (m : cache_map) : res cache_map :=
  match fuel with
  | 0 => OutOfFuel
  | S f =>
      match evs with
      | [] => Ok m
      | EvToken _ n :: r => w1 <- w_eat is_ws n w ;; salvage_loop f is_ws ops r (S start_event) w1 m
      | EvCached key n :: r =>
          '(r1, w1, n_tokens, has_error) <- segment is_ws n r w 0 false ;;
          if has_error : bool then salvage_loop f is_ws ops r1 (S start_event + n) w1 m
          else
            rng <- from_to (snd w) (snd w1) ;;
            m1 <- place key (S start_event, n, n_tokens) rng 0 ops m ;;
            salvage_loop f is_ws ops r1 (S start_event + n) w1 m1
      | _ :: r => salvage_loop f is_ws ops r (S start_event) w m
      end
  end.

(** mod.rs:40-122 *)
Definition salvage (old_events : list event) (old_toks : list token) (is_ws : nat -> bool) (ops : list edit_op) : res cache_map :=
  salvage_loop (S (length old_events)) is_ws ops old_events 0 (w_skip is_ws old_toks 0) [].

(** lib.rs:208-234 and lang.rs:43-53. Files made by [parse_file] always carry incremental data. *)
Definition reparse_file (L : language) (fuel : nat) (f : file) (inc : incremental) (ops : list edit_op) : res (file * incremental) :=
  new_text <- apply ops (as_text (f_text f)) ;;
  '(toks, _) <- relex (l_lexer L) (i_tokens inc) ops new_text ;;
  m <- salvage (i_events inc) (i_tokens inc) (l_ws L) ops ;;
  '(events, calls) <- def_parse L fuel (Some (m, i_events inc)) new_text toks ;;
  f1 <- file_new new_text calls ;;
  Ok (f1, mkInc toks events).

(** A history of edits, each applied to the file the previous one returned. *)
Fixpoint edit_all (L : language) (fuel : nat) (x : file * incremental) (history : list (list edit_op)) : res (file * incremental) :=
  match history with
  | [] => Ok x
  | ops :: rest => y <- reparse_file L fuel (fst x) (snd x) ops ;; edit_all L fuel y rest
  end.
