(** Model of fall/parse/src/lex_engine.rs: lexing and incremental relexing.

    The lexer ([Lexer::next_token], implemented by RegexLexer over the external crate m_lexer, lib.rs:25-60)
    is a parameter: it is given the remaining text and returns a token type and a length.
    Simplification: a [Text] suffix is represented by its bytes; the character-boundary panic of
    [to_cow] (lib.rs:56) is not modelled here, an over-long token is ([step]). *)
From Coq Require Import List Arith Bool.
From Verif Require Import Base TextModel EditModel.
Import ListNotations.

(** lex_engine.rs:4-8 *)
Record token : Type := mkTok { tk_ty : nat; tk_len : nat }.

Definition lexer := bytes -> token.

(** fall/tree/src/node_type.rs [ERROR] is node type 0 (lib.rs:20 imports it) *)
Definition ERROR : nat := 0.

(** lex_engine.rs:13-17; slicing past the end panics (fall/text/src/text.rs:22-31) *)
Definition step (lx : lexer) (txt : bytes) : res (token * bytes) :=
  let t := lx txt in
  guard (tk_len t <=? length txt) (Ok (t, skipn (tk_len t) txt)).

(** lex_engine.rs:20-28 and the final loop 102-105; [while !text.is_empty()] takes fuel *)
Fixpoint lex_loop (fuel : nat) (lx : lexer) (txt : bytes) : res (list token) :=
  match txt with
  | [] => Ok []
  | _ =>
      match fuel with
      | 0 => OutOfFuel
      | S f => '(t, rest) <- step lx txt ;; ts <- lex_loop f lx rest ;; Ok (t :: ts)
      end
  end.

Definition lex (lx : lexer) (txt : bytes) : res (list token) := lex_loop (length txt) lx txt.

(** The loop variables of [relex] (lex_engine.rs:41-48). *)
Record relex_state : Type := mkRx {
  rx_old : list token; rx_old_len : nat;
  rx_new : list token; rx_new_len : nat;
  rx_point : nat; rx_reused : nat }.

(** lex_engine.rs:56-61 [while new_len < edit_point]; returns the remaining text too *)
Fixpoint lex_up_to (fuel : nat) (lx : lexer) (point : nat) (txt : bytes) (new : list token) (new_len : nat)
  : res (bytes * list token * nat) :=
  if new_len <? point then
    match fuel with
    | 0 => OutOfFuel
    | S f =>
        '(t, rest) <- step lx txt ;;
        lex_up_to f lx point rest (new ++ [t]) (new_len + tk_len t)
    end
  else Ok (txt, new, new_len).

(** lex_engine.rs:63-65 *)
Fixpoint skip_old (start : nat) (old : list token) (old_len : nat) : res (list token * nat) :=
  if old_len <? start then
    match old with
    | [] => Panic
    | t :: r => skip_old start r (old_len + tk_len t)
    end
  else Ok (old, old_len).

(** lex_engine.rs:80-88: the [for token in &mut old_tokens] loop *)
Fixpoint reuse (rend_ : nat) (old : list token) (old_len : nat) (new : list token) (new_len reused : nat)
  : list token * nat * list token * nat * nat :=
  match old with
  | [] => ([], old_len, new, new_len, reused)
  | t :: r =>
      let old_len' := old_len + tk_len t in
      if rend_ <=? old_len' then (r, old_len', new, new_len, reused)
      else reuse rend_ r old_len' (new ++ [t]) (new_len + tk_len t) (reused + tk_len t)
  end.

(** lex_engine.rs:67-95: the [loop]; [txt] is not advanced by the [Equal] branch, as in the code *)
Fixpoint copy_loop (fuel : nat) (lx : lexer) (r : range) (txt : bytes) (s : relex_state) : res relex_state :=
  match fuel with
  | 0 => OutOfFuel
  | S f =>
      new_consumed <- usub (rx_new_len s) (rx_point s) ;;
      old_consumed <- usub (rx_old_len s) (rstart r) ;;
      len <- range_len r ;;
      if (len <=? new_consumed) || (len <=? old_consumed) then Ok s
      else
        match Nat.compare new_consumed old_consumed with
        | Lt =>
            '(t, rest) <- step lx txt ;;
            copy_loop f lx r rest
              (mkRx (rx_old s) (rx_old_len s) (rx_new s ++ [t]) (rx_new_len s + tk_len t) (rx_point s) (rx_reused s))
        | Eq =>
            let '(old, ol, new, nl, ru) :=
              reuse (rend r) (rx_old s) (rx_old_len s) (rx_new s) (rx_new_len s) (rx_reused s) in
            copy_loop f lx r txt (mkRx old ol new nl (rx_point s) ru)
        | Gt =>
            match rx_old s with
            | [] => Panic
            | t :: rest =>
                copy_loop f lx r txt
                  (mkRx rest (rx_old_len s + tk_len t) (rx_new s) (rx_new_len s) (rx_point s) (rx_reused s))
            end
        end
  end.

(** [new_text.slice(TextSuffix::from(off))], lex_engine.rs:55, 101 *)
Definition suffix (txt : bytes) (off : nat) : res bytes := guard (off <=? length txt) (Ok (skipn off txt)).

(** lex_engine.rs:50-99 *)
Definition relex_op (fuel : nat) (lx : lexer) (new_text : bytes) (s : relex_state) (op : edit_op) : res relex_state :=
  match op with
  | Insert t =>
      Ok (mkRx (rx_old s) (rx_old_len s) (rx_new s) (rx_new_len s) (rx_point s + length t) (rx_reused s))
  | Copy r =>
      txt <- suffix new_text (rx_new_len s) ;;
      '(txt1, new, nl) <- lex_up_to fuel lx (rx_point s) txt (rx_new s) (rx_new_len s) ;;
      '(old, ol) <- skip_old (rstart r) (rx_old s) (rx_old_len s) ;;
      s2 <- copy_loop fuel lx r txt1 (mkRx old ol new nl (rx_point s) (rx_reused s)) ;;
      len <- range_len r ;;
      Ok (mkRx (rx_old s2) (rx_old_len s2) (rx_new s2) (rx_new_len s2) (rx_point s2 + len) (rx_reused s2))
  end.

(** lex_engine.rs:30-109; fuel for the inner loops is |new text| + |old tokens| + 2 *)
Definition relex (lx : lexer) (old_tokens : list token) (ops : list edit_op) (new_text : bytes)
  : res (list token * nat) :=
  if existsb (fun t => tk_ty t =? ERROR) old_tokens then
    ts <- lex lx new_text ;; Ok (ts, 0)
  else
    let fuel := length new_text + length old_tokens + 2 in
    s <- fold_res (relex_op fuel lx new_text) (mkRx old_tokens 0 [] 0 0 0) ops ;;
    txt <- suffix new_text (rx_new_len s) ;;
    rest <- lex_loop (length txt) lx txt ;;
    region <- usub (length new_text) (rx_reused s) ;;
    Ok (rx_new s ++ rest, region).
