(** Model of lang/fall/src/editor/formatter.rs. *)
From Coq Require Import List Arith Bool.
From Verif Require Import Base TextModel EditModel TreeModel SearchModel FileEditModel AnalysisModel.
Import ListNotations.

(** lang/fall/syntax/src/fall.rs:3, 15, 26, 27 *)
Definition F_WHITESPACE : nat := 100.
Definition PIPE : nat := 112.
Definition L_ANGLE : nat := 123.
Definition R_ANGLE : nat := 124.

(** formatter.rs:24-28 *)
Inductive spaces : Type := NoSpace | OneSpace.
(** formatter.rs:17-21 *)
Inductive spacing_rule : Type := After (ty : nat) (s : spaces) | Before (ty : nat) (s : spaces).

(** formatter.rs:9-14 *)
Definition fall_spacing : list spacing_rule :=
  [After PIPE OneSpace; Before PIPE OneSpace; After L_ANGLE NoSpace; Before R_ANGLE NoSpace].

Definition s_newline : bytes := [10].
Definition s_space : bytes := [32].

(** formatter.rs:44-70, one rule.  [Some (spaces, ws_node, before_ws_node)] of lines 46-55 is [target]. *)
Definition apply_rule (f : file) (ws_type n : nat) (e : file_edit) (r : spacing_rule) : res file_edit :=
  next <- sibling (f_nodes f) n DRight ;;
  prev <- sibling (f_nodes f) n DLeft ;;
  t <- node_ty (f_nodes f) n ;;
  let target :=
    match r with
    | After rty s => match next with Some m => if rty =? t then Some (s, m, n) else None | None => None end
    | Before rty s => match prev with Some m => if rty =? t then Some (s, m, m) else None | None => None end
    end in
  match target with
  | None => Ok e
  | Some (s, ws_node, before_ws_node) =>
      x <- node_text f ws_node ;;
      nl <- contains x s_newline ;;
      if nl then Ok e
      else
        wt <- node_ty (f_nodes f) ws_node ;;
        match s, wt =? ws_type with
        | NoSpace, true => Ok (fe_delete e ws_node)
        | OneSpace, false => Ok (fe_insert_text_after e before_ws_node s_space)
        | OneSpace, true =>
            l <- text_len x ;;
            if l =? 1 then Ok e else Ok (fe_replace_with_text e ws_node s_space)
        | NoSpace, false => Ok e
        end
  end.

(** formatter.rs:43-71 *)
Definition spacer_apply (f : file) (rules : list spacing_rule) (ws_type n : nat) (e : file_edit) : res file_edit :=
  fold_res (fun e r => apply_rule f ws_type n e r) e rules.

(** formatter.rs:74-79 *)
Fixpoint reformat_node (fuel : nat) (f : file) (rules : list spacing_rule) (ws_type n : nat) (e : file_edit) : res file_edit :=
  match fuel with
  | 0 => OutOfFuel
  | S k =>
      e1 <- spacer_apply f rules ws_type n e ;;
      cs <- node_children (f_nodes f) n ;;
      fold_res (fun e c => reformat_node k f rules ws_type c e) e1 cs
  end.

(** formatter.rs:31-36 *)
Definition reformat_file (f : file) (rules : list spacing_rule) (ws_type : nat) : res (list edit_op) :=
  e <- reformat_node (length (f_nodes f)) f rules ws_type root fe_new ;;
  into_text_edit f e.

(** formatter.rs:5-7 *)
Definition reformat (f : file) : res (list edit_op) := reformat_file f fall_spacing F_WHITESPACE.
