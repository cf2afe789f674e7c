(** Model of fall/tree/src/edit.rs. *)
From Coq Require Import List Arith Bool.
From Verif Require Import Base TextModel EditModel TreeModel SearchModel.
Import ListNotations.

(** edit.rs:4-9 (the file is passed separately) *)
Record file_edit : Type := mkFE {
  fe_inserted : list (nat * bytes); fe_replaced : list (nat * bytes); fe_deleted : list nat }.

(** edit.rs:12-19 *)
Definition fe_new : file_edit := mkFE [] [] [].

(** edit.rs:25-27 *)
Definition fe_replace_with_text (e : file_edit) (n : nat) (t : bytes) : file_edit :=
  mkFE (fe_inserted e) (fe_replaced e ++ [(n, t)]) (fe_deleted e).

(** edit.rs:21-23; both nodes are of the same file here *)
Definition fe_replace (f : file) (e : file_edit) (n replacement : nat) : res file_edit :=
  t <- node_text f replacement ;; s <- as_str t ;; Ok (fe_replace_with_text e n s).

(** edit.rs:42-44 *)
Definition fe_delete (e : file_edit) (n : nat) : file_edit :=
  mkFE (fe_inserted e) (fe_replaced e) (fe_deleted e ++ [n]).

(** edit.rs:46-48 *)
Definition fe_insert_text_after (e : file_edit) (anchor : nat) (t : bytes) : file_edit :=
  mkFE (fe_inserted e ++ [(anchor, t)]) (fe_replaced e) (fe_deleted e).

(** edit.rs:29-40 *)
Definition fe_replace_substring (f : file) (e : file_edit) (r : range) (replacement : bytes) : res file_edit :=
  rr <- node_range (f_nodes f) root ;;
  guard (is_subrange_of r rr)
    (node <- find_covering_node (f_nodes f) root r ;;
     nr <- node_range (f_nodes f) node ;;
     pr <- from_to (rstart nr) (rstart r) ;;
     prefix <- slice (as_text (f_text f)) pr ;;
     sr <- from_to (rend r) (rend nr) ;;
     suffix <- slice (as_text (f_text f)) sr ;;
     p <- as_str prefix ;;
     s <- as_str suffix ;;
     Ok (fe_replace_with_text e node (p ++ replacement ++ s))).

(** edit.rs:62-80 *)
Fixpoint text_edit_for_node (fuel : nat) (f : file) (e : file_edit) (n : nat) (b : edit_builder) : res edit_builder :=
  match fuel with
  | 0 => OutOfFuel
  | S k =>
      if existsb (Nat.eqb n) (fe_deleted e) then
        r <- node_range (f_nodes f) n ;; eb_delete b r
      else
        match find_first (fun x => fst x =? n) (fe_replaced e) with
        | Some (_, t) => r <- node_range (f_nodes f) n ;; eb_replace b r t
        | None =>
            cs <- node_children (f_nodes f) n ;;
            b1 <- fold_res (fun b c => text_edit_for_node k f e c b) b cs ;;
            match find_first (fun x => fst x =? n) (fe_inserted e) with
            | Some (_, t) => r <- node_range (f_nodes f) n ;; eb_insert b1 (rend r) t
            | None => Ok b1
            end
        end
  end.

(** edit.rs:50-60 *)
Definition into_text_edit (f : file) (e : file_edit) : res (list edit_op) :=
  b <- eb_new (as_text (f_text f)) ;;
  b' <- text_edit_for_node (length (f_nodes f)) f e root b ;;
  ops <- eb_build b' ;;
  l <- text_len (as_text (f_text f)) ;;
  r <- from_len l 0 ;;
  Ok (ops ++ [Copy r]).
