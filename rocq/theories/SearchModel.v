(** Model of fall/tree/src/search.rs, util.rs (walk_tree) and visitor.rs. *)
From Coq Require Import List Arith Bool.
From Verif Require Import Base TextModel TreeModel.
Import ListNotations.

(** search.rs:4-6 *)
Definition child_of_type (nodes : table) (n ty : nat) : res (option nat) :=
  cs <- node_children nodes n ;;
  l <- filter_res (fun c => t <- node_ty nodes c ;; Ok (t =? ty)) cs ;;
  Ok (hd_error l).

(** search.rs:8-10 *)
Definition children_of_type (nodes : table) (n ty : nat) : res (list nat) :=
  cs <- node_children nodes n ;;
  filter_res (fun c => t <- node_ty nodes c ;; Ok (t =? ty)) cs.

(** search.rs:12-14.  Recursion over the children by ids takes fuel. *)
Fixpoint subtree_fuel (fuel : nat) (nodes : table) (n : nat) : res (list nat) :=
  match fuel with
  | 0 => OutOfFuel
  | S f =>
      cs <- node_children nodes n ;;
      l <- flat_map_res (subtree_fuel f nodes) cs ;;
      Ok (l ++ [n])
  end.

Definition subtree (nodes : table) (n : nat) : res (list nat) := subtree_fuel (length nodes) nodes n.

(** search.rs:187-197 [traversal::bottom_up]; the closure's captured state is the accumulator. *)
Fixpoint bottom_up_fuel {A} (fuel : nat) (nodes : table) (f : A -> nat -> res A) (n : nat) (acc : A) : res A :=
  match fuel with
  | 0 => OutOfFuel
  | S k =>
      cs <- node_children nodes n ;;
      acc' <- fold_res (fun a c => bottom_up_fuel k nodes f c a) acc cs ;;
      f acc' n
  end.

Definition bottom_up {A} (nodes : table) (f : A -> nat -> res A) (n : nat) (acc : A) : res A :=
  bottom_up_fuel (length nodes) nodes f n acc.

(** util.rs:12-21 [walk_tree] *)
Fixpoint walk_tree_fuel {A} (fuel : nat) (nodes : table) (f : A -> nat -> res A) (n : nat) (acc : A) : res A :=
  match fuel with
  | 0 => OutOfFuel
  | S k =>
      acc1 <- f acc n ;;
      cs <- node_children nodes n ;;
      fold_res (fun a c => walk_tree_fuel k nodes f c a) acc1 cs
  end.

Definition walk_tree {A} (nodes : table) (f : A -> nat -> res A) (n : nat) (acc : A) : res A :=
  walk_tree_fuel (length nodes) nodes f n acc.

(** visitor.rs:5-123: a visitor is a list of (node types, action) in registration order; visiting a node
    runs the matching actions, earlier registered (inner) first (94-100, 116-122). *)
Definition visitor (C : Type) := list (list nat * (C -> nat -> C)).

Fixpoint do_visit {C} (v : visitor C) (ty n : nat) (ctx : C) : C :=
  match v with
  | [] => ctx
  | (tys, f) :: rest =>
      let ctx' := if existsb (Nat.eqb ty) tys then f ctx n else ctx in
      do_visit rest ty n ctx'
  end.

(** visitor.rs:9-14 *)
Definition process_subtree_bottom_up {C} (nodes : table) (n : nat) (v : visitor C) (ctx : C) : res C :=
  bottom_up nodes (fun c m => ty <- node_ty nodes m ;; Ok (do_visit v ty m c)) n ctx.

(** visitor.rs:16-21 *)
Definition process_node {C} (nodes : table) (n : nat) (v : visitor C) (ctx : C) : res C :=
  ty <- node_ty nodes n ;; Ok (do_visit v ty n ctx).

(** search.rs:16-22 *)
Definition descendants_of_type (nodes : table) (n ty : nat) : res (list nat) :=
  process_subtree_bottom_up nodes n [([ty], fun acc m => acc ++ [m])] [].

(** search.rs:34-48 [ancestors]: the iterator, collected. *)
Fixpoint ancestors_fuel (fuel : nat) (nodes : table) (n : nat) : res (list nat) :=
  match fuel with
  | 0 => OutOfFuel
  | S f =>
      p <- node_parent nodes n ;;
      match p with
      | None => Ok [n]
      | Some q => l <- ancestors_fuel f nodes q ;; Ok (n :: l)
      end
  end.

Definition ancestors (nodes : table) (n : nat) : res (list nat) := ancestors_fuel (length nodes) nodes n.

(** search.rs:50-52 *)
Definition is_leaf (nodes : table) (n : nat) : res bool :=
  cs <- node_children nodes n ;; r <- node_range nodes n ;;
  Ok ((match cs with [] => true | _ => false end) && negb (range_is_empty r)).

(** search.rs:83-88 *)
Inductive leaf_at_offset : Type :=
| LNone
| LSingle (n : nat)
| LBetween (l r : nat).

(** search.rs:91-97 *)
Definition right_biased (l : leaf_at_offset) : option nat :=
  match l with LNone => None | LSingle n => Some n | LBetween _ r => Some r end.

(** search.rs:99-105 *)
Definition left_biased (l : leaf_at_offset) : option nat :=
  match l with LNone => None | LSingle n => Some n | LBetween l _ => Some l end.

(** search.rs:108-118: the iterator, collected *)
Definition leaves_list (l : leaf_at_offset) : list nat :=
  match l with LNone => [] | LSingle n => [n] | LBetween l r => [l; r] end.

(** search.rs:54-81 *)
Fixpoint find_leaf_fuel (fuel : nat) (nodes : table) (n offset : nat) : res leaf_at_offset :=
  match fuel with
  | 0 => OutOfFuel
  | S f =>
      rg <- node_range nodes n ;;
      guard (contains_offset_nonstrict rg offset)
        (if range_is_empty rg then Ok LNone else
         leaf <- is_leaf nodes n ;;
         if leaf then Ok (LSingle n) else
         cs <- node_children nodes n ;;
         cs1 <- filter_res (fun c => r <- node_range nodes c ;; Ok (negb (range_is_empty r))) cs ;;
         cs2 <- filter_res (fun c => r <- node_range nodes c ;; Ok (contains_offset_nonstrict r offset)) cs1 ;;
         match cs2 with
         | [] => Panic
         | [l] => find_leaf_fuel f nodes l offset
         | [l; r] =>
             a <- find_leaf_fuel f nodes l offset ;;
             b <- find_leaf_fuel f nodes r offset ;;
             match a, b with
             | LSingle x, LSingle y => Ok (LBetween x y)
             | _, _ => Panic
             end
         | _ => Panic
         end)
  end.

Definition find_leaf_at_offset (nodes : table) (n offset : nat) : res leaf_at_offset :=
  find_leaf_fuel (length nodes) nodes n offset.

(** search.rs:207-214 *)
Definition common_ancestor (nodes : table) (n1 n2 : nat) : res nat :=
  l1 <- ancestors nodes n1 ;;
  l2 <- ancestors nodes n2 ;;
  unwrap (find_first (fun p => existsb (Nat.eqb p) l2) l1).

(** search.rs:120-131 *)
Definition find_covering_node (nodes : table) (rt : nat) (r : range) : res nat :=
  rr <- node_range nodes rt ;;
  guard (is_subrange_of r rr)
    (a <- find_leaf_at_offset nodes rt (rstart r) ;;
     b <- find_leaf_at_offset nodes rt (rend r) ;;
     match right_biased a, left_biased b with
     | Some l, Some r => common_ancestor nodes l r
     | _, _ => Ok rt
     end).

(** search.rs:134-137 *)
Inductive direction : Type := DLeft | DRight.

(** search.rs:200-205 *)
Definition child_position (nodes : table) (n : nat) : res (option (nat * nat)) :=
  p <- node_parent nodes n ;;
  match p with
  | None => Ok None
  | Some parent =>
      cs <- node_children nodes parent ;;
      i <- unwrap (position (Nat.eqb n) cs) ;;
      Ok (Some (parent, i))
  end.

(** search.rs:139-146 *)
Definition sibling (nodes : table) (n : nat) (dir : direction) : res (option nat) :=
  cp <- child_position nodes n ;;
  match cp with
  | None => Ok None
  | Some (parent, idx) =>
      match (match dir with
             | DLeft => match idx with 0 => None | S i => Some i end
             | DRight => Some (S idx)
             end) with
      | None => Ok None
      | Some i => cs <- node_children nodes parent ;; Ok (nth_error cs i)
      end
  end.

(** search.rs:153-157 [ast::ancestor]; [wrap] is [T::wrap(..).is_some()], a test on the node type. *)
Definition ast_ancestor (nodes : table) (wrap : nat -> bool) (n : nat) : res (option nat) :=
  l <- ancestors nodes n ;;
  l' <- filter_res (fun m => ty <- node_ty nodes m ;; Ok (wrap ty)) l ;;
  Ok (hd_error l').

(** search.rs:175-181 [ast::node_at_offset] *)
Definition ast_node_at_offset (nodes : table) (wrap : nat -> bool) (n offset : nat) : res (option nat) :=
  l <- find_leaf_at_offset nodes n offset ;;
  match l with
  | LNone => Ok None
  | LSingle m => ast_ancestor nodes wrap m
  | LBetween l r =>
      a <- ast_ancestor nodes wrap l ;;
      match a with Some x => Ok (Some x) | None => ast_ancestor nodes wrap r end
  end.
