(** Specifications of the tree queries. *)
From Coq Require Import List Arith Bool.
From Verif Require Import Base TextModel TreeModel TreeSpec.
Import ListNotations.

(** Node [n] is a non-empty childless node whose range touches [off]. *)
Definition touches (T : tree) (off n : nat) : Prop :=
  exists p par t, At T n p par t /\ t_children t = [] /\ 0 < tlen t /\ p <= off <= p + tlen t.

(** Node [n] starts/ends at an offset. *)
Definition starts_at (T : tree) (n off : nat) : Prop := exists par t, At T n off par t.
Definition ends_at (T : tree) (n off : nat) : Prop := exists p par t, At T n p par t /\ off = p + tlen t.

(** The range of node [n] contains the range [r]. *)
Definition covers (T : tree) (n : nat) (r : range) : Prop :=
  exists p par t, At T n p par t /\ p <= rstart r /\ rend r <= p + tlen t.

(** [a] occurs before [b] in [l]. *)
Definition before {A} (l : list A) (a b : A) : Prop := exists l1 l2 l3, l = l1 ++ a :: l2 ++ b :: l3.

(** Each element is the parent of the one before it. *)
Fixpoint parent_chain (T : tree) (l : list nat) : Prop :=
  match l with
  | [] => True
  | a :: r =>
      match r with
      | [] => exists p t, At T a p None t
      | b :: _ => (exists p t, At T a p (Some b) t) /\ parent_chain T r
      end
  end.

(** The type of node [n]. *)
Definition has_type (T : tree) (n ty : nat) : Prop := exists p par t, At T n p par t /\ t_ty t = ty.
