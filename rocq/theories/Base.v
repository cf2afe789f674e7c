(** Common vocabulary of the model: outcomes of Rust functions and list helpers. *)
From Coq Require Import List Arith Bool Lia.
Import ListNotations.

(** Outcome of a modelled Rust function.  [Panic] stands for [panic!], a failed [assert!],
    [unwrap] on [None], [unreachable!], an out-of-bounds index or an unsigned underflow (as in a
    debug build).  [OutOfFuel] is not a Rust outcome: it says that the model's fuel ran out. *)
Inductive res (A : Type) : Type :=
| Ok (a : A)
| Panic
| OutOfFuel.
Arguments Ok {A} a.
Arguments Panic {A}.
Arguments OutOfFuel {A}.

Definition bind {A B} (x : res A) (f : A -> res B) : res B :=
  match x with Ok a => f a | Panic => Panic | OutOfFuel => OutOfFuel end.

Notation "x <- e1 ;; e2" := (bind e1 (fun x => e2))
  (at level 61, e1 at next level, right associativity).
Notation "' p <- e1 ;; e2" := (bind e1 (fun p => e2))
  (at level 61, p pattern, e1 at next level, right associativity).

(** [assert!(b); k] *)
Definition guard {A} (b : bool) (k : res A) : res A := if b then k else Panic.

(** [o.unwrap()] *)
Definition unwrap {A} (o : option A) : res A := match o with Some a => Ok a | None => Panic end.

(** [v[i]] *)
Definition index {A} (v : list A) (i : nat) : res A := unwrap (nth_error v i).

(** [a - b] on unsigned numbers (debug build) *)
Definition usub (a b : nat) : res nat := if b <=? a then Ok (a - b) else Panic.

(** The elements [s .. e) of a list. *)
Definition sub {A} (s e : nat) (l : list A) : list A := firstn (e - s) (skipn s l).

Fixpoint set_nth {A} (i : nat) (a : A) (l : list A) : list A :=
  match l, i with
  | [], _ => []
  | _ :: r, 0 => a :: r
  | x :: r, S j => x :: set_nth j a r
  end.

Definition sum (l : list nat) : nat := fold_right Nat.add 0 l.

Fixpoint list_eqb {A} (eqb : A -> A -> bool) (l m : list A) : bool :=
  match l, m with
  | [], [] => true
  | a :: l', b :: m' => eqb a b && list_eqb eqb l' m'
  | _, _ => false
  end.

Definition bytes := list nat.
Definition bytes_eqb : bytes -> bytes -> bool := list_eqb Nat.eqb.

(** [s.starts_with(p)] on bytes *)
Fixpoint is_prefix (p s : bytes) : bool :=
  match p, s with
  | [], _ => true
  | a :: p', b :: s' => (a =? b) && is_prefix p' s'
  | _ :: _, [] => false
  end.

(** [s.find(needle)]: the least offset at which [needle] occurs. *)
Fixpoint find_sub (needle s : bytes) : option nat :=
  if is_prefix needle s then Some 0 else
  match s with
  | [] => None
  | _ :: s' => option_map S (find_sub needle s')
  end.

(** Iteration with panics: [for], [filter], [flat_map] over a list. *)
Fixpoint fold_res {A B} (f : A -> B -> res A) (acc : A) (l : list B) : res A :=
  match l with
  | [] => Ok acc
  | b :: r => acc' <- f acc b ;; fold_res f acc' r
  end.

Fixpoint filter_res {A} (f : A -> res bool) (l : list A) : res (list A) :=
  match l with
  | [] => Ok []
  | a :: r => b <- f a ;; r' <- filter_res f r ;; Ok (if b then a :: r' else r')
  end.

Fixpoint flat_map_res {A B} (f : A -> res (list B)) (l : list A) : res (list B) :=
  match l with
  | [] => Ok []
  | a :: r => b <- f a ;; r' <- flat_map_res f r ;; Ok (b ++ r')
  end.

(** [iter().find(p)] *)
Fixpoint find_first {A} (p : A -> bool) (l : list A) : option A :=
  match l with
  | [] => None
  | a :: r => if p a then Some a else find_first p r
  end.

(** [iter().position(p)] *)
Fixpoint position {A} (p : A -> bool) (l : list A) : option nat :=
  match l with
  | [] => None
  | a :: r => if p a then Some 0 else option_map S (position p r)
  end.
