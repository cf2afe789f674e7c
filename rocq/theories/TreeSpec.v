(** Specification vocabulary for trees: the intended inductive tree behind a node table. *)
From Coq Require Import List Arith Bool.
From Verif Require Import Base TextModel TreeModel.
Import ListNotations.

Inductive tree : Type :=
| Leaf (ty len : nat)
| Node (ty : nat) (children : list tree).

Definition t_ty (t : tree) : nat := match t with Leaf ty _ => ty | Node ty _ => ty end.

Definition t_children (t : tree) : list tree := match t with Leaf _ _ => [] | Node _ ts => ts end.

(** Length of the text under a tree, number of nodes, token leaves in order. *)
Fixpoint tlen (t : tree) : nat :=
  match t with Leaf _ n => n | Node _ ts => sum (map tlen ts) end.

Fixpoint tsize (t : tree) : nat :=
  match t with Leaf _ _ => 1 | Node _ ts => S (sum (map tsize ts)) end.

Fixpoint leaves (t : tree) : list (nat * nat) :=
  match t with Leaf ty n => [(ty, n)] | Node _ ts => flat_map leaves ts end.

Definition tlens (ts : list tree) : nat := sum (map tlen ts).
Definition tsizes (ts : list tree) : nat := sum (map tsize ts).

(** The calls a client makes to build the tree. *)
Fixpoint calls_of (t : tree) : list tb_call :=
  match t with
  | Leaf ty n => [CLeaf ty n]
  | Node ty ts => CStart ty :: flat_map calls_of ts ++ [CFinish]
  end.

(** [At T i p par t]: node number [i] of the file with tree [T] is the subtree [t]; its text starts at
    offset [p]; its parent is [par].  Nodes are numbered in the order in which they are started. *)
Inductive At (T : tree) : nat -> nat -> option nat -> tree -> Prop :=
| At_root : At T 0 0 None T
| At_child : forall i p par ty pre c post,
    At T i p par (Node ty (pre ++ c :: post)) ->
    At T (S i + tsizes pre) (p + tlens pre) (Some i) c.

(** Numbers of consecutive subtrees starting with number [i]. *)
Fixpoint child_ids (i : nat) (ts : list tree) : list nat :=
  match ts with [] => [] | t :: r => i :: child_ids (i + tsize t) r end.

(** The record a file stores for a node. *)
Definition data_of (i p : nat) (par : option nat) (t : tree) : node_data :=
  mkNode (t_ty t) par (child_ids (S i) (t_children t)) (mkRange p (p + tlen t)).

(** The table [nodes] stores exactly the tree [T]. *)
Definition stores (nodes : table) (T : tree) : Prop :=
  length nodes = tsize T /\
  forall i p par t, At T i p par t -> nth_error nodes i = Some (data_of i p par t).

(** [Below T a d]: node [d] is node [a] or one of its descendants. *)
Inductive Below (T : tree) (a : nat) : nat -> Prop :=
| Below_refl : forall p par t, At T a p par t -> Below T a a
| Below_child : forall d p t e, Below T a d -> At T e p (Some d) t -> Below T a e.

(** A file with tree [T]: the table stores it and the text has the right length. *)
Definition wf_file (f : file) (T : tree) : Prop :=
  stores (f_nodes f) T /\ tlen T = length (f_text f).

(** ** Builder call sequences, without reference to trees *)

(** With [d] nodes open: no leaf outside a node, no unmatched finish, nothing left open. *)
Fixpoint balanced (d : nat) (cs : list tb_call) : bool :=
  match cs with
  | [] => d =? 0
  | CLeaf _ _ :: r => negb (d =? 0) && balanced d r
  | CStart _ :: r => balanced (S d) r
  | CFinish :: r => match d with 0 => false | S k => balanced k r end
  end.

(** The same, and the outermost node is closed by the last call. *)
Fixpoint closes_last (d : nat) (cs : list tb_call) : bool :=
  match cs with
  | [] => false
  | CLeaf _ _ :: r => closes_last d r
  | CStart _ :: r => closes_last (S d) r
  | CFinish :: r => match d with 0 => match r with [] => true | _ => false end | S k => closes_last k r end
  end.

Definition one_root (cs : list tb_call) : bool :=
  match cs with CStart _ :: r => closes_last 0 r | _ => false end.

(** What the calls ask for, one entry per leaf/start call: the type, the innermost open node, the number
    of bytes before it, and for a leaf its length. *)
Fixpoint requested (stack : list nat) (next pos : nat) (cs : list tb_call) : list (nat * option nat * nat * option nat) :=
  match cs with
  | [] => []
  | CLeaf ty n :: r => (ty, hd_error stack, pos, Some n) :: requested stack (S next) (pos + n) r
  | CStart ty :: r => (ty, hd_error stack, pos, None) :: requested (next :: stack) (S next) pos r
  | CFinish :: r => requested (tl stack) next pos r
  end.

(** Total length of the leaf calls. *)
Fixpoint total (cs : list tb_call) : nat :=
  match cs with [] => 0 | CLeaf _ n :: r => n + total r | _ :: r => total r end.

(** The nodes [cs], in this order, tile the text from [p] to [q]. *)
Fixpoint tile (nodes : table) (p : nat) (cs : list nat) (q : nat) : Prop :=
  match cs with
  | [] => p = q
  | c :: r => exists d, nth_error nodes c = Some d /\ rstart (n_range d) = p
                        /\ rstart (n_range d) <= rend (n_range d) /\ tile nodes (rend (n_range d)) r q
  end.

(** Parent and child links agree, children are listed once, parents come first. *)
Definition links_ok (nodes : table) : Prop :=
  forall i d, nth_error nodes i = Some d ->
    NoDup (n_children d)
    /\ (forall c, In c (n_children d) <-> exists dc, nth_error nodes c = Some dc /\ n_parent dc = Some i)
    /\ (forall q, n_parent d = Some q -> q < i)
    /\ (n_parent d = None <-> i = 0).

(** The children of every internal node tile its range. *)
Definition tiling_ok (nodes : table) : Prop :=
  forall i d, nth_error nodes i = Some d -> n_children d <> [] ->
    tile nodes (rstart (n_range d)) (n_children d) (rend (n_range d)).
