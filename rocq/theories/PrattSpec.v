(** Operator trees and what it means that they respect priorities. *)
From Coq Require Import List Arith.
From Verif Require Import Base GrammarModel ParserModel ForestSpec SemSpec PegSpec.
Import ListNotations.

(** How an operator expression groups. [op] is the forest of the operator itself.
    [OInfix x l op None]: the right operand is missing. *)
Inductive optree : Type :=
| OAtom (F : list ptree)
| OPrefix (x : prefix) (op : list ptree) (a : optree)
| OPostfix (x : infix) (l : optree) (op : list ptree)
| OInfix (x : infix) (l : optree) (op : list ptree) (r : option optree).

Section Pratt.
  Variable E : env.

  (** The parse tree for a grouping: operand, operator, operand become the children of one node, in text order. *)
  Inductive shape : optree -> list ptree -> Prop :=
  | sh_atom : forall F, shape (OAtom F) F
  | sh_prefix : forall x op a ty G, type E (px_ty x) ty -> shape a G -> shape (OPrefix x op a) [PNode ty [] (op ++ G)]
  | sh_postfix : forall x l op ty L, type E (ix_ty x) ty -> shape l L -> shape (OPostfix x l op) [PNode ty L op]
  | sh_infix : forall x l op r ty L G, type E (ix_ty x) ty -> shape l L -> shape r G ->
      shape (OInfix x l op (Some r)) [PNode ty L (op ++ G)]
  | sh_missing : forall x l op ty L, type E (ix_ty x) ty -> shape l L ->
      shape (OInfix x l op None) [PNode ty L (op ++ [error_node []])].

  Variable rd : reader.
  Variable t : pratt_table.

  (** Expression [e] matches from [p] to [q] with forest [F] (for some value of the registers). *)
  Definition matches (e : nat) (p q : pos) (F : list ptree) : Prop := exists h h', peg E rd e p h (Some (q, F)) h'.

  (** [groups m p x q]: from [p] to [q], the tokens are grouped as [x], with no infix of priority below [m]
      except inside right operands and operands of prefixes. Right operands only group tighter operators. *)
  Inductive groups : nat -> pos -> optree -> pos -> Prop :=
  | gp_atom : forall m p a F q, In a (pt_atoms t) -> matches a p q F -> groups m p (OAtom F) q
  | gp_prefix : forall m p x op p1 a q, In x (pt_prefixes t) -> matches (px_op x) p p1 op -> groups (px_prio x) p1 a q ->
      groups m p (OPrefix x op a) q
  | gp_postfix : forall m p x l p1 op q, In x (pt_infixes t) -> ix_rhs x = false -> m <= ix_prio x ->
      groups m p l p1 -> matches (ix_op x) p1 q op -> groups m p (OPostfix x l op) q
  | gp_infix : forall m p x l p1 op p2 r q, In x (pt_infixes t) -> ix_rhs x = true -> m <= ix_prio x ->
      groups m p l p1 -> matches (ix_op x) p1 p2 op -> groups (S (ix_prio x)) p2 r q -> groups m p (OInfix x l op (Some r)) q
  | gp_missing : forall m p x l p1 op q, In x (pt_infixes t) -> ix_rhs x = true -> m <= ix_prio x ->
      groups m p l p1 -> matches (ix_op x) p1 q op -> groups m p (OInfix x l op None) q.
End Pratt.

(** The operator at the top of a tree, if it has a right operand, binds at least as tightly as [n] ([>= n] for
    infixes, [> n] for prefixes, as an operand of [n] itself goes to the prefix). *)
Definition top_at_least (n : nat) (x : optree) : Prop :=
  match x with
  | OInfix y _ _ (Some _) => n <= ix_prio y
  | OPrefix y _ _ => n < px_prio y
  | _ => True
  end.

(** Left operands are never looser than the operator they belong to. *)
Inductive left_tight : optree -> Prop :=
| lt_atom : forall F, left_tight (OAtom F)
| lt_prefix : forall x op a, left_tight a -> left_tight (OPrefix x op a)
| lt_postfix : forall x l op, left_tight l -> top_at_least (ix_prio x) l -> left_tight (OPostfix x l op)
| lt_missing : forall x l op, left_tight l -> top_at_least (ix_prio x) l -> left_tight (OInfix x l op None)
| lt_infix : forall x l op r, left_tight l -> top_at_least (ix_prio x) l -> left_tight r -> left_tight (OInfix x l op (Some r)).

(** The top of a tree is not an infix (or postfix) of priority [n] or less. *)
Definition top_tighter (n : nat) (x : optree) : Prop :=
  match x with
  | OInfix y _ _ _ => n < ix_prio y
  | OPostfix y _ _ => n < ix_prio y
  | _ => True
  end.

(** Whether the operators match does not depend on which nodes came before (no <prev_is> in operators). *)
Definition memoryless (E : env) (rd : reader) (t : pratt_table) : Prop :=
  forall x, In x (pt_infixes t) -> forall p h1 h2 r1 r2 h1' h2',
    peg E rd (ix_op x) p h1 r1 h1' -> peg E rd (ix_op x) p h2 r2 h2' -> r1 = None -> r2 = None.
