(** What a structural edit should do to the text. *)
From Coq Require Import List Arith Bool.
From Verif Require Import Base TextModel EditModel TreeModel FileEditModel TreeSpec TextSpec.
Import ListNotations.

(** The text of the subtree [t] (node number [i], starting at offset [p] of [s]) after deleting the nodes
    in [del], replacing those in [rep] and inserting [ins] after nodes; an outer change wins over inner
    ones. *)
Fixpoint edited (del : nat -> bool) (rep ins : nat -> option bytes) (s : bytes) (t : tree) (i p : nat) : bytes :=
  if del i then []
  else match rep i with
       | Some r => r
       | None =>
           match t with
           | Leaf _ n => sub p (p + n) s
           | Node _ ts =>
               (fix go (l : list tree) (j q : nat) : bytes :=
                  match l with
                  | [] => []
                  | x :: r => edited del rep ins s x j q ++ go r (j + tsize x) (q + tlen x)
                  end) ts (S i) p
           end ++ match ins i with Some x => x | None => [] end
       end.

(** The first entry recorded for a node. *)
Fixpoint first_for (l : list (nat * bytes)) (n : nat) : option bytes :=
  match l with
  | [] => None
  | (m, t) :: r => if m =? n then Some t else first_for r n
  end.

Definition deletes (e : file_edit) (n : nat) : bool := existsb (Nat.eqb n) (fe_deleted e).

(** The text the edit asks for. *)
Definition edit_result (f : file) (T : tree) (e : file_edit) : bytes :=
  edited (deletes e) (first_for (fe_replaced e)) (first_for (fe_inserted e)) (f_text f) T 0 0.

(** Node boundaries are character boundaries (true of every parsed file, whose leaves are tokens). *)
Definition char_tree (s : bytes) (T : tree) : Prop :=
  forall i p par t, At T i p par t -> aligned s p /\ aligned s (p + tlen t).
