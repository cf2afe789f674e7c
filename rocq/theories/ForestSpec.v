(** Parse forests and their event encodings. *)
From Coq Require Import List Arith Bool.
From Verif Require Import Base GrammarModel.
Import ListNotations.

(** A parse tree without whitespace. [PNode ty pre body]: the children are [pre ++ body]; the trees in [pre]
    were parsed before the parser knew about this node (left operands, injected prefixes).
    [PTok ty n]: a leaf made of [n] adjacent tokens. [PCached key body]: a marker around the trees of a cached
    rule, invisible in the final tree. *)
Inductive ptree : Type :=
| PNode (ty : nat) (pre body : list ptree)
| PTok (ty n : nat)
| PCached (key : nat) (body : list ptree).

(** The plain, properly nested reading of a forest: an opening event, the children, a closing event. *)
Fixpoint flat (t : ptree) : list event :=
  match t with
  | PNode ty pre body => EvStart ty None :: flat_map flat pre ++ flat_map flat body ++ [EvEnd]
  | PTok ty n => [EvToken ty n]
  | PCached k body => EvCached k (length (flat_map flat body)) :: flat_map flat body
  end.

Definition flats (F : list ptree) : list event := flat_map flat F.

(** The order in which the parser emits the same forest: the trees in [pre] come first, and the opening event
    of the first of them carries the distance to the opening event of its parent. [fp] is that distance for the
    tree itself, if it has a later parent. *)
Fixpoint enc (fp : option nat) (t : ptree) : list event :=
  match t with
  | PNode ty pre body =>
      (match pre with
       | [] => []
       | x :: rest =>
           let after := flat_map (enc None) rest in
           let own := match x with
                      | PNode _ _ b => S (S (length (flat_map (enc None) b)))
                      | _ => 0
                      end in
           enc (Some (own + length after)) x ++ after
       end)
      ++ EvStart ty fp :: flat_map (enc None) body ++ [EvEnd]
  | PTok ty n => [EvToken ty n]
  | PCached k body => EvCached k (length (flat_map (enc None) body)) :: flat_map (enc None) body
  end.

Definition encs (F : list ptree) : list event := flat_map (enc None) F.

(** The first tree of a list of left-attached trees is a node, everywhere. *)
Fixpoint attached (t : ptree) : Prop :=
  match t with
  | PNode _ pre body =>
      match pre with [] => True | PNode _ _ _ :: _ => True | _ => False end
      /\ (fix all l := match l with [] => True | x :: r => attached x /\ all r end) pre
      /\ (fix all l := match l with [] => True | x :: r => attached x /\ all r end) body
  | PTok _ _ => True
  | PCached _ body => (fix all l := match l with [] => True | x :: r => attached x /\ all r end) body
  end.

(** The number of tokens covered. *)
Fixpoint ntoks (t : ptree) : nat :=
  match t with
  | PNode _ pre body => sum (map ntoks pre) + sum (map ntoks body)
  | PTok _ n => n
  | PCached _ body => sum (map ntoks body)
  end.

Definition ntokss (F : list ptree) : nat := sum (map ntoks F).

(** Left to right leaves. *)
Fixpoint toks (t : ptree) : list (nat * nat) :=
  match t with
  | PNode _ pre body => flat_map toks pre ++ flat_map toks body
  | PTok ty n => [(ty, n)]
  | PCached _ body => flat_map toks body
  end.

Definition tokss (F : list ptree) : list (nat * nat) := flat_map toks F.

(** Put the forest [F] in front of the children of the innermost first node of [t]. *)
Fixpoint graft (F : list ptree) (t : ptree) : option ptree :=
  match t with
  | PNode ty [] b => Some (PNode ty F b)
  | PNode ty (x :: xs) b => match graft F x with Some x' => Some (PNode ty (x' :: xs) b) | None => None end
  | _ => None
  end.

Definition grafts (F G : list ptree) : option (list ptree) :=
  match G with
  | t :: r => match graft F t with Some t' => Some (t' :: r) | None => None end
  | [] => None
  end.
