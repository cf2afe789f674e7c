(** Specification vocabulary for attaching whitespace to a parse tree. *)
From Coq Require Import List Arith Bool.
From Verif Require Import Base TextModel LexModel LexSpec GrammarModel TreeSpec ForestSpec.
Import ListNotations.

(** A raw token with its text. *)
Notation rtok := (token * text)%type.

Definition raw_leaf (t : rtok) : tree := Leaf (tk_ty (fst t)) (tk_len (fst t)).

Section Spec.
  Variable is_ws : nat -> bool.

  Definition white (t : rtok) : bool := is_ws (tk_ty (fst t)).

  (** [covers F ts cs]: the trees [cs] are the forest [F] with whitespace leaves inserted, and the leaves of
      [cs] use up the raw tokens [ts], each exactly once and in order: an inserted leaf is a whitespace token,
      a leaf of [F] made of [n] tokens takes the next [n]. *)
  Inductive covers : list ptree -> list rtok -> list tree -> Prop :=
  | cov_nil : covers [] [] []
  | cov_space : forall F w ts cs, white w = true -> covers F ts cs -> covers F (w :: ts) (raw_leaf w :: cs)
  | cov_tok : forall ty g F ts cs, Forall (fun t => white t = false) g -> covers F ts cs ->
      covers (PTok ty (length g) :: F) (g ++ ts) (Leaf ty (lens (map fst g)) :: cs)
  | cov_node : forall ty pre body F ts1 cs1 ts cs, covers (pre ++ body) ts1 cs1 -> covers F ts cs ->
      covers (PNode ty pre body :: F) (ts1 ++ ts) (Node ty cs1 :: cs)
  | cov_cached : forall k body F ts cs, covers (body ++ F) ts cs -> covers (PCached k body :: F) ts cs.

  (** [fits l ts]: the raw tokens are whitespace and, in between, groups of adjacent other tokens as listed. *)
  Inductive fits : list (nat * nat) -> list rtok -> Prop :=
  | fits_nil : fits [] []
  | fits_space : forall l w ts, white w = true -> fits l ts -> fits l (w :: ts)
  | fits_group : forall ty l g ts, Forall (fun t => white t = false) g -> fits l ts -> fits ((ty, length g) :: l) (g ++ ts).

  Variable binder : nat -> list (nat * text) -> bool -> res nat.

  (** The whitespace run at the front. *)
  Definition is_run (w ts : list rtok) : Prop :=
    Forall (fun t => white t = true) w
    /\ exists ts1, ts = w ++ ts1 /\ match ts1 with [] => True | t :: _ => white t = false end.

  Definition seen (w : list rtok) : list (nat * text) := map (fun t => (tk_ty (fst t), snd t)) w.

  (** [placed F ts cs rest]: where each whitespace token goes when the forest [F] is laid over the raw tokens
      [ts], leaving [rest]. Before a token of [F], all whitespace becomes a sibling of that token. Before a node,
      the binder decides how many of the whitespace tokens next to the node move into it; after a node likewise. *)
  Inductive placed : list ptree -> list rtok -> list tree -> list rtok -> Prop :=
  | pl_nil : forall ts, placed [] ts [] ts
  | pl_tok : forall ty F w g ts cs rest, is_run w (w ++ g ++ ts) -> placed F ts cs rest ->
      placed (PTok ty (length g) :: F) (w ++ g ++ ts) (map raw_leaf w ++ Leaf ty (lens (map fst g)) :: cs) rest
  | pl_node : forall ty pre body F w v ts cs1 z u ts1 cs rest,
      is_run (w ++ v) (w ++ v ++ ts) -> binder ty (seen (w ++ v)) true = Ok (length v) ->
      placed (pre ++ body) (v ++ ts) cs1 (u ++ ts1) ->
      is_run z (u ++ ts1) -> binder ty (seen z) false = Ok (length u) ->
      placed F ts1 cs rest ->
      placed (PNode ty pre body :: F) (w ++ v ++ ts) (map raw_leaf w ++ Node ty (cs1 ++ map raw_leaf u) :: cs) rest
  | pl_cached : forall k body F ts cs rest, placed (body ++ F) ts cs rest -> placed (PCached k body :: F) ts cs rest.
End Spec.

(** The tokens of a text, each with its piece of the text, from offset [off] on. *)
Fixpoint with_text (txt : bytes) (off : nat) (toks : list token) : list rtok :=
  match toks with
  | [] => []
  | t :: r => (t, mkText txt (mkRange off (off + tk_len t))) :: with_text txt (off + tk_len t) r
  end.

(** [placed_root]: as [placed], for a whole file: the root takes all leading whitespace, and of the trailing
    whitespace as much as the binder says; [rest] is lost. *)
Definition placed_root (is_ws : nat -> bool) (binder : nat -> list (nat * text) -> bool -> res nat)
  (t : ptree) (ts : list rtok) (T : tree) (rest : list rtok) : Prop :=
  exists ty pre body cs u, t = PNode ty pre body /\ T = Node ty (cs ++ map raw_leaf u)
    /\ placed is_ws binder (pre ++ body) ts cs (u ++ rest)
    /\ Forall (fun t => white is_ws t = true) (u ++ rest)
    /\ binder ty (seen (u ++ rest)) false = Ok (length u).
