(** What the formatter should do, as a function on trees whose leaves carry their text. *)
From Coq Require Import List Arith Bool.
From Verif Require Import Base TextModel TreeModel TreeSpec TextSpec FormatModel.
Import ListNotations.

Inductive ltree : Type := LLeaf (ty : nat) (s : bytes) | LNode (ty : nat) (cs : list ltree).
Definition l_ty (t : ltree) : nat := match t with LLeaf ty _ => ty | LNode ty _ => ty end.

Fixpoint ltext (t : ltree) : bytes :=
  match t with LLeaf _ s => s | LNode _ cs => flat_map ltext cs end.

(** The leaves with their texts, from left to right. *)
Fixpoint lleaves (t : ltree) : list (nat * bytes) :=
  match t with LLeaf ty s => [(ty, s)] | LNode _ cs => flat_map lleaves cs end.

(** The tree [t] of a text [s], starting at offset [p]. *)
Fixpoint label (s : bytes) (t : tree) (p : nat) : ltree :=
  match t with
  | Leaf ty n => LLeaf ty (sub p (p + n) s)
  | Node ty ts =>
      LNode ty ((fix go (l : list tree) (q : nat) : list ltree :=
                   match l with
                   | [] => []
                   | x :: r => label s x q :: go r (q + tlen x)
                   end) ts p)
  end.

Definition has_newline (t : ltree) : bool := existsb (Nat.eqb 10) (ltext t).
Definition is_blank (t : ltree) : bool := l_ty t =? F_WHITESPACE.
Definition is_of (ty : nat) (o : option ltree) : bool := match o with Some t => l_ty t =? ty | None => false end.

(** Whitespace just inside angle brackets goes. *)
Definition goes (prev : option ltree) (c : ltree) (next : option ltree) : bool :=
  is_blank c && negb (has_newline c) && (is_of L_ANGLE prev || is_of R_ANGLE next).
(** Whitespace beside a pipe becomes one space. *)
Definition becomes_space (prev : option ltree) (c : ltree) (next : option ltree) : bool :=
  is_blank c && negb (has_newline c) && negb (length (ltext c) =? 1) && (is_of PIPE prev || is_of PIPE next).
(** Between a pipe and something else without a newline in it comes a space. *)
Definition needs_space (c : ltree) (next : option ltree) : bool :=
  match next with
  | None => false
  | Some d => (l_ty c =? PIPE) && negb (is_blank d) && negb (has_newline d)
              || (l_ty d =? PIPE) && negb (is_blank c) && negb (has_newline c)
  end.

Definition one_space : ltree := LLeaf F_WHITESPACE [32].

Fixpoint formatted (t : ltree) : ltree :=
  match t with
  | LLeaf ty s => LLeaf ty s
  | LNode ty cs =>
      LNode ty ((fix go (prev : option ltree) (l : list ltree) : list ltree :=
                   match l with
                   | [] => []
                   | c :: r =>
                       let next := hd_error r in
                       (if goes prev c next then []
                        else if becomes_space prev c next then [one_space]
                        else formatted c :: if needs_space c next then [one_space] else [])
                       ++ go (Some c) r
                   end) None cs)
  end.

(** Every whitespace node is a token (a leaf). *)
Inductive ws_leaves : ltree -> Prop :=
| WL_leaf : forall ty s, ws_leaves (LLeaf ty s)
| WL_node : forall ty cs, ty <> F_WHITESPACE -> Forall ws_leaves cs -> ws_leaves (LNode ty cs).

(** What formatting must keep: tokens that are not whitespace, and whitespace with a line break in it. *)
Definition solid (l : nat * bytes) : bool := negb (fst l =? F_WHITESPACE) || existsb (Nat.eqb 10) (snd l).

(** Two neighbouring siblings, or two with only a piece of whitespace between them, for which the rules pull in opposite directions:
    a pipe directly inside an angle bracket. *)
Definition clash (a b : ltree) : Prop := (l_ty a = L_ANGLE /\ l_ty b = PIPE) \/ (l_ty a = PIPE /\ l_ty b = R_ANGLE).

(** No clash anywhere, and no two whitespace siblings in a row. *)
Inductive calm : ltree -> Prop :=
| Calm_leaf : forall ty s, calm (LLeaf ty s)
| Calm_node : forall ty cs, Forall calm cs ->
    (forall pre a b post, cs = pre ++ a :: b :: post -> ~ (is_blank a = true /\ is_blank b = true)) ->
    (forall pre a b post, cs = pre ++ a :: b :: post -> ~ clash a b) ->
    (forall pre a w b post, cs = pre ++ a :: w :: b :: post -> is_blank w = true -> ~ clash a b) ->
    calm (LNode ty cs).

(** The spacing a formatted file has: between neighbouring siblings [a] and [b] that have no line break in the way,
    nothing follows "<" or precedes ">", and exactly one space separates a pipe from what is beside it. *)
Definition soft (t : ltree) : bool := is_blank t && negb (has_newline t).
Record spaced (a b : ltree) : Prop := mkSpaced {
  sp_open : l_ty a = L_ANGLE -> soft b = false;
  sp_close : l_ty b = R_ANGLE -> soft a = false;
  sp_after : l_ty a = PIPE -> has_newline b = false -> is_blank b = true /\ length (ltext b) = 1;
  sp_before : l_ty b = PIPE -> has_newline a = false -> is_blank a = true /\ length (ltext a) = 1;
}.
Inductive well_spaced : ltree -> Prop :=
| WS_leaf : forall ty s, well_spaced (LLeaf ty s)
| WS_node : forall ty cs, Forall well_spaced cs ->
    (forall pre a b post, cs = pre ++ a :: b :: post -> spaced a b) ->
    well_spaced (LNode ty cs).
