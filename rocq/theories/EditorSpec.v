(** What the editor features should do, in terms of the tree behind the file. *)
From Coq Require Import List Arith Bool.
From Verif Require Import Base TextModel EditModel TreeModel SearchModel EditorModel TextSpec TreeSpec SearchSpec.
Import ListNotations.

(** Node [n] covers exactly the bytes of [r]. *)
Definition has_range (T : tree) (n : nat) (r : range) : Prop :=
  exists p par t, At T n p par t /\ r = mkRange p (p + tlen t).

(** [outer] contains [inner] and is not equal to it. *)
Definition contains_range (outer inner : range) : Prop := rstart outer <= rstart inner /\ rend inner <= rend outer.
Definition strictly_contains (outer inner : range) : Prop := contains_range outer inner /\ outer <> inner.

(** Asking [k] times in a row to extend the selection [r] succeeds and ends with [r']. *)
Inductive extends_to (f : file) (ws : nat -> bool) : nat -> range -> range -> Prop :=
| ext_none : forall r, extends_to f ws 0 r r
| ext_more : forall k r r1 r2, extend_selection f ws r = Ok (Some r1) -> extends_to f ws k r1 r2 ->
    extends_to f ws (S k) r r2.

(** Whitespace-like nodes (and others). *)
Definition ws_node (T : tree) (ws : nat -> bool) (n : nat) : Prop := exists ty, has_type T n ty /\ ws ty = true.
Definition solid_node (T : tree) (ws : nat -> bool) (n : nat) : Prop := exists ty, has_type T n ty /\ ws ty = false.

(** The text of a node. *)
Definition spells (f : file) (T : tree) (n : nat) (s : bytes) : Prop :=
  exists p par t, At T n p par t /\ s = sub p (p + tlen t) (f_text f).

Definition has_newline (s : bytes) : Prop := In 10 s.

(** [k] is the number of bytes of [s] before its first newline. *)
Definition first_newline (s : bytes) (k : nat) : Prop := nth_error s k = Some 10 /\ ~ has_newline (firstn k s).

(** The result for an empty selection at [off]: the leftmost solid leaf at the offset; if there is none, the
    leftmost whitespace leaf; but if the offset is in the last line of that whitespace (the indentation), the
    node covering the rest of the line after the whitespace. *)
Definition empty_result (f : file) (T : tree) (ws : nat -> bool) (off : nat) (o : option range) : Prop :=
  (length (f_text f) = 0 /\ o = None)
  \/ (exists n r, touches T off n /\ solid_node T ws n /\ (forall m, touches T off m -> solid_node T ws m -> n <= m)
        /\ has_range T n r /\ o = Some r)
  \/ (exists n r, touches T off n /\ (forall m, touches T off m -> ws_node T ws m /\ n <= m) /\ has_range T n r
        /\ ((has_newline (sub (rstart r) (rend r) (f_text f)) /\ ~ has_newline (sub off (rend r) (f_text f))
             /\ exists k c rc, first_newline (skipn (rend r) (f_text f)) k
                  /\ covers T c (mkRange (rend r) (rend r + k)) /\ has_range T c rc /\ o = Some rc
                  /\ (0 < k -> forall d, covers T d (mkRange (rend r) (rend r + k)) -> Below T d c))
            \/ ((~ has_newline (sub (rstart r) (rend r) (f_text f)) \/ has_newline (sub off (rend r) (f_text f))
                 \/ ~ has_newline (skipn (rend r) (f_text f))) /\ o = Some r))).

(** The comma the action works on: a leaf "," touching the offset, the left one if there are two. *)
Definition comma_at (f : file) (T : tree) (off comma : nat) : Prop :=
  touches T off comma /\ spells f T comma [44]
  /\ forall m, touches T off m -> spells f T m [44] -> comma <= m.

(** [l] and [r] are the nodes around child number [k] of [cs], apart from whitespace. *)
Definition around (T : tree) (ws : nat -> bool) (cs : list nat) (k l r : nat) : Prop :=
  exists i j, i < k < j /\ nth_error cs i = Some l /\ nth_error cs j = Some r
    /\ solid_node T ws l /\ solid_node T ws r
    /\ forall m x, i < m < j -> m <> k -> nth_error cs m = Some x -> ws_node T ws x.

(** The nodes the action exchanges at an offset. *)
Definition swaps (f : file) (T : tree) (ws : nat -> bool) (off comma l r : nat) : Prop :=
  comma_at f T off comma
  /\ exists par cs k, node_children (f_nodes f) par = Ok cs /\ nth_error cs k = Some comma
       /\ around T ws cs k l r /\ exists ty, has_type T l ty /\ has_type T r ty.

(** ** Highlighting *)

(** The mapping assigns [t] to the type: the first entry that lists it. *)
Definition mapped {tag} (mapping : list (tag * list nat)) (ty : nat) (t : tag) : Prop :=
  exists pre tys post, mapping = pre ++ (t, tys) :: post /\ In ty tys /\ forall e, In e pre -> ~ In ty (snd e).

(** The mark of a node according to its type. *)
Inductive own_mark {tag} (T : tree) (err : tag) (error_ty : nat) (mapping : list (tag * list nat)) (n : nat)
  : list (range * tag) -> Prop :=
| own_error : forall p par t, At T n p par t -> t_ty t = error_ty -> 0 < tlen t ->
    own_mark T err error_ty mapping n [(mkRange p (p + tlen t), err)]
| own_empty_error : forall p par t, At T n p par t -> t_ty t = error_ty -> tlen t = 0 ->
    own_mark T err error_ty mapping n [(mkRange p (p + 1), err)]
| own_tag : forall p par t g, At T n p par t -> t_ty t <> error_ty -> mapped mapping (t_ty t) g ->
    own_mark T err error_ty mapping n [(mkRange p (p + tlen t), g)]
| own_none : forall p par t, At T n p par t -> t_ty t <> error_ty -> (forall g, ~ mapped mapping (t_ty t) g) ->
    own_mark T err error_ty mapping n [].

(** The first child of [n] of a type, and so on along a path of types. *)
Definition first_child (nodes : table) (T : tree) (n ty c : nat) : Prop :=
  exists cs pre post, node_children nodes n = Ok cs /\ cs = pre ++ c :: post /\ has_type T c ty
    /\ forall x, In x pre -> ~ has_type T x ty.

Inductive path_to (nodes : table) (T : tree) : nat -> list nat -> nat -> Prop :=
| path_here : forall n, path_to nodes T n [] n
| path_step : forall n ty c rest m, first_child nodes T n ty c -> path_to nodes T c rest m ->
    path_to nodes T n (ty :: rest) m.

(** The mark a callback asks for: the range of the node at the end of the path, if there is one. *)
Definition asked_mark {tag} (nodes : table) (T : tree) (n : nat) (x : list nat * tag) (ms : list (range * tag)) : Prop :=
  (exists m r, path_to nodes T n (fst x) m /\ has_range T m r /\ ms = [(r, snd x)])
  \/ ((forall m, ~ path_to nodes T n (fst x) m) /\ ms = []).

(** The marks of the callback [cb] on a node: nothing unless it is registered for the type. *)
Definition callback_marks {tag} (nodes : table) (T : tree) (n : nat)
    (cb : list nat * (nat -> list (list nat * tag))) (ms : list (range * tag)) : Prop :=
  (exists ty mss, has_type T n ty /\ In ty (fst cb) /\ Forall2 (asked_mark nodes T n) (snd cb n) mss /\ ms = concat mss)
  \/ (exists ty, has_type T n ty /\ ~ In ty (fst cb) /\ ms = []).

(** All marks of a node: its own mark, then those of the callbacks in order. *)
Definition node_marks {tag} (nodes : table) (T : tree) (err : tag) (error_ty : nat) (mapping : list (tag * list nat))
    (callbacks : list (list nat * (nat -> list (list nat * tag)))) (n : nat) (ms : list (range * tag)) : Prop :=
  exists own mss, own_mark T err error_ty mapping n own
    /\ Forall2 (callback_marks nodes T n) callbacks mss /\ ms = own ++ concat mss.
