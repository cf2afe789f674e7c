(** Specifications for the line index, the symbol index and the file index, independent of the model's helpers. *)
From Coq Require Import List Arith Bool Sorted.
From Verif Require Import Base TextModel TextSpec TreeModel TreeSpec IndexModel EditorSpec.
Import ListNotations.

(** ** Lines *)

(** A character in UTF-8: a lead byte with its continuation bytes; ASCII bytes stand alone. *)
Definition utf8_char (c : bytes) : Prop :=
  valid_char c /\ match c with b :: _ :: _ => 128 <= b | _ => True end.

(** Offset [off] of [s] is in line [line], column [col]: the text before it consists of complete lines, [line]
    of them, and of [col] more bytes without a newline (bytes past the end of the text count as well). *)
Definition line_col (s : bytes) (off line col : nat) : Prop :=
  exists before_ last,
    firstn off s = before_ ++ last
    /\ (before_ = [] \/ exists x, before_ = x ++ [10])
    /\ ~ In 10 last
    /\ line = count_occ Nat.eq_dec before_ 10
    /\ col = off - length before_.

(** ** Subsequences *)

Inductive subseq {A} : list A -> list A -> Prop :=
| ss_nil : forall l, subseq [] l
| ss_take : forall a q l, subseq q l -> subseq (a :: q) (a :: l)
| ss_skip : forall a q l, subseq q l -> subseq q (a :: l).

(** ** Order of strings *)

Inductive lex_lt : bytes -> bytes -> Prop :=
| lex_nil : forall b l, lex_lt [] (b :: l)
| lex_here : forall a b l m, a < b -> lex_lt (a :: l) (b :: m)
| lex_there : forall a l m, lex_lt l m -> lex_lt (a :: l) (a :: m).

(** ** The symbols of a file *)

Section Symbols.
  Variable lower : bytes -> bytes.

  Definition key_of (s : symbol) : bytes := lower (sy_name s).

  (** [s] is the first symbol of [l] with its lower-cased name. *)
  Definition first_named (l : list symbol) (s : symbol) : Prop :=
    exists pre post, l = pre ++ s :: post /\ forall x, In x pre -> key_of x <> key_of s.

  (** The index of a file whose symbols, in the order in which they are found, are [l]: one entry per distinct
      lower-cased name, entries in increasing order, each leading to the first symbol with that name. *)
  Definition indexes (l : list symbol) (x : file_symbols) : Prop :=
    StronglySorted lex_lt (map fst (fs_map x))
    /\ (forall k, In k (map fst (fs_map x)) <-> exists s, In s l /\ key_of s = k)
    /\ (forall k i, In (k, i) (fs_map x) ->
          exists s, nth_error (fs_symbols x) i = Some s /\ key_of s = k /\ first_named l s).

  (** A symbol answers a query. *)
  Definition answers (types : list nat) (q : query_t) (l : list symbol) (s : symbol) : Prop :=
    first_named l s /\ subseq (q_query q) (key_of s) /\ (q_all q = true \/ In (sy_ty s) types).

  (** All the answers from one file, in the order of their names. *)
  Definition file_answers (types : list nat) (q : query_t) (l ans : list symbol) : Prop :=
    StronglySorted lex_lt (map key_of ans) /\ forall s, In s ans <-> answers types q l s.

  (** The result [r] of visiting the files (whose symbols are [lists]) in order: all the answers of the first
      [n] files; files are left out only when there are more than [limit] answers, and visiting stops as soon as
      this is so. *)
  Definition visited {P} (limit : nat) (types : list nat) (q : query_t) (lists : list (list symbol))
      (files : list (P * file_symbols)) (r : list (P * symbol)) : Prop :=
    exists n anss, n <= length files
      /\ Forall2 (file_answers types q) (firstn n lists) anss
      /\ r = concat (map (fun x => map (fun s => (fst (fst x), s)) (snd x)) (combine (firstn n files) anss))
      /\ (n < length files -> limit < length r)
      /\ (forall k, k < n -> length (concat (firstn k anss)) <= limit).
End Symbols.

(** A definition found in the tree: node [n] has one of the types [defs] and its first IDENT child spells [name]. *)
Definition defines (f : file) (T : tree) (defs : list nat) (ident n : nat) (name : bytes) : Prop :=
  exists p par t c pc parc tc,
    At T n p par t /\ In (t_ty t) defs /\ first_child (f_nodes f) T n ident c
    /\ At T c pc parc tc /\ name = sub pc (pc + tlen tc) (f_text f).

(** What a node contributes to the list of symbols. *)
Inductive node_symbols (f : file) (T : tree) (defs : list nat) (ident n : nat) : list symbol -> Prop :=
| ns_some : forall name p par t l1 c1 l2 c2,
    defines f T defs ident n name -> At T n p par t ->
    line_col (f_text f) p l1 c1 -> line_col (f_text f) (p + tlen t) l2 c2 ->
    node_symbols f T defs ident n [mkSymbol (t_ty t) name (mkRange p (p + tlen t)) ((l1, c1), (l2, c2))]
| ns_none : (forall name, ~ defines f T defs ident n name) -> node_symbols f T defs ident n [].

(** ** The file index *)

Section Indxr.
  Variable content V : Type.
  Variable mapper : content -> option V.
  Variable passes : list bytes -> bool.

  Notation fs_state := (fs_state content).

  (** The value the mapper gives for a path, looking at the file system [s]. *)
  Definition value_at (s : fs_state) (p : path) (v : V) : Prop :=
    exists c, fs_read content s p = Some c /\ mapper c = Some v.

  Definition has_value (s : fs_state) (p : path) : Prop := exists v, value_at s p v.

  (** A regular file exists at [p]; a directory exists at [p]. *)
  Definition file_at (s : fs_state) (p : path) : Prop := exists c, In (p, c) (fs_files content s).
  Definition dir_at (s : fs_state) (p : path) : Prop := In p (fs_dirs content s).

  (** [p] is [d] or lies below it. *)
  Definition inside (d p : path) : Prop := exists rest, p = d ++ rest.

  (** What a notification for [n], handled in state [s], means for the path [p]:
      the entry becomes the value of the file, *)
  Definition sets (s : fs_state) (n p : path) (v : V) : Prop :=
    passes p = true /\ value_at s p v /\ ((n = p /\ ~ dir_at s p) \/ (dir_at s n /\ inside n p)).

  (** or disappears, *)
  Definition clears (s : fs_state) (n p : path) : Prop :=
    n = p /\ ~ dir_at s p /\ (~ file_at s p \/ (passes p = true /\ ~ has_value s p)).

  (** or stays. *)
  Definition ignores (s : fs_state) (n p : path) : Prop :=
    (forall v, ~ sets s n p v) /\ ~ clears s n p.

  (** The entry for [p] after the notifications [evs], the latest one last. *)
  Inductive entry (p : path) : list (fs_state * path) -> option V -> Prop :=
  | e_start : entry p [] None
  | e_set : forall evs s n v, sets s n p v -> entry p (evs ++ [(s, n)]) (Some v)
  | e_clear : forall evs s n, clears s n p -> entry p (evs ++ [(s, n)]) None
  | e_same : forall evs s n o, ignores s n p -> entry p evs o -> entry p (evs ++ [(s, n)]) o.
End Indxr.
