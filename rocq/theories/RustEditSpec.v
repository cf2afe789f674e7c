(** What the editor should do with Rust files, in terms of the nodes of the file (AnalysisSpec.v, FallEditSpec.v). *)
From Coq Require Import List Arith Bool.
From Verif Require Import Base TextModel TreeModel AnalysisSpec FallEditSpec RustEditModel.
Import ListNotations.

Section View.
  Variable f : file.

  (** [a] is the innermost node of type [t] around [n] ([n] itself if it has this type). *)
  Definition innermost (t n a : nat) : Prop :=
    inside f n a /\ ty f a = t /\ forall b, inside f n b -> ty f b = t -> inside f a b.

  (** The token left of the cursor, or the one the cursor is in. *)
  Definition token_left (o n : nat) : Prop := token_at f o n /\ forall m, token_at f o m -> n <= m.

  (** The node of type [t] at the cursor: the innermost around a token that touches it; the left token is preferred, if
      there is such a node around it. *)
  Definition node_here (t o a : nat) : Prop :=
    exists n, token_at f o n /\ innermost t n a /\ forall m b, token_at f o m -> innermost t m b -> n <= m.

  (** ** Add braces *)

  (** The last segment of the path of the import at the cursor, if the import has no braces or star. *)
  Definition bare_segment (o s : nat) : Prop :=
    exists u p, node_here RS_USE_DECL o u /\ kid f RS_PATH u = Some p /\ kid f RS_PATH_SEGMENT p = Some s /\ kid f RS_USE_SPEC u = None.

  Definition braced (s : nat) : bytes :=
    sub 0 (rstart (rng f s)) (f_text f) ++ [123] ++ str f s ++ [125] ++ sub (rend (rng f s)) (length (f_text f)) (f_text f).

  (** ** Add impl *)
  Definition rs_name (n : nat) : option bytes := option_map (str f) (kid f RS_IDENT n).

  (** The named struct at the cursor, or else the named enum. *)
  Definition type_here (o d : nat) (name : bytes) : Prop :=
    (node_here RS_STRUCT_DEF o d /\ rs_name d = Some name)
    \/ ((forall s, node_here RS_STRUCT_DEF o s -> rs_name s = None) /\ node_here RS_ENUM_DEF o d /\ rs_name d = Some name).

  (** Separated by commas. *)
  Inductive listing : list bytes -> bytes -> Prop :=
  | ls_none : listing [] []
  | ls_one : forall x, listing [x] x
  | ls_more : forall x y l s, listing (y :: l) s -> listing (x :: y :: l) (x ++ [44; 32] ++ s).

  (** The parameters as they are declared, and their names, lifetimes first. *)
  Inductive generics (d : nat) : bytes -> bytes -> Prop :=
  | gn_none : kid f RS_TYPE_PARAMETERS d = None -> generics d [] []
  | gn_some : forall p ls ts lnames tnames s, kid f RS_TYPE_PARAMETERS d = Some p ->
      kids_of f RS_LIFETIME_PARAMETER p = ls -> kids_of f RS_TYPE_PARAMETER p = ts ->
      Forall2 (fun l x => exists m, kid f RS_LIFETIME l = Some m /\ str f m = x) ls lnames ->
      Forall2 (fun t x => rs_name t = Some x) ts tnames ->
      listing (lnames ++ tnames) s -> generics d (str f p) ([60] ++ s ++ [62]).

  (** The text with an impl block after [d]. *)
  Definition with_impl (d : nat) (name params args : bytes) : bytes :=
    sub 0 (rend (rng f d)) (f_text f) ++ [10; 10] ++ s_impl ++ params ++ [32] ++ name ++ args ++ [32; 123; 10; 10; 125]
    ++ sub (rend (rng f d)) (length (f_text f)) (f_text f).

  (** ** Typing a space *)

  (** A space was typed after the [let] of a statement which has no equals sign and no semicolon yet. *)
  Definition let_begun (o : nat) : Prop :=
    exists n s, token_left (o - 1) n /\ ty f n = RS_LET /\ innermost RS_LET_STMT n s
      /\ (forall c, In c (kids f s) -> ty f c <> RS_SEMI /\ ty f c <> RS_EQ)
      /\ nth_error (f_text f) (rend (rng f s)) <> Some 59.

  (** ** Expanding a statement *)
  Definition stmt_here (o s : nat) : Prop := exists n, token_left (o - 2) n /\ innermost RS_EXPR_STMT n s.

  (** The statement up to the cursor is replaced by one that prints its text without the last three bytes. *)
  Definition printed (o s : nat) : bytes :=
    let e := sub (rstart (rng f s)) (rend (rng f s) - 3) (f_text f) in
    sub 0 (rstart (rng f s)) (f_text f) ++ s_eprintln ++ e ++ s_value ++ e ++ [41; 59] ++ sub o (length (f_text f)) (f_text f).

  (** ** Breadcrumbs *)
  Inductive crumb_of (n : nat) : list bytes -> Prop :=
  | cr_struct : forall s, ty f n = RS_STRUCT_DEF -> rs_name n = Some s -> crumb_of n [s_struct ++ [32] ++ s]
  | cr_enum : forall s, ty f n = RS_ENUM_DEF -> rs_name n = Some s -> crumb_of n [s_enum ++ [32] ++ s]
  | cr_trait : forall s, ty f n = RS_TRAIT_DEF -> rs_name n = Some s -> crumb_of n [s_trait ++ [32] ++ s]
  | cr_fn : forall s, ty f n = RS_FN_DEF -> rs_name n = Some s -> crumb_of n [s_fn ++ [32] ++ s]
  | cr_impl : forall a, ty f n = RS_IMPL_DEF -> kids_of f RS_TYPE_REFERENCE n = [a] -> crumb_of n [s_impl ++ [32] ++ str f a]
  | cr_impl_for : forall a b l, ty f n = RS_IMPL_DEF -> kids_of f RS_TYPE_REFERENCE n = a :: b :: l ->
      crumb_of n [s_impl ++ [32] ++ str f a ++ s_for ++ str f b]
  | cr_untyped : ty f n = RS_IMPL_DEF -> kids_of f RS_TYPE_REFERENCE n = [] -> crumb_of n []
  | cr_unnamed : In (ty f n) [RS_STRUCT_DEF; RS_ENUM_DEF; RS_TRAIT_DEF; RS_FN_DEF] -> rs_name n = None -> crumb_of n []
  | cr_other : ~ In (ty f n) [RS_STRUCT_DEF; RS_ENUM_DEF; RS_TRAIT_DEF; RS_FN_DEF; RS_IMPL_DEF] -> crumb_of n [].

  (** The nodes around [n] from the root to [n]. *)
  Inductive path_to : nat -> list nat -> Prop :=
  | pt_root : path_to 0 [0]
  | pt_down : forall p n l, path_to p l -> In n (kids f p) -> path_to n (l ++ [n]).

  (** ** The outline *)

  (** The nodes below [n], children before their parent and in order. *)
  Inductive bottom_up_list : nat -> list nat -> Prop :=
  | bl_node : forall n ls, Forall2 bottom_up_list (kids f n) ls -> bottom_up_list n (concat ls ++ [n]).
  (** Functions, structs, enums, type aliases, traits and modules with a name are in the outline. *)
  Definition symbol_entry (n : nat) : list (bytes * range) :=
    if existsb (Nat.eqb (ty f n)) [RS_FN_DEF; RS_STRUCT_DEF; RS_ENUM_DEF; RS_TYPE_DEF; RS_TRAIT_DEF; RS_MOD_DEF]
    then match rs_name n with Some s => [(s, rng f n)] | None => [] end else [].
End View.

(** ** The whitespace binder *)

(** Line comments, and whitespace on one line. *)
Definition comment_or_space (x : nat * bytes) : Prop :=
  fst x = RS_LINE_COMMENT \/ (fst x = RS_WHITESPACE /\ ~ In 10 (snd x)).
