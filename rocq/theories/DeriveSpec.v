(** The grammar read as a description of trees: which trees, without whitespace, an expression stands for.  The order of
    alternatives, predicates and contexts play no part here; that is [PegSpec]. *)
From Coq Require Import List Arith Bool.
From Verif Require Import Base LexModel GrammarModel TreeSpec.
Import ListNotations.

(** A tree without whitespace; the types are all that counts. *)
Inductive dtree : Type :=
| DLeaf (ty : nat)
| DNode (ty : nat) (cs : list dtree).

(** A syntax tree without its whitespace-like leaves. *)
Fixpoint bare (is_ws : nat -> bool) (t : tree) : list dtree :=
  match t with
  | Leaf ty _ => if is_ws ty then [] else [DLeaf ty]
  | Node ty cs => [DNode ty (flat_map (bare is_ws) cs)]
  end.

(** No error anywhere. *)
Inductive clean : dtree -> Prop :=
| cl_leaf : forall ty, ty <> ERROR -> clean (DLeaf ty)
| cl_node : forall ty cs, ty <> ERROR -> Forall clean cs -> clean (DNode ty cs).
(** No leaf anywhere. *)
Inductive leafless : dtree -> Prop :=
| ll_node : forall ty cs, Forall leafless cs -> leafless (DNode ty cs).

(** [F] is put before the children of the first node of [t], or of the first node of that, and so on. *)
Inductive grafted (F : list dtree) : dtree -> dtree -> Prop :=
| gf_here : forall ty cs, grafted F (DNode ty cs) (DNode ty (F ++ cs))
| gf_deeper : forall ty x y cs, grafted F x y -> grafted F (DNode ty (x :: cs)) (DNode ty (y :: cs)).

Section Derives.
  Variable g : grammar.
  Definition grule (e : nat) (x : expr) : Prop := nth_error (g_rules g) e = Some x.
  Definition gtype (i t : nat) : Prop := nth_error (g_types g) i = Some t.

  (** Arguments of a call, bound one after the other; an argument that is itself a parameter is looked up. *)
  Inductive gbinds : list (nat * nat) -> list (option nat) -> list (option nat) -> Prop :=
  | gb_nil : forall a, gbinds [] a a
  | gb_expr : forall i e rest a b x, grule e x -> (forall j, x <> EVar j) -> gbinds rest (set_nth i (Some e) a) b -> gbinds ((i, e) :: rest) a b
  | gb_var : forall i e rest a b j v, grule e (EVar j) -> nth_error a j = Some (Some v) ->
      gbinds rest (set_nth i (Some v) a) b -> gbinds ((i, e) :: rest) a b.

  (** An error node made of skipped tokens, or nothing. *)
  Definition skipped (F : list dtree) : Prop := F = [] \/ exists tys, F = [DNode ERROR (map DLeaf tys)].
  (** Nothing, if errors are not allowed. *)
  Definition allowed (strict : bool) (F : list dtree) : Prop := strict = true -> F = [].

  (** [derives strict a e F]: with the parameters [a], expression [e] stands for the forest [F].  Unless [strict], there
      may be errors: after the committed part of a sequence, before what is skipped to, at the end of a layer and in
      place of a right operand. *)
  Inductive derives (strict : bool) : list (option nat) -> nat -> list dtree -> Prop :=
  | d_pub : forall a e ty t body rp F, grule e (EPub ty body rp) -> gtype ty t -> derives strict a body F -> derives strict a e [DNode t F]
  | d_pub_replaced : forall a e ty body ty' body' e' t F, grule e (EPub ty body true) -> grule e' (EPubReplace ty' body') -> gtype ty' t ->
      derives strict a body F -> derives strict a e [DNode t F]
  | d_replace : forall a e ty body F, grule e (EPubReplace ty body) -> derives strict a body F -> derives strict a e F
  | d_or : forall a e l x F, grule e (EOr l) -> In x l -> derives strict a x F -> derives strict a e F
  | d_and : forall a e l c F, grule e (EAnd l c) -> sequence strict a l F -> derives strict a e F
  | d_committed : forall a e l c n F, strict = false -> grule e (EAnd l (Some c)) -> c <= n -> n < length l ->
      sequence strict a (firstn n l) F -> derives strict a e (F ++ [DNode ERROR []])
  | d_token : forall a e ty t, grule e (EToken ty) -> gtype ty t -> derives strict a e [DLeaf t]
  | d_contextual : forall a e ty text t, grule e (EContextual ty text) -> gtype ty t -> derives strict a e [DLeaf t]
  | d_any : forall a e t, grule e EAny -> derives strict a e [DLeaf t]
  | d_eof : forall a e, grule e EEof -> derives strict a e []
  | d_not : forall a e b, grule e (ENot b) -> derives strict a e []
  | d_is_in : forall a e c, grule e (EIsIn c) -> derives strict a e []
  | d_prev_is : forall a e l, grule e (EPrevIs l) -> derives strict a e []
  | d_opt : forall a e b F, grule e (EOpt b) -> derives strict a b F -> derives strict a e F
  | d_opt_none : forall a e b, grule e (EOpt b) -> derives strict a e []
  | d_rep : forall a e b F, grule e (ERep b) -> repeated strict a b F -> derives strict a e F
  | d_skip : forall a e f b S F, grule e (EWithSkip f b) -> allowed strict S -> skipped S -> derives strict a b F -> derives strict a e (S ++ F)
  | d_layer : forall a e l b F S, grule e (ELayer l b) -> derives strict a b F -> allowed strict S -> skipped S -> derives strict a e (F ++ S)
  (** the body need not match if the cover is empty *)
  | d_layer_empty : forall a e l b G, grule e (ELayer l b) -> derives false a l G -> Forall leafless G -> derives strict a e []
  | d_layer_skipped : forall a e l b tys, strict = false -> grule e (ELayer l b) -> derives strict a e [DNode ERROR (map DLeaf tys)]
  | d_enter : forall a e c b F, grule e (EEnter c b) -> derives strict a b F -> derives strict a e F
  | d_exit : forall a e c b F, grule e (EExit c b) -> derives strict a b F -> derives strict a e F
  | d_call : forall a e b l a' F, grule e (ECall b l) -> gbinds l a a' -> derives strict a' b F -> derives strict a e F
  | d_var : forall a e i x F, grule e (EVar i) -> nth_error a i = Some (Some x) -> derives strict a x F -> derives strict a e F
  | d_inject : forall a e x y F t t' G, grule e (EInject x y) -> derives strict a x F -> derives strict a y (t :: G) ->
      grafted F t t' -> derives strict a e (t' :: G)
  | d_inject_empty : forall a e x y F G, grule e (EInject x y) -> derives strict a x F -> derives strict a y G -> derives strict a e (F ++ G)
  | d_cached : forall a e b F, grule e (ECached b) -> derives strict a b F -> derives strict a e F
  | d_pratt : forall a e t F, grule e (EPratt t) -> operand strict a t F -> derives strict a e F

  with sequence (strict : bool) : list (option nat) -> list nat -> list dtree -> Prop :=
  | s_nil : forall a, sequence strict a [] []
  | s_cons : forall a x l F G, derives strict a x F -> sequence strict a l G -> sequence strict a (x :: l) (F ++ G)

  with repeated (strict : bool) : list (option nat) -> nat -> list dtree -> Prop :=
  | m_nil : forall a b, repeated strict a b []
  | m_cons : forall a b F G, derives strict a b F -> repeated strict a b G -> repeated strict a b (F ++ G)

  (** An operand: an atom, or operators applied to operands.  Precedence is C25. *)
  with operand (strict : bool) : list (option nat) -> pratt_table -> list dtree -> Prop :=
  | o_atom : forall a t x F, In x (pt_atoms t) -> derives strict a x F -> operand strict a t F
  | o_prefix : forall a t x ty F G, In x (pt_prefixes t) -> gtype (px_ty x) ty -> derives strict a (px_op x) F -> operand strict a t G ->
      operand strict a t [DNode ty (F ++ G)]
  | o_postfix : forall a t x ty L F, In x (pt_infixes t) -> ix_rhs x = false -> gtype (ix_ty x) ty -> operand strict a t L ->
      derives strict a (ix_op x) F -> operand strict a t [DNode ty (L ++ F)]
  | o_binary : forall a t x ty L F G, In x (pt_infixes t) -> ix_rhs x = true -> gtype (ix_ty x) ty -> operand strict a t L ->
      derives strict a (ix_op x) F -> operand strict a t G -> operand strict a t [DNode ty (L ++ F ++ G)]
  | o_no_rhs : forall a t x ty L F, strict = false -> In x (pt_infixes t) -> ix_rhs x = true -> gtype (ix_ty x) ty -> operand strict a t L ->
      derives strict a (ix_op x) F -> operand strict a t [DNode ty (L ++ F ++ [DNode ERROR []])].

  (** No parameter is bound at the start. *)
  Definition no_args : list (option nat) := repeat None 16.
  (** A whole tree: what the start rule stands for; unless [strict], what is left over of the text may follow in an error
      node. *)
  Inductive derivation (strict : bool) : dtree -> Prop :=
  | dv_start : forall t, derives strict no_args 0 [t] -> derivation strict t
  | dv_rest : forall ty cs tys, strict = false -> derives strict no_args 0 [DNode ty cs] -> derivation strict (DNode ty (cs ++ [DNode ERROR (map DLeaf tys)])).

  (** Contextual tokens have a text, and a type that is not whitespace. *)
  Definition proper_spellings (is_ws : nat -> bool) : Prop :=
    forall e ty text, grule e (EContextual ty text) -> text <> [] /\ forall t, gtype ty t -> is_ws t = false.
End Derives.
