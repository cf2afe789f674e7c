(** A static check of grammars. It is not part of the code under study: it states the conditions under which the
    interpreter of fall/parse/src/syn_engine neither panics nor loops (CheckProofs.v), and is run on the shipped
    grammars (GrammarData.v).

    The check takes a certificate, one record per expression. It only compares the record of an expression with the
    records of the expressions it mentions, so that it does not matter how the certificate was found. *)
From Coq Require Import List Arith Bool.
From Verif Require Import Base LexModel GrammarModel.
Import ListNotations.

(** What the first tree of a forest may be: nothing at all, a node without left-attached children, a node with some,
    or something else (a token, a cached segment). *)
Record shape : Type := mkShape { sh_none : bool; sh_fresh : bool; sh_stale : bool; sh_other : bool }.

Record info : Type := mkInfo {
  c_base : nat;         (* decreases from an expression to those it tries at the same position *)
  c_need : list nat;    (* parameters that must be bound *)
  c_left : list nat;    (* parameters it may try before consuming anything *)
  c_null : bool;        (* may succeed without consuming *)
  c_shape : shape;      (* what it may produce *)
  c_safe : bool;        (* can run as a predicate *)
  c_total : bool }.     (* never fails *)

(** [k_args]: for each parameter, the expressions ever bound to it. *)
Record cert : Type := mkCert { k_info : list info; k_args : list (list nat) }.

Definition memb (x : nat) (l : list nat) : bool := existsb (Nat.eqb x) l.
Definition inclb (a b : list nat) : bool := forallb (fun x => memb x b) a.
Definition emptyb {A : Type} (l : list A) : bool := match l with [] => true | _ => false end.

Definition sh_le (a b : shape) : bool :=
  implb (sh_none a) (sh_none b) && implb (sh_fresh a) (sh_fresh b) && implb (sh_stale a) (sh_stale b) && implb (sh_other a) (sh_other b).
Definition sh_nil : shape := mkShape true false false false.
Definition sh_node : shape := mkShape false true false false.
(** One forest after another. *)
Definition sh_then (a b : shape) : shape :=
  if sh_none a then mkShape (sh_none b) (sh_fresh a || sh_fresh b) (sh_stale a || sh_stale b) (sh_other a || sh_other b) else a.

Section Check.
  Variable g : grammar.
  Variable c : cert.

  Definition get (e : nat) : info := nth e (k_info c) (mkInfo 0 [] [] true (mkShape true true true true) false false).
  Definition bound_to (v : nat) : list nat := nth v (k_args c) [].
  Definition is_rule (e : nat) : bool := e <? length (g_rules g).
  Definition is_type (t : nat) : bool := t <? length (g_types g).

  (** [b] is evaluated inside [i]; in a predicate if [i] is. *)
  Definition inside (i : info) (b : nat) : bool :=
    is_rule b && inclb (c_need (get b)) (c_need i) && implb (c_safe i) (c_safe (get b)).
  (** [b] is a predicate inside [i]. *)
  Definition pred_inside (i : info) (b : nat) : bool :=
    is_rule b && inclb (c_need (get b)) (c_need i) && c_safe (get b).
  (** [b] may be tried where [i] starts. *)
  Definition at_left (i : info) (b : nat) : bool := (c_base (get b) <? c_base i) && inclb (c_left (get b)) (c_left i).
  (** The outcome of [i] is that of [b]. *)
  Definition like (i : info) (b : nat) : bool :=
    implb (c_null (get b)) (c_null i) && sh_le (c_shape (get b)) (c_shape i).

  Fixpoint lefts (i : info) (l : list nat) : bool :=
    match l with
    | [] => true
    | a :: r => at_left i a && (if c_null (get a) then lefts i r else true)
    end.

  Definition sh_parts (l : list nat) : shape := fold_right (fun a s => sh_then (c_shape (get a)) s) sh_nil l.
  Definition nulls (l : list nat) : bool := forallb (fun a => c_null (get a)) l.
  Definition totals (l : list nat) : bool := forallb (fun a => c_total (get a)) l.

  (** Succeeds without consuming and without producing anything, or fails. *)
  Definition is_test (i : info) : bool := c_null i && sh_none (c_shape i) && negb (c_total i).

  (** The arguments of a call, after those for the parameters [bound]. *)
  Fixpoint args_ok (i : info) (bound : list nat) (l : list (nat * nat)) : bool :=
    match l with
    | [] => true
    | (v, e) :: rest =>
        (v <? 16) && negb (memb v bound)
        && match nth_error (g_rules g) e with
           | Some (EVar w) => negb (memb w bound) && memb w (c_need i) && inclb (bound_to w) (bound_to v)
           | Some _ => memb e (bound_to v)
           | None => false
           end
        && args_ok i (v :: bound) rest
    end.

  Definition arg_of (l : list (nat * nat)) (v : nat) : option nat :=
    match find (fun a => fst a =? v) l with Some (_, e) => Some e | None => None end.

  Definition call_left (i : info) (b : nat) (l : list (nat * nat)) (v : nat) : bool :=
    match arg_of l v with
    | None => memb v (c_left i)
    | Some e => match nth_error (g_rules g) e with
                | Some (EVar w) => memb w (c_left i)
                | _ => c_base (get b) + c_base (get e) <? c_base i
                end
    end.

  Definition check_rule (i : info) (x : expr) : bool :=
    match x with
    | EPub ty b rp =>
        is_type ty && inside i b && at_left i b && implb (c_null (get b)) (c_null i) && sh_fresh (c_shape i)
        && implb (c_total i) (c_total (get b)) && implb rp (negb (c_safe i))
    | EPubReplace ty b => is_type ty && inside i b && at_left i b && like i b && implb (c_total i) (c_total (get b))
    | EOr l =>
        forallb (fun b => inside i b && at_left i b && like i b) l && implb (c_total i) (existsb (fun b => c_total (get b)) l)
    | EAnd l cm =>
        let k := match cm with Some k => k | None => length l end in
        forallb (inside i) l && lefts i l && (k <=? length l) && implb (nulls (firstn k l)) (c_null i)
        && implb (c_total i) (totals (firstn k l)) && sh_le (sh_parts l) (c_shape i)
        && forallb (fun n => sh_le (sh_then (sh_parts (firstn n l)) sh_node) (c_shape i)) (seq k (length l - k))
    | EToken ty => is_type ty && sh_other (c_shape i) && negb (c_total i)
    | EContextual ty text => is_type ty && sh_other (c_shape i) && negb (c_total i) && implb (emptyb text) (c_null i)
    | ERep b => inside i b && at_left i b && negb (c_null (get b)) && c_null i && sh_none (c_shape i) && sh_le (c_shape (get b)) (c_shape i)
    | EWithSkip f b =>
        pred_inside i f && at_left i f && inside i b && at_left i b && like i b && sh_fresh (c_shape i) && negb (c_total i)
    | EOpt b => inside i b && at_left i b && c_null i && sh_none (c_shape i) && sh_le (c_shape (get b)) (c_shape i)
    | ENot b => pred_inside i b && at_left i b && is_test i
    | EEof => is_test i
    | EAny => sh_other (c_shape i) && negb (c_total i)
    | ELayer l b =>
        pred_inside i l && at_left i l && inside i b && at_left i b && implb (c_null (get l)) (c_null i)
        && sh_le (c_shape (get b)) (c_shape i) && sh_none (c_shape i) && sh_fresh (c_shape i) && implb (c_total i) (c_total (get l))
    | EPratt t =>
        forallb (fun b => inside i b && at_left i b && like i b) (pt_atoms t)
        && forallb (fun x => is_type (px_ty x) && inside i (px_op x) && at_left i (px_op x) && negb (c_null (get (px_op x)))) (pt_prefixes t)
        && (emptyb (pt_prefixes t) || sh_fresh (c_shape i))
        && forallb (fun x => is_type (ix_ty x) && inside i (ix_op x) && at_left i (ix_op x) && negb (c_null (get (ix_op x)))) (pt_infixes t)
        && (emptyb (pt_infixes t)
            || negb (c_safe i) && sh_stale (c_shape i) && forallb (fun b => sh_le (c_shape (get b)) sh_node) (pt_atoms t))
        && implb (c_total i) (existsb (fun b => c_total (get b)) (pt_atoms t))
    | EEnter x b | EExit x b => (x <? 16) && inside i b && at_left i b && like i b && implb (c_total i) (c_total (get b))
    | EIsIn x => (x <? 16) && is_test i
    | ECall b l =>
        is_rule b && implb (c_safe i) (c_safe (get b)) && like i b && implb (c_total i) (c_total (get b))
        && args_ok i [] l && inclb (c_need (get b)) (map fst l ++ c_need i)
        && (c_base (get b) <? c_base i) && forallb (call_left i b l) (c_left (get b))
    | EVar v =>
        memb v (c_need i) && memb v (c_left i) && (0 <? c_base i)
        && forallb (fun e => like i e && implb (c_safe i) (c_safe (get e)) && implb (c_total i) (c_total (get e))) (bound_to v)
    | EPrevIs tys => forallb is_type tys && is_test i
    | EInject a b =>
        inside i a && at_left i a && inside i b && implb (c_null (get a)) (at_left i b)
        && implb (c_null (get a) && c_null (get b)) (c_null i) && negb (c_safe i)
        && sh_le (c_shape (get a)) (mkShape true true false false) && sh_le (c_shape (get b)) (mkShape false true true false)
        && sh_stale (c_shape i) && sh_le (sh_then (c_shape (get a)) (c_shape (get b))) (c_shape i)
        && implb (c_total i) (c_total (get a) && c_total (get b))
    | ECached b =>
        inside i b && at_left i b && implb (c_null (get b)) (c_null i) && sh_other (c_shape i) && implb (c_total i) (c_total (get b))
    end.

  (** Arguments are closed expressions. *)
  Definition closed_arg (e : nat) : bool := is_rule e && emptyb (c_need (get e)) && emptyb (c_left (get e)).

  (** Every expression of the grammar can be run. *)
  Definition runnable : bool :=
    (length (k_info c) =? length (g_rules g))
    && forallb (forallb closed_arg) (k_args c)
    && forallb (fun r => check_rule (fst r) (snd r)) (combine (k_info c) (g_rules g)).

  (** The start rule is a plain public rule without parameters. *)
  Definition has_start : bool :=
    match g_rules g with EPub _ _ false :: _ => emptyb (c_need (get 0)) | _ => false end.

  (** Well-formed: moreover, the start rule cannot fail. *)
  Definition well_formed : bool := runnable && has_start && c_total (get 0).
End Check.
