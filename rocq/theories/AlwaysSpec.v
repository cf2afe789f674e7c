(** What a rule always has, whatever the text is: the tokens before its commit point. *)
From Coq Require Import List Arith.
From Verif Require Import Base LexModel GrammarModel DeriveSpec.
Import ListNotations.

(** [e] cannot match without a token of type [k], not even with an error: the token is in a sequence, before the commit
    point if there is one, or in every alternative. *)
Inductive certain (g : grammar) : nat -> nat -> Prop :=
| ce_token : forall e ty k, grule g e (EToken ty) -> gtype g ty k -> certain g e k
| ce_contextual : forall e ty text k, grule g e (EContextual ty text) -> gtype g ty k -> certain g e k
| ce_sequence : forall e l x k, grule g e (EAnd l None) -> In x l -> certain g x k -> certain g e k
| ce_committed : forall e l c x k, grule g e (EAnd l (Some c)) -> In x (firstn c l) -> certain g x k -> certain g e k
| ce_choice : forall e l k, grule g e (EOr l) -> (forall x, In x l -> certain g x k) -> certain g e k.

(** Nodes of type [t] are made by public rules only, and each of these has a [k]. *)
Record guaranteed (g : grammar) (t k : nat) : Prop := {
  ga_rule : forall e ty b rp, grule g e (EPub ty b rp) -> gtype g ty t -> certain g b k;
  ga_replace : forall e ty b, grule g e (EPubReplace ty b) -> ~ gtype g ty t;
  ga_prefix : forall e tb x, grule g e (EPratt tb) -> In x (pt_prefixes tb) -> ~ gtype g (px_ty x) t;
  ga_infix : forall e tb x, grule g e (EPratt tb) -> In x (pt_infixes tb) -> ~ gtype g (ix_ty x) t;
  ga_error : t <> ERROR
}.
