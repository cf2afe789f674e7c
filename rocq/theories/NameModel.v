(** The names of the node types and the quoting of texts, as the textual form of a tree (DumpModel.v) uses them. *)
From Coq Require Import List Arith Bool String.
From Verif Require Import Base FallLang.
Import ListNotations.
Open Scope list_scope.

(** [node_type_info] of the generated code, e.g. lang/fall/syntax/src/fall.rs 119-178: the table of a language (NameData.v)
    looked up; [None] is the panic for an unknown type. *)
Fixpoint info_of (names : list (nat * (string * bool))) (t : nat) : option (bytes * bool) :=
  match names with
  | [] => None
  | (u, (s, w)) :: r => if t =? u then Some (FallLang.text_of s, w) else info_of r t
  end.
Definition name_of (names : list (nat * (string * bool))) (t : nat) : bytes :=
  match info_of names t with Some (s, _) => s | None => [] end.

(** [Debug] of [str] in the standard library (not part of the repository).  Simplification: characters outside ASCII are shown
    as they are, whereas some of them are escaped in reality. *)
Definition hex (n : nat) : nat := if n <? 10 then 48 + n else 87 + n.
Definition escaped (b : nat) : bytes :=
  if b =? 0 then [92; 48] else if b =? 9 then [92; 116] else if b =? 10 then [92; 110] else if b =? 13 then [92; 114]
  else if b =? 34 then [92; 34] else if b =? 92 then [92; 92]
  else if (b <? 16) then [92; 117; 123; hex b; 125]
  else if (b <? 32) || (b =? 127) then [92; 117; 123; hex (b / 16); hex (b mod 16); 125]
  else [b].
Definition quoted (s : bytes) : bytes := [34] ++ flat_map escaped s ++ [34].
