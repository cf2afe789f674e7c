(** The textual form of a syntax tree, in terms of the nodes of the file (AnalysisSpec.v). *)
From Coq Require Import List Arith Bool.
From Verif Require Import Base TextModel TreeModel AnalysisSpec.
Import ListNotations.

Section Dump.
  (** The names of the node types, which of them are whitespace, and how texts are quoted. *)
  Variable name : nat -> bytes.
  Variable ws : nat -> bool.
  Variable debug : bytes -> bytes.

  Section File.
    Variable f : file.
    (** The lines of the node [n] and of what is below it: a line for each node in the order of the text, with two spaces for
        each level.  Nodes without children show their text.  Whitespace is left out, unless it is [shown]. *)
    Inductive dumped (shown : bool) : nat -> nat -> bytes -> Prop :=
    | dm_space : forall level n, shown = false -> ws (ty f n) = true -> dumped shown level n []
    | dm_leaf : forall level n, shown = true \/ ws (ty f n) = false -> kids f n = [] ->
        dumped shown level n (repeat 32 (2 * level) ++ name (ty f n) ++ [32] ++ debug (str f n) ++ [10])
    | dm_node : forall level n ls, shown = true \/ ws (ty f n) = false -> kids f n <> [] ->
        Forall2 (dumped shown (S level)) (kids f n) ls ->
        dumped shown level n (repeat 32 (2 * level) ++ name (ty f n) ++ [10] ++ concat ls).
  End File.

  (** The names of the types [known] are words, different types have different names, and quoting hides line breaks and loses
      nothing. *)
  Record legible (known : nat -> Prop) : Prop := {
    lg_words : forall t b, known t -> In b (name t) -> b <> 32 /\ b <> 10;
    lg_some : forall t, known t -> name t <> [];
    lg_distinct : forall t t', known t -> known t' -> name t = name t' -> t = t';
    lg_lines : forall s, ~ In 10 (debug s);
    lg_quotes : forall s s', debug s = debug s' -> s = s'
  }.
End Dump.
