(** What the parser generator may leave behind, and what rendering should give. *)
From Coq Require Import List Arith Bool.
From Verif Require Import Base ToolModel.
Import ListNotations.
Open Scope list_scope.

(** The name has something before the dot, and the extension behind it. *)
Definition has_extension (name e : bytes) : Prop := exists stem, stem <> [] /\ name = stem ++ [46] ++ e.

(** The files as they can be found when the program stopped somewhere (or came to its end); a file that was being written has some first
    part of its text. *)
Inductive crash : prog -> fs -> fs -> Prop :=
| crash_here : forall c s, crash c s s
| crash_read : forall p k s s', crash (k (s p)) s s' -> crash (Read p k) s s'
| crash_write : forall p t k s s', crash k (put s p t) s' -> crash (Write p t k) s s'
| crash_inside : forall p t k s n, crash (Write p t k) s (put s p (firstn n t)).

(** Any number of runs, each of which may have stopped anywhere. *)
Inductive history (progs : prog -> Prop) : fs -> fs -> Prop :=
| hist_none : forall s, history progs s s
| hist_more : forall c s s' s'', progs c -> crash c s s' -> history progs s' s'' -> history progs s s''.

Section Expected.
  Variable generate : bytes -> bytes + bytes.
  Variable cargo_build : option bytes -> option bytes -> option bytes -> bool.
  Variable cargo_run : option bytes -> option bytes -> option bytes -> bytes -> option bytes.
  Variables toml_text main_text : bytes.
  (** What the program made of the parser of this grammar prints for these tests, if nobody interferes. *)
  Definition rendering (grammar tests : bytes) : res outcome :=
    match generate grammar with
    | inr e => Ok (Done (s_error ++ e))
    | inl parser =>
        if cargo_build (Some toml_text) (Some main_text) (Some parser) then
          match cargo_run (Some toml_text) (Some main_text) (Some parser) tests with Some o => Ok (Done o) | None => Panic end
        else Ok (Done [10; 10])
    end.
End Expected.

(** The files of the crate, as far as they exist, can be read. *)
Definition usable (is_utf8 : bytes -> bool) (base : bytes) (s : fs) : Prop :=
  forall p t, p = syntax_path base \/ p = toml_path base \/ p = main_path base -> s p = Some t -> is_utf8 t = true.

(** Turns of the threads, one after the other *)
Inductive turns : lock * list thread * fs -> lock * list thread * fs -> Prop :=
| turns_none : forall x, turns x x
| turns_more : forall x y z, turn x y -> turns y z -> turns x z.
