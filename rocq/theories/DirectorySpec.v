(** What the test of a directory should accept. *)
From Coq Require Import List Arith Bool.
From Verif Require Import Base TextModel HarnessSpec.
Import ListNotations.

(** The names of a source and of its record: [stem.rs] and [stem.txt], with something before the dot. *)
Definition source_name (stem : bytes) : bytes := stem ++ [46; 114; 115].
Definition record_name (stem : bytes) : bytes := stem ++ [46; 116; 120; 116].
Definition listed (names : list bytes) (stem : bytes) : Prop := stem <> [] /\ In (source_name stem) names.

(** Two directories with the same files. *)
Definition same_files (d e : bytes -> option bytes) : Prop := forall n, d n = e n.
