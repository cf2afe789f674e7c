(** Model of fall/text/src/text_edit.rs, fall/text/src/prop.rs and the VS Code edit conversions of
    code/generic_backend/src/lib.rs. *)
From Coq Require Import List Arith Bool NArith.
From Verif Require Import Base TextModel.
Import ListNotations.

(** fall/text/src/text_edit.rs:9-13 [TextEditOp]; a [TextEdit] (4-7) is the list of its ops. *)
Inductive edit_op : Type :=
| Copy (r : range)
| Insert (t : bytes).

(** fall/text/src/text_edit.rs:17-27 [apply]; the accumulator [result] is the first argument. *)
Fixpoint apply_from (result : bytes) (ops : list edit_op) (t : text) : res bytes :=
  match ops with
  | [] => Ok result
  | Copy r :: rest =>
      s <- slice t r ;; c <- as_str s ;; apply_from (result ++ c) rest t
  | Insert i :: rest =>
      c <- as_str (as_text i) ;; apply_from (result ++ c) rest t
  end.

Definition apply (ops : list edit_op) (t : text) : res bytes := apply_from [] ops t.

(** fall/text/src/text_edit.rs:30-35 [TextEditBuilder] *)
Record edit_builder : Type := mkEB { segments : list edit_op; last_offset : nat; eb_text_len : nat }.

(** fall/text/src/text_edit.rs:38-44 *)
Definition eb_new (t : text) : res edit_builder := l <- text_len t ;; Ok (mkEB [] 0 l).

(** fall/text/src/text_edit.rs:81-85 *)
Definition copy_len (b : edit_builder) (len : nat) : res edit_builder :=
  r <- from_len (last_offset b) len ;;
  Ok (mkEB (segments b ++ [Copy r]) (last_offset b + len) (eb_text_len b)).

(** fall/text/src/text_edit.rs:76-79 *)
Definition copy_up_to (b : edit_builder) (offset : nat) : res edit_builder :=
  len <- usub offset (last_offset b) ;; copy_len b len.

(** fall/text/src/text_edit.rs:68-74 *)
Definition advance_to (b : edit_builder) (offset : nat) : res edit_builder :=
  match Nat.compare (last_offset b) offset with
  | Lt => copy_up_to b offset
  | Eq => Ok b
  | Gt => Panic
  end.

(** fall/text/src/text_edit.rs:87-89 *)
Definition insert_ (b : edit_builder) (t : bytes) : edit_builder :=
  mkEB (segments b ++ [Insert t]) (last_offset b) (eb_text_len b).

(** fall/text/src/text_edit.rs:91-93 *)
Definition delete_len (b : edit_builder) (len : nat) : edit_builder :=
  mkEB (segments b) (last_offset b + len) (eb_text_len b).

(** fall/text/src/text_edit.rs:46-50 *)
Definition eb_build (b : edit_builder) : res (list edit_op) :=
  b' <- advance_to b (eb_text_len b) ;; Ok (segments b').

(** fall/text/src/text_edit.rs:52-55 *)
Definition eb_insert (b : edit_builder) (offset : nat) (t : bytes) : res edit_builder :=
  b' <- advance_to b offset ;; Ok (insert_ b' t).

(** fall/text/src/text_edit.rs:57-60 *)
Definition eb_delete (b : edit_builder) (r : range) : res edit_builder :=
  b' <- advance_to b (rstart r) ;; l <- range_len r ;; Ok (delete_len b' l).

(** fall/text/src/text_edit.rs:62-66 *)
Definition eb_replace (b : edit_builder) (r : range) (t : bytes) : res edit_builder :=
  b' <- advance_to b (rstart r) ;;
  let b'' := insert_ b' t in
  l <- range_len r ;; Ok (delete_len b'' l).

(** A client's call on the builder (the three public methods). *)
Inductive edit_call : Type :=
| CInsert (offset : nat) (t : bytes)
| CDelete (r : range)
| CReplace (r : range) (t : bytes).

Definition run_call (b : edit_builder) (c : edit_call) : res edit_builder :=
  match c with
  | CInsert o t => eb_insert b o t
  | CDelete r => eb_delete b r
  | CReplace r t => eb_replace b r t
  end.

Fixpoint run_calls (b : edit_builder) (cs : list edit_call) : res edit_builder :=
  match cs with
  | [] => Ok b
  | c :: r => b' <- run_call b c ;; run_calls b' r
  end.

(** new; the calls; build. *)
Definition build_edit (t : text) (cs : list edit_call) : res (list edit_op) :=
  b <- eb_new t ;; b' <- run_calls b cs ;; eb_build b'.

(** code/generic_backend/src/lib.rs:188-192 [VsEdit] *)
Record vs_edit : Type := mkVs { vs_delete : range; vs_insert : bytes }.

(** code/generic_backend/src/lib.rs:194-200 *)
Definition from_vs_edits (t : text) (es : list vs_edit) : res (list edit_op) :=
  build_edit t (map (fun e => CReplace (vs_delete e) (vs_insert e)) es).

(** code/generic_backend/src/lib.rs:202-222; [offset] is the loop variable. *)
Fixpoint to_vs_from (offset : nat) (ops : list edit_op) : res (list vs_edit) :=
  match ops with
  | [] => Ok []
  | Copy r :: rest =>
      if negb (rstart r =? offset) then
        d <- from_to offset (rstart r) ;;
        es <- to_vs_from (rend r) rest ;;
        Ok (mkVs d [] :: es)
      else to_vs_from (rend r) rest
  | Insert t :: rest =>
      d <- from_len offset 0 ;;
      es <- to_vs_from offset rest ;;
      Ok (mkVs d t :: es)
  end.

Definition to_vs_edits (ops : list edit_op) : res (list vs_edit) := to_vs_from 0 ops.

(** fall/text/src/prop.rs:74-80 [scale] on u32/u64 values *)
Definition u32_max : N := 4294967295%N.

Definition scale (x target_len : N) : N := (x * target_len / u32_max)%N.

(** fall/text/src/prop.rs:58-65 [range] *)
Definition prop_range (a b : N) : N * N := if (a <? b)%N then (a, b) else (b, a).
