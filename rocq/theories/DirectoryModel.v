(** Model of the test of a directory of sources with recorded trees (fall/tree/src/test_util.rs 69-80). *)
From Coq Require Import List Arith Bool.
From Verif Require Import Base TextModel TreeModel LexModel ConvertModel HarnessModel.
Import ListNotations.

(** [Path::file_stem] and [Path::extension] of a path that ends in the file name [name]: the name is cut at its last dot; a name
    without a dot, or with just one at its start, has no extension.  ([..] is not among the names of [read_dir].) *)
Fixpoint last_dot (name : bytes) : option (bytes * bytes) :=
  match name with
  | [] => None
  | b :: r =>
      match last_dot r with
      | Some (before, after) => Some (b :: before, after)
      | None => if b =? 46 then Some ([], r) else None
      end
  end.
Definition stem_and_extension (name : bytes) : bytes * option bytes :=
  match last_dot name with
  | None => (name, None)
  | Some ([], _) => (name, None)
  | Some (before, after) => (before, Some after)
  end.
Definition file_stem (name : bytes) : bytes := fst (stem_and_extension name).
Definition extension (name : bytes) : option bytes := snd (stem_and_extension name).

(** [Path::with_extension] with an extension that is not empty *)
Definition with_extension (name ext : bytes) : bytes := file_stem name ++ [46] ++ ext.

(** The contents of the files of the directory that can be read *)
Definition directory := bytes -> option bytes.
Definition put (d : directory) (name : bytes) (c : option bytes) : directory := fun n => if bytes_eqb n name then c else d n.

Definition s_rs : bytes := [114; 115].
Definition s_txt : bytes := [116; 120; 116].

Section Check.
  Variable space : bytes -> bool.
  Variable info : nat -> option (bytes * bool).
  Variable debug : bytes -> bytes.
  Variables (L : language) (fuel : nat).

  (** test_util.rs 71-79.  [names] are the names [read_dir] gives, in its order: it is taken to succeed.  It may list records
      that are written meanwhile, which are skipped. *)
  Fixpoint check_names (rewrite : bool) (names : list bytes) (d : directory) : res directory :=
    match names with
    | [] => Ok d
    | path :: rest =>
        let ext := match extension path with Some e => e | None => [] end in
        if negb (bytes_eqb ext s_rs) then check_names rewrite rest d
        else
          let tree := with_extension path s_txt in
          new <- check_file space info debug L fuel rewrite (d path) (d tree) ;;
          check_names rewrite rest (put d tree new)
    end.

  (** 69-80; [rewrite]: the variable [rewrite_test_data] is set *)
  Definition check_directory (rewrite : bool) (names : list bytes) (d : directory) : res directory := check_names rewrite names d.
End Check.
