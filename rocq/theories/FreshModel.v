(** Model of the test that the generated parsers are up to date (fall/gen/tests/cli.rs). *)
From Coq Require Import List Arith Bool.
From Verif Require Import Base ToolModel HarnessModel PropModel.
Import ListNotations.
Open Scope list_scope.

Definition s_grammar_fall : bytes := [103; 114; 97; 109; 109; 97; 114; 46; 102; 97; 108; 108].

Section Fresh.
  (** [char::is_whitespace] of a character *)
  Variable space : bytes -> bool.
  (** What the generator depends on, as in ToolModel.v *)
  Variable generate : bytes -> bytes + bytes.
  Variable tests_of : bytes -> bytes.
  Variable cargo_build : option bytes -> option bytes -> option bytes -> bool.
  Variable cargo_run : option bytes -> option bytes -> option bytes -> bytes -> option bytes.
  Variable is_utf8 : bytes -> bool.
  Variables toml_text main_text : bytes.
  Variable base : bytes.

  (** cli.rs 66-73 *)
  Definition trim_all_ends (input : bytes) : bytes :=
    HarnessModel.join [10] (filter (fun line => match line with [] => false | _ => true end) (map (trim_end space) (str_lines input))).

  (** [TempDir] is removed when it is dropped, also when the test panics *)
  Definition without_dir (dir : bytes) (s : fs) : fs := fun q => if bytes_eqb (fst q) dir then None else s q.

  (** [fs::read_to_string] *)
  Definition read_to_string (s : fs) (p : path) : option bytes :=
    match s p with Some t => if is_utf8 t then Some t else None | None => None end.

  (** cli.rs 18-64.  [dir] is the new directory for temporary files.  Writing the grammar there and starting the generator succeed; what is
      printed is left out.  The generator is ToolModel.v's [process]; a panic of it or [Err] is an exit status other than success. *)
  Definition check_by_path (dir : bytes) (grammar_path : path) (should_rewrite : bool) (s : fs) : fs * res unit :=
    let generated_path := with_extension grammar_path ToolModel.s_rs in
    match read_to_string s grammar_path with
    | None => (s, Panic)
    | Some grammar_text =>
        let expected := match read_to_string s generated_path with Some t => t | None => [] end in
        let tmp_file := (dir, s_grammar_fall) in
        let (s1, status) := run (process generate tests_of cargo_build cargo_run is_utf8 toml_text main_text base (Generate tmp_file)) (ToolModel.put s tmp_file grammar_text) in
        let s2 := without_dir dir s1 in
        match status with
        | Ok (Done _) =>
            match read_to_string s1 (with_extension tmp_file ToolModel.s_rs) with
            | None => (s2, Panic)
            | Some generated =>
                let expected := trim_all_ends expected in
                let generated := trim_all_ends generated in
                if bytes_eqb expected generated then (s2, Ok tt)
                else if should_rewrite then (ToolModel.put s2 generated_path generated, Ok tt)
                else (s2, Panic)
            end
        | _ => (s2, Panic)
        end
    end.

  (** cli.rs 75-101: one grammar after the other; the first panic ends the test *)
  Fixpoint check_grammars (dir : bytes) (should_rewrite : bool) (grammars : list path) (s : fs) : fs * res unit :=
    match grammars with
    | [] => (s, Ok tt)
    | g :: rest =>
        match check_by_path dir g should_rewrite s with
        | (s1, Ok _) => check_grammars dir should_rewrite rest s1
        | (s1, r) => (s1, r)
        end
    end.

  (** cli.rs 75-101: what the variable [rewrite] of the environment asks for; the six other grammars and that of fall itself *)
  Inductive mode := Bootstrap | Parsers | Check.
  Definition test_grammars_are_fresh (dir : bytes) (m : mode) (others : list path) (fall : path) (s : fs) : fs * res unit :=
    match m with
    | Bootstrap => check_grammars dir true [fall] s
    | Parsers => check_grammars dir true others s
    | Check => check_grammars dir false (others ++ [fall]) s
    end.
End Fresh.
