(** Model of the test helpers of language authors (fall/tree/src/test_util.rs) and of the rendering of the tests of a grammar
    (fall/gen/src/lib.rs [TestRenderer]). *)
From Coq Require Import List Arith Bool.
From Verif Require Import Base TextModel TreeModel SearchModel LexModel ScanModel GrammarModel ParserModel ConvertModel AnalysisModel DumpModel.
Import ListNotations.
Open Scope list_scope.

(** [str::split] with a separator that is not empty; the fuel bounds the rounds. *)
Fixpoint split_loop (fuel : nat) (sep s : bytes) : list bytes :=
  match fuel with
  | 0 => [s]
  | S fuel =>
      match find_sub sep s with
      | None => [s]
      | Some i => firstn i s :: split_loop fuel sep (skipn (i + length sep) s)
      end
  end.
Definition split (sep s : bytes) : list bytes := split_loop (length s) sep s.

(** [Vec::join] *)
Fixpoint join (sep : bytes) (l : list bytes) : bytes :=
  match l with [] => [] | x :: r => match r with [] => x | _ => x ++ sep ++ join sep r end end.

(** [str::trim]; [space] is [char::is_whitespace] *)
Fixpoint drop_while (p : bytes -> bool) (cs : list bytes) : list bytes :=
  match cs with [] => [] | c :: r => if p c then drop_while p r else cs end.
Definition trim_str (space : bytes -> bool) (s : bytes) : bytes :=
  concat (rev (drop_while space (rev (drop_while space (chars s))))).

(** test_util.rs 95: the line of forty dashes; fall/gen/src/lib.rs 113 and 148: the separator of the tests, a line of asterisks
    and hashes with the line breaks around it *)
Definition dashes : bytes := repeat 45 40.
Definition stars : bytes := [10; 42; 42; 42; 35; 35; 35; 42; 42; 42; 10].

Section Harness.
  Variable space : bytes -> bool.
  (** Names of node types and [Debug] of [str], as in DumpModel.v *)
  Variable info : nat -> option (bytes * bool).
  Variable debug : bytes -> bytes.
  Variables (L : language) (fuel : nat).

  (** test_util.rs 141-148; only whether there is a difference *)
  Definition compute_diff (expected actual : bytes) : bool := negb (bytes_eqb (trim_str space expected) (trim_str space actual)).

  (** test_util.rs 133-139 *)
  Definition report_diff (expected actual : bytes) : res unit := if compute_diff expected actual then Panic else Ok tt.

  (** [lang.parse(text)] *)
  Definition parse_text (input : bytes) : res file := x <- parse_file L fuel input ;; Ok (fst x).

  (** test_util.rs 48-52 and 54-58 *)
  Definition check_syntax (input expected_tree : bytes) : res unit :=
    f <- parse_text input ;; actual <- dump_file info debug f ;; report_diff expected_tree actual.
  Definition check_syntax_ws (input expected_tree : bytes) : res unit :=
    f <- parse_text input ;; actual <- dump_file_ws info debug f ;; report_diff expected_tree actual.

  (** test_util.rs 60-64 *)
  Definition check_equal_files (expected actual : file) : res unit :=
    e <- dump_file_ws info debug expected ;; a <- dump_file_ws info debug actual ;; report_diff e a.

  (** test_util.rs 119-129 *)
  Definition render_section (test : bytes) : res bytes :=
    f <- parse_text test ;; d <- dump_file info debug f ;; Ok (test ++ [10; 10] ++ d ++ [10] ++ dashes ++ [10]).
  Definition render_tests (tests : list bytes) : res bytes := flat_map_res render_section tests.

  (** test_util.rs 96-100 *)
  Fixpoint check_sections (l : list (bytes * bytes)) : res unit :=
    match l with
    | [] => Ok tt
    | (e, a) :: rest => _ <- (if bytes_eqb e a then Ok tt else report_diff e a) ;; check_sections rest
    end.

  (** test_util.rs 82-103.  [grammar] and [test_data] are the contents of the files, [None] if they cannot be read; the result is
      the new contents of [test_data].  Writing is taken to succeed. *)
  Definition check_inline_tests (rewrite : bool) (grammar test_data : option bytes) : res (option bytes) :=
    g <- unwrap grammar ;;
    tests <- collect_tests (trim_str space) g ;;
    expected <- render_tests tests ;;
    let actual := match test_data with Some s => s | None => [] end in
    if bytes_eqb expected actual then Ok test_data
    else if rewrite then Ok (Some expected)
    else _ <- check_sections (combine (split dashes expected) (split dashes actual)) ;; Ok test_data.

  (** test_util.rs 150-171 *)
  Definition check_file (rewrite : bool) (source tree : option bytes) : res (option bytes) :=
    s <- unwrap source ;;
    f <- parse_text s ;;
    actual <- dump_file info debug f ;;
    match rewrite, tree with
    | true, None => Ok (Some actual)
    | false, None => Panic
    | true, Some e => Ok (Some (if compute_diff e actual then actual else e))
    | false, Some e => _ <- report_diff e actual ;; Ok tree
    end.

  (** ** Rendering (fall/gen/src/lib.rs).  [L] is the language generated from the grammar, [g] the file of the grammar. *)

  (** lib.rs 110-117, the generated main program: it writes the tree of each part of its input, and two line breaks *)
  Definition rendered (test : bytes) : res bytes := f <- parse_text test ;; d <- dump_file info debug f ;; Ok (d ++ [10; 10]).
  Definition child (input : bytes) : res bytes := flat_map_res rendered (split stars input).

  Section Grammar.
    Variable g : file.
    (** lang/fall/syntax/src/ast_ext.rs 119-123; [Text::trim] (C04) has the result of [str::trim] *)
    Definition test_contents (n : nat) : res (option bytes) :=
      c <- child_of_type (f_nodes g) n HASH_STRING ;;
      match c with None => Ok None | Some m => t <- text_of g m ;; b <- lit_body t ;; Ok (Some (trim_str space b)) end.

    (** lib.rs 79-169.  Writing the generated crate, building and starting it are taken to succeed, and it prints nothing on its
        error output. *)
    Definition render_all (test : option bytes) : res bytes :=
      tests <- match test with
               | Some t => Ok t
               | None =>
                   ns <- ast_children g (is_ty TEST_DEF) root ;;
                   l <- flat_map_res (fun n => o <- test_contents n ;; Ok (match o with Some t => [t] | None => [] end)) ns ;;
                   Ok (join stars l)
               end ;;
      child tests.

    (** lib.rs 66-77.  [FallFile::wrap(file.root()).unwrap()]: the root of a grammar has that type (C53). *)
    Definition render_one (test : nat) : res bytes :=
      ns <- ast_children g (is_ty TEST_DEF) root ;;
      match nth_error ns test with
      | None => Ok []
      | Some n => o <- test_contents n ;; match o with None => Ok [] | Some t => render_all (Some t) end
      end.
  End Grammar.
End Harness.
