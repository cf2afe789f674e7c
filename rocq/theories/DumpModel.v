(** Model of fall/tree/src/util.rs 4-10 and 24-50: the textual form of a syntax tree. *)
From Coq Require Import List Arith Bool.
From Verif Require Import Base TextModel TreeModel SearchModel DbModel AnalysisModel.
Import ListNotations.

Section Dump.
  (** [Language::node_type_info] of the generated code, e.g. lang/fall/syntax/src/fall.rs 122-179: the name of a node type and
      whether it is whitespace; it panics for an unknown type. *)
  Variable info : nat -> option (bytes * bool).
  (** [Debug] of [str] in the standard library *)
  Variable debug : bytes -> bytes.

  (** util.rs 34-36: two spaces per level *)
  Fixpoint indent (level : nat) : bytes := match level with 0 => [] | S l => [32; 32] ++ indent l end.

  (** util.rs 29-49 [go]; the result is what is appended to the buffer *)
  Fixpoint dump_go (fuel : nat) (nodes : table) (text : bytes) (include_whitespace : bool) (level n : nat) : res bytes :=
    match fuel with
    | 0 => OutOfFuel
    | S k =>
        t <- node_ty nodes n ;;
        i <- unwrap (info t) ;;
        if snd i && negb include_whitespace then Ok []
        else
          cs <- node_children nodes n ;;
          match cs with
          | [] =>
              r <- node_range nodes n ;;
              s <- str_index text r ;;
              Ok (indent level ++ fst i ++ [32] ++ debug s ++ [10])
          | _ =>
              rest <- flat_map_res (dump_go k nodes text include_whitespace (S level)) cs ;;
              Ok (indent level ++ fst i ++ [10] ++ rest)
          end
    end.

  (** util.rs 24-27 [dump], called by 4-6 [dump_file] and 8-10 [dump_file_ws]; the fuel is the number of nodes *)
  Definition dump (f : file) (include_whitespace : bool) : res bytes :=
    text <- as_str (as_text (f_text f)) ;;
    dump_go (length (f_nodes f)) (f_nodes f) text include_whitespace 0 root.
  Definition dump_file (f : file) : res bytes := dump f false.
  Definition dump_file_ws (f : file) : res bytes := dump f true.
End Dump.
