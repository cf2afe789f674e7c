(** What the generated AST types do when they are used: the template in fall/gen/src/generate/mod.rs for the context of CodegenModel.v, and
    fall/tree/src/ast.rs. *)
From Coq Require Import List Arith Bool.
From Verif Require Import Base TextModel TreeModel SearchModel DbModel AnalysisModel RefModel CodegenModel.
Import ListNotations.
Open Scope list_scope.

(** A value of a generated type: a struct around a node (mod.rs 102-103), or an enum with the variant and what it holds (mod.rs 134-139). *)
Inductive ast := AStruct (type_name : bytes) (node : nat) | AEnum (enum variant : bytes) (value : ast).

(** What an accessor returns; [RMany] is the iterator, by what it yields. *)
Inductive answer := RText (t : bytes) | RNode (n : nat) | RAst (a : ast) | RNone | RSome (a : answer) | RMany (l : list ast).

Section Module.
  (** The node types and the AST of the module *)
  Variable types : list (bytes * bool).
  Variable x : ctx_ast.

  (** mod.rs 19-21: the constants are numbered from 100; the filter [upper] is taken to be [scream] (ASCII). *)
  Fixpoint const_from (i : nat) (l : list (bytes * bool)) (c : bytes) : option nat :=
    match l with
    | [] => None
    | s :: r => if bytes_eqb (scream (fst s)) c then Some i else const_from (S i) r c
    end.
  Definition const (c : bytes) : option nat := const_from 100 types c.

  (** The file the node belongs to *)
  Variable f : file.
  Notation nodes := (f_nodes f).

  (** [T::wrap(node)] for the type named [t]: mod.rs 105-112 for structs, 141-149 for enums.  A name without a type is no program
      ([Panic]); the fuel is for enums in enums. *)
  Fixpoint wrap (fuel : nat) (t : bytes) (n : nat) : res (option ast) :=
    match List.find (fun d => bytes_eqb (cn_struct d) t) (ca_nodes x) with
    | Some d =>
        k <- unwrap (const (cn_type d)) ;;
        m <- node_ty nodes n ;;
        Ok (if m =? k then Some (AStruct t n) else None)
    | None =>
        match List.find (fun d => bytes_eqb (cc_enum d) t) (ca_classes x), fuel with
        | None, _ => Panic
        | Some _, 0 => OutOfFuel
        | Some d, S fuel =>
            (fix go (vs : list (bytes * bytes)) : res (option ast) :=
               match vs with
               | [] => Ok None
               | v :: vs => o <- wrap fuel (snd v) n ;; match o with Some a => Ok (Some (AEnum t (snd v) a)) | None => go vs end
               end) (cc_variants d)
        end
    end.

  (** ast.rs 27-38 *)
  Definition ast_children_of (fuel : nat) (t : bytes) (n : nat) : res (list ast) :=
    cs <- node_children nodes n ;; filter_map_res (wrap fuel t) cs.

  (** The bodies of the methods, codegen.rs 345-407; [next()] of the iterator stops at the first child that fits, and wrapping the others
      has no effect. *)
  Definition call (fuel : nat) (b : accessor) (n : nat) : res answer :=
    match b with
    | AText false c => k <- unwrap (const c) ;; o <- child_of_type nodes n k ;; m <- unwrap o ;; t <- text_of f m ;; Ok (RText t)
    | AText true c =>
        k <- unwrap (const c) ;; o <- child_of_type nodes n k ;;
        match o with Some m => t <- text_of f m ;; Ok (RSome (RText t)) | None => Ok RNone end
    | AToken false c => k <- unwrap (const c) ;; o <- child_of_type nodes n k ;; m <- unwrap o ;; Ok (RNode m)
    | AToken true c =>
        k <- unwrap (const c) ;; o <- child_of_type nodes n k ;; Ok (match o with Some m => RSome (RNode m) | None => RNone end)
    | AChild Single t => l <- ast_children_of fuel t n ;; a <- unwrap (hd_error l) ;; Ok (RAst a)
    | AChild Optional t => l <- ast_children_of fuel t n ;; Ok (match hd_error l with Some a => RSome (RAst a) | None => RNone end)
    | AChild Many t => l <- ast_children_of fuel t n ;; Ok (RMany l)
    end.
End Module.

(** mod.rs 113 and 151-157: [node()] *)
Fixpoint node_of (a : ast) : nat := match a with AStruct _ n => n | AEnum _ _ a => node_of a end.
