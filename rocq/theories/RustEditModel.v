(** Model of lang/rust/src/editor: the context actions of Rust files (actions.rs), typing a space, expanding a statement,
    breadcrumbs and the outline (mod.rs, file_symbols.rs), and of the whitespace binder of the Rust language
    (lang/rust/syntax/src/rust.rs 551-571). *)
From Coq Require Import List Arith Bool.
From Verif Require Import Base TextModel EditModel TreeModel SearchModel FileEditModel EditorModel LexModel IndexModel AnalysisModel.
Import ListNotations.

(** Node types, lang/rust/syntax/src/rust.rs 3-202 *)
Definition RS_WHITESPACE := 100.  Definition RS_LINE_COMMENT := 101.  Definition RS_LET := 108.
Definition RS_EQ := 152.  Definition RS_SEMI := 157.  Definition RS_LIFETIME := 186.  Definition RS_IDENT := 191.
Definition RS_USE_DECL := 193.  Definition RS_USE_SPEC := 194.  Definition RS_FN_DEF := 197.  Definition RS_STRUCT_DEF := 202.
Definition RS_ENUM_DEF := 205.  Definition RS_MOD_DEF := 207.  Definition RS_IMPL_DEF := 208.  Definition RS_TRAIT_DEF := 209.
Definition RS_TYPE_DEF := 211.  Definition RS_TYPE_PARAMETERS := 215.  Definition RS_TYPE_PARAMETER := 216.
Definition RS_LIFETIME_PARAMETER := 218.  Definition RS_PATH := 221.  Definition RS_PATH_SEGMENT := 223.
Definition RS_TYPE_REFERENCE := 227.  Definition RS_LET_STMT := 263.  Definition RS_EXPR_STMT := 266.

(** Strings of the sources *)
Definition add_braces_id : bytes := [65; 100; 100; 32; 98; 114; 97; 99; 101; 115].   (* Add braces *)
Definition add_impl_id : bytes := [65; 100; 100; 32; 105; 109; 112; 108].           (* Add impl *)
Definition s_impl : bytes := [105; 109; 112; 108].                                  (* impl *)
Definition s_struct : bytes := [115; 116; 114; 117; 99; 116].
Definition s_enum : bytes := [101; 110; 117; 109].
Definition s_trait : bytes := [116; 114; 97; 105; 116].
Definition s_fn : bytes := [102; 110].
Definition s_for : bytes := [32; 102; 111; 114; 32].                                (* for, in spaces *)
Definition s_eprintln : bytes := [101; 112; 114; 105; 110; 116; 108; 110; 33; 40; 34].   (* eprintln!( and a quote *)
Definition s_value : bytes := [32; 61; 32; 123; 58; 63; 125; 34; 44; 32].            (* an equals sign in spaces, {:?}, a quote, a comma and a space *)

Section RustEditor.
  Variable f : file.
  (** [file.language().node_type_info(ty).whitespace_like] *)
  Variable ws : nat -> bool.
  Notation nodes := (f_nodes f).

  (** rust.rs 983-990 [NameOwner::name] *)
  Definition rust_name (n : nat) : res (option bytes) :=
    c <- child_of_type nodes n RS_IDENT ;;
    match c with None => Ok None | Some m => s <- text_of f m ;; Ok (Some s) end.

  (** actions.rs 12-25; [use_decl.path()], [path.segment()] and [use_decl.spec()] are rust.rs 839-841, 885-890 *)
  Definition add_use_braces (offset : nat) (apply : bool) : res (option action_result) :=
    o <- ast_node_at_offset nodes (is_ty RS_USE_DECL) root offset ;;
    match o with
    | None => Ok None
    | Some use_decl =>
        p <- ast_child f (is_ty RS_PATH) use_decl ;;
        match p with
        | None => Ok None
        | Some path =>
            s <- ast_child f (is_ty RS_PATH_SEGMENT) path ;;
            match s with
            | None => Ok None
            | Some segment =>
                spec <- ast_child f (is_ty RS_USE_SPEC) use_decl ;;
                match spec with
                | Some _ => Ok None
                | None =>
                    if negb apply then Ok (Some Available)
                    else
                      t <- text_of f segment ;;
                      te <- into_text_edit f (fe_replace_with_text fe_new segment ([123] ++ t ++ [125])) ;;
                      Ok (Some (Applied te))
                end
            end
        end
    end.

  (** [add_comma] and the pieces after it, actions.rs 66-80 *)
  Fixpoint join_commas (l : list bytes) : bytes :=
    match l with
    | [] => []
    | x :: r => match r with [] => x | _ => x ++ [44; 32] ++ join_commas r end
    end.

  (** actions.rs 63-81: the names in angle brackets; [lf.lifetime()] is [child_of_type_exn], rust.rs 812-816 *)
  Definition param_names (params : nat) : res (list bytes) :=
    lfs <- ast_children f (is_ty RS_LIFETIME_PARAMETER) params ;;
    ts <- ast_children f (is_ty RS_TYPE_PARAMETER) params ;;
    a <- flat_map_res (fun lf => s <- child_text f lf RS_LIFETIME ;; Ok [s]) lfs ;;
    b <- flat_map_res (fun t => o <- rust_name t ;; s <- unwrap o ;; Ok [s]) ts ;;
    Ok (a ++ b).

  (** actions.rs 45-87; [ty] is the node type of [T] *)
  Definition add_impl_for (ty offset : nat) (apply : bool) : res (option action_result) :=
    o <- ast_node_at_offset nodes (is_ty ty) root offset ;;
    match o with
    | None => Ok None
    | Some decl =>
        nm <- rust_name decl ;;
        match nm with
        | None => Ok None
        | Some name =>
            if negb apply then Ok (Some Available)
            else
              tp <- ast_child f (is_ty RS_TYPE_PARAMETERS) decl ;;
              head <- match tp with None => Ok [] | Some params => text_of f params end ;;
              tail <- match tp with None => Ok [] | Some params => l <- param_names params ;; Ok ([60] ++ join_commas l ++ [62]) end ;;
              te <- into_text_edit f (fe_insert_text_after fe_new decl
                      ([10; 10] ++ s_impl ++ head ++ [32] ++ name ++ tail ++ [32; 123; 10; 10; 125])) ;;
              Ok (Some (Applied te))
        end
    end.

  (** actions.rs 39-43 *)
  Definition add_impl (offset : nat) (apply : bool) : res (option action_result) :=
    o <- add_impl_for RS_STRUCT_DEF offset apply ;;
    match o with Some a => Ok (Some a) | None => add_impl_for RS_ENUM_DEF offset apply end.

  (** actions.rs 7-10 *)
  Definition rust_actions : list (bytes * (nat -> bool -> res (option action_result))) :=
    [(add_braces_id, add_use_braces); (add_impl_id, add_impl)].

  (** mod.rs 140-153 *)
  Definition rust_context_actions (r : range) : res (list bytes) :=
    d <- default_context_actions f ws r ;;
    l <- filter_res (fun x : bytes * (nat -> bool -> res (option action_result)) =>
           o <- snd x (rstart r) false ;; Ok (match o with Some _ => true | None => false end)) rust_actions ;;
    Ok (d ++ map fst l).

  (** mod.rs 155-166 *)
  Definition rust_apply_context_action (r : range) (id : bytes) : res (option (list edit_op)) :=
    def <- apply_default_context_action f ws r id ;;
    match def with
    | Some result => Ok result
    | None =>
        match find_first (fun x : bytes * (nat -> bool -> res (option action_result)) => bytes_eqb (fst x) id) rust_actions with
        | None => Ok None
        | Some (_, action) =>
            o <- action (rstart r) true ;;
            match o with None => Ok None | Some a => e <- into_edit a ;; Ok (Some e) end
        end
    end.

  (** mod.rs 31-44; [offset - tu(1)] panics at the start of the file (an overflow check) *)
  Definition after_space_typed (offset : nat) : res (option bytes) :=
    o1 <- usub offset 1 ;;
    l <- find_leaf_at_offset nodes root o1 ;;
    match left_biased l with
    | None => Ok None
    | Some let_kw =>
        t <- node_ty nodes let_kw ;;
        if negb (t =? RS_LET) then Ok None
        else
          a <- ast_ancestor nodes (is_ty RS_LET_STMT) let_kw ;;
          match a with
          | None => Ok None
          | Some stmt =>
              cs <- node_children nodes stmt ;;
              done <- filter_res (fun c => ty <- node_ty nodes c ;; Ok ((ty =? RS_SEMI) || (ty =? RS_EQ))) cs ;;
              match done with
              | _ :: _ => Ok None
              | [] =>
                  r <- node_range nodes stmt ;;
                  rest <- slice_suffix (as_text (f_text f)) (rend r) ;;
                  b <- starts_with rest [59] ;;
                  Ok (if b then None else Some [59])
              end
          end
    end.

  (** mod.rs 46-63 *)
  Definition expand (offset : nat) : res (option (list edit_op)) :=
    o2 <- usub offset 2 ;;
    l <- find_leaf_at_offset nodes root o2 ;;
    match left_biased l with
    | None => Ok None
    | Some leaf =>
        a <- ast_ancestor nodes (is_ty RS_EXPR_STMT) leaf ;;
        match a with
        | None => Ok None
        | Some stmt =>
            r <- node_range nodes stmt ;;
            e3 <- usub (rend r) 3 ;;
            sr <- from_to (rstart r) e3 ;;
            s <- slice (as_text (f_text f)) sr ;;
            rr <- from_to (rstart r) offset ;;
            text <- as_str s ;;
            fe <- fe_replace_substring f fe_new rr (s_eprintln ++ text ++ s_value ++ text ++ [41; 59]) ;;
            te <- into_text_edit f fe ;;
            Ok (Some te)
        end
    end.

  (** mod.rs 72-94: the entry of a node, if it has one *)
  Definition crumb (n : nat) : res (list bytes) :=
    t <- node_ty nodes n ;;
    let decl (tag : bytes) := o <- rust_name n ;; match o with None => Ok [] | Some s => Ok [tag ++ [32] ++ s] end in
    if t =? RS_STRUCT_DEF then decl s_struct
    else if t =? RS_ENUM_DEF then decl s_enum
    else if t =? RS_TRAIT_DEF then decl s_trait
    else if t =? RS_FN_DEF then decl s_fn
    else if t =? RS_IMPL_DEF then
      trefs <- ast_children f (is_ty RS_TYPE_REFERENCE) n ;;
      match trefs with
      | [] => Ok []
      | [t1] => a <- text_of f t1 ;; Ok [s_impl ++ [32] ++ a]
      | t1 :: t2 :: _ => a <- text_of f t1 ;; b <- text_of f t2 ;; Ok [s_impl ++ [32] ++ a ++ s_for ++ b]
      end
    else Ok [].

  (** mod.rs 65-98 *)
  Definition breadcrumbs (offset : nat) : res (list bytes) :=
    o1 <- usub offset 1 ;;
    l <- find_leaf_at_offset nodes root o1 ;;
    match left_biased l with
    | None => Ok []
    | Some leaf =>
        anc <- ancestors nodes leaf ;;
        acc <- flat_map_res crumb anc ;;
        Ok (rev acc)
    end.

  (** file_symbols.rs 12-21: the definitions that are symbols *)
  Definition symbol_types : list nat := [RS_FN_DEF; RS_STRUCT_DEF; RS_ENUM_DEF; RS_TYPE_DEF; RS_TRAIT_DEF; RS_MOD_DEF].

  (** mod.rs 128-138; [FileStructureNode] without the list of children, which is always empty *)
  Definition rust_structure : res (list (bytes * range)) :=
    l <- process_symbols f symbol_types RS_IDENT ;;
    flat_map_res (fun x : bytes * nat => r <- node_range nodes (snd x) ;; Ok [(fst x, r)]) l.
End RustEditor.

(** rust.rs 551-571: the whitespace binder.  [adjacent] are the tokens next to the node, with their texts. *)
Definition rust_take (x : nat * bytes) : bool :=
  if fst x =? RS_LINE_COMMENT then true else (fst x =? RS_WHITESPACE) && negb (existsb (Nat.eqb 10) (snd x)).
Fixpoint take_while {A} (p : A -> bool) (l : list A) : list A :=
  match l with [] => [] | x :: r => if p x then x :: take_while p r else [] end.
Definition rust_binder (ty : nat) (adjacent : list (nat * bytes)) (is_leading : bool) : nat :=
  if negb is_leading then 0
  else if ty =? RS_STRUCT_DEF then length (take_while rust_take (rev adjacent))
  else 0.
