(** Model of lang/fall/src/editor/references: go to definition and find usages. *)
From Coq Require Import List Arith Bool.
From Verif Require Import Base TextModel TreeModel SearchModel DbModel AnalysisModel.
Import ListNotations.

(** [iter().filter_map(g).next()] where [g] may panic *)
Fixpoint first_res {A B} (g : A -> res (option B)) (l : list A) : res (option B) :=
  match l with
  | [] => Ok None
  | a :: r => o <- g a ;; match o with Some b => Ok (Some b) | None => first_res g r end
  end.

(** [iter().filter_map(g).collect()] where [g] may panic *)
Fixpoint filter_map_res {A B} (g : A -> res (option B)) (l : list A) : res (list B) :=
  match l with
  | [] => Ok []
  | a :: r => o <- g a ;; t <- filter_map_res g r ;; Ok (match o with Some b => b :: t | None => t end)
  end.

(** refdec.rs 5-24 *)
Record declaration := mkDecl { dc_node : nat; dc_ident : option nat }.

(** refdec.rs 26-39; the function pointer [resolve] is one of three, mod.rs 35-46, 50-62, 69-75 *)
Inductive resolver := ByReference | ByMethod | ByCall.
Record reference := mkRef { rf_node : nat; rf_resolve : resolver }.

Section References.
  Variable f : file.
  (** What [analysis] answers *)
  Variable ask : key -> res value.
  (** [file.language().node_type_info(ty).whitespace_like] *)
  Variable ws : nat -> bool.
  Notation nodes := (f_nodes f).

  (** mod.rs 91-119, the conversions into [Declaration] *)
  Definition decl_rule (n : nat) : res declaration := i <- rule_name_ident f n ;; Ok (mkDecl n i).
  Definition decl_plain (n : nat) : res declaration := Ok (mkDecl n None).
  Definition decl_named (n : nat) : res declaration :=
    o <- child_of_type nodes n IDENT ;; i <- unwrap o ;; Ok (mkDecl n (Some i)).

  (** refdec.rs 21-23 *)
  Definition navigation_range (d : declaration) : res range :=
    node_range nodes (match dc_ident d with Some i => i | None => dc_node d end).

  (** mod.rs 33-46 *)
  Definition resolve_by_reference (n : nat) : res (option declaration) :=
    v <- ask (QRef n) ;;
    match v with
    | VRef None => Ok None
    | VRef (Some (RRule r)) => d <- decl_rule r ;; Ok (Some d)
    | VRef (Some (RParam p)) => d <- decl_plain p ;; Ok (Some d)
    | VRef (Some (RToken t)) => d <- decl_plain t ;; Ok (Some d)
    | _ => Panic
    end.

  (** mod.rs 49-62 *)
  Definition resolve_by_method (n : nat) : res (option declaration) :=
    o <- ast_ancestor nodes (is_ty METHOD_DEF) n ;;
    m <- unwrap o ;;
    v <- ask (QMethod m) ;;
    match v with
    | VMethod (Some (NodeAccessor (CAstNode x) _)) => d <- decl_named x ;; Ok (Some d)
    | VMethod (Some (NodeAccessor (CAstClass x) _)) => d <- decl_named x ;; Ok (Some d)
    | VMethod (Some (NodeAccessor (CToken x) _)) => d <- decl_plain x ;; Ok (Some d)
    | VMethod _ => Ok None
    | _ => Panic
    end.

  (** mod.rs 68-75 *)
  Definition resolve_by_call (n : nat) : res (option declaration) :=
    o <- node_parent nodes n ;;
    c <- unwrap o ;;
    t <- node_ty nodes c ;;
    guard (is_ty CALL_EXPR t)
      (v <- ask (QCall c) ;;
       match v with
       | VCall (Some (CkRuleCall r _)) => d <- decl_rule r ;; Ok (Some d)
       | _ => Panic
       end).

  (** refdec.rs 36-38 *)
  Definition resolve (r : reference) : res (option declaration) :=
    match rf_resolve r with
    | ByReference => resolve_by_reference (rf_node r)
    | ByMethod => resolve_by_method (rf_node r)
    | ByCall => resolve_by_call (rf_node r)
    end.

  (** mod.rs 28-80 *)
  Definition ref_provider (n : nat) : res (option reference) :=
    t <- node_ty nodes n ;;
    if t =? REF_EXPR then Ok (Some (mkRef n ByReference))
    else if t =? METHOD_DEF then
      o <- ast_child f (is_ty AST_SELECTOR) n ;; s <- unwrap o ;; Ok (Some (mkRef s ByMethod))
    else if t =? IDENT then
      o <- node_parent nodes n ;;
      match o with
      | None => Ok None
      | Some p =>
          pt <- node_ty nodes p ;;
          if pt =? CALL_EXPR then
            v <- ask (QCall p) ;;
            match v with
            | VCall (Some (CkRuleCall _ _)) => Ok (Some (mkRef n ByCall))
            | VCall _ => Ok None
            | _ => Panic
            end
          else Ok None
      end
    else Ok None.

  (** mod.rs 82-90 *)
  Definition def_provider (n : nat) : res (option declaration) :=
    t <- node_ty nodes n ;;
    if t =? SYN_RULE then d <- decl_rule n ;; Ok (Some d)
    else if (t =? LEX_RULE) || (t =? PARAMETER) then d <- decl_plain n ;; Ok (Some d)
    else if (t =? AST_NODE_DEF) || (t =? AST_CLASS_DEF) then d <- decl_named n ;; Ok (Some d)
    else Ok None.

  (** refdec.rs 83-92 *)
  Definition non_ws_node_at_offset (offset : nat) : res (option nat) :=
    leaves <- find_leaf_at_offset nodes root offset ;;
    match left_biased leaves with
    | Some leaf => t <- node_ty nodes leaf ;; if ws t then Ok (right_biased leaves) else Ok (Some leaf)
    | None => Ok None
    end.

  (** refdec.rs 94-105 *)
  Definition try_find_at_offset {A} (offset : nat) (g : nat -> res (option A)) : res (option A) :=
    o <- non_ws_node_at_offset offset ;;
    match o with
    | None => Ok None
    | Some n => l <- ancestors nodes n ;; first_res g l
    end.

  (** refdec.rs 44-55 and mod.rs 12-18 *)
  Definition resolve_reference (offset : nat) : res (option range) :=
    o <- try_find_at_offset offset ref_provider ;;
    match o with
    | None => Ok None
    | Some r =>
        d <- resolve r ;;
        match d with None => Ok None | Some d => rg <- navigation_range d ;; Ok (Some rg) end
    end.

  (** [Declaration]'s derived equality: nodes are equal when they are the same node *)
  Definition decl_eqb (a b : declaration) : bool :=
    (dc_node a =? dc_node b) &&
    match dc_ident a, dc_ident b with
    | Some i, Some j => i =? j
    | None, None => true
    | _, _ => false
    end.

  (** The closure of refdec.rs 64-70 *)
  Definition declaration_of (offset n : nat) : res (option declaration) :=
    o <- def_provider n ;;
    o' <- match o with
          | Some d => rg <- navigation_range d ;; Ok (if contains_offset_nonstrict rg offset then Some d else None)
          | None => Ok None
          end ;;
    match o' with
    | Some d => Ok (Some d)
    | None => r <- ref_provider n ;; match r with Some r => resolve r | None => Ok None end
    end.

  (** refdec.rs 76-80, one node *)
  Definition usage_of (d : declaration) (n : nat) : res (option range) :=
    o <- ref_provider n ;;
    match o with
    | None => Ok None
    | Some r =>
        t <- resolve r ;;
        if match t with Some t => decl_eqb t d | None => false end
        then rg <- node_range nodes (rf_node r) ;; Ok (Some rg)
        else Ok None
    end.

  (** refdec.rs 57-81 and mod.rs 20-27 *)
  Definition find_usages (offset : nat) : res (list range) :=
    o <- try_find_at_offset offset (declaration_of offset) ;;
    match o with
    | None => Ok []
    | Some d => l <- subtree nodes root ;; filter_map_res (usage_of d) l
    end.
End References.

(** What a caller of the analysis gets when nobody else uses it: the query's program is run, asking for what it
    needs; db.rs 105-126 without the cache.  Queries ask at most [fuel] deep. *)
Fixpoint run_prog (ev : key -> res value) (p : prog key value diagnostic) : res value :=
  match p with
  | Ret v _ => Ok v
  | Ask k c => v <- ev k ;; run_prog ev (c v)
  | Fail => Panic
  end.

Fixpoint direct (fuel : nat) (f : file) (k : key) : res value :=
  match fuel with
  | 0 => OutOfFuel
  | S fuel => run_prog (direct fuel f) (fall_exec f k)
  end.
