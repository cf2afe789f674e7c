(** Model of lang/fall/src/editor: the context actions of grammar files (actions/), the outline (structure.rs), the test
    under the cursor (mod.rs 80-92) and highlighting (highlighting.rs).  References and the formatter are in RefModel.v and
    FormatModel.v. *)
From Coq Require Import List Arith Bool.
From Verif Require Import Base TextModel EditModel TreeModel SearchModel FileEditModel EditorModel LexModel DbModel AnalysisModel.
Import ListNotations.

(** Strings of the sources *)
Definition s_new_rule : bytes := [110; 101; 119; 95; 114; 117; 108; 101].   (* new_rule *)
Definition s_rule_head : bytes :=                                           (* two newlines, "rule new_rule {", newline, two spaces *)
  [10; 10; 114; 117; 108; 101; 32] ++ s_new_rule ++ [32; 123; 10; 32; 32].
Definition s_rule_tail : bytes := [10; 125].                                (* newline, "}" *)
Definition swap_alternatives_id : bytes :=                                  (* Swap alternatives *)
  [83; 119; 97; 112; 32; 97; 108; 116; 101; 114; 110; 97; 116; 105; 118; 101; 115].
Definition extract_rule_id : bytes := [69; 120; 116; 114; 97; 99; 116; 32; 114; 117; 108; 101].  (* Extract rule *)
Definition s_tokenizer : bytes := [116; 111; 107; 101; 110; 105; 122; 101; 114].
Definition s_ast : bytes := [97; 115; 116].

Section FallEditor.
  Variable f : file.
  (** [file.language().node_type_info(ty).whitespace_like] *)
  Variable ws : nat -> bool.
  Notation nodes := (f_nodes f).

  (** swap_alternatives.rs 19-30 *)
  Definition find_pipe (offset : nat) : res (option nat) :=
    l <- find_leaf_at_offset nodes root offset ;;
    match l with
    | LNone => Ok None
    | LSingle n => t <- node_ty nodes n ;; Ok (if t =? PIPE then Some n else None)
    | LBetween n1 n2 =>
        t1 <- node_ty nodes n1 ;;
        if t1 =? PIPE then Ok (Some n1)
        else t2 <- node_ty nodes n2 ;; Ok (if t2 =? PIPE then Some n2 else None)
    end.

  (** swap_alternatives.rs 34-40: the pairs of neighbours of [parent.alts()] *)
  Fixpoint neighbours_around (pipe : range) (alts : list nat) : res (option (nat * nat)) :=
    match alts with
    | n1 :: rest =>
        match rest with
        | n2 :: _ =>
            r1 <- node_range nodes n1 ;;
            r2 <- node_range nodes n2 ;;
            if range_ltb r1 pipe && range_ltb pipe r2 then Ok (Some (n1, n2))
            else neighbours_around pipe rest
        | [] => Ok None
        end
    | [] => Ok None
    end.

  (** swap_alternatives.rs 18-41; [println!] is left out *)
  Definition find_swappable_nodes (offset : nat) : res (option (nat * nat)) :=
    o <- find_pipe offset ;;
    match o with
    | None => Ok None
    | Some pipe =>
        p <- node_parent nodes pipe ;;
        match p with
        | None => Ok None
        | Some parent =>
            t <- node_ty nodes parent ;;
            if negb (t =? BLOCK_EXPR) then Ok None
            else
              alts <- ast_children f is_expr parent ;;
              pr <- node_range nodes pipe ;;
              neighbours_around pr alts
        end
    end.

  (** swap_alternatives.rs 6-16 *)
  Definition swap_alternatives (offset : nat) (apply : bool) : res (option action_result) :=
    o <- find_swappable_nodes offset ;;
    match o with
    | None => Ok None
    | Some (ln, rn) =>
        if negb apply then Ok (Some Available)
        else
          e1 <- fe_replace f fe_new ln rn ;;
          e2 <- fe_replace f e1 rn ln ;;
          te <- into_text_edit f e2 ;;
          Ok (Some (Applied te))
    end.

  (** extract_rule.rs 34-36 *)
  Definition is_expression (n : nat) : res bool := t <- node_ty nodes n ;; Ok (is_expr t).

  (** extract_rule.rs 38-52; [children.last()] is the last of those after the first *)
  Definition range_to_extract (parent : nat) (r : range) : res range :=
    t <- node_ty nodes parent ;;
    whole <- node_range nodes parent ;;
    if t =? SEQ_EXPR then
      cs <- node_children nodes parent ;;
      l <- filter_res (fun n => nr <- node_range nodes n ;; Ok (intersects nr r)) cs ;;
      match l with
      | first :: c :: rest =>
          let last := List.last (c :: rest) c in
          b1 <- is_expression first ;;
          b2 <- is_expression last ;;
          if b1 && b2 then
            r1 <- node_range nodes first ;;
            r2 <- node_range nodes last ;;
            from_to (rstart r1) (rend r2)
          else Ok whole
      | _ => Ok whole
      end
    else Ok whole.

  (** extract_rule.rs 7-31 *)
  Definition extract_rule (r : range) (apply : bool) : res (option action_result) :=
    if range_is_empty r then Ok None
    else
      c <- find_covering_node nodes root r ;;
      l <- ancestors nodes c ;;
      o <- find_res is_expression l ;;
      match o with
      | None => Ok None
      | Some expr =>
          t <- node_ty nodes expr ;;
          if t =? REF_EXPR then Ok None
          else if negb apply then Ok (Some Available)
          else
            a <- ast_ancestor nodes (is_ty SYN_RULE) expr ;;
            rule <- unwrap a ;;
            rg <- range_to_extract expr r ;;
            s <- slice (as_text (f_text f)) rg ;;
            b <- as_str s ;;
            e1 <- fe_replace_substring f fe_new rg s_new_rule ;;
            te <- into_text_edit f (fe_insert_text_after e1 rule (s_rule_head ++ b ++ s_rule_tail)) ;;
            Ok (Some (Applied te))
      end.

  (** actions/mod.rs 7-10 *)
  Definition fall_actions : list (bytes * (range -> bool -> res (option action_result))) :=
    [(swap_alternatives_id, fun r apply => swap_alternatives (rstart r) apply); (extract_rule_id, extract_rule)].

  (** mod.rs 50-59 *)
  Definition context_actions (r : range) : res (list bytes) :=
    d <- default_context_actions f ws r ;;
    l <- filter_res (fun x : bytes * (range -> bool -> res (option action_result)) =>
           o <- snd x r false ;; Ok (match o with Some _ => true | None => false end)) fall_actions ;;
    Ok (d ++ map fst l).

  (** mod.rs 61-68 *)
  Definition apply_context_action (r : range) (id : bytes) : res (option (list edit_op)) :=
    def <- apply_default_context_action f ws r id ;;
    match def with
    | Some result => Ok result
    | None =>
        match find_first (fun x : bytes * (range -> bool -> res (option action_result)) => bytes_eqb (fst x) id) fall_actions with
        | None => Ok None
        | Some (_, action) =>
            o <- action r true ;;
            match o with None => Ok None | Some a => e <- into_edit a ;; Ok (Some e) end
        end
    end.

  (** structure.rs 8-36; [FileStructureNode] without the list of children, which is always empty *)
  Definition structure : res (list (bytes * range)) :=
    bottom_up nodes (fun acc n =>
      t <- node_ty nodes n ;;
      if t =? SYN_RULE then
        o <- rule_name f n ;;
        match o with None => Ok acc | Some name => r <- node_range nodes n ;; Ok (acc ++ [(name, r)]) end
      else if t =? TOKENIZER_DEF then r <- node_range nodes n ;; Ok (acc ++ [(s_tokenizer, r)])
      else if t =? AST_DEF then r <- node_range nodes n ;; Ok (acc ++ [(s_ast, r)])
      else Ok acc) root [].

  (** mod.rs 80-92; [a.ast().tests()], fall.rs 223-225 *)
  Definition test_at_offset (offset : nat) : res (option nat) :=
    l <- find_leaf_at_offset nodes root offset ;;
    match right_biased l with
    | None => Ok None
    | Some leaf =>
        o <- ast_ancestor nodes (is_ty TEST_DEF) leaf ;;
        match o with
        | None => Ok None
        | Some test =>
            ts <- ast_children f (is_ty TEST_DEF) root ;;
            i <- unwrap (position (Nat.eqb test) ts) ;;
            Ok (Some i)
        end
    end.

  (** ** Highlighting *)

  (** fall/editor/src/hl.rs 8-16 *)
  Inductive hl_tag : Type := HError | HComment | HString | HKeyword | HFunction | HParameter | HBuiltin | HAttribute | HLiteral.

  (** highlighting.rs 12-18 *)
  Definition fall_hl_map : list (hl_tag * list nat) :=
    [(HComment, [101]); (HString, [HASH_STRING; SIMPLE_STRING]); (HKeyword, [106; 107; 105; 108; 102; 103; PUB; 110; 104]);
     (HParameter, [PARAMETER]); (HAttribute, [ATTRIBUTES])].

  (** What [analysis] answers *)
  Variable ask : key -> res value.

  (** highlighting.rs 60-64 *)
  Definition colorize_child (n ty : nat) (tag : hl_tag) (ctx : highlights hl_tag) : res (highlights hl_tag) :=
    c <- child_of_type nodes n ty ;;
    match c with Some m => hl nodes hl_tag m tag ctx | None => Ok ctx end.

  (** highlighting.rs 24-32 *)
  Definition hl_ref (n : nat) (ctx : highlights hl_tag) : res (highlights hl_tag) :=
    v <- ask (QRef n) ;;
    match v with
    | VRef (Some (RToken _)) => hl nodes hl_tag n HLiteral ctx
    | VRef (Some (RRule _)) => hl nodes hl_tag n HFunction ctx
    | VRef (Some (RParam _)) => hl nodes hl_tag n HParameter ctx
    | VRef None => Ok ctx
    | _ => Panic
    end.

  (** highlighting.rs 33-42; [method.selector()] panics without a selector, fall.rs 595-597 *)
  Definition hl_method (n : nat) (ctx : highlights hl_tag) : res (highlights hl_tag) :=
    v <- ask (QMethod n) ;;
    let color tag := o <- ast_child f (is_ty AST_SELECTOR) n ;; s <- unwrap o ;; colorize_child s IDENT tag ctx in
    match v with
    | VMethod (Some (NodeAccessor (CToken _) _)) => color HLiteral
    | VMethod (Some (NodeAccessor _ _)) => color HFunction
    | VMethod _ => Ok ctx
    | _ => Panic
    end.

  (** highlighting.rs 43-52 *)
  Definition hl_call (n : nat) (ctx : highlights hl_tag) : res (highlights hl_tag) :=
    v <- ask (QCall n) ;;
    match v with
    | VCall c =>
        let tag := match c with None | Some (CkRuleCall _ _) => HFunction | Some _ => HBuiltin end in
        c1 <- colorize_child n IDENT tag ctx ;;
        c2 <- colorize_child n L_ANGLE tag c1 ;;
        colorize_child n R_ANGLE tag c2
    | _ => Panic
    end.

  (** highlighting.rs 9-54: the callbacks are for different types, so at most one of them runs on a node *)
  Definition fall_highlight : res (highlights hl_tag) :=
    bottom_up nodes (fun ctx n =>
      c <- hl_visit nodes hl_tag HError ERROR fall_hl_map n ctx ;;
      t <- node_ty nodes n ;;
      if t =? LEX_RULE then colorize_child n IDENT HLiteral c
      else if (t =? SYN_RULE) || (t =? AST_NODE_DEF) || (t =? AST_TRAIT_DEF) || (t =? AST_CLASS_DEF) then colorize_child n IDENT HFunction c
      else if t =? REF_EXPR then hl_ref n c
      else if t =? METHOD_DEF then hl_method n c
      else if t =? CALL_EXPR then hl_call n c
      else Ok c) root [].
End FallEditor.
