(** Model of fall/editor/src: extend_selection.rs, actions.rs, hl.rs. *)
From Coq Require Import List Arith Bool.
From Verif Require Import Base TextModel EditModel TreeModel SearchModel FileEditModel.
Import ListNotations.

Section Editor.
  Variable f : file.
  (** [lang.node_type_info(ty).whitespace_like] *)
  Variable ws_like : nat -> bool.

  (** extend_selection.rs:7, actions.rs:100 *)
  Definition is_ws (n : nat) : res bool := ty <- node_ty (f_nodes f) n ;; Ok (ws_like ty).

  (** "\n" *)
  Definition newline : bytes := [10].

  (** extend_selection.rs:8-29, the case of an empty selection *)
  Definition extend_empty (offset : nat) : res (option range) :=
    leaves <- find_leaf_at_offset (f_nodes f) root offset ;;
    non_ws <- filter_res (fun n => b <- is_ws n ;; Ok (negb b)) (leaves_list leaves) ;;
    match non_ws with
    | leaf :: _ => r <- node_range (f_nodes f) leaf ;; Ok (Some r)
    | [] =>
        match leaves_list leaves with
        | [] => Ok None
        | ws :: _ =>
            wr <- node_range (f_nodes f) ws ;;
            sr <- from_to offset (rend wr) ;;
            ws_suffix <- slice (as_text (f_text f)) sr ;;
            wt <- node_text f ws ;;
            has_nl <- contains wt newline ;;
            suffix_nl <- (if has_nl then contains ws_suffix newline else Ok true) ;;
            if has_nl && negb suffix_nl then
              rest <- slice_suffix (as_text (f_text f)) (rend wr) ;;
              line_end <- find rest newline ;;
              match line_end with
              | Some k =>
                  lr <- from_len (rend wr) k ;;
                  n <- find_covering_node (f_nodes f) root lr ;;
                  r <- node_range (f_nodes f) n ;;
                  Ok (Some r)
              | None => Ok (Some wr)
              end
            else Ok (Some wr)
        end
    end.

  (** [iter.skip_while(|n| n.range() == range).next()], extend_selection.rs:32 *)
  Fixpoint first_other_range (l : list nat) (r : range) : res (option nat) :=
    match l with
    | [] => Ok None
    | n :: l' => nr <- node_range (f_nodes f) n ;; if range_eqb nr r then first_other_range l' r else Ok (Some n)
    end.

  (** extend_selection.rs:5-36 *)
  Definition extend_selection (r : range) : res (option range) :=
    if range_is_empty r then extend_empty (rstart r)
    else
      node <- find_covering_node (f_nodes f) root r ;;
      l <- ancestors (f_nodes f) node ;;
      o <- first_other_range l r ;;
      match o with
      | None => Ok None
      | Some parent => pr <- node_range (f_nodes f) parent ;; Ok (Some pr)
      end.

  (** actions.rs:107 *)
  Definition is_comma (n : nat) : res bool :=
    t <- node_text f n ;; s <- as_str t ;; Ok (bytes_eqb s [44]).

  (** actions.rs:106-117 *)
  Definition find_comma (offset : nat) : res (option nat) :=
    l <- find_leaf_at_offset (f_nodes f) root offset ;;
    match l with
    | LNone => Ok None
    | LSingle n => b <- is_comma n ;; Ok (if b then Some n else None)
    | LBetween l r =>
        bl <- is_comma l ;;
        br <- is_comma r ;;
        Ok (if bl then Some l else if br then Some r else None)
    end.

  (** actions.rs:97-104; the [while] loop takes fuel *)
  Fixpoint skip_ws (fuel : nat) (n : nat) (d : direction) : res (option nat) :=
    match fuel with
    | 0 => OutOfFuel
    | S k =>
        b <- is_ws n ;;
        if b then
          s <- sibling (f_nodes f) n d ;;
          match s with None => Ok None | Some m => skip_ws k m d end
        else Ok (Some n)
    end.

  Definition nonws_sibling (n : nat) (d : direction) : res (option nat) :=
    s <- sibling (f_nodes f) n d ;;
    match s with None => Ok None | Some m => skip_ws (length (f_nodes f)) m d end.

  (** actions.rs:31-34 *)
  Inductive action_result : Type :=
  | Available
  | Applied (e : list edit_op).

  (** actions.rs:37-43 *)
  Definition into_edit (a : action_result) : res (list edit_op) :=
    match a with Available => Panic | Applied e => Ok e end.

  (** actions.rs:80-95 *)
  Definition swap (offset : nat) (apply : bool) : res (option action_result) :=
    c <- find_comma offset ;;
    match c with
    | None => Ok None
    | Some comma =>
        lo <- nonws_sibling comma DLeft ;;
        match lo with
        | None => Ok None
        | Some ln =>
            ro <- nonws_sibling comma DRight ;;
            match ro with
            | None => Ok None
            | Some rn =>
                lt <- node_ty (f_nodes f) ln ;;
                rt <- node_ty (f_nodes f) rn ;;
                if negb (lt =? rt) then Ok None
                else if negb apply then Ok (Some Available)
                else
                  e1 <- fe_replace f fe_new ln rn ;;
                  e2 <- fe_replace f e1 rn ln ;;
                  te <- into_text_edit f e2 ;;
                  Ok (Some (Applied te))
            end
        end
    end.

  (** Actions by id, actions.rs:27-29; an id is a string. *)
  Definition actions_table : Type := list (bytes * (nat -> bool -> res (option action_result))).

  (** "Swap" *)
  Definition swap_id : bytes := [83; 119; 97; 112].
  Definition default_actions : actions_table := [(swap_id, swap)].

  (** actions.rs:6-16 *)
  Fixpoint offered_actions (tab : actions_table) (start : nat) : res (list bytes) :=
    match tab with
    | [] => Ok []
    | (id, action) :: rest =>
        o <- action start false ;;
        l <- offered_actions rest start ;;
        Ok (match o with Some _ => id :: l | None => l end)
    end.

  Definition default_context_actions (r : range) : res (list bytes) := offered_actions default_actions (rstart r).

  (** actions.rs:18-25; the outer option says whether the id is known *)
  Definition apply_action (tab : actions_table) (start : nat) (id : bytes) : res (option (option (list edit_op))) :=
    match find_first (fun x => bytes_eqb (fst x) id) tab with
    | None => Ok None
    | Some (_, action) =>
        o <- action start true ;;
        match o with
        | None => Ok (Some None)
        | Some a => e <- into_edit a ;; Ok (Some (Some e))
        end
    end.

  Definition apply_default_context_action (r : range) (id : bytes) : res (option (option (list edit_op))) :=
    apply_action default_actions (rstart r) id.
End Editor.

(** ** Highlighting *)

Section Highlight.
  Variable nodes : table.
  (** The tags ([HlTag] wraps a string; only compared and stored), hl.rs:5-17 *)
  Variable tag : Type.
  Variable error_tag : tag.
  (** fall/tree/src/node_type.rs:4 [ERROR] *)
  Variable error_ty : nat.
  (** hl.rs:20 [HlMap] *)
  Variable mapping : list (tag * list nat).

  (** hl.rs:19 *)
  Definition highlights : Type := list (range * tag).

  (** hl.rs:51-53 *)
  Definition hl (n : nat) (t : tag) (ctx : highlights) : res highlights :=
    r <- node_range nodes n ;; Ok (ctx ++ [(r, t)]).

  (** hl.rs:41-48: the first entry of the mapping that lists the type *)
  Definition tag_of (ty : nat) : option tag :=
    option_map fst (find_first (fun x => existsb (Nat.eqb ty) (snd x)) mapping).

  (** hl.rs:31-49 *)
  Definition hl_visit (n : nat) (ctx : highlights) : res highlights :=
    ty <- node_ty nodes n ;;
    if ty =? error_ty then
      r <- node_range nodes n ;;
      er <- (if range_is_empty r then from_len (rstart r) 1 else Ok r) ;;
      Ok (ctx ++ [(er, error_tag)])
    else match tag_of ty with
         | Some t => hl n t ctx
         | None => Ok ctx
         end.

  (** What the further callbacks of a language's highlighter colour, lang/fall/src/editor/highlighting.rs:56-64:
      the node itself ([colorize_node], 56-58; the empty path), its first child of a type ([colorize_child],
      60-64), or for [MethodDef] (36-45) the first child of a type of the child [selector] (a path of two
      types; the accessor panics when there is no selector, but the grammar makes [method_def] only with one).
      Which tags a callback chooses (from name resolution) is a parameter: the list for a node. *)
  Variable callbacks : list (list nat * (nat -> list (list nat * tag))).

  Fixpoint follow (n : nat) (path : list nat) : res (option nat) :=
    match path with
    | [] => Ok (Some n)
    | ty :: rest =>
        c <- child_of_type nodes n ty ;;
        match c with Some m => follow m rest | None => Ok None end
    end.

  Definition colorize (n : nat) (x : list nat * tag) (ctx : highlights) : res highlights :=
    c <- follow n (fst x) ;;
    match c with Some m => hl m (snd x) ctx | None => Ok ctx end.

  (** visitor.rs:94-100: the inner visitor first, then the callbacks in registration order. *)
  Definition run_callbacks (n : nat) (ctx : highlights) : res highlights :=
    ty <- node_ty nodes n ;;
    fold_res (fun c (cb : list nat * (nat -> list (list nat * tag))) =>
                if existsb (Nat.eqb ty) (fst cb)
                then fold_res (fun c' x => colorize n x c') c (snd cb n)
                else Ok c) ctx callbacks.

  (** visitor.rs:9-14 with the visitor of highlighting.rs:9-54 (rust: lang/rust/src/editor/mod.rs:119-126
      with an empty mapping and no callbacks) *)
  Definition highlight : res highlights :=
    bottom_up nodes (fun ctx n => c <- hl_visit n ctx ;; run_callbacks n c) root [].
End Highlight.
