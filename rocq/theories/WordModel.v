(** Model of the 32-bit offsets: [TextUnit] is a [u32], fall/text/src/text_unit.rs:5-68, and lengths are cast to it. TextModel.v, EditModel.v,
    TreeModel.v and LexModel.v use unbounded numbers; here are the same functions as the machine computes them.

    What [+] and [-] do on overflow depends on the build: a debug build panics, a release build wraps around. The plugins are release builds
    (`neon build`, code/fall/package.json:22, code/rust/package.json:22). *)
From Coq Require Import List Arith Bool NArith.
From Verif Require Import Base TextModel EditModel LexModel TreeModel SearchModel FileEditModel AnalysisModel RustEditModel.
Import ListNotations.

Inductive build : Type := Debug | Release.

(** 2^32; never computed, [nat] is unary *)
Definition M : nat := N.to_nat 4294967296%N.

(** text_unit.rs:24-43 [Add], [AddAssign] *)
Definition wadd (m : build) (a b : nat) : res nat :=
  if a + b <? M then Ok (a + b) else match m with Debug => Panic | Release => Ok (a + b - M) end.

(** text_unit.rs:50-69 [Sub], [SubAssign] *)
Definition wsub (m : build) (a b : nat) : res nat :=
  if b <=? a then Ok (a - b) else match m with Debug => Panic | Release => Ok (a + M - b) end.

(** [n as u32] of a [usize], in both builds *)
Definition as_u32 (n : nat) : nat := n mod M.

Section Words.
  Variable m : build.

  (** text_range.rs:51-53 *)
  Definition from_len32 (from len : nat) : res range := e <- wadd m from len ;; from_to from e.

  (** text_range.rs:63-65 *)
  Definition range_len32 (r : range) : res nat := wsub m (rend r) (rstart r).

  (** text_range.rs:92-94 *)
  Definition shift_right32 (r : range) (o : nat) : res range := s <- wadd m (rstart r) o ;; l <- range_len32 r ;; from_len32 s l.

  (** text_buf.rs:28-33 *)
  Definition as_text32 (s : bytes) : res text := r <- from_len32 0 (as_u32 (length s)) ;; Ok (mkText s r).

  (** text.rs:16-18 *)
  Definition text_len32 (t : text) : res nat := wsub m (rend (trange t)) (rstart (trange t)).

  (** text.rs:22-31 *)
  Definition slice32 (t : text) (r : range) : res text :=
    len <- text_len32 t ;;
    guard (rend r <=? len)
      (start <- wadd m (rstart (trange t)) (rstart r) ;;
       guard (start <=? rend (trange t))
         (d <- wsub m (rend r) (rstart r) ;;
          e <- wadd m start d ;;
          rg <- from_to start e ;;
          Ok (mkText (owned t) rg))).

  (** text_slice.rs:14-27 *)
  Definition slice_suffix32 (t : text) (off : nat) : res text := len <- text_len32 t ;; r <- from_to off len ;; slice32 t r.

  (** text.rs:45-47 *)
  Definition find32 (t : text) (needle : bytes) : res (option nat) := s <- as_str t ;; Ok (option_map as_u32 (find_sub needle s)).

  (** text.rs:53-70. The slices of [str] are by [usize]. *)
  Definition trim32 (ws : bytes -> bool) (t : text) : res text :=
    let non_ws c := negb (ws c) in
    s <- as_str t ;;
    let left := match find_char non_ws (chars s) with Some o => o | None => length s end in
    s2 <- str_index s (mkRange left (length s)) ;;
    right <- (match rfind_char non_ws (chars s2) with
              | Some last => s3 <- str_index s2 (mkRange last (length s2)) ;; c <- unwrap (hd_error (chars s3)) ;; Ok (last + length c)
              | None => Ok 0
              end) ;;
    r <- from_to (as_u32 left) (as_u32 (left + right)) ;;
    slice32 t r.

  (** text_edit.rs:17-27 *)
  Fixpoint apply_from32 (result : bytes) (ops : list edit_op) (t : text) : res bytes :=
    match ops with
    | [] => Ok result
    | Copy r :: rest => s <- slice32 t r ;; c <- as_str s ;; apply_from32 (result ++ c) rest t
    | Insert i :: rest => s <- as_text32 i ;; c <- as_str s ;; apply_from32 (result ++ c) rest t
    end.
  Definition apply32 (ops : list edit_op) (s : bytes) : res bytes := t <- as_text32 s ;; apply_from32 [] ops t.

  (** text_edit.rs:81-85 *)
  Definition copy_len32 (b : edit_builder) (len : nat) : res edit_builder :=
    r <- from_len32 (last_offset b) len ;; o <- wadd m (last_offset b) len ;; Ok (mkEB (segments b ++ [Copy r]) o (eb_text_len b)).

  (** text_edit.rs:68-79 *)
  Definition advance_to32 (b : edit_builder) (offset : nat) : res edit_builder :=
    match Nat.compare (last_offset b) offset with
    | Lt => len <- wsub m offset (last_offset b) ;; copy_len32 b len
    | Eq => Ok b
    | Gt => Panic
    end.

  (** text_edit.rs:91-93 *)
  Definition delete_len32 (b : edit_builder) (len : nat) : res edit_builder := o <- wadd m (last_offset b) len ;; Ok (mkEB (segments b) o (eb_text_len b)).

  (** text_edit.rs:52-66 *)
  Definition run_call32 (b : edit_builder) (c : edit_call) : res edit_builder :=
    match c with
    | CInsert o t => b' <- advance_to32 b o ;; Ok (insert_ b' t)
    | CDelete r => b' <- advance_to32 b (rstart r) ;; l <- range_len32 r ;; delete_len32 b' l
    | CReplace r t => b' <- advance_to32 b (rstart r) ;; l <- range_len32 r ;; delete_len32 (insert_ b' t) l
    end.

  (** text_edit.rs:38-50: new; the calls; build *)
  Definition build_edit32 (s : bytes) (cs : list edit_call) : res (list edit_op) :=
    t <- as_text32 s ;; l <- text_len32 t ;; b <- fold_res run_call32 (mkEB [] 0 l) cs ;; b' <- advance_to32 b (eb_text_len b) ;; Ok (segments b').

  (** tree_builder.rs:57-61: ids are [u32], too *)
  Definition new_node32 (b : tree_builder) (d : node_data) : tree_builder * nat := (mkTB (tb_nodes b ++ [d]) (tb_stack b) (tb_pos b), as_u32 (length (tb_nodes b))).

  (** tree_builder.rs:63-68 *)
  Definition push_child32 (b : tree_builder) (child : node_data) : res (tree_builder * nat) :=
    cur <- current_id b ;;
    let (b1, id) := new_node32 b (mkNode (n_ty child) (Some cur) (n_children child) (n_range child)) in
    b2 <- update_current b1 (fun d => Ok (mkNode (n_ty d) (n_parent d) (n_children d ++ [id]) (n_range d))) ;;
    Ok (b2, id).

  (** tree_builder.rs:10-20 *)
  Definition tb_leaf32 (b : tree_builder) (ty len : nat) : res tree_builder :=
    r <- from_len32 (tb_pos b) len ;;
    p <- wadd m (tb_pos b) len ;;
    '(b2, id) <- push_child32 (mkTB (tb_nodes b) (tb_stack b) p) (mkNode ty None [] r) ;;
    add_len b2 id.

  (** tree_builder.rs:22-35 *)
  Definition tb_start32 (b : tree_builder) (ty : nat) : res tree_builder :=
    r <- from_len32 (tb_pos b) 0 ;;
    let node := mkNode ty None [] r in
    '(b1, id) <- (match tb_stack b with [] => Ok (new_node32 b node) | _ => push_child32 b node end) ;;
    Ok (mkTB (tb_nodes b1) (id :: tb_stack b1) (tb_pos b1)).

  Definition tb_step32 (b : tree_builder) (c : tb_call) : res tree_builder :=
    match c with CLeaf ty n => tb_leaf32 b ty n | CStart ty => tb_start32 b ty | CFinish => tb_finish b end.
  Definition tb_build32 (cs : list tb_call) : res table := b <- fold_res tb_step32 tb_new cs ;; tb_done b.

  (** node/imp.rs:58-60 *)
  Definition node_text32 (f : file) (n : nat) : res text := r <- node_range (f_nodes f) n ;; t <- as_text32 (f_text f) ;; slice32 t r.

  (** fall/parse/src/lib.rs:53-59: the length of a token is cast. The rest of the text is represented by its bytes, as in LexModel.v. *)
  Definition lexer32 (lx : lexer) : lexer := fun s => mkTok (tk_ty (lx s)) (as_u32 (tk_len (lx s))).

  (** lex_engine.rs:56-61 *)
  Fixpoint lex_up_to32 (fuel : nat) (lx : lexer) (point : nat) (txt : bytes) (new : list token) (new_len : nat) : res (bytes * list token * nat) :=
    if new_len <? point then
      match fuel with
      | 0 => OutOfFuel
      | S f => '(t, rest) <- step lx txt ;; nl <- wadd m new_len (tk_len t) ;; lex_up_to32 f lx point rest (new ++ [t]) nl
      end
    else Ok (txt, new, new_len).

  (** lex_engine.rs:63-65 *)
  Fixpoint skip_old32 (start : nat) (old : list token) (old_len : nat) : res (list token * nat) :=
    if old_len <? start then
      match old with
      | [] => Panic
      | t :: r => ol <- wadd m old_len (tk_len t) ;; skip_old32 start r ol
      end
    else Ok (old, old_len).

  (** lex_engine.rs:80-88 *)
  Fixpoint reuse32 (rend_ : nat) (old : list token) (old_len : nat) (new : list token) (new_len reused : nat) : res (list token * nat * list token * nat * nat) :=
    match old with
    | [] => Ok ([], old_len, new, new_len, reused)
    | t :: r =>
        ol <- wadd m old_len (tk_len t) ;;
        if rend_ <=? ol then Ok (r, ol, new, new_len, reused)
        else ru <- wadd m reused (tk_len t) ;; nl <- wadd m new_len (tk_len t) ;; reuse32 rend_ r ol (new ++ [t]) nl ru
    end.

  (** lex_engine.rs:67-95 *)
  Fixpoint copy_loop32 (fuel : nat) (lx : lexer) (r : range) (txt : bytes) (s : relex_state) : res relex_state :=
    match fuel with
    | 0 => OutOfFuel
    | S f =>
        new_consumed <- wsub m (rx_new_len s) (rx_point s) ;;
        old_consumed <- wsub m (rx_old_len s) (rstart r) ;;
        len <- range_len32 r ;;
        if (len <=? new_consumed) || (len <=? old_consumed) then Ok s
        else
          match Nat.compare new_consumed old_consumed with
          | Lt =>
              '(t, rest) <- step lx txt ;;
              nl <- wadd m (rx_new_len s) (tk_len t) ;;
              copy_loop32 f lx r rest (mkRx (rx_old s) (rx_old_len s) (rx_new s ++ [t]) nl (rx_point s) (rx_reused s))
          | Eq =>
              '(old, ol, new, nl, ru) <- reuse32 (rend r) (rx_old s) (rx_old_len s) (rx_new s) (rx_new_len s) (rx_reused s) ;;
              copy_loop32 f lx r txt (mkRx old ol new nl (rx_point s) ru)
          | Gt =>
              match rx_old s with
              | [] => Panic
              | t :: rest => ol <- wadd m (rx_old_len s) (tk_len t) ;; copy_loop32 f lx r txt (mkRx rest ol (rx_new s) (rx_new_len s) (rx_point s) (rx_reused s))
              end
          end
    end.

  (** lex_engine.rs:50-99 *)
  Definition relex_op32 (fuel : nat) (lx : lexer) (new_text : bytes) (s : relex_state) (op : edit_op) : res relex_state :=
    match op with
    | Insert t =>
        i <- as_text32 t ;; l <- text_len32 i ;; p <- wadd m (rx_point s) l ;;
        Ok (mkRx (rx_old s) (rx_old_len s) (rx_new s) (rx_new_len s) p (rx_reused s))
    | Copy r =>
        txt <- suffix new_text (rx_new_len s) ;;
        '(txt1, new, nl) <- lex_up_to32 fuel lx (rx_point s) txt (rx_new s) (rx_new_len s) ;;
        '(old, ol) <- skip_old32 (rstart r) (rx_old s) (rx_old_len s) ;;
        s2 <- copy_loop32 fuel lx r txt1 (mkRx old ol new nl (rx_point s) (rx_reused s)) ;;
        len <- range_len32 r ;;
        p <- wadd m (rx_point s2) len ;;
        Ok (mkRx (rx_old s2) (rx_old_len s2) (rx_new s2) (rx_new_len s2) p (rx_reused s2))
    end.

  (** lex_engine.rs:30-109 *)
  Definition relex32 (lx : lexer) (old_tokens : list token) (ops : list edit_op) (new_text : bytes) : res (list token * nat) :=
    if existsb (fun t => tk_ty t =? ERROR) old_tokens then
      ts <- lex lx new_text ;; Ok (ts, 0)
    else
      let fuel := length new_text + length old_tokens + 2 in
      s <- fold_res (relex_op32 fuel lx new_text) (mkRx old_tokens 0 [] 0 0 0) ops ;;
      txt <- suffix new_text (rx_new_len s) ;;
      rest <- lex_loop (length txt) lx txt ;;
      region <- wsub m (as_u32 (length new_text)) (rx_reused s) ;;
      Ok (rx_new s ++ rest, region).

  (** lang/rust/src/editor/mod.rs:31-44, 66-99: the functions begin with [offset - tu(1)]. What follows is that of RustEditModel.v, which
      starts with the same subtraction, so it is given the offset it gets this difference from. *)
  Definition after_space_typed32 (f : file) (offset : nat) : res (option bytes) := o <- wsub m offset 1 ;; after_space_typed f (o + 1).
  Definition breadcrumbs32 (f : file) (offset : nat) : res (list bytes) := o <- wsub m offset 1 ;; breadcrumbs f (o + 1).

  (** mod.rs:46-64 *)
  Definition expand32 (f : file) (offset : nat) : res (option (list edit_op)) :=
    o2 <- wsub m offset 2 ;;
    l <- find_leaf_at_offset (f_nodes f) root o2 ;;
    match left_biased l with
    | None => Ok None
    | Some leaf =>
        a <- ast_ancestor (f_nodes f) (is_ty RS_EXPR_STMT) leaf ;;
        match a with
        | None => Ok None
        | Some stmt =>
            r <- node_range (f_nodes f) stmt ;;
            e3 <- wsub m (rend r) 3 ;;
            sr <- from_to (rstart r) e3 ;;
            t <- as_text32 (f_text f) ;;
            s <- slice32 t sr ;;
            rr <- from_to (rstart r) offset ;;
            text <- as_str s ;;
            fe <- fe_replace_substring f fe_new rr (s_eprintln ++ text ++ s_value ++ text ++ [41; 59]) ;;
            te <- into_text_edit f fe ;;
            Ok (Some te)
        end
    end.
End Words.
