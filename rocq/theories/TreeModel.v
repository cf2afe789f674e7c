(** Model of fall/tree/src/node: TreeBuilder, File, Node. *)
From Coq Require Import List Arith Bool.
From Verif Require Import Base TextModel.
Import ListNotations.

(** fall/tree/src/node/tree_builder.rs:89-94 [NodeData]; [NodeId] (85-86) is the index in the table,
    [NodeType] a [nat]. *)
Record node_data : Type := mkNode {
  n_ty : nat; n_parent : option nat; n_children : list nat; n_range : range }.

Definition table := list node_data.

(** fall/tree/src/node/tree_builder.rs:3-7.  [in_progress] has its last element at the head. *)
Record tree_builder : Type := mkTB { tb_nodes : table; tb_stack : list nat; tb_pos : nat }.

(** tree_builder.rs:44-50 *)
Definition tb_new : tree_builder := mkTB [] [] 0.

(** tree_builder.rs:57-61 *)
Definition new_node (b : tree_builder) (d : node_data) : tree_builder * nat :=
  (mkTB (tb_nodes b ++ [d]) (tb_stack b) (tb_pos b), length (tb_nodes b)).

(** tree_builder.rs:75-77 *)
Definition current_id (b : tree_builder) : res nat := unwrap (hd_error (tb_stack b)).

(** tree_builder.rs:79-82 [current], followed by an in-place update of that node *)
Definition update_current (b : tree_builder) (f : node_data -> res node_data) : res tree_builder :=
  i <- current_id b ;;
  d <- index (tb_nodes b) i ;;
  d' <- f d ;;
  Ok (mkTB (set_nth i d' (tb_nodes b)) (tb_stack b) (tb_pos b)).

(** tree_builder.rs:63-68 *)
Definition push_child (b : tree_builder) (child : node_data) : res (tree_builder * nat) :=
  cur <- current_id b ;;
  let (b1, id) := new_node b (mkNode (n_ty child) (Some cur) (n_children child) (n_range child)) in
  b2 <- update_current b1 (fun d => Ok (mkNode (n_ty d) (n_parent d) (n_children d ++ [id]) (n_range d))) ;;
  Ok (b2, id).

(** tree_builder.rs:96-101 *)
Definition grow (left right : range) : res range :=
  guard (rend left =? rstart right) (from_to (rstart left) (rend right)).

(** tree_builder.rs:70-73 *)
Definition add_len (b : tree_builder) (child : nat) : res tree_builder :=
  c <- index (tb_nodes b) child ;;
  update_current b (fun d =>
    r <- grow (n_range d) (n_range c) ;; Ok (mkNode (n_ty d) (n_parent d) (n_children d) r)).

(** tree_builder.rs:10-20 *)
Definition tb_leaf (b : tree_builder) (ty len : nat) : res tree_builder :=
  r <- from_len (tb_pos b) len ;;
  let b1 := mkTB (tb_nodes b) (tb_stack b) (tb_pos b + len) in
  '(b2, id) <- push_child b1 (mkNode ty None [] r) ;;
  add_len b2 id.

(** tree_builder.rs:22-35 *)
Definition tb_start (b : tree_builder) (ty : nat) : res tree_builder :=
  r <- from_len (tb_pos b) 0 ;;
  let node := mkNode ty None [] r in
  '(b1, id) <- (match tb_stack b with
                | [] => Ok (new_node b node)
                | _ => push_child b node
                end) ;;
  Ok (mkTB (tb_nodes b1) (id :: tb_stack b1) (tb_pos b1)).

(** tree_builder.rs:37-42 *)
Definition tb_finish (b : tree_builder) : res tree_builder :=
  match tb_stack b with
  | [] => Panic
  | id :: rest =>
      let b1 := mkTB (tb_nodes b) rest (tb_pos b) in
      match rest with
      | [] => Ok b1
      | _ => add_len b1 id
      end
  end.

(** tree_builder.rs:52-55 [finish], called by [new_file] (node/imp.rs:107-115) *)
Definition tb_done (b : tree_builder) : res table :=
  match tb_stack b with [] => Ok (tb_nodes b) | _ => Panic end.

(** A client's calls on the builder. *)
Inductive tb_call : Type :=
| CLeaf (ty len : nat)
| CStart (ty : nat)
| CFinish.

Definition tb_step (b : tree_builder) (c : tb_call) : res tree_builder :=
  match c with
  | CLeaf ty n => tb_leaf b ty n
  | CStart ty => tb_start b ty
  | CFinish => tb_finish b
  end.

Definition tb_run (b : tree_builder) (cs : list tb_call) : res tree_builder := fold_res tb_step b cs.

(** new; the calls; finish *)
Definition tb_build (cs : list tb_call) : res table := b <- tb_run tb_new cs ;; tb_done b.

(** fall/tree/src/node/imp.rs:7-13, 107-115 [FileImpl] (language, metrics and incremental data left out;
    the root is node 0, imp.rs:112). *)
Record file : Type := mkFile { f_text : bytes; f_nodes : table }.

(** fall/tree/src/node/mod.rs:18-29 [File::new] *)
Definition file_new (t : bytes) (cs : list tb_call) : res file :=
  nodes <- tb_build cs ;; Ok (mkFile t nodes).

(** A [Node] of a fixed file is its id; [==] (imp.rs:35-39) compares ids. *)
Definition root : nat := 0.

(** node/imp.rs:76-78 [data] *)
Definition node_get (nodes : table) (n : nat) : res node_data := index nodes n.

(** node/imp.rs:50-52 *)
Definition node_ty (nodes : table) (n : nat) : res nat := d <- node_get nodes n ;; Ok (n_ty d).

(** node/imp.rs:54-56 *)
Definition node_range (nodes : table) (n : nat) : res range := d <- node_get nodes n ;; Ok (n_range d).

(** node/imp.rs:64-66 *)
Definition node_parent (nodes : table) (n : nat) : res (option nat) := d <- node_get nodes n ;; Ok (n_parent d).

(** node/imp.rs:68-70 *)
Definition node_children (nodes : table) (n : nat) : res (list nat) := d <- node_get nodes n ;; Ok (n_children d).

(** node/imp.rs:58-60 *)
Definition node_text (f : file) (n : nat) : res text :=
  r <- node_range (f_nodes f) n ;; slice (as_text (f_text f)) r.
