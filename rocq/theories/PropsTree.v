(** Theorems for the syntax tree properties C07-C14 (and the file-edit part of C06). *)
From Coq Require Import List Arith Bool Lia.
From Verif Require Import Base BaseFacts TextModel EditModel TreeModel SearchModel FileEditModel
  TextSpec TextProofs TreeSpec TreeProofs SearchSpec SearchProofs TraversalProofs FileEditSpec FileEditProofs.
Import ListNotations.

(** A running example: f(a, b) as  0:file{1:call{2:name 3:( 4:args{5:a 6:, 7:sp 8:b} 9:)} 10:empty{} }. *)
Definition ex_tree : tree :=
  Node 1 [Node 2 [Leaf 3 1; Leaf 4 1; Node 5 [Leaf 3 1; Leaf 6 1; Leaf 7 1; Leaf 3 1]; Leaf 8 1]; Node 9 []].
Definition ex_text : bytes := [102; 40; 97; 44; 32; 98; 41].
Definition ex_file : file := mkFile ex_text (layout ex_tree None 0 0).

Lemma ex_stores : stores (f_nodes ex_file) ex_tree.
Proof. apply layout_stores. Qed.

Lemma ex_wf : wf_file ex_file ex_tree.
Proof. split; [apply ex_stores|reflexivity]. Qed.

Lemma ex_chars : char_tree ex_text ex_tree.
Proof.
  assert (G : forall i, i <= 7 -> aligned ex_text i).
  { intros i H. apply boundary_spec. do 8 (destruct i; [reflexivity|]). lia. }
  intros i p par t A. apply AtG_At in A. apply AtG_bounds in A. cbn in A. split; apply G; lia.
Qed.

(** ** C07: the builder *)

(** For a balanced sequence under one root: the table has one node per leaf/start call, with the requested
    type, innermost open node as parent, start offset and (for leaves) length; links agree; children tile
    their parent; the root covers everything. *)
Theorem C07_build : forall cs, one_root cs = true ->
  exists nodes, tb_build cs = Ok nodes
    /\ Forall2 (fun d r => let '(ty, par, pos, len) := r in
          n_ty d = ty /\ n_parent d = par /\ rstart (n_range d) = pos
          /\ (forall n, len = Some n -> n_children d = [] /\ rend (n_range d) = pos + n))
        nodes (requested [] 0 0 cs)
    /\ links_ok nodes /\ tiling_ok nodes
    /\ (exists d, nth_error nodes 0 = Some d /\ n_range d = mkRange 0 (total cs)).
Proof.
  intros cs H. apply one_root_inv in H as (ty & ts & ->).
  exists (layout (Node ty ts) None 0 0).
  assert (B := build_ok [Node ty ts] (Forall_cons (Node ty ts) I (Forall_nil _))). cbn [flat_map layouts] in B. rewrite !app_nil_r in B.
  split; [exact B|]. assert (ST := layout_stores (Node ty ts)).
  split; [|split; [eapply stores_links; eauto|split; [eapply stores_tiling; eauto|]]].
  - eapply Forall2_impl; [|apply requested_ok].
    intros d [[[ty' par] pos] len] [E M]. cbn in *. unfold entry in E. injection E as E1 E2 E3.
    repeat split; auto; destruct len; try discriminate; injection H as <-; destruct M; auto. congruence.
  - eexists. split; [apply ST; apply At_root|]. cbn [data_of n_range plus].
    pose proof (total_calls (Node ty ts) []) as TC. rewrite app_nil_r in TC. rewrite TC. cbn [total]. now rewrite Nat.add_0_r.
Qed.
Print Assumptions C07_build.

(** The builder refuses exactly the unbalanced sequences, by a panic. *)
Theorem C07_panics : forall cs,
  (tb_build cs = Panic <-> balanced 0 cs = false) /\ ((exists nodes, tb_build cs = Ok nodes) <-> balanced 0 cs = true).
Proof. intros cs. split; [apply build_panics|apply build_balanced]. Qed.
Print Assumptions C07_panics.

(** Hence the file of a tree stores that tree: the vocabulary [At] of the following theorems applies to
    every file made by the builder under one root. *)
Theorem C07_stores : forall cs, one_root cs = true ->
  exists nodes T, tb_build cs = Ok nodes /\ stores nodes T /\ cs = calls_of T.
Proof.
  intros cs H. apply one_root_inv in H as (ty & ts & ->). exists (layout (Node ty ts) None 0 0), (Node ty ts).
  assert (B := build_ok [Node ty ts] (Forall_cons (Node ty ts) I (Forall_nil _))). cbn [flat_map layouts] in B. rewrite !app_nil_r in B.
  split; [exact B|]. split; [apply layout_stores|reflexivity].
Qed.
Print Assumptions C07_stores.

Example C07_example :
  one_root (calls_of ex_tree) = true
  /\ requested [] 0 0 [CStart 1; CLeaf 2 3; CStart 4; CLeaf 5 1; CFinish; CFinish]
     = [(1, None, 0, None); (2, Some 0, 0, Some 3); (4, Some 0, 3, None); (5, Some 2, 3, Some 1)]
  /\ balanced 0 [CStart 1; CLeaf 2 3] = false /\ balanced 0 [CLeaf 2 3] = false /\ balanced 0 [CFinish] = false.
Proof. repeat split; reflexivity. Qed.

(** ** C08: losslessness *)

(** The text of a node is the concatenation of the texts of the non-empty leaves below it, in order. *)
Theorem C08_lossless : forall f T n p q t, wf_file f T -> At T n p q t ->
  exists whole ls texts, node_text f n = Ok whole
    /\ (forall l, In l ls <-> Below T n l /\ exists pl ql tl, At T l pl ql tl /\ t_children tl = [] /\ 0 < tlen tl)
    /\ (forall a b, before ls a b -> a < b)
    /\ Forall2 (fun l x => node_text f l = Ok x) ls texts
    /\ bytes_of whole = concat (map bytes_of texts).
Proof. exact lossless. Qed.
Print Assumptions C08_lossless.

Theorem C08_root : forall f T, wf_file f T -> exists x, node_text f root = Ok x /\ bytes_of x = f_text f.
Proof.
  intros f T W. destruct (node_text_ok f T 0 0 None T W (At_root T)) as (x & E & B). exists x. split; [exact E|].
  rewrite B. cbn [plus]. destruct W as [_ L]. rewrite L. apply sub_full.
Qed.
Print Assumptions C08_root.

Example C08_example : wf_file ex_file ex_tree /\ node_text ex_file 4 = Ok (mkText ex_text (mkRange 2 6)).
Proof. split; [exact ex_wf|reflexivity]. Qed.

(** ** C09: leaves at an offset *)

Theorem C09_find_leaf : forall nodes T n p q t off, stores nodes T -> At T n p q t -> p <= off <= p + tlen t ->
  exists r, find_leaf_at_offset nodes n off = Ok r
    /\ (forall l, In l (leaves_list r) <-> Below T n l /\ touches T off l)
    /\ (r = LNone <-> tlen t = 0)
    /\ (forall a b, r = LBetween a b -> a < b /\ ends_at T a off /\ starts_at T b off).
Proof. intros nodes T n p q t off ST A H. exact (find_leaf_spec nodes T ST off n p q t A H). Qed.
Print Assumptions C09_find_leaf.

Theorem C09_outside_panics : forall nodes T n p q t off, stores nodes T -> At T n p q t -> ~ (p <= off <= p + tlen t) ->
  find_leaf_at_offset nodes n off = Panic.
Proof. intros nodes T n p q t off ST A H. exact (find_leaf_outside nodes T ST off n p q t A H). Qed.
Print Assumptions C09_outside_panics.

Example C09_example :
  stores (f_nodes ex_file) ex_tree /\ find_leaf_at_offset (f_nodes ex_file) 0 2 = Ok (LBetween 3 5)
  /\ find_leaf_at_offset (f_nodes ex_file) 0 7 = Ok (LSingle 9).
Proof. split; [exact ex_stores|]. split; reflexivity. Qed.

(** ** C10: the smallest covering node *)

(** The result covers the range, lies below the node searched, and for a non-empty range every node of the
    file that covers it is the result or one of its ancestors. *)
Theorem C10_covering : forall nodes T n p q t r, stores nodes T -> At T n p q t ->
  proper r -> p <= rstart r -> rend r <= p + tlen t ->
  exists c, find_covering_node nodes n r = Ok c /\ Below T n c /\ covers T c r
    /\ (rstart r < rend r -> forall d, covers T d r -> Below T d c).
Proof. intros nodes T n p q t r ST. exact (covering_ok nodes T ST n p q t r). Qed.
Print Assumptions C10_covering.

(** In particular no proper descendant of the result covers a non-empty range. *)
Theorem C10_smallest : forall nodes T n p q t r c d, stores nodes T -> At T n p q t ->
  p <= rstart r -> rend r <= p + tlen t -> rstart r < rend r ->
  find_covering_node nodes n r = Ok c -> Below T c d -> covers T d r -> d = c.
Proof.
  intros nodes T n p q t r c d ST A H1 H2 NE E B C.
  destruct (covering_ok nodes T ST n p q t r A) as (c' & E' & _ & _ & M); [unfold proper; lia|exact H1|exact H2|].
  rewrite E in E'. injection E' as <-. eapply Below_antisym; [|exact B]. auto.
Qed.
Print Assumptions C10_smallest.

Theorem C10_outside_panics : forall nodes T n p q t r, stores nodes T -> At T n p q t ->
  ~ (p <= rstart r /\ rend r <= p + tlen t) -> find_covering_node nodes n r = Panic.
Proof. intros nodes T n p q t r ST. exact (covering_panics nodes T ST n p q t r). Qed.
Print Assumptions C10_outside_panics.

Example C10_example :
  find_covering_node (f_nodes ex_file) 0 (mkRange 2 4) = Ok 4 /\ find_covering_node (f_nodes ex_file) 0 (mkRange 1 4) = Ok 1
  /\ find_covering_node (f_nodes ex_file) 0 (mkRange 5 6) = Ok 8.
Proof. repeat split; reflexivity. Qed.

(** ** C11: traversals *)

Theorem C11_subtree : forall nodes T n p q t, stores nodes T -> At T n p q t ->
  exists l, subtree nodes n = Ok l /\ NoDup l /\ (forall m, In m l <-> Below T n m)
    /\ (forall a b, before l a b -> Below T b a \/ (a < b /\ ~ Below T a b)).
Proof.
  intros nodes T n p q t ST A. exists (post t n). split; [eapply subtree_ok; eauto|]. split; [apply post_nodup|]. split.
  - intros m. rewrite post_in. symmetry. exact (Below_interval _ _ _ _ _ A m).
  - exact (post_order T t n p q A).
Qed.
Print Assumptions C11_subtree.

(** A bottom-up visit (any callback, also a failing one) is a left fold over that same list. *)
Theorem C11_bottom_up : forall nodes T n p q t (A : Type) (f : A -> nat -> res A) acc l, stores nodes T -> At T n p q t ->
  subtree nodes n = Ok l -> bottom_up nodes f n acc = fold_res f acc l.
Proof.
  intros nodes T n p q t A f acc l ST AT E. rewrite (subtree_ok _ _ ST _ _ _ _ AT) in E. injection E as <-.
  exact (bottom_up_ok nodes T ST A f t n p q acc AT).
Qed.
Print Assumptions C11_bottom_up.

(** [walk_tree] visits the same nodes, each once, ancestors first and left to right (numbers increase). *)
Theorem C11_walk : forall nodes T n p q t (A : Type) (f : A -> nat -> res A) acc, stores nodes T -> At T n p q t ->
  exists l, walk_tree nodes f n acc = fold_res f acc l
    /\ NoDup l /\ (forall m, In m l <-> Below T n m)
    /\ (forall a b, before l a b -> a < b /\ ~ Below T b a).
Proof.
  intros nodes T n p q t A f acc ST AT. exists (seq n (tsize t)). split; [exact (walk_ok nodes T ST A f t n p q acc AT)|].
  split; [apply seq_NoDup|]. split.
  - intros m. rewrite in_seq. symmetry. exact (Below_interval _ _ _ _ _ AT m).
  - assert (G : forall k s a b, before (seq s k) a b -> a < b).
    { induction k as [|k IH]; intros s a b (l1 & l2 & l3 & E); [destruct l1; discriminate|].
      cbn in E. destruct l1 as [|x l1]; cbn in E; injection E as -> E.
      - assert (I : In b (seq (S a) k)) by (rewrite E; apply in_or_app; right; left; reflexivity). apply in_seq in I. lia.
      - apply (IH (S x)). exists l1, l2, l3. exact E. }
    intros a b B. apply G in B. split; [exact B|]. intros BL. destruct (Below_At_l _ _ _ BL) as (pb & qb & tb & AB).
    apply (Below_interval _ _ _ _ _ AB) in BL. lia.
Qed.
Print Assumptions C11_walk.

Theorem C11_descendants : forall nodes T n p q t ty l, stores nodes T -> At T n p q t -> subtree nodes n = Ok l ->
  exists sel, (forall m, In m l -> (sel m = true <-> has_type T m ty)) /\ descendants_of_type nodes n ty = Ok (filter sel l).
Proof.
  intros nodes T n p q t ty l ST A E. rewrite (subtree_ok _ _ ST _ _ _ _ A) in E. injection E as <-.
  rewrite (descendants_ok nodes T ST t n p q ty A).
  destruct (filter_ty_ok nodes T ST (fun t => t =? ty) (post t n)) as (r & E & g & G & ->).
  - intros m I. apply post_in in I. apply At_total. apply At_bound in A. lia.
  - exists g. split; [|exact E]. intros m I. rewrite (G m I). split.
    + intros (ty' & H & W). apply Nat.eqb_eq in W. now subst.
    + intros H. exists ty. split; [exact H|apply Nat.eqb_refl].
Qed.
Print Assumptions C11_descendants.

Theorem C11_ancestors : forall nodes T n p q t, stores nodes T -> At T n p q t ->
  exists l, ancestors nodes n = Ok l /\ hd_error l = Some n /\ parent_chain T l /\ (forall a, In a l <-> Below T a n).
Proof.
  intros nodes T n p q t ST A. destruct (ancestors_ok nodes T ST n p q t A) as (l & E & H & C & I & _). exists l. auto.
Qed.
Print Assumptions C11_ancestors.

Example C11_example :
  subtree (f_nodes ex_file) 1 = Ok [2; 3; 5; 6; 7; 8; 4; 9; 1]
  /\ descendants_of_type (f_nodes ex_file) 0 3 = Ok [2; 5; 8]
  /\ ancestors (f_nodes ex_file) 6 = Ok [6; 4; 1; 0]
  /\ walk_tree (f_nodes ex_file) (fun l m => Ok (l ++ [m])) 4 [] = Ok [4; 5; 6; 7; 8].
Proof. repeat split; reflexivity. Qed.

(** ** C12: siblings *)

Theorem C12_sibling : forall nodes T parent cs k n, stores nodes T ->
  node_children nodes parent = Ok cs -> nth_error cs k = Some n ->
  sibling nodes n DRight = Ok (nth_error cs (S k))
  /\ sibling nodes n DLeft = Ok (match k with 0 => None | S j => nth_error cs j end).
Proof. intros nodes T parent cs k n ST. exact (sibling_ok nodes T ST parent cs k n). Qed.
Print Assumptions C12_sibling.

(** Every node but the root is some child, so the previous theorem covers it; the root has no siblings. *)
Theorem C12_coverage : forall nodes T n p q t, stores nodes T -> At T n p q t ->
  (n = root /\ forall d, sibling nodes n d = Ok None) \/
  exists par cs k, node_parent nodes n = Ok (Some par) /\ node_children nodes par = Ok cs /\ nth_error cs k = Some n.
Proof.
  intros nodes T n p q t ST A. destruct (Nat.eq_dec n 0) as [->|NZ].
  - left. split; [reflexivity|]. exact (sibling_root nodes T ST).
  - right. exact (is_child nodes T ST n p q t A NZ).
Qed.
Print Assumptions C12_coverage.

Theorem C12_invertible : forall nodes T n m p q t, stores nodes T -> At T n p q t ->
  (sibling nodes n DRight = Ok (Some m) -> sibling nodes m DLeft = Ok (Some n))
  /\ (sibling nodes n DLeft = Ok (Some m) -> sibling nodes m DRight = Ok (Some n)).
Proof.
  intros nodes T n m p q t ST A. destruct (C12_coverage nodes T n p q t ST A) as [[-> R]|(par & cs & k & _ & C & K)].
  - split; intros H; rewrite R in H; discriminate.
  - destruct (sibling_ok nodes T ST par cs k n C K) as [R L]. split; intros H.
    + rewrite R in H. injection H as H. destruct (sibling_ok nodes T ST par cs (S k) m C H) as [_ L']. now rewrite L', K.
    + rewrite L in H. destruct k as [|j]; [discriminate|]. injection H as H.
      destruct (sibling_ok nodes T ST par cs j m C H) as [R' _]. now rewrite R', K.
Qed.
Print Assumptions C12_invertible.

(** The right sibling starts where the node ends. *)
Theorem C12_adjacent : forall nodes T n m p q t pm qm tm, stores nodes T -> At T n p q t -> At T m pm qm tm ->
  sibling nodes n DRight = Ok (Some m) -> pm = p + tlen t.
Proof.
  intros nodes T n m p q t pm qm tm ST A AM H. destruct (C12_coverage nodes T n p q t ST A) as [[-> R]|(par & cs & k & _ & C & K)].
  - rewrite R in H; discriminate.
  - destruct (sibling_ok nodes T ST par cs k n C K) as [R _]. rewrite R in H. injection H as H.
    unfold node_children, node_get, index in C. destruct (nth_error nodes par) as [d|] eqn:E; [|discriminate]. cbn in C. injection C as <-.
    assert (NE : n_children d <> []) by (intros Z; rewrite Z in K; destruct k; discriminate).
    pose proof (stores_tiling nodes T ST par d E NE) as TL.
    pose proof (tile_nth nodes _ _ _ k n m _ _ TL K H (proj2 ST _ _ _ _ A) (proj2 ST _ _ _ _ AM)) as X. cbn in X. auto.
Qed.
Print Assumptions C12_adjacent.

Example C12_example :
  sibling (f_nodes ex_file) 3 DRight = Ok (Some 4) /\ sibling (f_nodes ex_file) 4 DRight = Ok (Some 9)
  /\ sibling (f_nodes ex_file) 9 DRight = Ok None /\ sibling (f_nodes ex_file) 2 DLeft = Ok None.
Proof. repeat split; reflexivity. Qed.

(** ** C13: structural edits *)

Theorem C13_file_edit : forall f T e, wf_file f T -> char_tree (f_text f) T ->
  exists ops, into_text_edit f e = Ok ops /\ apply ops (as_text (f_text f)) = Ok (edit_result f T e).
Proof. intros f T e W C. destruct (file_edit_ok f T e W C) as (ops & E & A & _). exists ops. auto. Qed.
Print Assumptions C13_file_edit.

(** A subtree with no requested change inside keeps its text byte for byte. *)
Theorem C13_untouched : forall del rep ins s t i p,
  (forall j, i <= j < i + tsize t -> del j = false /\ rep j = None /\ ins j = None) -> p + tlen t <= length s ->
  edited del rep ins s t i p = sub p (p + tlen t) s.
Proof. exact edited_none. Qed.
Print Assumptions C13_untouched.

(** The naive reading "every requested insertion shows up" is false: after a deleted node, ... *)
Theorem C13_insert_after_deleted_refuted : exists f T n t ops new, wf_file f T /\ char_tree (f_text f) T /\
  into_text_edit f (fe_insert_text_after (fe_delete fe_new n) n t) = Ok ops /\ apply ops (as_text (f_text f)) = Ok new
  /\ find_sub t new = None /\ find_sub t (f_text f) = None.
Proof.
  exists ex_file, ex_tree, 5, [120; 121]. eexists. eexists.
  split; [exact ex_wf|]. split; [exact ex_chars|]. repeat split; reflexivity.
Qed.
Print Assumptions C13_insert_after_deleted_refuted.

(** ... and a second insertion after the same node, are dropped. *)
Theorem C13_second_insert_refuted : exists f T n t ops new, wf_file f T /\ char_tree (f_text f) T /\
  into_text_edit f (fe_insert_text_after (fe_insert_text_after fe_new n [60]) n t) = Ok ops
  /\ apply ops (as_text (f_text f)) = Ok new /\ find_sub t new = None.
Proof.
  exists ex_file, ex_tree, 5, [120; 121]. eexists. eexists.
  split; [exact ex_wf|]. split; [exact ex_chars|]. repeat split; reflexivity.
Qed.
Print Assumptions C13_second_insert_refuted.

Example C13_example :
  let e := fe_insert_text_after (fe_replace_with_text (fe_delete fe_new 2) 4 [49; 50]) 9 [59] in
  wf_file ex_file ex_tree /\ char_tree ex_text ex_tree /\ edit_result ex_file ex_tree e = [40; 49; 50; 41; 59].
Proof. split; [exact ex_wf|]. split; [exact ex_chars|reflexivity]. Qed.

(** ** C06 for file edits: what actions send to the editor *)

Theorem C06_file_edit : forall f T e, wf_file f T -> char_tree (f_text f) T ->
  exists ops es, into_text_edit f e = Ok ops /\ to_vs_edits ops = Ok es
    /\ ordered 0 (length (f_text f)) (map repl_of_vs es)
    /\ splice 0 (f_text f) (map repl_of_vs es) = edit_result f T e.
Proof.
  intros f T e W C. destruct (file_edit_ok f T e W C) as (ops & E & A & O & AL).
  destruct (to_vs_ok (f_text f) ops 0 O AL (or_introl eq_refl)) as (es & E' & O' & _ & A').
  exists ops, es. repeat split; auto. rewrite A in A'. injection A' as ->. reflexivity.
Qed.
Print Assumptions C06_file_edit.

(** ** C14: replacing a substring *)

Theorem C14_replace_substring : forall f T r new, wf_file f T -> char_tree (f_text f) T ->
  proper r -> rend r <= length (f_text f) -> aligned (f_text f) (rstart r) -> aligned (f_text f) (rend r) ->
  exists e ops, fe_replace_substring f fe_new r new = Ok e /\ into_text_edit f e = Ok ops
    /\ apply ops (as_text (f_text f)) = Ok (sub 0 (rstart r) (f_text f) ++ new ++ sub (rend r) (length (f_text f)) (f_text f)).
Proof. exact replace_substring_ok. Qed.
Print Assumptions C14_replace_substring.

Theorem C14_outside_panics : forall f T e r new, wf_file f T -> length (f_text f) < rend r ->
  fe_replace_substring f e r new = Panic.
Proof. exact replace_substring_panics. Qed.
Print Assumptions C14_outside_panics.

Example C14_example :
  exists e ops, fe_replace_substring ex_file fe_new (mkRange 3 6) [33] = Ok e /\ into_text_edit ex_file e = Ok ops
    /\ apply ops (as_text ex_text) = Ok [102; 40; 97; 33; 41].
Proof. eexists. eexists. repeat split; reflexivity. Qed.
