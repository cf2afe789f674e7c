(** Theorems for the editor properties C15, C16 and C42. *)
From Coq Require Import List Arith Bool Lia.
From Verif Require Import Base BaseFacts TextModel EditModel TreeModel SearchModel FileEditModel EditorModel
  TextSpec TextProofs TreeSpec TreeProofs SearchSpec SearchProofs TraversalProofs FileEditSpec FileEditProofs
  EditorSpec EditorProofs PropsTree.
Import ListNotations.

(** In the running example [f(a, b)] (PropsTree.v) type 7 is whitespace. *)
Definition ex_ws (ty : nat) : bool := ty =? 7.

(** ** C15: extending the selection *)

(** From a non-empty selection inside the file: [None] exactly for the whole file; otherwise the range of a
    node that strictly contains the selection, and the smallest such range. *)
Theorem C15_extend : forall f T ws r, wf_file f T -> rstart r < rend r -> rend r <= length (f_text f) ->
  exists o, extend_selection f ws r = Ok o
    /\ (o = None <-> r = mkRange 0 (length (f_text f)))
    /\ (forall r', o = Some r' -> strictly_contains r' r /\ (exists n, has_range T n r')
          /\ forall n rn, has_range T n rn -> strictly_contains rn r -> contains_range rn r').
Proof.
  intros f T ws r W NE IN.
  destruct (extend_step f T ws W r NE IN) as (c & l & _ & _ & _ & _ & _ & [[E ->]|(r' & n & E & NW & HR & CV & NR & Mn & _)]).
  - exists None. split; [exact E|]. split; [split; auto|]. discriminate.
  - exists (Some r'). split; [exact E|]. split; [split; [discriminate|contradiction]|]. intros r0 X. injection X as <-.
    split; [|split; [eauto|]].
    + split; [|exact NR]. destruct HR as (p & q & t & A & ->). destruct CV as (p' & q' & t' & A' & C1 & C2).
      destruct (At_unique _ _ _ _ _ _ _ _ A A') as (-> & -> & ->). unfold contains_range. cbn. auto.
    + intros d rd HD [[C1 C2] ND]. apply (Mn d rd HD); [|exact ND]. destruct HD as (p & q & t & A & ->). exists p, q, t. auto.
Qed.
Print Assumptions C15_extend.

(** Repeating it reaches the whole file in at most as many steps as the smallest node covering the selection
    has ancestors (itself included), and then stops. *)
Theorem C15_reaches_root : forall f T ws r, wf_file f T -> rstart r < rend r -> rend r <= length (f_text f) ->
  exists c l k, find_covering_node (f_nodes f) root r = Ok c /\ ancestors (f_nodes f) c = Ok l
    /\ k <= length l /\ extends_to f ws k r (mkRange 0 (length (f_text f)))
    /\ extend_selection f ws (mkRange 0 (length (f_text f))) = Ok None.
Proof. intros f T ws r W NE IN. exact (extend_reaches f T ws W r NE IN). Qed.
Print Assumptions C15_reaches_root.

(** Outside the file it panics. *)
Theorem C15_outside_panics : forall f T ws r, wf_file f T -> rstart r < rend r -> length (f_text f) < rend r ->
  extend_selection f ws r = Panic.
Proof.
  intros f T ws r [ST L] NE OUT. unfold extend_selection.
  replace (range_is_empty r) with false by (symmetry; unfold range_is_empty; apply Nat.eqb_neq; lia).
  rewrite (covering_panics (f_nodes f) T ST root 0 None T r (At_root T)); [reflexivity|lia].
Qed.
Print Assumptions C15_outside_panics.

(** An empty selection becomes the leftmost solid leaf at the offset, else the whitespace there, except that
    in the indentation of a line it becomes the node covering the rest of the line. *)
Theorem C15_empty : forall f T ws off, wf_file f T -> char_tree (f_text f) T -> off <= length (f_text f) ->
  aligned (f_text f) off ->
  exists o, extend_selection f ws (mkRange off off) = Ok o /\ empty_result f T ws off o.
Proof. intros f T ws off W C IN AL. exact (extend_empty_ok f T ws W C off IN AL). Qed.
Print Assumptions C15_empty.

Theorem C15_empty_none : forall f T ws off, wf_file f T -> char_tree (f_text f) T -> off <= length (f_text f) ->
  aligned (f_text f) off -> (extend_selection f ws (mkRange off off) = Ok None <-> f_text f = []).
Proof.
  intros f T ws off W C IN AL. destruct (extend_empty_ok f T ws W C off IN AL) as (o & E & R). rewrite E. split.
  - intros X. injection X as ->. destruct R as [[L _]|[(n & r & _ & _ & _ & _ & X)|(n & r & _ & _ & _ & [(_ & _ & k & c & rc & _ & _ & _ & X & _)|[_ X]])]];
      try discriminate. now apply length_zero_iff_nil.
  - intros X. assert (Z : tlen T = 0) by (destruct W as [_ ->]; now rewrite X).
    assert (NT : forall n, ~ touches T off n).
    { intros n (p & q & t & A & _ & L & _). apply AtG_At in A. apply AtG_bounds in A. lia. }
    destruct R as [[_ ->]|[(n & r & TN & _)|(n & r & TN & _)]]; [reflexivity|exfalso; eapply NT; eauto|exfalso; eapply NT; eauto].
Qed.
Print Assumptions C15_empty_none.

(** For empty selections "the result contains the selection" is false: in the indentation before [a] of
    "\n  a\n", the result is [a], to the right of the cursor. *)
Definition indent_tree : tree := Node 1 [Leaf 7 3; Leaf 3 1; Leaf 7 1].
Definition indent_file : file := mkFile [10; 32; 32; 97; 10] (layout indent_tree None 0 0).

Theorem C15_empty_contains_refuted : exists f T ws off r, wf_file f T /\ char_tree (f_text f) T /\ off <= length (f_text f)
  /\ extend_selection f ws (mkRange off off) = Ok (Some r) /\ ~ contains_range r (mkRange off off).
Proof.
  exists indent_file, indent_tree, ex_ws, 2, (mkRange 3 4).
  split; [split; [apply layout_stores|reflexivity]|]. split.
  { assert (G : forall i, i <= 5 -> aligned (f_text indent_file) i).
    { intros i H. apply boundary_spec. do 6 (destruct i; [reflexivity|]). lia. }
    intros i p par t A. apply AtG_At in A. apply AtG_bounds in A. cbn in A. split; apply G; lia. }
  split; [cbn; lia|]. split; [reflexivity|]. unfold contains_range. cbn. lia.
Qed.
Print Assumptions C15_empty_contains_refuted.

Example C15_example :
  wf_file ex_file ex_tree
  /\ extend_selection ex_file ex_ws (mkRange 2 2) = Ok (Some (mkRange 1 2))
  /\ extend_selection ex_file ex_ws (mkRange 2 3) = Ok (Some (mkRange 2 6))
  /\ extend_selection ex_file ex_ws (mkRange 2 6) = Ok (Some (mkRange 0 7))
  /\ extend_selection ex_file ex_ws (mkRange 0 7) = Ok None
  /\ extend_selection ex_file ex_ws (mkRange 3 5) = Ok (Some (mkRange 2 6)).
Proof. split; [exact ex_wf|]. repeat split; reflexivity. Qed.

(** ** C16: the swap action *)

(** At every offset of a file, the action is offered (without applying) exactly when applying it gives an
    edit, and that is exactly when there are two nodes of one type around the comma at the offset. *)
Theorem C16_offered : forall f T ws off, wf_file f T -> char_tree (f_text f) T -> off <= length (f_text f) ->
  (swap f ws off false = Ok (Some Available) <-> exists comma l r, swaps f T ws off comma l r)
  /\ (swap f ws off false = Ok (Some Available) <-> exists ops, swap f ws off true = Ok (Some (Applied ops)))
  /\ (swap f ws off false = Ok (Some Available) \/ swap f ws off false = Ok None)
  /\ (swap f ws off false = Ok None <-> swap f ws off true = Ok None).
Proof.
  intros f T ws off W C IN.
  destruct (swap_ok f T ws W C off IN) as [(c & l & r & l1 & l2 & r1 & r2 & ops & S & E1 & E2 & _)|(N & E1 & E2)]; rewrite E1, E2.
  - split; [split; eauto|]. split; [split; eauto|]. split; [auto|]. split; discriminate.
  - split; [split; [discriminate|intros (c & l & r & S); exfalso; eapply N; eauto]|].
    split; [split; [discriminate|intros (ops & X); discriminate]|]. split; [auto|]. split; auto.
Qed.
Print Assumptions C16_offered.

(** The new text is the old one with the texts of those two nodes exchanged. *)
Theorem C16_swaps : forall f T ws off ops, wf_file f T -> char_tree (f_text f) T -> off <= length (f_text f) ->
  swap f ws off true = Ok (Some (Applied ops)) ->
  exists comma l r l1 l2 r1 r2, swaps f T ws off comma l r
    /\ has_range T l (mkRange l1 l2) /\ has_range T r (mkRange r1 r2)
    /\ l1 <= l2 /\ l2 <= r1 /\ r1 <= r2 /\ r2 <= length (f_text f)
    /\ let s := f_text f in
       s = sub 0 l1 s ++ sub l1 l2 s ++ sub l2 r1 s ++ sub r1 r2 s ++ sub r2 (length s) s
       /\ apply ops (as_text s) = Ok (sub 0 l1 s ++ sub r1 r2 s ++ sub l2 r1 s ++ sub l1 l2 s ++ sub r2 (length s) s).
Proof.
  intros f T ws off ops W C IN E.
  destruct (swap_ok f T ws W C off IN) as [(c & l & r & l1 & l2 & r1 & r2 & ops' & S & _ & E2 & HL & HR & O1 & O2 & O3 & O4 & A)|(N & _ & E2)];
    rewrite E in E2; [|discriminate]. injection E2 as <-.
  exists c, l, r, l1, l2, r1, r2. repeat (split; [solve [auto]|]). cbv zeta. split; [|exact A].
  rewrite !sub_app by lia. now rewrite sub_full.
Qed.
Print Assumptions C16_swaps.

(** The list of offered ids and the application by id (the calls the editor makes). *)
Theorem C16_by_id : forall f T ws r, wf_file f T -> char_tree (f_text f) T -> rstart r <= length (f_text f) ->
  exists l o, default_context_actions f ws r = Ok l /\ apply_default_context_action f ws r swap_id = Ok (Some o)
    /\ (In swap_id l <-> exists ops, o = Some ops)
    /\ (forall ops, o = Some ops <-> swap f ws (rstart r) true = Ok (Some (Applied ops)))
    /\ (forall id, id <> swap_id -> ~ In id l /\ apply_default_context_action f ws r id = Ok None).
Proof.
  intros f T ws r W C IN. unfold default_context_actions, apply_default_context_action, apply_action, default_actions.
  cbn [offered_actions find_first fst].
  assert (SID : bytes_eqb swap_id swap_id = true) by now apply bytes_eqb_spec.
  rewrite SID.
  assert (OTH : forall id, id <> swap_id -> bytes_eqb swap_id id = false).
  { intros id N. apply not_true_is_false. intros H. apply bytes_eqb_spec in H. congruence. }
  destruct (swap_ok f T ws W C (rstart r) IN) as [(c & a & b & l1 & l2 & r1 & r2 & ops & S & E1 & E2 & _)|(N & E1 & E2)]; rewrite E1, E2; cbn [bind into_edit].
  - exists [swap_id], (Some ops). split; [reflexivity|]. split; [reflexivity|]. split; [split; [eauto|intros _; left; reflexivity]|].
    split; [intros ops'; split; intros X; injection X as <-; reflexivity|].
    intros id NI. split; [intros [H|[]]; congruence|]. now rewrite (OTH id NI).
  - exists [], None. split; [reflexivity|]. split; [reflexivity|]. split; [split; [easy|intros (ops & X); discriminate]|].
    split; [intros ops'; split; discriminate|]. intros id NI. split; [easy|]. now rewrite (OTH id NI).
Qed.
Print Assumptions C16_by_id.

(** Past the end of the file the action panics. *)
Theorem C16_outside_panics : forall f T ws off b, wf_file f T -> length (f_text f) < off -> swap f ws off b = Panic.
Proof.
  intros f T ws off b [ST L] OUT. unfold swap, find_comma.
  rewrite (find_leaf_outside (f_nodes f) T ST off root 0 None T (At_root T)); [reflexivity|lia].
Qed.
Print Assumptions C16_outside_panics.

(** [f(a, b)] becomes [f(b, a)]. *)
Example C16_example : exists ops,
  wf_file ex_file ex_tree /\ char_tree (f_text ex_file) ex_tree
  /\ swap ex_file ex_ws 3 false = Ok (Some Available) /\ swap ex_file ex_ws 3 true = Ok (Some (Applied ops))
  /\ apply ops (as_text (f_text ex_file)) = Ok [102; 40; 98; 44; 32; 97; 41]
  /\ swap ex_file ex_ws 1 false = Ok None.
Proof. eexists. split; [exact ex_wf|]. split; [exact ex_chars|]. repeat split; reflexivity. Qed.

(** ** C42: highlighting *)

(** The highlights are the marks of the nodes in bottom-up order (the order of [subtree], C11). *)
Theorem C42_highlight : forall nodes T (tag : Type) (err : tag) error_ty mapping callbacks, stores nodes T ->
  exists l mss, subtree nodes root = Ok l
    /\ Forall2 (node_marks nodes T err error_ty mapping callbacks) l mss
    /\ highlight nodes tag err error_ty mapping callbacks = Ok (concat mss).
Proof. intros nodes T tag err error_ty mapping callbacks ST. exact (highlight_ok nodes T ST tag err error_ty mapping callbacks). Qed.
Print Assumptions C42_highlight.

(** Every highlight is the range of a node, except that the mark of an empty error node is one byte long. *)
Theorem C42_ranges : forall nodes T (tag : Type) (err : tag) error_ty mapping callbacks hs r g, stores nodes T ->
  highlight nodes tag err error_ty mapping callbacks = Ok hs -> In (r, g) hs ->
  (exists n, has_range T n r)
  \/ (g = err /\ exists n p q t, At T n p q t /\ t_ty t = error_ty /\ tlen t = 0 /\ r = mkRange p (p + 1)).
Proof.
  intros nodes T tag err error_ty mapping callbacks hs r g ST E I.
  destruct (highlight_ok nodes T ST tag err error_ty mapping callbacks) as (l & mss & _ & F & E'). rewrite E in E'. injection E' as ->.
  apply in_concat in I as (ms & I1 & I2). destruct (Forall2_In _ _ _ _ _ _ F I1) as (n & _ & M).
  destruct (node_marks_range nodes T ST tag err error_ty mapping callbacks n ms r g M I2) as [(m & _ & H)|(-> & p & q & t & A)]; [left; eauto|].
  right. split; [reflexivity|]. exists n, p, q, t. exact A.
Qed.
Print Assumptions C42_ranges.

(** Every error node is marked. *)
Theorem C42_errors_marked : forall nodes T (tag : Type) (err : tag) error_ty mapping callbacks hs n p q t, stores nodes T ->
  highlight nodes tag err error_ty mapping callbacks = Ok hs -> At T n p q t -> t_ty t = error_ty ->
  In (mkRange p (p + Nat.max 1 (tlen t)), err) hs.
Proof.
  intros nodes T tag err error_ty mapping callbacks hs n p q t ST E A TY.
  destruct (highlight_ok nodes T ST tag err error_ty mapping callbacks) as (l & mss & S & F & E'). rewrite E in E'. injection E' as ->.
  unfold root in S. rewrite (subtree_ok _ _ ST _ _ _ _ (At_root T)) in S. injection S as <-.
  assert (I : In n (post T 0)).
  { apply post_in. apply (Below_interval _ _ _ _ _ (At_root T)). eapply Below_root; eauto. }
  assert (G : forall l mss, Forall2 (node_marks nodes T err error_ty mapping callbacks) l mss -> In n l ->
     exists ms, In ms mss /\ node_marks nodes T err error_ty mapping callbacks n ms).
  { clear. intros l mss F. induction F as [|x y l mss H F IH]; intros I; [easy|]. destruct I as [->|I]; [exists y; split; [left; reflexivity|exact H]|].
    destruct (IH I) as (ms & I' & M). exists ms. split; [right; exact I'|exact M]. }
  destruct (G _ _ F I) as (ms & I' & own & cms & O & _ & ->). apply in_concat. eexists. split; [exact I'|]. apply in_or_app. left.
  inversion O as [p' q' t' A' E1 L|p' q' t' A' E1 L|p' q' t' g' A' E1 M|p' q' t' A' E1 M]; subst own;
    destruct (At_unique _ _ _ _ _ _ _ _ A A') as (-> & -> & ->); try contradiction; left; repeat f_equal; lia.
Qed.
Print Assumptions C42_errors_marked.

(** "Every highlight lies inside the file" is false: an empty error node at the end of the file gives a mark
    one byte past the end. *)
Theorem C42_inside_refuted : exists f T hs r, wf_file f T
  /\ highlight (f_nodes f) nat 100 0 [] [] = Ok hs /\ In (r, 100) hs /\ length (f_text f) < rend r.
Proof.
  set (T := Node 1 [Leaf 3 2; Node 0 []]).
  exists (mkFile [97; 98] (layout T None 0 0)), T, [(mkRange 2 3, 100)], (mkRange 2 3).
  split; [split; [apply layout_stores|reflexivity]|]. split; [reflexivity|]. split; [left; reflexivity|cbn; lia].
Qed.
Print Assumptions C42_inside_refuted.

(** In [f(a, b)]: names are tagged 21 by the mapping, and calls (type 2) colour their first name with 22. *)
Example C42_example : stores (f_nodes ex_file) ex_tree
  /\ highlight (f_nodes ex_file) nat 100 0 [(21, [3; 8]); (23, [8])] [([2], fun _ => [([3], 22); ([5; 3], 24); ([99], 25)])]
  = Ok [(mkRange 0 1, 21); (mkRange 2 3, 21); (mkRange 5 6, 21); (mkRange 6 7, 21); (mkRange 0 1, 22); (mkRange 2 3, 24)].
Proof. split; [exact ex_stores|reflexivity]. Qed.
