(** The tree builder stores exactly the tree described by its calls; facts about positions. *)
From Coq Require Import List Arith Bool Lia.
From Verif Require Import Base BaseFacts TextModel TreeModel TextSpec TextProofs TreeSpec.
Import ListNotations.

Arguments tlens _ : simpl never.
Arguments tsizes _ : simpl never.

Section TreeInd.
  Variable P : tree -> Prop.
  Hypothesis HL : forall ty n, P (Leaf ty n).
  Hypothesis HN : forall ty ts, Forall P ts -> P (Node ty ts).
  Fixpoint tree_ind' (t : tree) : P t :=
    match t with
    | Leaf ty n => HL ty n
    | Node ty ts => HN ty ts ((fix go (l : list tree) : Forall P l :=
        match l with
        | [] => Forall_nil P
        | x :: r => Forall_cons x (tree_ind' x) (go r)
        end) ts)
    end.
End TreeInd.

Lemma tsize_pos : forall t, 0 < tsize t.
Proof. destruct t; cbn; lia. Qed.

Lemma tsizes_app : forall a b, tsizes (a ++ b) = tsizes a + tsizes b.
Proof. intros. unfold tsizes. now rewrite map_app, sum_app. Qed.

Lemma tlens_app : forall a b, tlens (a ++ b) = tlens a + tlens b.
Proof. intros. unfold tlens. now rewrite map_app, sum_app. Qed.

Lemma tsizes_cons : forall t r, tsizes (t :: r) = tsize t + tsizes r.
Proof. reflexivity. Qed.

Lemma tlens_cons : forall t r, tlens (t :: r) = tlen t + tlens r.
Proof. reflexivity. Qed.

Lemma child_ids_app : forall a b i, child_ids i (a ++ b) = child_ids i a ++ child_ids (i + tsizes a) b.
Proof.
  induction a as [|t a IH]; intros b i; cbn [app child_ids].
  - unfold tsizes. cbn. now rewrite Nat.add_0_r.
  - rewrite IH. cbn [app]. f_equal. f_equal. f_equal. rewrite tsizes_cons. lia.
Qed.

Lemma child_ids_length : forall a i, length (child_ids i a) = length a.
Proof. induction a; intros; cbn; auto. Qed.

(** ** The node table as a list built by structural recursion *)

Fixpoint layout (t : tree) (par : option nat) (id pos : nat) : list node_data :=
  data_of id pos par t ::
  match t with
  | Leaf _ _ => []
  | Node _ ts =>
      (fix go (l : list tree) (i p : nat) : list node_data :=
         match l with
         | [] => []
         | x :: r => layout x (Some id) i p ++ go r (i + tsize x) (p + tlen x)
         end) ts (S id) pos
  end.

Fixpoint layouts (ts : list tree) (par : option nat) (id pos : nat) : list node_data :=
  match ts with
  | [] => []
  | x :: r => layout x par id pos ++ layouts r par (id + tsize x) (pos + tlen x)
  end.

Lemma layout_node : forall ty ts par id pos,
  layout (Node ty ts) par id pos = data_of id pos par (Node ty ts) :: layouts ts (Some id) (S id) pos.
Proof.
  intros. cbn [layout]. f_equal. generalize (S id) as i, pos as p.
  induction ts as [|x r IH]; intros i p; [reflexivity|]. cbn [layouts]. now rewrite <- IH.
Qed.

Lemma layout_length : forall t par id pos, length (layout t par id pos) = tsize t.
Proof.
  apply (tree_ind' (fun t => forall par id pos, length (layout t par id pos) = tsize t)).
  - reflexivity.
  - intros ty ts F par id pos. rewrite layout_node. cbn [length tsize]. f_equal.
    generalize (Some id) as q, (S id) as i, pos as p. induction F as [|x r Hx F IH]; intros q i p; [reflexivity|].
    cbn [layouts map]. rewrite app_length, Hx, IH. reflexivity.
Qed.

Lemma layouts_length : forall ts par id pos, length (layouts ts par id pos) = tsizes ts.
Proof.
  induction ts as [|x r IH]; intros; [reflexivity|]. cbn [layouts].
  rewrite app_length, layout_length, IH. reflexivity.
Qed.

Lemma layouts_app : forall a b par id pos,
  layouts (a ++ b) par id pos = layouts a par id pos ++ layouts b par (id + tsizes a) (pos + tlens a).
Proof.
  induction a as [|x a IH]; intros; cbn [app layouts].
  - unfold tsizes, tlens. cbn. now rewrite !Nat.add_0_r.
  - rewrite IH, tsizes_cons, tlens_cons, <- app_assoc, !Nat.add_assoc. reflexivity.
Qed.

(** ** Running the builder *)

Definition add_child (c len : nat) (d : node_data) : node_data :=
  mkNode (n_ty d) (n_parent d) (n_children d ++ [c]) (mkRange (rstart (n_range d)) (rend (n_range d) + len)).

Definition add_children (ids : list nat) (len : nat) (d : node_data) : node_data :=
  mkNode (n_ty d) (n_parent d) (n_children d ++ ids) (mkRange (rstart (n_range d)) (rend (n_range d) + len)).

Lemma run_app : forall a b s, tb_run s (a ++ b) = (s' <- tb_run s a ;; tb_run s' b).
Proof.
  unfold tb_run. induction a as [|c a IH]; intros b s; cbn [app fold_res].
  - reflexivity.
  - destruct (tb_step s c); cbn [bind]; auto.
Qed.

Lemma set_nth_twice : forall A i (a b : A) l, set_nth i a (set_nth i b l) = set_nth i a l.
Proof. intros A i a b l. revert i. induction l; destruct i; cbn; auto. now rewrite IHl. Qed.

Lemma set_nth_id : forall A i (a : A) l, nth_error l i = Some a -> set_nth i a l = l.
Proof. intros A i a l. revert i. induction l; destruct i; cbn; intros; try congruence. now rewrite IHl. Qed.

Lemma nth_lt : forall A (l : list A) i a, nth_error l i = Some a -> i < length l.
Proof. intros. apply nth_error_Some. congruence. Qed.

(** [push_child] on a builder whose current node is [c]. *)
Lemma push_child_ok : forall nodes c stk pos d ch,
  nth_error nodes c = Some d ->
  push_child (mkTB nodes (c :: stk) pos) ch =
  Ok (mkTB (set_nth c (mkNode (n_ty d) (n_parent d) (n_children d ++ [length nodes]) (n_range d)) nodes
            ++ [mkNode (n_ty ch) (Some c) (n_children ch) (n_range ch)]) (c :: stk) pos, length nodes).
Proof.
  intros nodes c stk pos d ch H. unfold push_child, current_id, new_node. cbn [tb_stack hd_error unwrap bind tb_nodes tb_pos].
  unfold update_current, current_id. cbn [tb_stack hd_error unwrap bind tb_nodes tb_pos].
  unfold index. rewrite nth_error_app1 by (eapply nth_lt; eauto). rewrite H. cbn [unwrap bind].
  rewrite set_nth_app_l by (eapply nth_lt; eauto). reflexivity.
Qed.

Lemma add_len_ok : forall nodes c stk pos d id dc,
  nth_error nodes c = Some d -> nth_error nodes id = Some dc -> proper (n_range d) -> proper (n_range dc) ->
  rend (n_range d) = rstart (n_range dc) ->
  add_len (mkTB nodes (c :: stk) pos) id =
  Ok (mkTB (set_nth c (mkNode (n_ty d) (n_parent d) (n_children d) (mkRange (rstart (n_range d)) (rend (n_range dc)))) nodes)
        (c :: stk) pos).
Proof.
  intros nodes c stk pos d id dc H1 H2 P1 P2 E. unfold add_len, index. cbn [tb_nodes]. rewrite H2. cbn [unwrap bind].
  unfold update_current, current_id. cbn [tb_stack hd_error unwrap bind tb_nodes tb_pos].
  unfold index. rewrite H1. cbn [unwrap bind]. unfold grow. rewrite E, Nat.eqb_refl. cbn [guard].
  rewrite from_to_ok; [reflexivity|]. unfold proper in *. lia.
Qed.

Definition runs_tree (t : tree) : Prop :=
  forall nodes c stk pos d, nth_error nodes c = Some d -> proper (n_range d) -> rend (n_range d) = pos ->
  tb_run (mkTB nodes (c :: stk) pos) (calls_of t) =
  Ok (mkTB (set_nth c (add_child (length nodes) (tlen t) d) nodes ++ layout t (Some c) (length nodes) pos)
        (c :: stk) (pos + tlen t)).

Lemma runs_trees : forall ts, Forall runs_tree ts ->
  forall nodes c stk pos d, nth_error nodes c = Some d -> proper (n_range d) -> rend (n_range d) = pos ->
  tb_run (mkTB nodes (c :: stk) pos) (flat_map calls_of ts) =
  Ok (mkTB (set_nth c (add_children (child_ids (length nodes) ts) (tlens ts) d) nodes ++ layouts ts (Some c) (length nodes) pos)
        (c :: stk) (pos + tlens ts)).
Proof.
  intros ts F. induction F as [|t ts Ht F IH]; intros nodes c stk pos d H P E.
  - cbn [flat_map layouts child_ids]. unfold tlens. cbn [map sum fold_right]. rewrite Nat.add_0_r, app_nil_r.
    unfold tb_run. cbn [fold_res]. unfold add_children. rewrite app_nil_r.
    rewrite set_nth_id; [reflexivity|]. rewrite H. f_equal. destruct d as [a b x [s e]]. cbn. now rewrite Nat.add_0_r.
  - cbn [flat_map]. rewrite run_app, (Ht _ _ _ _ _ H P E). cbn [bind].
    assert (LT : c < length nodes) by (eapply nth_lt; eauto).
    assert (LN : length (set_nth c (add_child (length nodes) (tlen t) d) nodes ++ layout t (Some c) (length nodes) pos)
                 = length nodes + tsize t) by (rewrite app_length, set_nth_length, layout_length; reflexivity).
    rewrite (IH _ c stk (pos + tlen t) (add_child (length nodes) (tlen t) d)).
    + rewrite LN. f_equal. f_equal.
      * rewrite set_nth_app_l by (rewrite set_nth_length; exact LT). rewrite set_nth_twice, <- app_assoc.
        cbn [layouts child_ids]. f_equal. f_equal. unfold add_children, add_child. cbn.
        rewrite <- app_assoc. cbn. f_equal. f_equal. rewrite tlens_cons. lia.
      * rewrite tlens_cons. lia.
    + rewrite nth_error_app1 by (rewrite set_nth_length; exact LT). now apply nth_error_set_nth_eq.
    + unfold proper, add_child in *. cbn. lia.
    + unfold add_child. cbn. lia.
Qed.

Lemma runs_all : forall t, runs_tree t.
Proof.
  apply tree_ind'.
  - intros ty n nodes c stk pos d H P E. cbn [calls_of]. unfold tb_run. cbn [fold_res tb_step].
    unfold tb_leaf. cbn [tb_pos tb_nodes tb_stack]. rewrite from_len_ok. cbn [bind].
    rewrite (push_child_ok _ _ _ _ _ _ H). cbn [bind n_ty n_children n_range].
    assert (LT : c < length nodes) by (eapply nth_lt; eauto).
    rewrite (add_len_ok _ _ _ _ (mkNode (n_ty d) (n_parent d) (n_children d ++ [length nodes]) (n_range d)) _
              (mkNode ty (Some c) [] (mkRange pos (pos + n)))); cbn [n_range rstart rend]; auto.
    + cbn [bind]. f_equal. f_equal.
      rewrite set_nth_app_l by (rewrite set_nth_length; exact LT). rewrite set_nth_twice.
      cbn [layout]. unfold add_child, data_of. cbn. now rewrite E.
    + rewrite nth_error_app1 by (rewrite set_nth_length; exact LT). now apply nth_error_set_nth_eq.
    + rewrite nth_error_app2 by (rewrite set_nth_length; lia). rewrite set_nth_length, Nat.sub_diag. reflexivity.
    + unfold proper. cbn. lia.
  - intros ty ts F nodes c stk pos d H P E. cbn [calls_of].
    assert (LT : c < length nodes) by (eapply nth_lt; eauto).
    change (CStart ty :: flat_map calls_of ts ++ [CFinish]) with ([CStart ty] ++ (flat_map calls_of ts ++ [CFinish])).
    rewrite run_app. unfold tb_run at 1. cbn [fold_res tb_step]. unfold tb_start. cbn [tb_pos tb_nodes tb_stack].
    rewrite from_len_ok, Nat.add_0_r. cbn [bind]. rewrite (push_child_ok _ _ _ _ _ _ H).
    cbn [bind n_ty n_children n_range tb_nodes tb_stack tb_pos].
    set (d1 := mkNode (n_ty d) (n_parent d) (n_children d ++ [length nodes]) (n_range d)).
    set (f0 := mkNode ty (Some c) [] (mkRange pos pos)).
    rewrite run_app.
    assert (N1 : nth_error (set_nth c d1 nodes ++ [f0]) (length nodes) = Some f0).
    { rewrite nth_error_app2 by (rewrite set_nth_length; lia). rewrite set_nth_length, Nat.sub_diag. reflexivity. }
    rewrite (runs_trees ts F _ _ _ _ _ N1); [|unfold proper; cbn; lia|reflexivity]. cbn [bind].
    assert (LN : length (set_nth c d1 nodes ++ [f0]) = S (length nodes))
      by (rewrite app_length, set_nth_length; cbn; lia).
    rewrite LN.
    replace (length nodes) with (length (set_nth c d1 nodes) + 0) at 1 by (rewrite set_nth_length; lia).
    rewrite set_nth_app_r. cbn [set_nth].
    unfold tb_run. cbn [fold_res tb_step]. unfold tb_finish. cbn [tb_stack tb_nodes tb_pos].
    unfold f0, add_children. cbn [n_ty n_parent n_children n_range rstart rend app].
    rewrite <- app_assoc. cbn [app].
    set (f1 := mkNode ty (Some c) (child_ids (S (length nodes)) ts) (mkRange pos (pos + tlens ts))).
    rewrite (add_len_ok _ _ _ _ d1 _ f1).
    + cbn [bind]. f_equal. f_equal.
      rewrite set_nth_app_l by (rewrite set_nth_length; exact LT). rewrite set_nth_twice.
      rewrite layout_node. unfold f1, data_of. cbn [t_ty t_children tlen n_range rstart rend].
      unfold add_child, d1. cbn [n_ty n_parent n_children n_range rstart rend]. rewrite E. reflexivity.
    + rewrite nth_error_app1 by (rewrite set_nth_length; exact LT). now apply nth_error_set_nth_eq.
    + rewrite nth_error_app2 by (rewrite set_nth_length; lia). rewrite set_nth_length, Nat.sub_diag. reflexivity.
    + exact P.
    + unfold proper, f1. cbn. lia.
    + exact E.
Qed.

(** A root: an internal node started on an empty stack. *)
Lemma runs_root : forall ty ts nodes pos,
  tb_run (mkTB nodes [] pos) (calls_of (Node ty ts)) =
  Ok (mkTB (nodes ++ layout (Node ty ts) None (length nodes) pos) [] (pos + tlens ts)).
Proof.
  intros ty ts nodes pos. cbn [calls_of].
  change (CStart ty :: flat_map calls_of ts ++ [CFinish]) with ([CStart ty] ++ (flat_map calls_of ts ++ [CFinish])).
  rewrite run_app. unfold tb_run at 1. cbn [fold_res tb_step]. unfold tb_start. cbn [tb_pos tb_nodes tb_stack].
  rewrite from_len_ok, Nat.add_0_r. cbn [bind]. unfold new_node. cbn [bind tb_pos tb_nodes tb_stack].
  rewrite run_app. set (f0 := mkNode ty None [] (mkRange pos pos)).
  assert (N1 : nth_error (nodes ++ [f0]) (length nodes) = Some f0).
  { rewrite nth_error_app2 by lia. rewrite Nat.sub_diag. reflexivity. }
  assert (F : Forall runs_tree ts) by (apply Forall_forall; intros; apply runs_all).
  rewrite (runs_trees ts F _ _ _ _ _ N1); [|unfold proper; cbn; lia|reflexivity]. cbn [bind].
  unfold tb_run. cbn [fold_res tb_step]. unfold tb_finish. cbn [tb_stack tb_nodes tb_pos bind].
  rewrite layout_node, app_length. cbn [length]. rewrite Nat.add_1_r.
  replace (length nodes) with (length nodes + 0) at 1 by lia.
  rewrite set_nth_app_r. cbn [set_nth]. rewrite <- app_assoc. reflexivity.
Qed.

Definition is_node (t : tree) : Prop := match t with Node _ _ => True | Leaf _ _ => False end.

Lemma runs_roots : forall ts nodes pos, Forall is_node ts ->
  tb_run (mkTB nodes [] pos) (flat_map calls_of ts) =
  Ok (mkTB (nodes ++ layouts ts None (length nodes) pos) [] (pos + tlens ts)).
Proof.
  induction ts as [|t ts IH]; intros nodes pos F.
  - cbn. unfold tlens. cbn. now rewrite app_nil_r, Nat.add_0_r.
  - inversion F as [|? ? Ht F']; subst. destruct t as [ty n|ty us]; [easy|]. cbn [flat_map].
    rewrite run_app, runs_root. cbn [bind]. rewrite IH by exact F'.
    rewrite app_length, layout_length. cbn [layouts]. rewrite <- app_assoc. rewrite tlens_cons.
    cbn [tlen]. fold (tlens us). rewrite Nat.add_assoc. reflexivity.
Qed.

(** ** Which call sequences are accepted *)

(** What follows when [d] nodes are open. *)
Fixpoint closes (d : nat) (cs : list tb_call) : Prop :=
  match d with
  | 0 => exists ts, Forall is_node ts /\ cs = flat_map calls_of ts
  | S k => exists ts rest, cs = flat_map calls_of ts ++ CFinish :: rest /\ closes k rest
  end.

Lemma balanced_closes : forall cs d, balanced d cs = true -> closes d cs.
Proof.
  induction cs as [|c cs IH]; intros d H; cbn [balanced] in H.
  - btrue. subst. exists []. split; [constructor|reflexivity].
  - destruct c as [ty n|ty|].
    + apply andb_prop in H as [H1 H2]. destruct d; [discriminate|]. specialize (IH _ H2).
      destruct IH as (ts & rest & -> & R). exists (Leaf ty n :: ts), rest. split; [reflexivity|exact R].
    + specialize (IH _ H). destruct IH as (ts & rest & -> & R). destruct d as [|k]; cbn [closes] in R.
      * destruct R as (us & F & ->). exists (Node ty ts :: us). split; [constructor; [exact I|exact F]|].
        cbn [flat_map calls_of]. cbn [app]. rewrite <- app_assoc. reflexivity.
      * destruct R as (us & rest' & -> & R'). exists (Node ty ts :: us), rest'. split; [|exact R'].
        cbn [flat_map calls_of app]. rewrite <- !app_assoc. reflexivity.
    + destruct d as [|k]; [discriminate|]. exists [], cs. split; [reflexivity|]. now apply IH.
Qed.

Lemma update_current_stack : forall b f b', update_current b f = Ok b' -> tb_stack b' = tb_stack b.
Proof.
  intros b f b' H. unfold update_current in H. apply bind_ok in H as (i & _ & H).
  apply bind_ok in H as (d & _ & H). apply bind_ok in H as (d' & _ & H). injection H as <-. reflexivity.
Qed.

Lemma push_child_stack : forall b ch b' id, push_child b ch = Ok (b', id) -> tb_stack b' = tb_stack b /\ tb_stack b <> [].
Proof.
  intros b ch b' id H. unfold push_child in H. apply bind_ok in H as (c & H1 & H).
  cbn [new_node] in H. apply bind_ok in H as (b2 & H2 & H). injection H as <- <-.
  apply update_current_stack in H2. split; [exact H2|]. unfold current_id in H1. destruct (tb_stack b); discriminate.
Qed.

Lemma step_stack : forall b c b', tb_step b c = Ok b' ->
  match c with
  | CLeaf _ _ => tb_stack b <> [] /\ length (tb_stack b') = length (tb_stack b)
  | CStart _ => length (tb_stack b') = S (length (tb_stack b))
  | CFinish => S (length (tb_stack b')) = length (tb_stack b)
  end.
Proof.
  intros b [ty n|ty|] b' H; cbn [tb_step] in H.
  - unfold tb_leaf in H. apply bind_ok in H as (r & _ & H). apply bind_ok in H as ([b2 id] & H1 & H).
    apply push_child_stack in H1 as [H1 H2]. cbn in H1, H2. unfold add_len in H.
    apply bind_ok in H as (c & _ & H). apply update_current_stack in H. split; [exact H2|]. congruence.
  - unfold tb_start in H. apply bind_ok in H as (r & _ & H). apply bind_ok in H as ([b2 id] & H1 & H).
    injection H as <-. cbn. f_equal. destruct (tb_stack b) as [|x l] eqn:E.
    + injection H1 as <- <-. cbn. now rewrite E.
    + apply push_child_stack in H1 as [H1 _]. rewrite H1, E. reflexivity.
  - unfold tb_finish in H. destruct (tb_stack b) as [|x [|y l]]; [discriminate| |].
    + injection H as <-. reflexivity.
    + unfold add_len in H. apply bind_ok in H as (c & _ & H). apply update_current_stack in H. now rewrite H.
Qed.

Lemma run_balanced : forall cs b b', tb_run b cs = Ok b' -> tb_stack b' = [] -> balanced (length (tb_stack b)) cs = true.
Proof.
  unfold tb_run. induction cs as [|c cs IH]; intros b b' H E; cbn [fold_res] in H.
  - injection H as <-. rewrite E. reflexivity.
  - apply bind_ok in H as (b1 & H1 & H2). specialize (IH _ _ H2 E). apply step_stack in H1. destruct c; cbn [balanced].
    + destruct H1 as [N L]. rewrite <- L, IH. rewrite L. destruct (tb_stack b); [congruence|reflexivity].
    + now rewrite H1 in IH.
    + rewrite <- H1. exact IH.
Qed.

Lemma bind_not_oof : forall A B (x : res A) (f : A -> res B),
  x <> OutOfFuel -> (forall a, f a <> OutOfFuel) -> bind x f <> OutOfFuel.
Proof. intros A B [a| |] f H1 H2; cbn; auto; discriminate. Qed.

Lemma step_not_oof : forall b c, tb_step b c <> OutOfFuel.
Proof.
  assert (UC : forall b f, (forall d, f d <> OutOfFuel) -> update_current b f <> OutOfFuel).
  { intros b f H. unfold update_current, current_id, index.
    repeat (apply bind_not_oof; [|intros]); try discriminate; auto.
    - destruct (hd_error (tb_stack b)); discriminate.
    - destruct (nth_error (tb_nodes b) a); discriminate. }
  assert (AL : forall b c, add_len b c <> OutOfFuel).
  { intros b c. unfold add_len, index. apply bind_not_oof.
    - destruct (nth_error (tb_nodes b) c); discriminate.
    - intros. apply UC. intros d. unfold grow, guard, from_to, guard.
      destruct (rend (n_range d) =? rstart (n_range a)); [|discriminate].
      destruct (rstart (n_range d) <=? rend (n_range a)); discriminate. }
  assert (PC : forall b c, push_child b c <> OutOfFuel).
  { intros b c. unfold push_child, current_id. apply bind_not_oof.
    - destruct (hd_error (tb_stack b)); discriminate.
    - intros. cbn [new_node]. apply bind_not_oof; [apply UC|]; intros; discriminate. }
  intros b [ty n|ty|]; cbn [tb_step].
  - unfold tb_leaf. rewrite from_len_ok. cbn [bind]. apply bind_not_oof; auto. intros [b2 id]. apply AL.
  - unfold tb_start. rewrite from_len_ok. cbn [bind]. apply bind_not_oof.
    + destruct (tb_stack b); [discriminate|apply PC].
    + intros [b2 id]. discriminate.
  - unfold tb_finish. destruct (tb_stack b) as [|x [|y l]]; try discriminate. apply AL.
Qed.

Lemma run_not_oof : forall cs b, tb_run b cs <> OutOfFuel.
Proof.
  unfold tb_run. induction cs as [|c cs IH]; intros b; cbn [fold_res]; [discriminate|].
  apply bind_not_oof; [apply step_not_oof|auto].
Qed.

Lemma build_ok : forall ts, Forall is_node ts -> tb_build (flat_map calls_of ts) = Ok (layouts ts None 0 0).
Proof.
  intros ts F. unfold tb_build, tb_new. rewrite runs_roots by exact F. reflexivity.
Qed.

Lemma build_inv : forall cs nodes, tb_build cs = Ok nodes -> exists ts, Forall is_node ts /\ cs = flat_map calls_of ts.
Proof.
  intros cs nodes H. unfold tb_build in H. apply bind_ok in H as (b & H1 & H2).
  unfold tb_done in H2. destruct (tb_stack b) eqn:E; [|discriminate].
  apply run_balanced in H1; auto. apply balanced_closes in H1. exact H1.
Qed.

Lemma build_not_oof : forall cs, tb_build cs <> OutOfFuel.
Proof.
  intros cs. unfold tb_build. apply bind_not_oof; [apply run_not_oof|].
  intros b. unfold tb_done. destruct (tb_stack b); discriminate.
Qed.

(** ** Positions: [At] and the preorder enumeration *)

(** [At] relative to a subtree placed at number [i0], offset [p0]. *)
Inductive AtG (T : tree) (i0 p0 : nat) (par0 : option nat) : nat -> nat -> option nat -> tree -> Prop :=
| AtG_root : AtG T i0 p0 par0 i0 p0 par0 T
| AtG_child : forall i p par ty pre c post,
    AtG T i0 p0 par0 i p par (Node ty (pre ++ c :: post)) ->
    AtG T i0 p0 par0 (S i + tsizes pre) (p + tlens pre) (Some i) c.

Lemma AtG_At : forall T i p par t, AtG T 0 0 None i p par t <-> At T i p par t.
Proof.
  intros T i p par t. split; intro H; induction H.
  - apply At_root.
  - eapply At_child; eauto.
  - apply AtG_root.
  - eapply AtG_child; eauto.
Qed.

Lemma AtG_trans : forall T i0 p0 q0 i1 p1 q1 t1 i p par t,
  AtG T i0 p0 q0 i1 p1 q1 t1 -> AtG t1 i1 p1 q1 i p par t -> AtG T i0 p0 q0 i p par t.
Proof.
  intros T i0 p0 q0 i1 p1 q1 t1 i p par t H1 H2. induction H2; auto. eapply AtG_child; eauto.
Qed.

(** Preorder enumeration of the located subtrees. *)
Fixpoint preorder (t : tree) (par : option nat) (id pos : nat) : list (nat * option nat * tree) :=
  (pos, par, t) ::
  match t with
  | Leaf _ _ => []
  | Node _ ts =>
      (fix go (l : list tree) (i p : nat) :=
         match l with
         | [] => []
         | x :: r => preorder x (Some id) i p ++ go r (i + tsize x) (p + tlen x)
         end) ts (S id) pos
  end.

Fixpoint preorders (ts : list tree) (par : option nat) (id pos : nat) :=
  match ts with
  | [] => []
  | x :: r => preorder x par id pos ++ preorders r par (id + tsize x) (pos + tlen x)
  end.

Lemma preorder_node : forall ty ts par id pos,
  preorder (Node ty ts) par id pos = (pos, par, Node ty ts) :: preorders ts (Some id) (S id) pos.
Proof.
  intros. cbn [preorder]. f_equal. generalize (S id) as i, pos as p.
  induction ts as [|x r IH]; intros i p; [reflexivity|]. cbn [preorders]. now rewrite <- IH.
Qed.

Lemma preorder_length : forall t par id pos, length (preorder t par id pos) = tsize t.
Proof.
  apply (tree_ind' (fun t => forall par id pos, length (preorder t par id pos) = tsize t)).
  - reflexivity.
  - intros ty ts F par id pos. rewrite preorder_node. cbn [length tsize]. f_equal.
    generalize (Some id) as q, (S id) as i, pos as p. induction F as [|x r Hx F IH]; intros q i p; [reflexivity|].
    cbn [preorders map]. rewrite app_length, Hx, IH. reflexivity.
Qed.

Lemma preorders_app : forall a b par id pos,
  preorders (a ++ b) par id pos = preorders a par id pos ++ preorders b par (id + tsizes a) (pos + tlens a).
Proof.
  induction a as [|x a IH]; intros; cbn [app preorders].
  - unfold tsizes, tlens. cbn. now rewrite !Nat.add_0_r.
  - rewrite IH, tsizes_cons, tlens_cons, <- app_assoc, !Nat.add_assoc. reflexivity.
Qed.

Lemma preorders_length : forall ts par id pos, length (preorders ts par id pos) = tsizes ts.
Proof.
  induction ts as [|x r IH]; intros; [reflexivity|]. cbn [preorders].
  rewrite app_length, preorder_length, IH. reflexivity.
Qed.

(** Entry [k] of the preorder of [T] is a subtree whose own preorder sits there contiguously. *)
Lemma AtG_preorder : forall T i0 p0 q0 i p par t, AtG T i0 p0 q0 i p par t ->
  exists k, i = i0 + k /\ k + tsize t <= tsize T /\
    forall j, j < tsize t -> nth_error (preorder T q0 i0 p0) (k + j) = nth_error (preorder t par i p) j.
Proof.
  intros T i0 p0 q0 i p par t H. induction H as [|i p par ty pre c post H (k & E & L & N)].
  - exists 0. split; [lia|]. split; [lia|]. reflexivity.
  - exists (k + S (tsizes pre)). split; [lia|].
    assert (SZ : tsize (Node ty (pre ++ c :: post)) = S (tsizes pre + (tsize c + tsizes post))).
    { cbn [tsize]. fold (tsizes (pre ++ c :: post)). now rewrite tsizes_app, tsizes_cons. }
    split; [lia|]. intros j Hj.
    replace (k + S (tsizes pre) + j) with (k + (S (tsizes pre) + j)) by lia.
    rewrite N by lia. rewrite preorder_node. cbn [nth_error plus].
    rewrite preorders_app. rewrite nth_error_app2 by (rewrite preorders_length; lia).
    rewrite preorders_length. replace (tsizes pre + j - tsizes pre) with j by lia.
    cbn [preorders]. rewrite nth_error_app1 by (rewrite preorder_length; lia). reflexivity.
Qed.

Lemma preorder_AtG : forall T i0 p0 q0 k p par t, nth_error (preorder T q0 i0 p0) k = Some (p, par, t) ->
  AtG T i0 p0 q0 (i0 + k) p par t.
Proof.
  apply (tree_ind' (fun T => forall i0 p0 q0 k p par t, nth_error (preorder T q0 i0 p0) k = Some (p, par, t) ->
    AtG T i0 p0 q0 (i0 + k) p par t)).
  - intros ty n i0 p0 q0 k p par t H. destruct k as [|[|k]]; cbn in H; try discriminate.
    injection H as <- <- <-. rewrite Nat.add_0_r. apply AtG_root.
  - intros ty ts F i0 p0 q0 k p par t H. rewrite preorder_node in H. destruct k as [|k]; cbn [nth_error] in H.
    + injection H as <- <- <-. rewrite Nat.add_0_r. apply AtG_root.
    + assert (G : forall pre post, ts = pre ++ post -> forall k, nth_error (preorders post (Some i0) (S i0 + tsizes pre) (p0 + tlens pre)) k = Some (p, par, t) ->
                AtG (Node ty ts) i0 p0 q0 (S i0 + tsizes pre + k) p par t).
      { intros pre post. revert pre. induction post as [|c post IH]; intros pre E k' Hk; [destruct k'; discriminate|].
        cbn [preorders] in Hk. destruct (lt_dec k' (tsize c)) as [L|L].
        - rewrite nth_error_app1 in Hk by (rewrite preorder_length; exact L).
          rewrite Forall_forall in F. assert (In c ts) by (rewrite E; apply in_or_app; right; left; reflexivity).
          specialize (F c H0 _ _ _ _ _ _ _ Hk). eapply AtG_trans; [|exact F].
          eapply AtG_child. rewrite <- E. apply AtG_root.
        - rewrite nth_error_app2 in Hk by (rewrite preorder_length; lia). rewrite preorder_length in Hk.
          specialize (IH (pre ++ [c])). rewrite <- app_assoc in IH. cbn [app] in IH. specialize (IH E (k' - tsize c)).
          rewrite tsizes_app, tlens_app, tsizes_cons, tlens_cons in IH.
          unfold tsizes at 2 4, tlens at 2 in IH. cbn [map sum fold_right] in IH.
          rewrite !Nat.add_0_r, !Nat.add_assoc in IH. specialize (IH Hk).
          replace (S i0 + tsizes pre + tsize c + (k' - tsize c)) with (S i0 + tsizes pre + k') in IH by lia. exact IH. }
      specialize (G [] ts eq_refl k). unfold tsizes, tlens in G. cbn [map sum fold_right] in G.
      rewrite !Nat.add_0_r in G. specialize (G H). replace (i0 + S k) with (S i0 + k) by lia. exact G.
Qed.

Lemma At_nth : forall T i p par t, At T i p par t <-> nth_error (preorder T None 0 0) i = Some (p, par, t).
Proof.
  intros T i p par t. rewrite <- AtG_At. split; intro H.
  - apply AtG_preorder in H as (k & E & L & N). cbn in E. subst k.
    specialize (N 0 (tsize_pos t)). rewrite Nat.add_0_r in N. rewrite N. destruct t; reflexivity.
  - apply preorder_AtG in H. exact H.
Qed.

Lemma At_unique : forall T i p par t p' par' t', At T i p par t -> At T i p' par' t' -> p = p' /\ par = par' /\ t = t'.
Proof. intros T i p par t p' par' t' H1 H2. rewrite At_nth in H1, H2. rewrite H1 in H2. injection H2; auto. Qed.

Lemma At_total : forall T i, i < tsize T -> exists p par t, At T i p par t.
Proof.
  intros T i H. rewrite <- (preorder_length T None 0 0) in H. apply nth_error_Some in H.
  destruct (nth_error (preorder T None 0 0) i) as [[[p par] t]|] eqn:E; [|congruence].
  exists p, par, t. now apply At_nth.
Qed.

Lemma At_bound : forall T i p par t, At T i p par t -> i + tsize t <= tsize T.
Proof.
  intros T i p par t H. rewrite <- AtG_At in H. apply AtG_preorder in H as (k & E & L & _). cbn in E. lia.
Qed.

(** ** The table stores the tree *)

Lemma layout_nth : forall t par id pos k, nth_error (layout t par id pos) k =
  option_map (fun x => data_of (id + k) (fst (fst x)) (snd (fst x)) (snd x)) (nth_error (preorder t par id pos) k).
Proof.
  apply (tree_ind' (fun t => forall par id pos k, nth_error (layout t par id pos) k =
    option_map (fun x => data_of (id + k) (fst (fst x)) (snd (fst x)) (snd x)) (nth_error (preorder t par id pos) k))).
  - intros ty n par id pos [|[|k]]; reflexivity.
  - intros ty ts F par id pos k. rewrite layout_node, preorder_node. destruct k as [|k]; cbn [nth_error].
    + cbn [option_map fst snd]. now rewrite Nat.add_0_r.
    + replace (id + S k) with (S id + k) by lia. generalize (Some id) as q, (S id) as i, pos as p. revert k.
      induction F as [|x r Hx F IH]; intros k q i p; [destruct k; reflexivity|]. cbn [layouts preorders].
      destruct (lt_dec k (tsize x)) as [L|L].
      * rewrite !nth_error_app1 by (rewrite ?layout_length, ?preorder_length; exact L). apply Hx.
      * rewrite !nth_error_app2 by (rewrite ?layout_length, ?preorder_length; lia).
        rewrite layout_length, preorder_length, IH. replace (i + tsize x + (k - tsize x)) with (i + k) by lia. reflexivity.
Qed.

Lemma layout_stores : forall T, stores (layout T None 0 0) T.
Proof.
  intros T. split; [apply layout_length|]. intros i p par t H. rewrite layout_nth.
  apply At_nth in H. rewrite H. reflexivity.
Qed.

Lemma stores_layout : forall nodes T, stores nodes T -> nodes = layout T None 0 0.
Proof.
  intros nodes T [L S]. apply nth_error_ext. intros i. destruct (lt_dec i (tsize T)) as [H|H].
  - destruct (At_total T i H) as (p & par & t & A). rewrite (S _ _ _ _ A).
    symmetry. apply (proj2 (layout_stores T)). exact A.
  - rewrite (proj2 (nth_error_None nodes i)) by lia. symmetry. apply nth_error_None. rewrite layout_length. lia.
Qed.
