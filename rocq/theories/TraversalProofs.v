(** Proofs about well-formed tables, traversals and siblings. *)
From Coq Require Import List Arith Bool Lia.
From Verif Require Import Base BaseFacts TextModel TreeModel SearchModel TextSpec TextProofs TreeSpec TreeProofs SearchSpec SearchProofs.
Import ListNotations.

(** ** Builder call sequences *)

Lemma closes_last_inv : forall m (cs : list tb_call) d, length cs <= m -> closes_last d cs = true ->
  exists ts rest, cs = flat_map calls_of ts ++ CFinish :: rest
    /\ match d with 0 => rest = [] | S k => closes_last k rest = true end.
Proof.
  induction m as [|m IH]; intros cs d L H; destruct cs as [|c cs]; cbn in L; try discriminate; try lia.
  destruct c as [ty n|ty|]; cbn [closes_last] in H.
  - destruct (IH cs d ltac:(lia) H) as (ts & rest & -> & R). exists (Leaf ty n :: ts), rest. auto.
  - destruct (IH cs (S d) ltac:(lia) H) as (ts & rest & -> & R).
    destruct (IH rest d) as (us & rest' & -> & R').
    + rewrite app_length in L. cbn in L. lia.
    + exact R.
    + exists (Node ty ts :: us), rest'. split; [|exact R']. cbn. rewrite <- !app_assoc. reflexivity.
  - exists [], cs. split; [reflexivity|]. destruct d; [destruct cs; [reflexivity|discriminate]|exact H].
Qed.

Lemma one_root_inv : forall cs, one_root cs = true -> exists ty ts, cs = calls_of (Node ty ts).
Proof.
  intros [|[ty n|ty|] cs] H; try discriminate. cbn in H.
  destruct (closes_last_inv (length cs) cs 0 (le_n _) H) as (ts & rest & -> & ->).
  exists ty, ts. reflexivity.
Qed.

Lemma calls_closes : forall t d rest, closes_last d (calls_of t ++ rest) = closes_last d rest.
Proof.
  apply (tree_ind' (fun t => forall d rest, closes_last d (calls_of t ++ rest) = closes_last d rest)); [reflexivity|].
  intros ty ts F d rest. cbn. rewrite <- app_assoc. cbn.
  assert (G : forall e r, closes_last e (flat_map calls_of ts ++ r) = closes_last e r).
  { induction F as [|x l Hx F IH]; intros e r; [reflexivity|]. cbn. rewrite <- app_assoc, Hx. apply IH. }
  rewrite G. reflexivity.
Qed.

Lemma one_root_calls : forall ty ts, one_root (calls_of (Node ty ts)) = true.
Proof.
  intros. cbn. assert (G : forall e r, closes_last e (flat_map calls_of ts ++ r) = closes_last e r).
  { induction ts as [|x l IH]; intros e r; [reflexivity|]. cbn. rewrite <- app_assoc, calls_closes. apply IH. }
  now rewrite G.
Qed.

Lemma balanced_calls : forall t d rest, (0 < d \/ is_node t) -> balanced d (calls_of t ++ rest) = balanced d rest.
Proof.
  assert (G : forall t d rest, 0 < d -> balanced d (calls_of t ++ rest) = balanced d rest).
  { apply (tree_ind' (fun t => forall d rest, 0 < d -> balanced d (calls_of t ++ rest) = balanced d rest)).
    - intros ty n d rest H. cbn. destruct d; [lia|reflexivity].
    - intros ty ts F d rest _. cbn. rewrite <- app_assoc. cbn.
      assert (G : forall e r, 0 < e -> balanced e (flat_map calls_of ts ++ r) = balanced e r).
      { induction F as [|x l Hx F IH]; intros e r L; [reflexivity|]. cbn. rewrite <- app_assoc, Hx by auto. now apply IH. }
      rewrite G by lia. reflexivity. }
  intros t d rest [H|H]; [now apply G|]. destruct t as [|ty ts]; [easy|]. cbn. rewrite <- app_assoc. cbn.
  assert (K : forall r, balanced (S d) (flat_map calls_of ts ++ r) = balanced (S d) r).
  { clear -G. induction ts as [|x l IH]; intros r; [reflexivity|]. cbn [flat_map]. rewrite <- app_assoc, G by lia. apply IH. }
  now rewrite K.
Qed.

Lemma balanced_forest : forall ts, Forall is_node ts -> balanced 0 (flat_map calls_of ts) = true.
Proof.
  intros ts F. induction F as [|t ts Ht F IH]; [reflexivity|]. cbn [flat_map]. rewrite balanced_calls; auto.
Qed.

Lemma build_balanced : forall cs, (exists nodes, tb_build cs = Ok nodes) <-> balanced 0 cs = true.
Proof.
  intros cs. split.
  - intros (nodes & H). apply build_inv in H as (ts & F & ->). now apply balanced_forest.
  - intros H. apply balanced_closes in H. destruct H as (ts & F & ->). rewrite build_ok by exact F. eauto.
Qed.

Lemma build_panics : forall cs, tb_build cs = Panic <-> balanced 0 cs = false.
Proof.
  intros cs. pose proof (build_not_oof cs) as NO. pose proof (build_balanced cs) as [A B].
  destruct (tb_build cs) as [n| |]; destruct (balanced 0 cs) eqn:E; split; intro X; try congruence.
  - assert (exists nodes, Ok n = Ok nodes) by eauto. specialize (A H). congruence.
  - destruct (B eq_refl). discriminate.
Qed.

(** ** The stored table agrees with the requests *)

Definition entry (d : node_data) : nat * option nat * nat := (n_ty d, n_parent d, rstart (n_range d)).

Definition agrees (d : node_data) (r : nat * option nat * nat * option nat) : Prop :=
  entry d = fst r /\
  match snd r with Some n => n_children d = [] /\ rend (n_range d) = rstart (n_range d) + n | None => True end.

Lemma requested_tree : forall t stack next pos rest, exists l,
  requested stack next pos (calls_of t ++ rest) = l ++ requested stack (next + tsize t) (pos + tlen t) rest
  /\ Forall2 agrees (layout t (hd_error stack) next pos) l.
Proof.
  apply (tree_ind' (fun t => forall stack next pos rest, exists l,
    requested stack next pos (calls_of t ++ rest) = l ++ requested stack (next + tsize t) (pos + tlen t) rest
    /\ Forall2 agrees (layout t (hd_error stack) next pos) l)).
  - intros ty n stack next pos rest. eexists [_]. cbn. rewrite Nat.add_1_r. split; [reflexivity|].
    constructor; [|constructor]. split; [reflexivity|]. cbn. auto.
  - intros ty ts F stack next pos rest. rewrite layout_node. cbn [calls_of app requested].
    rewrite <- app_assoc. cbn [app].
    assert (G : forall stk i p r, exists l, requested stk i p (flat_map calls_of ts ++ r) = l ++ requested stk (i + tsizes ts) (p + tlens ts) r
              /\ Forall2 agrees (layouts ts (hd_error stk) i p) l).
    { induction F as [|x xs Hx F IH]; intros stk i p r.
      - exists []. unfold tsizes, tlens. cbn. rewrite !Nat.add_0_r. split; [reflexivity|constructor].
      - cbn [flat_map]. rewrite <- app_assoc. destruct (Hx stk i p (flat_map calls_of xs ++ r)) as (l1 & -> & A1).
        destruct (IH stk (i + tsize x) (p + tlen x) r) as (l2 & -> & A2). exists (l1 ++ l2).
        rewrite tsizes_cons, tlens_cons, !Nat.add_assoc, <- app_assoc. split; [reflexivity|].
        cbn [layouts]. now apply Forall2_app. }
    destruct (G (next :: stack) (S next) pos (CFinish :: rest)) as (l & -> & A). cbn [requested tl tsize tlen hd_error] in *.
    fold (tsizes ts) (tlens ts). rewrite Nat.add_succ_r. cbn [plus] in *. eexists (_ :: l). split; [reflexivity|].
    constructor; [|exact A]. split; [reflexivity|exact I].
Qed.

Lemma total_calls : forall t rest, total (calls_of t ++ rest) = tlen t + total rest.
Proof.
  apply (tree_ind' (fun t => forall rest, total (calls_of t ++ rest) = tlen t + total rest)); [reflexivity|].
  intros ty ts F rest. cbn [calls_of app total]. rewrite <- app_assoc. cbn [tlen]. fold (tlens ts).
  assert (G : forall r, total (flat_map calls_of ts ++ r) = tlens ts + total r).
  { induction F as [|x xs Hx F IH]; intros r; [reflexivity|]. cbn [flat_map]. rewrite <- app_assoc, Hx, IH, tlens_cons. lia. }
  rewrite G. reflexivity.
Qed.

Lemma requested_ok : forall ty ts, Forall2 agrees (layout (Node ty ts) None 0 0) (requested [] 0 0 (calls_of (Node ty ts))).
Proof.
  intros. destruct (requested_tree (Node ty ts) [] 0 0 []) as (l & E & A). rewrite app_nil_r in E. rewrite E.
  cbn [requested]. rewrite app_nil_r. exact A.
Qed.

(** ** Well-formed links and tiling of a stored tree *)

Lemma child_ids_in : forall ts i c, In c (child_ids i ts) <-> exists a x b, ts = a ++ x :: b /\ c = i + tsizes a.
Proof.
  induction ts as [|t ts IH]; intros i c; cbn [child_ids In].
  - split; [easy|]. intros (a & x & b & E & _). destruct a; discriminate.
  - rewrite IH. split.
    + intros [<-|(a & x & b & -> & ->)].
      * exists [], t, ts. unfold tsizes. cbn. split; [reflexivity|lia].
      * exists (t :: a), x, b. rewrite tsizes_cons. split; [reflexivity|lia].
    + intros ([|y a] & x & b & E & ->); cbn in E; injection E as -> ->.
      * left. unfold tsizes. cbn. lia.
      * right. exists a, x, b. rewrite tsizes_cons. split; [reflexivity|lia].
Qed.

Lemma child_ids_ge : forall ts i c, In c (child_ids i ts) -> i <= c.
Proof. intros ts i c H. apply child_ids_in in H as (a & x & b & _ & ->). lia. Qed.

Lemma child_ids_nodup : forall ts i, NoDup (child_ids i ts).
Proof.
  induction ts as [|t ts IH]; intros i; cbn [child_ids]; constructor; auto.
  intros H. apply child_ids_ge in H. pose proof (tsize_pos t). lia.
Qed.

Lemma stored_at : forall nodes T i d, stores nodes T -> nth_error nodes i = Some d ->
  exists p par t, At T i p par t /\ d = data_of i p par t.
Proof.
  intros nodes T i d [L S] H. assert (i < length nodes) by (apply nth_error_Some; congruence).
  rewrite L in H0. apply At_total in H0 as (p & par & t & A). exists p, par, t. split; [exact A|].
  apply S in A. congruence.
Qed.

Lemma stores_links : forall nodes T, stores nodes T -> links_ok nodes.
Proof.
  intros nodes T ST i d H. destruct (stored_at _ _ _ _ ST H) as (p & par & t & A & ->). cbn [data_of n_children n_parent].
  split; [apply child_ids_nodup|]. split; [|split].
  - intros c. split.
    + intros I. apply child_ids_in in I as (a & x & b & E & ->). destruct t as [|ty ts]; [destruct a; discriminate|].
      cbn in E. subst ts. eexists. split; [apply ST; eapply At_child; exact A|reflexivity].
    + intros (dc & Hc & Pc). destruct (stored_at _ _ _ _ ST Hc) as (pc & parc & tc & Ac & ->). cbn in Pc. subst parc.
      apply At_parent in Ac as (pd & qd & ty & pre & post & Ad & -> & ->).
      destruct (At_unique _ _ _ _ _ _ _ _ A Ad) as (-> & -> & ->). cbn [t_children].
      apply child_ids_in. exists pre, tc, post. auto.
  - intros q ->. apply At_parent in A as (pd & qd & ty & pre & post & _ & -> & _). lia.
  - split.
    + intros ->. apply At_no_parent in A. tauto.
    + intros ->. destruct (At_unique _ _ _ _ _ _ _ _ A (At_root T)) as (_ & -> & _). reflexivity.
Qed.

Lemma stores_tile : forall nodes T i p q ty ts, stores nodes T -> At T i p q (Node ty ts) ->
  tile nodes p (child_ids (S i) ts) (p + tlens ts).
Proof.
  intros nodes T i p q ty ts ST A.
  assert (G : forall post pre, ts = pre ++ post ->
    tile nodes (p + tlens pre) (child_ids (S i + tsizes pre) post) (p + tlens pre + tlens post)).
  { induction post as [|x post IH]; intros pre E; cbn [child_ids tile].
    - unfold tlens at 3. cbn. lia.
    - subst ts. pose proof (At_child _ _ _ _ _ _ _ _ A) as Ac. eexists. split; [apply ST; exact Ac|].
      cbn [data_of n_range rstart rend]. split; [reflexivity|]. split; [lia|].
      specialize (IH (pre ++ [x])). rewrite <- app_assoc in IH. specialize (IH eq_refl).
      rewrite tsizes_app, tlens_app, tsizes_cons, !tlens_cons in IH.
      replace (tsizes []) with 0 in IH by reflexivity. replace (tlens []) with 0 in IH by reflexivity.
      rewrite !Nat.add_0_r, !Nat.add_assoc in IH. rewrite tlens_cons, !Nat.add_assoc. exact IH. }
  specialize (G ts [] eq_refl). replace (tsizes []) with 0 in G by reflexivity. replace (tlens []) with 0 in G by reflexivity.
  rewrite !Nat.add_0_r in G. exact G.
Qed.

Lemma stores_tiling : forall nodes T, stores nodes T -> tiling_ok nodes.
Proof.
  intros nodes T ST i d H NE. destruct (stored_at _ _ _ _ ST H) as (p & par & t & A & ->).
  cbn [data_of n_children n_range rstart rend] in *. destruct t as [|ty ts]; [cbn in NE; congruence|].
  eapply stores_tile; eauto.
Qed.

(** ** [before] *)

Lemma before_app : forall A (a b : list A) x y, before (a ++ b) x y ->
  before a x y \/ (In x a /\ In y b) \/ before b x y.
Proof.
  intros A a b x y (l1 & l2 & l3 & E). revert l1 E. induction a as [|z a IH]; intros l1 E.
  - right; right. exists l1, l2, l3. exact E.
  - destruct l1 as [|w l1].
    + cbn in E. injection E as -> E. clear IH.
      assert (K : (exists m, a = l2 ++ y :: m) \/ In y b).
      { revert l2 E. induction a as [|u a IH]; intros l2 E.
        - right. cbn in E. rewrite E. apply in_or_app. right; left; reflexivity.
        - destruct l2 as [|v l2]; cbn in E.
          + injection E as -> E. left. exists a. reflexivity.
          + injection E as -> E. destruct (IH _ E) as [[m ->]|I]; [left; exists m; reflexivity|auto]. }
      destruct K as [[m ->]|K]; [left; exists [], l2, m; reflexivity|right; left; split; [left; reflexivity|exact K]].
    + cbn in E. injection E as -> E. destruct (IH _ E) as [(m1 & m2 & m3 & ->)|[[I1 I2]|B]].
      * left. exists (w :: m1), m2, m3. reflexivity.
      * right; left. split; [right; exact I1|exact I2].
      * auto.
Qed.

Lemma before_one : forall A (a x y : A), ~ before [a] x y.
Proof. intros A a x y (l1 & l2 & l3 & E). destruct l1 as [|? [|? ?]]; try discriminate. destruct l2; discriminate. Qed.

(** ** Post-order *)

Fixpoint post (t : tree) (i : nat) : list nat :=
  match t with
  | Leaf _ _ => []
  | Node _ ts =>
      (fix go (l : list tree) (j : nat) := match l with [] => [] | x :: r => post x j ++ go r (j + tsize x) end) ts (S i)
  end ++ [i].

Fixpoint posts (l : list tree) (j : nat) : list nat := match l with [] => [] | x :: r => post x j ++ posts r (j + tsize x) end.

Lemma post_eq : forall t i, post t i = posts (t_children t) (S i) ++ [i].
Proof. intros [ty n|ty ts] i; reflexivity. Qed.

Lemma posts_in_aux : forall ts, Forall (fun t => forall i x, In x (post t i) <-> i <= x < i + tsize t) ts ->
  forall i x, In x (posts ts i) <-> i <= x < i + tsizes ts.
Proof.
  intros ts F. induction F as [|t ts Ht F IH]; intros i x; cbn [posts].
  - unfold tsizes. cbn. lia.
  - rewrite in_app_iff, Ht, IH, tsizes_cons. pose proof (tsize_pos t). lia.
Qed.

Lemma post_in : forall t i x, In x (post t i) <-> i <= x < i + tsize t.
Proof.
  apply (tree_ind' (fun t => forall i x, In x (post t i) <-> i <= x < i + tsize t)).
  - intros ty n i x. cbn. lia.
  - intros ty ts F i x. rewrite post_eq, in_app_iff. cbn [t_children]. rewrite (posts_in_aux ts F).
    cbn [In tsize]. fold (tsizes ts). lia.
Qed.

Lemma posts_in : forall ts i x, In x (posts ts i) <-> i <= x < i + tsizes ts.
Proof. intros ts. apply posts_in_aux. rewrite Forall_forall. intros t _. apply post_in. Qed.

Lemma nodup_app : forall A (a b : list A), NoDup a -> NoDup b -> (forall x, In x a -> ~ In x b) -> NoDup (a ++ b).
Proof.
  intros A a b Ha Hb D. induction Ha as [|x a N Ha IH]; [exact Hb|]. cbn. constructor.
  - rewrite in_app_iff. intros [I|I]; [auto|]. apply (D x); [left; reflexivity|exact I].
  - apply IH. intros y I. apply D. right; exact I.
Qed.

Lemma post_nodup : forall t i, NoDup (post t i).
Proof.
  apply (tree_ind' (fun t => forall i, NoDup (post t i))).
  - intros ty n i. cbn. repeat constructor. easy.
  - intros ty ts F i. rewrite post_eq. cbn [t_children]. apply nodup_app.
    + generalize (S i) as j. clear i. induction F as [|t ts Ht F IH]; intros j; cbn [posts]; [constructor|].
      apply nodup_app; auto. intros x I1 I2. apply post_in in I1. apply posts_in in I2. lia.
    + repeat constructor. easy.
    + intros x I [<-|[]]. apply posts_in in I. lia.
Qed.

Section Stored.
  Variables (nodes : table) (T : tree).
  Hypothesis ST : stores nodes T.

  Lemma post_order : forall t i p q, At T i p q t -> forall a b, before (post t i) a b ->
    Below T b a \/ (a < b /\ ~ Below T a b).
  Proof.
    apply (tree_ind' (fun t => forall i p q, At T i p q t -> forall a b, before (post t i) a b ->
      Below T b a \/ (a < b /\ ~ Below T a b))).
    - intros ty n i p q A a b B. cbn in B. now apply before_one in B.
    - intros ty ts F i p q A a b B. rewrite post_eq in B. cbn [t_children] in B.
      apply before_app in B as [B|[[Ia Ib]|B]]; [| |now apply before_one in B].
      + assert (G : forall posts' pre, ts = pre ++ posts' -> before (posts posts' (S i + tsizes pre)) a b ->
                    Below T b a \/ (a < b /\ ~ Below T a b)).
        { clear B. induction posts' as [|x l IH]; intros pre E B; cbn [posts] in B.
          - destruct B as ([|? ?] & ? & ? & ?); discriminate.
          - pose proof A as Ax. rewrite E in Ax. apply At_child in Ax.
            apply before_app in B as [B|[[Ia Ib]|B]].
            + rewrite Forall_forall in F. eapply F; eauto. rewrite E. apply in_or_app; right; left; reflexivity.
            + apply post_in in Ia. apply posts_in in Ib. right. split; [lia|]. intros BL.
              assert (Bxa : Below T (S i + tsizes pre) a) by (apply (Below_interval _ _ _ _ _ Ax); lia).
              pose proof (Below_trans _ _ _ _ Bxa BL) as Bxb. apply (Below_interval _ _ _ _ _ Ax) in Bxb. lia.
            + apply (IH (pre ++ [x])).
              * rewrite <- app_assoc. exact E.
              * rewrite tsizes_app, tsizes_cons. replace (tsizes []) with 0 by reflexivity. rewrite Nat.add_0_r, Nat.add_assoc. exact B. }
        apply (G ts []); [reflexivity|]. replace (tsizes []) with 0 by reflexivity. rewrite Nat.add_0_r. exact B.
      + destruct Ib as [<-|[]]. left. apply posts_in in Ia. apply (Below_interval _ _ _ _ _ A). cbn [tsize]. fold (tsizes ts). lia.
  Qed.

  Lemma flat_map_res_app : forall A B (f : A -> res (list B)) l m,
    flat_map_res f (l ++ m) = (a <- flat_map_res f l ;; b <- flat_map_res f m ;; Ok (a ++ b)).
  Proof.
    intros. induction l as [|x l IH]; cbn.
    - destruct (flat_map_res f m); reflexivity.
    - destruct (f x); cbn; try reflexivity. rewrite IH. destruct (flat_map_res f l); cbn; try reflexivity.
      destruct (flat_map_res f m); cbn; try reflexivity. now rewrite app_assoc.
  Qed.

  Lemma subtree_fuel_ok : forall t i p q fuel, At T i p q t -> tsize t <= fuel -> subtree_fuel fuel nodes i = Ok (post t i).
  Proof.
    apply (tree_ind' (fun t => forall i p q fuel, At T i p q t -> tsize t <= fuel -> subtree_fuel fuel nodes i = Ok (post t i))).
    - intros ty n i p q [|fuel] A L; [cbn in L; lia|]. cbn [subtree_fuel]. rewrite (children_ok _ _ ST _ _ _ _ A). reflexivity.
    - intros ty ts F i p q [|fuel] A L; [cbn in L; lia|]. cbn [subtree_fuel]. rewrite (children_ok _ _ ST _ _ _ _ A). cbn [bind t_children].
      assert (G : forall l pre, ts = pre ++ l -> flat_map_res (subtree_fuel fuel nodes) (child_ids (S i + tsizes pre) l) = Ok (posts l (S i + tsizes pre))).
      { induction l as [|x l IH]; intros pre E; [reflexivity|]. cbn [child_ids flat_map_res posts].
        pose proof A as Ax. rewrite E in Ax. apply At_child in Ax. rewrite Forall_forall in F.
        rewrite (F x ltac:(rewrite E; apply in_or_app; right; left; reflexivity) _ _ _ fuel Ax).
        2:{ cbn [tsize] in L. fold (tsizes ts) in L. rewrite E, tsizes_app, tsizes_cons in L. lia. }
        cbn [bind]. specialize (IH (pre ++ [x])). rewrite <- app_assoc in IH. specialize (IH E).
        rewrite tsizes_app, tsizes_cons in IH. replace (tsizes []) with 0 in IH by reflexivity.
        rewrite Nat.add_0_r, Nat.add_assoc in IH. rewrite IH. reflexivity. }
      specialize (G ts [] eq_refl). replace (tsizes []) with 0 in G by reflexivity. rewrite Nat.add_0_r in G.
      rewrite G. cbn [bind]. now rewrite post_eq.
  Qed.

  Lemma subtree_ok : forall t i p q, At T i p q t -> subtree nodes i = Ok (post t i).
  Proof. intros t i p q A. unfold subtree. eapply subtree_fuel_ok; eauto. destruct ST as [L _]. rewrite L. apply At_bound in A. lia. Qed.

  Lemma fold_res_app : forall A B (f : A -> B -> res A) l m a, fold_res f a (l ++ m) = (b <- fold_res f a l ;; fold_res f b m).
  Proof. intros A B f. induction l as [|x l IH]; intros m a; [reflexivity|]. cbn. destruct (f a x); cbn; auto. Qed.

  Lemma bottom_up_fuel_ok : forall A (f : A -> nat -> res A) t i p q fuel acc, At T i p q t -> tsize t <= fuel ->
    bottom_up_fuel fuel nodes f i acc = fold_res f acc (post t i).
  Proof.
    intros A f. apply (tree_ind' (fun t => forall i p q fuel acc, At T i p q t -> tsize t <= fuel ->
      bottom_up_fuel fuel nodes f i acc = fold_res f acc (post t i))).
    - intros ty n i p q [|fuel] acc AT L; [cbn in L; lia|]. cbn [bottom_up_fuel]. rewrite (children_ok _ _ ST _ _ _ _ AT).
      cbn. destruct (f acc i); reflexivity.
    - intros ty ts F i p q [|fuel] acc AT L; [cbn in L; lia|]. cbn [bottom_up_fuel]. rewrite (children_ok _ _ ST _ _ _ _ AT). cbn [bind t_children].
      assert (G : forall l pre acc, ts = pre ++ l -> fold_res (fun a c => bottom_up_fuel fuel nodes f c a) acc (child_ids (S i + tsizes pre) l)
                    = fold_res f acc (posts l (S i + tsizes pre))).
      { induction l as [|x l IH]; intros pre ac E; [reflexivity|]. cbn [child_ids fold_res posts].
        pose proof AT as Ax. rewrite E in Ax. apply At_child in Ax. rewrite Forall_forall in F.
        rewrite (F x ltac:(rewrite E; apply in_or_app; right; left; reflexivity) _ _ _ fuel ac Ax).
        2:{ cbn [tsize] in L. fold (tsizes ts) in L. rewrite E, tsizes_app, tsizes_cons in L. lia. }
        rewrite fold_res_app. destruct (fold_res f ac (post x (S i + tsizes pre))) as [b| |]; cbn [bind]; try reflexivity.
        specialize (IH (pre ++ [x]) b). rewrite <- app_assoc in IH. specialize (IH E).
        rewrite tsizes_app, tsizes_cons in IH. replace (tsizes []) with 0 in IH by reflexivity.
        rewrite Nat.add_0_r, Nat.add_assoc in IH. exact IH. }
      specialize (G ts [] acc eq_refl). replace (tsizes []) with 0 in G by reflexivity. rewrite Nat.add_0_r in G.
      rewrite G, post_eq, fold_res_app. cbn [t_children fold_res]. destruct (fold_res f acc (posts ts (S i))) as [b| |]; cbn [bind]; try reflexivity.
      destruct (f b i); reflexivity.
  Qed.

  Lemma bottom_up_ok : forall A (f : A -> nat -> res A) t i p q acc, At T i p q t ->
    bottom_up nodes f i acc = fold_res f acc (post t i).
  Proof. intros A f t i p q acc AT. unfold bottom_up. eapply bottom_up_fuel_ok; eauto. destruct ST as [L _]. rewrite L. apply At_bound in AT. lia. Qed.

  Lemma seq_app' : forall a b s, seq s (a + b) = seq s a ++ seq (s + a) b.
  Proof. intros. apply seq_app. Qed.

  Lemma walk_fuel_ok : forall A (f : A -> nat -> res A) t i p q fuel acc, At T i p q t -> tsize t <= fuel ->
    walk_tree_fuel fuel nodes f i acc = fold_res f acc (seq i (tsize t)).
  Proof.
    intros A f. apply (tree_ind' (fun t => forall i p q fuel acc, At T i p q t -> tsize t <= fuel ->
      walk_tree_fuel fuel nodes f i acc = fold_res f acc (seq i (tsize t)))).
    - intros ty n i p q [|fuel] acc AT L; [cbn in L; lia|]. cbn [walk_tree_fuel]. rewrite (children_ok _ _ ST _ _ _ _ AT).
      cbn. destruct (f acc i); reflexivity.
    - intros ty ts F i p q [|fuel] acc AT L; [cbn in L; lia|]. cbn [walk_tree_fuel]. rewrite (children_ok _ _ ST _ _ _ _ AT). cbn [bind t_children].
      assert (G : forall l pre acc, ts = pre ++ l -> fold_res (fun a c => walk_tree_fuel fuel nodes f c a) acc (child_ids (S i + tsizes pre) l)
                    = fold_res f acc (seq (S i + tsizes pre) (tsizes l))).
      { induction l as [|x l IH]; intros pre ac E; [reflexivity|]. cbn [child_ids fold_res].
        pose proof AT as Ax. rewrite E in Ax. apply At_child in Ax. rewrite Forall_forall in F.
        rewrite (F x ltac:(rewrite E; apply in_or_app; right; left; reflexivity) _ _ _ fuel ac Ax).
        2:{ cbn [tsize] in L. fold (tsizes ts) in L. rewrite E, tsizes_app, tsizes_cons in L. lia. }
        rewrite tsizes_cons, seq_app', fold_res_app.
        destruct (fold_res f ac (seq (S i + tsizes pre) (tsize x))) as [b| |]; cbn [bind]; try reflexivity.
        specialize (IH (pre ++ [x]) b). rewrite <- app_assoc in IH. specialize (IH E).
        rewrite tsizes_app, tsizes_cons in IH. replace (tsizes []) with 0 in IH by reflexivity.
        rewrite Nat.add_0_r, Nat.add_assoc in IH. exact IH. }
      cbn [tsize seq fold_res]. fold (tsizes ts). destruct (f acc i) as [b| |]; cbn [bind]; try reflexivity.
      specialize (G ts [] b eq_refl). replace (tsizes []) with 0 in G by reflexivity. rewrite Nat.add_0_r in G. exact G.
  Qed.

  Lemma walk_ok : forall A (f : A -> nat -> res A) t i p q acc, At T i p q t ->
    walk_tree nodes f i acc = fold_res f acc (seq i (tsize t)).
  Proof. intros A f t i p q acc AT. unfold walk_tree. eapply walk_fuel_ok; eauto. destruct ST as [L _]. rewrite L. apply At_bound in AT. lia. Qed.

  (** Visiting with an accumulating visitor selects a subsequence. *)
  Lemma collect_ok : forall ty l acc, (forall m, In m l -> exists p q t, At T m p q t) ->
    exists r, fold_res (fun c m => t <- node_ty nodes m ;; Ok (do_visit [([ty], fun a m => a ++ [m])] t m c)) acc l = Ok (acc ++ r)
      /\ filter_res (fun m => t <- node_ty nodes m ;; Ok (t =? ty)) l = Ok r.
  Proof.
    intros ty. induction l as [|m l IH]; intros acc H.
    - exists []. cbn. now rewrite app_nil_r.
    - destruct (H m (or_introl eq_refl)) as (p & q & t & A). cbn [fold_res filter_res].
      rewrite (ty_ok _ _ ST _ _ _ _ A). cbn [bind].
      replace (do_visit [([ty], fun (a : list nat) (m0 : nat) => a ++ [m0])] (t_ty t) m acc)
        with (if t_ty t =? ty then acc ++ [m] else acc) by (cbn; rewrite orb_false_r; reflexivity).
      destruct (t_ty t =? ty).
      + destruct (IH (acc ++ [m])) as (r & E1 & E2); [intros; apply H; right; auto|].
        exists (m :: r). rewrite E1, E2. rewrite <- app_assoc. auto.
      + destruct (IH acc) as (r & E1 & E2); [intros; apply H; right; auto|]. exists r. rewrite E1, E2. auto.
  Qed.

  Lemma filter_ty_ok : forall (w : nat -> bool) l, (forall m, In m l -> exists p q t, At T m p q t) ->
    exists r, filter_res (fun m => t <- node_ty nodes m ;; Ok (w t)) l = Ok r
      /\ (exists g, (forall m, In m l -> (g m = true <-> exists ty, has_type T m ty /\ w ty = true)) /\ r = filter g l).
  Proof.
    intros w. induction l as [|m l IH]; intros H.
    - exists []. split; [reflexivity|]. exists (fun _ => true). split; [easy|reflexivity].
    - destruct (H m (or_introl eq_refl)) as (p & q & t & A). cbn [filter_res].
      rewrite (ty_ok _ _ ST _ _ _ _ A). cbn [bind].
      destruct IH as (r & E & g & Hg & ->); [intros; apply H; right; auto|]. rewrite E. cbn [bind].
      set (g' := fun x => if x =? m then w (t_ty t) else g x).
      exists (filter g' (m :: l)). split.
      + cbn [filter]. unfold g' at 1. rewrite Nat.eqb_refl.
        assert (FE : filter g' l = filter g l).
        { apply filter_ext_in. intros x I. unfold g'. destruct (x =? m) eqn:X; [|reflexivity]. apply Nat.eqb_eq in X. subst x.
          destruct (w (t_ty t)) eqn:W; symmetry.
          - apply Hg; [exact I|]. exists (t_ty t). split; [exists p, q, t; auto|exact W].
          - apply not_true_is_false. intros G. apply Hg in G; [|exact I]. destruct G as (ty & (p' & q' & t' & A' & <-) & W').
            destruct (At_unique _ _ _ _ _ _ _ _ A A') as (_ & _ & ->). congruence. }
        rewrite FE. destruct (w (t_ty t)); reflexivity.
      + exists g'. split; [|reflexivity]. intros x I. unfold g'. destruct (x =? m) eqn:X.
        * apply Nat.eqb_eq in X. subst x. split.
          -- intros W. exists (t_ty t). split; [exists p, q, t; auto|exact W].
          -- intros (ty & (p' & q' & t' & A' & <-) & W'). destruct (At_unique _ _ _ _ _ _ _ _ A A') as (_ & _ & ->). exact W'.
        * apply Nat.eqb_neq in X. apply Hg. destruct I as [->|I]; [congruence|exact I].
  Qed.

  Lemma descendants_ok : forall t i p q ty, At T i p q t ->
    descendants_of_type nodes i ty = filter_res (fun m => t <- node_ty nodes m ;; Ok (t =? ty)) (post t i).
  Proof.
    intros t i p q ty A. unfold descendants_of_type, process_subtree_bottom_up. rewrite (bottom_up_ok _ _ _ _ _ _ _ A).
    destruct (collect_ok ty (post t i) []) as (r & E1 & E2).
    - intros m I. apply post_in in I. apply At_total. apply At_bound in A. lia.
    - rewrite E1, E2. reflexivity.
  Qed.

  (** ** Siblings *)

  Lemma position_app : forall n (a : list nat) b, ~ In n a -> position (Nat.eqb n) (a ++ n :: b) = Some (length a).
  Proof.
    intros n. induction a as [|x a IH]; intros b H; cbn.
    - now rewrite Nat.eqb_refl.
    - destruct (n =? x) eqn:E; [apply Nat.eqb_eq in E; subst; exfalso; apply H; left; reflexivity|].
      rewrite IH; [reflexivity|]. intros I. apply H. right; exact I.
  Qed.

  Lemma sibling_ok : forall q cs k n, node_children nodes q = Ok cs -> nth_error cs k = Some n ->
    sibling nodes n DRight = Ok (nth_error cs (S k))
    /\ sibling nodes n DLeft = Ok (match k with 0 => None | S j => nth_error cs j end).
  Proof.
    intros q cs k n HC HN.
    assert (QV : exists p par t, At T q p par t).
    { unfold node_children, node_get, index in HC. destruct (nth_error nodes q) as [d|] eqn:E; [|discriminate].
      destruct (stored_at _ _ _ _ ST E) as (p & par & t & A & _). eauto. }
    destruct QV as (p & par & t & A). rewrite (children_ok _ _ ST _ _ _ _ A) in HC. injection HC as <-.
    assert (IN := nth_error_In _ _ HN). apply child_ids_in in IN as (a & x & b & E & EN).
    destruct t as [|ty ts]; [destruct a; discriminate|]. cbn [t_children] in *. subst ts.
    pose proof (At_child _ _ _ _ _ _ _ _ A) as Ax. rewrite <- EN in Ax.
    assert (ND := child_ids_nodup (a ++ x :: b) (S q)).
    assert (CI : child_ids (S q) (a ++ x :: b) = child_ids (S q) a ++ n :: child_ids (n + tsize x) b).
    { rewrite child_ids_app. cbn [child_ids]. now rewrite EN. }
    assert (NI : ~ In n (child_ids (S q) a)).
    { rewrite CI in ND. apply NoDup_remove_2 in ND. intros I. apply ND. apply in_or_app. left; exact I. }
    assert (K : k = length (child_ids (S q) a)).
    { assert (L : length (child_ids (S q) a) < length (child_ids (S q) (a ++ x :: b))) by (rewrite CI, app_length; cbn; lia).
      pose proof (proj1 (NoDup_nth_error _) ND) as NN. symmetry. apply NN; [exact L|].
      rewrite HN, CI, nth_error_app2, Nat.sub_diag by lia. reflexivity. }
    unfold sibling, child_position. rewrite (parent_ok _ _ ST _ _ _ _ Ax). cbn [bind].
    rewrite (children_ok _ _ ST _ _ _ _ A). cbn [bind t_children].
    assert (PO : position (Nat.eqb n) (child_ids (S q) (a ++ x :: b)) = Some k)
      by (rewrite CI, K; now apply position_app).
    rewrite PO. cbn [unwrap bind]. rewrite (children_ok _ _ ST _ _ _ _ A). cbn [bind t_children].
    split; [reflexivity|]. destruct k; reflexivity.
  Qed.

  Lemma sibling_root : forall d, sibling nodes 0 d = Ok None.
  Proof. intros d. unfold sibling, child_position. rewrite (parent_ok _ _ ST _ _ _ _ (At_root T)). reflexivity. Qed.

  (** Every other node is some child. *)
  Lemma is_child : forall n p par t, At T n p par t -> n <> 0 ->
    exists q cs k, node_parent nodes n = Ok (Some q) /\ node_children nodes q = Ok cs /\ nth_error cs k = Some n.
  Proof.
    intros n p par t A NZ. destruct par as [q|].
    - pose proof A as A0. apply At_parent in A as (pd & qd & ty & pre & post & Ad & E & _).
      exists q, (child_ids (S q) (pre ++ t :: post)), (length (child_ids (S q) pre)).
      split; [apply (parent_ok _ _ ST _ _ _ _ A0)|]. split; [apply (children_ok _ _ ST _ _ _ _ Ad)|].
      rewrite child_ids_app, nth_error_app2, Nat.sub_diag by lia. cbn. now rewrite E.
    - apply At_no_parent in A. tauto.
  Qed.

  Lemma tile_nth : forall cs p q k a b da db, tile nodes p cs q -> nth_error cs k = Some a -> nth_error cs (S k) = Some b ->
    nth_error nodes a = Some da -> nth_error nodes b = Some db -> rend (n_range da) = rstart (n_range db).
  Proof.
    induction cs as [|c cs IH]; intros p q k a b da db H HA HB DA DB; [destruct k; discriminate|].
    destruct H as (d & Hd & _ & _ & R). destruct k as [|k]; cbn in HA, HB.
    - injection HA as ->. rewrite DA in Hd. injection Hd as ->. destruct cs as [|c' cs]; [discriminate|]. injection HB as ->.
      destruct R as (d' & Hd' & E & _). rewrite DB in Hd'. injection Hd' as ->. auto.
    - eapply IH; eauto.
  Qed.
End Stored.
