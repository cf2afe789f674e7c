(** Proofs about the tree queries of search.rs, visitor.rs and util.rs. *)
From Coq Require Import List Arith Bool Lia Permutation.
From Verif Require Import Base BaseFacts TextModel TreeModel SearchModel TextSpec TextProofs TreeSpec TreeProofs SearchSpec.
Import ListNotations.

(** ** Structure of [At] and [Below] *)

Lemma At_parent : forall T e p d t, At T e p (Some d) t ->
  exists pd qd ty pre post, At T d pd qd (Node ty (pre ++ t :: post))
    /\ e = S d + tsizes pre /\ p = pd + tlens pre.
Proof. intros T e p d t H. inversion H; subst. exists p0, par, ty, pre, post. auto. Qed.

Lemma At_no_parent : forall T e p t, At T e p None t -> e = 0 /\ p = 0 /\ t = T.
Proof. intros T e p t H. inversion H; subst. auto. Qed.

Lemma AtG_inv : forall t i0 p0 q0 i p par c, AtG t i0 p0 q0 i p par c ->
  (i = i0 /\ p = p0 /\ par = q0 /\ c = t) \/
  exists ty pre x post, t = Node ty (pre ++ x :: post) /\
    AtG x (S i0 + tsizes pre) (p0 + tlens pre) (Some i0) i p par c.
Proof.
  intros t i0 p0 q0 i p par c H. induction H as [|i p par ty pre c post H IH].
  - left. auto.
  - right. destruct IH as [(-> & -> & -> & <-)|(ty' & pre' & x & post' & E & G)].
    + exists ty, pre, c, post. split; [reflexivity|]. apply AtG_root.
    + exists ty', pre', x, post'. split; [exact E|]. eapply AtG_child; eauto.
Qed.

Lemma AtG_down : forall ty pre x post i0 p0 q0 i p par c,
  AtG x (S i0 + tsizes pre) (p0 + tlens pre) (Some i0) i p par c ->
  AtG (Node ty (pre ++ x :: post)) i0 p0 q0 i p par c.
Proof.
  intros. eapply AtG_trans; [|exact H]. eapply AtG_child. apply AtG_root.
Qed.

Lemma AtG_in_At : forall T a pa qa ta d pd qd td,
  At T a pa qa ta -> AtG ta a pa qa d pd qd td -> At T d pd qd td.
Proof. intros. apply AtG_At. apply AtG_At in H. eapply AtG_trans; eauto. Qed.

Lemma Below_AtG : forall T a d, Below T a d -> forall pa qa ta, At T a pa qa ta ->
  exists pd qd td, AtG ta a pa qa d pd qd td.
Proof.
  intros T a d H. induction H as [p par t H|d p t e H IH He]; intros pa qa ta A.
  - exists pa, qa, ta. apply AtG_root.
  - destruct (IH _ _ _ A) as (pd & qd & td & G).
    apply At_parent in He as (pd' & qd' & ty & pre & post & Hd & -> & ->).
    pose proof (AtG_in_At _ _ _ _ _ _ _ _ _ A G) as Hd'.
    destruct (At_unique _ _ _ _ _ _ _ _ Hd Hd') as (-> & -> & <-).
    eexists _, _, _. eapply AtG_child. exact G.
Qed.

Lemma AtG_Below : forall T a pa qa ta d pd qd td, At T a pa qa ta ->
  AtG ta a pa qa d pd qd td -> Below T a d.
Proof.
  intros T a pa qa ta d pd qd td A G. induction G as [|i p par ty pre c post G IH].
  - eapply Below_refl; eauto.
  - eapply Below_child; [exact IH|]. eapply AtG_in_At; [exact A|]. eapply AtG_child. exact G.
Qed.

Lemma AtG_bounds : forall t i0 p0 q0 i p par c, AtG t i0 p0 q0 i p par c ->
  i0 <= i /\ i + tsize c <= i0 + tsize t /\ p0 <= p /\ p + tlen c <= p0 + tlen t.
Proof.
  intros t i0 p0 q0 i p par c H. induction H as [|i p par ty pre c post H IH]; [lia|].
  destruct IH as (A & B & C & D). cbn [tsize tlen] in *. fold (tsizes (pre ++ c :: post)) in *.
  fold (tlens (pre ++ c :: post)) in *. rewrite tsizes_app, tsizes_cons in *. rewrite tlens_app, tlens_cons in *. lia.
Qed.

Lemma AtG_total : forall t i0 p0 q0 i, i0 <= i < i0 + tsize t -> exists p par c, AtG t i0 p0 q0 i p par c.
Proof.
  intros t i0 p0 q0 i H. assert (L : i - i0 < length (preorder t q0 i0 p0)) by (rewrite preorder_length; lia).
  apply nth_error_Some in L. destruct (nth_error (preorder t q0 i0 p0) (i - i0)) as [[[p par] c]|] eqn:E; [|congruence].
  apply preorder_AtG in E. replace (i0 + (i - i0)) with i in E by lia. eauto.
Qed.

Lemma Below_interval : forall T a pa qa ta, At T a pa qa ta ->
  forall d, Below T a d <-> a <= d < a + tsize ta.
Proof.
  intros T a pa qa ta A d. split; intro H.
  - destruct (Below_AtG _ _ _ H _ _ _ A) as (pd & qd & td & G).
    apply AtG_bounds in G. pose proof (tsize_pos td). lia.
  - destruct (AtG_total ta a pa qa d H) as (p & par & c & G). eapply AtG_Below; eauto.
Qed.

Lemma Below_At : forall T a d, Below T a d -> exists p par t, At T d p par t.
Proof. intros T a d H. destruct H; eauto. Qed.

Lemma Below_At_l : forall T a d, Below T a d -> exists p par t, At T a p par t.
Proof. intros T a d H. induction H; eauto. Qed.

Lemma Below_trans : forall T a b c, Below T a b -> Below T b c -> Below T a c.
Proof.
  intros T a b c H1 H2. induction H2; [exact H1|]. eapply Below_child; eauto.
Qed.

Lemma Below_root : forall T i p par t, At T i p par t -> Below T 0 i.
Proof.
  intros T i p par t H. apply (Below_interval T 0 0 None T (At_root T)). apply At_bound in H.
  pose proof (tsize_pos t). lia.
Qed.

Lemma Below_antisym : forall T a b, Below T a b -> Below T b a -> a = b.
Proof.
  intros T a b H1 H2. destruct (Below_At_l _ _ _ H1) as (p & q & t & A). destruct (Below_At_l _ _ _ H2) as (p' & q' & t' & B).
  apply (Below_interval _ _ _ _ _ A) in H1. apply (Below_interval _ _ _ _ _ B) in H2. lia.
Qed.

Lemma Below_up : forall T a e, Below T a e -> a = e \/ exists d p t, Below T a d /\ At T e p (Some d) t.
Proof. intros T a e H. inversion H; subst; eauto. right. eauto 6. Qed.

Lemma Below_range : forall T a d pa qa ta pd qd td, Below T a d -> At T a pa qa ta -> At T d pd qd td ->
  pa <= pd /\ pd + tlen td <= pa + tlen ta.
Proof.
  intros T a d pa qa ta pd qd td H A D. destruct (Below_AtG _ _ _ H _ _ _ A) as (p & q & t & G).
  destruct (At_unique _ _ _ _ _ _ _ _ D (AtG_in_At _ _ _ _ _ _ _ _ _ A G)) as (-> & -> & ->).
  apply AtG_bounds in G. lia.
Qed.


(** ** Bytes and leaves *)

Lemma leaf_at_byte : forall u i0 p0 q0 o, p0 <= o < p0 + tlen u ->
  exists w pw qw tw, AtG u i0 p0 q0 w pw qw tw /\ t_children tw = [] /\ pw <= o < pw + tlen tw.
Proof.
  apply (tree_ind' (fun u => forall i0 p0 q0 o, p0 <= o < p0 + tlen u ->
    exists w pw qw tw, AtG u i0 p0 q0 w pw qw tw /\ t_children tw = [] /\ pw <= o < pw + tlen tw)).
  - intros ty m i0 p0 q0 o H. exists i0, p0, q0, (Leaf ty m). split; [apply AtG_root|]. auto.
  - intros ty us F i0 p0 q0 o H. cbn [tlen] in H. fold (tlens us) in H.
    assert (S : exists a x b, us = a ++ x :: b /\ p0 + tlens a <= o < p0 + tlens a + tlen x).
    { clear F. revert p0 H. induction us as [|v us IH]; intros p0 H; [unfold tlens in H; cbn in H; lia|].
      rewrite tlens_cons in H. destruct (lt_dec o (p0 + tlen v)) as [K|K].
      - exists [], v, us. split; [reflexivity|]. unfold tlens. cbn. lia.
      - destruct (IH (p0 + tlen v) ltac:(lia)) as (a & x & b & -> & R). exists (v :: a), x, b.
        split; [reflexivity|]. rewrite tlens_cons. lia. }
    destruct S as (a & x & b & -> & R). rewrite Forall_forall in F.
    destruct (F x ltac:(apply in_or_app; right; left; reflexivity) (S i0 + tsizes a) (p0 + tlens a) (Some i0) o R) as (w & pw & qw & tw & G & C & R').
    exists w, pw, qw, tw. split; [apply AtG_down; exact G|]. auto.
Qed.

Lemma child_at_byte_unique : forall o a1 x1 b1 a2 x2 b2 z, a1 ++ x1 :: b1 = a2 ++ x2 :: b2 ->
  z + tlens a1 <= o < z + tlens a1 + tlen x1 -> z + tlens a2 <= o < z + tlens a2 + tlen x2 -> a1 = a2 /\ x1 = x2 /\ b1 = b2.
Proof.
  intros o. induction a1 as [|u a1 IH]; intros y1 c1 [|v a2] y2 c2 z E R1 R2.
  - cbn in E. injection E as -> ->. auto.
  - exfalso. cbn in E. injection E as -> ->. rewrite tlens_cons in R2. unfold tlens in R1. cbn in R1. lia.
  - exfalso. cbn in E. injection E as -> <-. rewrite tlens_cons in R1. unfold tlens in R2. cbn in R2. lia.
  - cbn in E. injection E as -> E. rewrite tlens_cons in R1, R2.
    destruct (IH _ _ _ _ _ (z + tlen v) E) as (-> & -> & ->); [lia|lia|auto].
Qed.

Lemma leaf_in_cover : forall o u i0 p0 q0 x px qx tx y py qy ty,
  AtG u i0 p0 q0 x px qx tx -> AtG u i0 p0 q0 y py qy ty ->
  px <= o < px + tlen tx -> py <= o < py + tlen ty -> t_children tx = [] -> y <= x < y + tsize ty.
Proof.
  intros o. apply (tree_ind' (fun u => forall i0 p0 q0 x px qx tx y py qy ty, AtG u i0 p0 q0 x px qx tx -> AtG u i0 p0 q0 y py qy ty ->
     px <= o < px + tlen tx -> py <= o < py + tlen ty -> t_children tx = [] -> y <= x < y + tsize ty)).
  - intros ty0 m i0 p0 q0 x px qx tx y py qy ty GX GY _ _ _.
    apply AtG_inv in GX as [(-> & _)|(? & ? & ? & ? & E & _)]; [|discriminate].
    apply AtG_inv in GY as [(-> & _ & _ & ->)|(? & ? & ? & ? & E & _)]; [|discriminate]. cbn. lia.
  - intros ty0 us F i0 p0 q0 x px qx tx y py qy ty GX GY OX OY C.
    pose proof (AtG_bounds _ _ _ _ _ _ _ _ GX) as BX. pose proof (tsize_pos tx).
    apply AtG_inv in GY as [(-> & -> & -> & ->)|(ty1 & a1 & x1 & b1 & E1 & GY)]; [lia|].
    injection E1 as <- E1.
    apply AtG_inv in GX as [(-> & -> & -> & ->)|(ty2 & a2 & x2 & b2 & E2 & GX)].
    + cbn in C. subst us. destruct a1; discriminate.
    + injection E2 as <- E2. pose proof (AtG_bounds _ _ _ _ _ _ _ _ GX) as BX2. pose proof (AtG_bounds _ _ _ _ _ _ _ _ GY) as BY2.
      rewrite E1 in E2. destruct (child_at_byte_unique o _ _ _ _ _ _ p0 E2) as (-> & -> & ->); [lia|lia|].
      rewrite Forall_forall in F. eapply (F x2); eauto. rewrite E1. apply in_or_app; right; left; reflexivity.
Qed.

Lemma cover_above_leaf : forall T o x px qx tx y py qy ty, At T x px qx tx -> At T y py qy ty ->
  px <= o < px + tlen tx -> py <= o < py + tlen ty -> t_children tx = [] -> Below T y x.
Proof.
  intros T o x px qx tx y py qy ty AX AY OX OY C. apply (Below_interval _ _ _ _ _ AY).
  apply AtG_At in AX. apply AtG_At in AY. eapply leaf_in_cover; eauto.
Qed.

(** ** Reading the table *)

Section Stored.
  Variables (nodes : table) (T : tree).
  Hypothesis ST : stores nodes T.

  Lemma get_ok : forall i p par t, At T i p par t -> node_get nodes i = Ok (data_of i p par t).
  Proof. intros i p par t H. unfold node_get, index. destruct ST as [_ S]. now rewrite (S _ _ _ _ H). Qed.

  Lemma range_ok : forall i p par t, At T i p par t -> node_range nodes i = Ok (mkRange p (p + tlen t)).
  Proof. intros i p par t H. unfold node_range. now rewrite (get_ok _ _ _ _ H). Qed.

  Lemma ty_ok : forall i p par t, At T i p par t -> node_ty nodes i = Ok (t_ty t).
  Proof. intros i p par t H. unfold node_ty. now rewrite (get_ok _ _ _ _ H). Qed.

  Lemma parent_ok : forall i p par t, At T i p par t -> node_parent nodes i = Ok par.
  Proof. intros i p par t H. unfold node_parent. now rewrite (get_ok _ _ _ _ H). Qed.

  Lemma children_ok : forall i p par t, At T i p par t -> node_children nodes i = Ok (child_ids (S i) (t_children t)).
  Proof. intros i p par t H. unfold node_children. now rewrite (get_ok _ _ _ _ H). Qed.

  Lemma out_of_table : forall i, tsize T <= i -> node_get nodes i = Panic.
  Proof.
    intros i H. unfold node_get, index. destruct ST as [L _]. rewrite (proj2 (nth_error_None nodes i)) by lia. reflexivity.
  Qed.

  (** *** Leaves at an offset *)

  (** Non-empty childless nodes: number, start, end. *)
  Fixpoint spans (t : tree) (i p : nat) : list (nat * nat * nat) :=
    match t with
    | Leaf _ n => if n =? 0 then [] else [(i, p, p + n)]
    | Node _ ts =>
        (fix go (l : list tree) (i p : nat) :=
           match l with
           | [] => []
           | x :: r => spans x i p ++ go r (i + tsize x) (p + tlen x)
           end) ts (S i) p
    end.

  Fixpoint spanss (ts : list tree) (i p : nat) : list (nat * nat * nat) :=
    match ts with
    | [] => []
    | x :: r => spans x i p ++ spanss r (i + tsize x) (p + tlen x)
    end.

  Lemma spans_node : forall ty ts i p, spans (Node ty ts) i p = spanss ts (S i) p.
  Proof.
    intros. cbn [spans]. generalize (S i) as j. clear i. revert p.
    induction ts as [|x r IH]; intros p j; [reflexivity|]. cbn [spanss]. f_equal.
  Qed.

  Definition touch (off : nat) (x : nat * nat * nat) : bool := (snd (fst x) <=? off) && (off <=? snd x).

  Definition touched (off : nat) (t : tree) (i p : nat) : list nat :=
    map (fun x => fst (fst x)) (filter (touch off) (spans t i p)).

  Definition toucheds (off : nat) (ts : list tree) (i p : nat) : list nat :=
    map (fun x => fst (fst x)) (filter (touch off) (spanss ts i p)).

  Lemma toucheds_cons : forall off x r i p,
    toucheds off (x :: r) i p = touched off x i p ++ toucheds off r (i + tsize x) (p + tlen x).
  Proof. intros. unfold toucheds, touched. cbn [spanss]. now rewrite filter_app, map_app. Qed.

  Lemma spans_AtG : forall t i p q l s e, In (l, s, e) (spans t i p) <->
    exists par c, AtG t i p q l s par c /\ t_children c = [] /\ 0 < tlen c /\ e = s + tlen c.
  Proof.
    apply (tree_ind' (fun t => forall i p q l s e, In (l, s, e) (spans t i p) <->
      exists par c, AtG t i p q l s par c /\ t_children c = [] /\ 0 < tlen c /\ e = s + tlen c)).
    - intros ty n i p q l s e. cbn [spans]. split.
      + intros H. destruct (n =? 0) eqn:E; [easy|]. destruct H as [H|[]]. injection H as <- <- <-.
        exists q, (Leaf ty n). btrue. split; [apply AtG_root|]. cbn. repeat split; lia.
      + intros (par & c & G & C & L & ->). apply AtG_inv in G as [(-> & -> & -> & ->)|(ty' & pre & x & post & E & _)]; [|discriminate].
        cbn in L. destruct (n =? 0) eqn:E; btrue; [lia|]. left. reflexivity.
    - intros ty ts F i p q l s e. rewrite spans_node.
      assert (G : forall pre post, ts = pre ++ post -> (In (l, s, e) (spanss post (S i + tsizes pre) (p + tlens pre)) <->
                  exists a x b par c, post = a ++ x :: b /\ AtG x (S i + tsizes (pre ++ a)) (p + tlens (pre ++ a)) (Some i) l s par c
                    /\ t_children c = [] /\ 0 < tlen c /\ e = s + tlen c)).
      { intros pre post. revert pre. induction post as [|x post IH]; intros pre E.
        - cbn. split; [easy|]. intros (a & x & b & par & c & H & _). destruct a; discriminate.
        - cbn [spanss]. rewrite in_app_iff.
          assert (Fx := proj1 (Forall_forall _ _) F x). rewrite (Fx ltac:(rewrite E; apply in_or_app; right; left; reflexivity) _ _ (Some i)).
          specialize (IH (pre ++ [x])). rewrite <- app_assoc in IH. specialize (IH E).
          rewrite tsizes_app, tlens_app, tsizes_cons, tlens_cons in IH.
          unfold tsizes at 2, tlens at 2 in IH. cbn [map sum fold_right] in IH. rewrite !Nat.add_0_r in IH.
          rewrite Nat.add_assoc, Nat.add_assoc in IH.
          rewrite IH. split.
          + intros [(par & c & G & R)|(a & y & b & par & c & H & G & R)].
            * exists [], x, post, par, c. rewrite app_nil_r. auto.
            * exists (x :: a), y, b, par, c. split; [cbn; congruence|]. rewrite <- app_assoc in G. auto.
          + intros ([|z a] & y & b & par & c & H & G & R).
            * cbn in H. injection H as <- <-. rewrite app_nil_r in G. left. eauto.
            * cbn in H. injection H as <- ->. right. exists a, y, b, par, c.
              rewrite <- app_assoc. auto. }
      specialize (G [] ts eq_refl). unfold tsizes at 1, tlens at 1 in G. cbn [map sum fold_right app] in G.
      rewrite !Nat.add_0_r in G. rewrite G. split.
      + intros (a & x & b & par & c & -> & H & R). exists par, c. split; [|exact R]. apply AtG_down. exact H.
      + intros (par & c & H & C & L & E). apply AtG_inv in H as [(-> & -> & -> & ->)|(ty' & pre & x & post & E' & H)].
        * cbn in C. subst ts. cbn in L. lia.
        * injection E' as -> ->. exists pre, x, post, par, c. auto.
  Qed.

  (** Children that are non-empty and touch the offset. *)
  Fixpoint hits (off : nat) (ts : list tree) (i p : nat) : list (nat * nat * tree) :=
    match ts with
    | [] => []
    | x :: r =>
        (if negb (tlen x =? 0) && ((p <=? off) && (off <=? p + tlen x)) then [(i, p, x)] else [])
        ++ hits off r (i + tsize x) (p + tlen x)
    end.

  Lemma hits_in : forall off ts i p j s c, In (j, s, c) (hits off ts i p) ->
    0 < tlen c /\ s <= off <= s + tlen c /\ p <= s /\ s + tlen c <= p + tlens ts
    /\ exists a b, ts = a ++ c :: b /\ j = i + tsizes a /\ s = p + tlens a.
  Proof.
    intros off. induction ts as [|x r IH]; intros i p j s c H; [easy|]. cbn [hits] in H.
    apply in_app_or in H as [H|H].
    - destruct (negb (tlen x =? 0) && _) eqn:E; [|easy]. destruct H as [H|[]]. injection H as <- <- <-. btrue.
      rewrite tlens_cons. split; [lia|]. split; [lia|]. split; [lia|]. split; [lia|].
      exists [], r. unfold tsizes, tlens. cbn. repeat split; lia.
    - apply IH in H as (A & B & C & D & (a & b & -> & -> & ->)). rewrite tlens_cons.
      split; [lia|]. split; [lia|]. split; [lia|]. split; [lia|].
      exists (x :: a), b. rewrite tsizes_cons, tlens_cons. split; [reflexivity|]. lia.
  Qed.

  Lemma hits_before : forall off ts i p, off < p -> hits off ts i p = [].
  Proof.
    intros off. induction ts as [|x r IH]; intros i p H; [reflexivity|]. cbn [hits].
    rewrite IH by lia. replace (p <=? off) with false by (symmetry; apply Nat.leb_gt; lia).
    now rewrite andb_false_r.
  Qed.

  Lemma hits_shape : forall off ts i p, p <= off <= p + tlens ts -> 0 < tlens ts ->
    (exists x, hits off ts i p = [x]) \/
    (exists i1 p1 c1 i2 p2 c2, hits off ts i p = [(i1, p1, c1); (i2, p2, c2)] /\ off = p1 + tlen c1 /\ off = p2).
  Proof.
    intros off. induction ts as [|x r IH]; intros i p H L; [unfold tlens in L; cbn in L; lia|].
    rewrite tlens_cons in *. cbn [hits]. destruct (tlen x =? 0) eqn:Z; btrue; cbn [negb andb app].
    - rewrite Z in *. apply IH; lia.
    - destruct (off <=? p + tlen x) eqn:E; btrue.
      + replace (p <=? off) with true by (symmetry; apply Nat.leb_le; lia). cbn [andb app].
        destruct (Nat.eq_dec off (p + tlen x)) as [E2|E2].
        * destruct (Nat.eq_dec (tlens r) 0) as [R|R].
          -- left. exists (i, p, x). f_equal.
             destruct (hits off r (i + tsize x) (p + tlen x)) as [|[[a b] c] l] eqn:Hh; [reflexivity|].
             assert (In (a, b, c) (hits off r (i + tsize x) (p + tlen x))) by (rewrite Hh; left; reflexivity).
             apply hits_in in H0. lia.
          -- right. destruct (IH (i + tsize x) (p + tlen x)) as [[[[i2 p2] c2] Hh]|(i1 & p1 & c1 & i2 & p2 & c2 & Hh & E3 & E4)]; [lia|lia| |].
             ++ exists i, p, x, i2, p2, c2. rewrite Hh. split; [reflexivity|]. split; [exact E2|].
                assert (In (i2, p2, c2) (hits off r (i + tsize x) (p + tlen x))) by (rewrite Hh; left; reflexivity).
                apply hits_in in H0. lia.
             ++ exfalso. assert (In (i1, p1, c1) (hits off r (i + tsize x) (p + tlen x))) by (rewrite Hh; left; reflexivity).
                apply hits_in in H0. lia.
        * left. exists (i, p, x). rewrite hits_before by lia. reflexivity.
      + rewrite andb_false_r. cbn [app]. apply IH; lia.
  Qed.

  Lemma touched_empty : forall off t i p, (tlen t = 0 \/ off < p \/ p + tlen t < off) -> touched off t i p = [].
  Proof.
    intros off t i p H. unfold touched. destruct (filter (touch off) (spans t i p)) as [|[[l s] e] r] eqn:E; [reflexivity|].
    assert (I : In (l, s, e) (filter (touch off) (spans t i p))) by (rewrite E; left; reflexivity).
    apply filter_In in I as [I1 I2]. apply (spans_AtG t i p None) in I1 as (par & c & G & _ & L & ->).
    apply AtG_bounds in G. unfold touch in I2. cbn in I2. btrue. lia.
  Qed.

  Lemma toucheds_hits : forall off ts i p,
    toucheds off ts i p = flat_map (fun x => touched off (snd x) (fst (fst x)) (snd (fst x))) (hits off ts i p).
  Proof.
    intros off. induction ts as [|x r IH]; intros i p; [reflexivity|]. rewrite toucheds_cons. cbn [hits].
    rewrite flat_map_app, <- IH. f_equal. destruct (negb (tlen x =? 0) && _) eqn:E.
    - cbn. now rewrite app_nil_r.
    - cbn. apply touched_empty. apply andb_false_iff in E as [E|E]; btrue; [auto|].
      apply andb_false_iff in E as [E|E]; btrue; auto.
  Qed.

  (** How many leaves touch an offset. *)
  Lemma touched_count : forall off t i p, p <= off <= p + tlen t -> 0 < tlen t ->
    ((off = p \/ off = p + tlen t) -> length (touched off t i p) = 1)
    /\ (length (touched off t i p) = 1 \/ length (touched off t i p) = 2).
  Proof.
    intros off. apply (tree_ind' (fun t => forall i p, p <= off <= p + tlen t -> 0 < tlen t ->
      ((off = p \/ off = p + tlen t) -> length (touched off t i p) = 1)
      /\ (length (touched off t i p) = 1 \/ length (touched off t i p) = 2))).
    - intros ty n i p H L. unfold touched. cbn [spans tlen] in *.
      destruct (n =? 0) eqn:E; btrue; [lia|]. cbn [filter touch fst snd].
      unfold touch. cbn [fst snd]. replace ((p <=? off) && (off <=? p + n)) with true.
      + cbn. auto.
      + symmetry. apply andb_true_intro. split; apply Nat.leb_le; lia.
    - intros ty ts F i p H L. cbn [tlen] in *. fold (tlens ts) in *.
      replace (touched off (Node ty ts) i p) with (toucheds off ts (S i) p)
        by (unfold touched, toucheds; now rewrite spans_node).
      rewrite toucheds_hits.
      assert (IHx : forall j s c, In (j, s, c) (hits off ts (S i) p) ->
         ((off = s \/ off = s + tlen c) -> length (touched off c j s) = 1)
         /\ (length (touched off c j s) = 1 \/ length (touched off c j s) = 2)).
      { intros j s c I. apply hits_in in I as (A & B & C & D & (a & b & -> & _)).
        rewrite Forall_forall in F. apply F; auto. apply in_or_app. right; left; reflexivity. }
      destruct (hits_shape off ts (S i) p H L) as [[[[j s] c] E]|(i1 & p1 & c1 & i2 & p2 & c2 & E & E1 & E2)].
      + rewrite E in *. cbn [flat_map fst snd]. rewrite app_nil_r.
        assert (I : In (j, s, c) (hits off ts (S i) p)) by (rewrite E; left; reflexivity).
        apply hits_in in I. specialize (IHx j s c (or_introl eq_refl)). destruct IHx as [X Y]. split; [|exact Y].
        intros B. apply X. lia.
      + rewrite E in *. cbn [flat_map fst snd]. rewrite app_nil_r.
        assert (I1 : In (i1, p1, c1) (hits off ts (S i) p)) by (rewrite E; left; reflexivity).
        assert (I2 : In (i2, p2, c2) (hits off ts (S i) p)) by (rewrite E; right; left; reflexivity).
        apply hits_in in I1, I2. destruct (IHx i1 p1 c1 (or_introl eq_refl)) as [X1 _].
        destruct (IHx i2 p2 c2 (or_intror (or_introl eq_refl))) as [X2 _].
        rewrite app_length, X1, X2 by auto. split; [|auto]. intros B. lia.
  Qed.

  Definition of_list (l : list nat) : leaf_at_offset :=
    match l with [] => LNone | [a] => LSingle a | a :: b :: _ => LBetween a b end.

  Lemma child_At : forall i p q ty a x b, At T i p q (Node ty (a ++ x :: b)) ->
    At T (S i + tsizes a) (p + tlens a) (Some i) x.
  Proof. intros. eapply At_child; eauto. Qed.

  (** The two filters of [find_leaf_at_offset] select exactly [hits]. *)
  Lemma filters_hits : forall off ts i p,
    (forall a x b, ts = a ++ x :: b -> node_range nodes (i + tsizes a) = Ok (mkRange (p + tlens a) (p + tlens a + tlen x))) ->
    (cs1 <- filter_res (fun c => r <- node_range nodes c ;; Ok (negb (range_is_empty r))) (child_ids i ts) ;;
     filter_res (fun c => r <- node_range nodes c ;; Ok (contains_offset_nonstrict r off)) cs1)
    = Ok (map (fun x => fst (fst x)) (hits off ts i p)).
  Proof.
    intros off. induction ts as [|x r IH]; intros i p H; [reflexivity|]. cbn [child_ids filter_res].
    pose proof (H [] x r eq_refl) as H0. unfold tsizes, tlens in H0. cbn [map sum fold_right] in H0.
    rewrite !Nat.add_0_r in H0. rewrite H0. cbn [bind].
    specialize (IH (i + tsize x) (p + tlen x)).
    assert (H' : forall a y b, r = a ++ y :: b ->
        node_range nodes (i + tsize x + tsizes a) = Ok (mkRange (p + tlen x + tlens a) (p + tlen x + tlens a + tlen y))).
    { intros a y b ->. specialize (H (x :: a) y b eq_refl). rewrite tsizes_cons, tlens_cons in H.
      rewrite !Nat.add_assoc in H. exact H. }
    specialize (IH H').
    destruct (filter_res (fun c => r0 <- node_range nodes c;; Ok (negb (range_is_empty r0))) (child_ids (i + tsize x) r)) as [cs1| |];
      cbn [bind] in *; try discriminate.
    cbn [hits]. unfold range_is_empty at 1. cbn [rstart rend].
    replace (p =? p + tlen x) with (tlen x =? 0)
      by (destruct (tlen x =? 0) eqn:E1, (p =? p + tlen x) eqn:E2; btrue; auto; lia).
    destruct (tlen x =? 0); cbn [negb andb app].
    - exact IH.
    - cbn [filter_res]. rewrite H0. cbn [bind]. rewrite IH. cbn [bind].
      unfold contains_offset_nonstrict. cbn [rstart rend].
      destruct ((p <=? off) && (off <=? p + tlen x)); reflexivity.
  Qed.

  Lemma find_leaf_ok : forall off t i p q fuel, At T i p q t -> tsize t <= fuel -> p <= off <= p + tlen t ->
    find_leaf_fuel fuel nodes i off = Ok (of_list (touched off t i p)).
  Proof.
    intros off. apply (tree_ind' (fun t => forall i p q fuel, At T i p q t -> tsize t <= fuel -> p <= off <= p + tlen t ->
      find_leaf_fuel fuel nodes i off = Ok (of_list (touched off t i p)))).
    - intros ty n i p q fuel A S0 H. destruct fuel as [|fuel]; [cbn in S0; lia|]. cbn [find_leaf_fuel].
      rewrite (range_ok _ _ _ _ A). cbn [bind tlen] in *. unfold contains_offset_nonstrict. cbn [rstart rend].
      replace ((p <=? off) && (off <=? p + n)) with true
        by (symmetry; apply andb_true_intro; split; apply Nat.leb_le; lia). cbn [guard].
      unfold range_is_empty. cbn [rstart rend]. unfold is_leaf. rewrite (children_ok _ _ _ _ A), (range_ok _ _ _ _ A).
      cbn [bind t_children child_ids tlen]. unfold range_is_empty. cbn [rstart rend].
      unfold touched. cbn [spans].
      destruct (n =? 0) eqn:Z; btrue.
      + subst. rewrite Nat.add_0_r, Nat.eqb_refl. reflexivity.
      + replace (p =? p + n) with false by (symmetry; apply Nat.eqb_neq; lia). cbn [negb andb bind filter].
        unfold touch. cbn [fst snd]. replace ((p <=? off) && (off <=? p + n)) with true
          by (symmetry; apply andb_true_intro; split; apply Nat.leb_le; lia). reflexivity.
    - intros ty ts F i p q fuel A S0 H. destruct fuel as [|fuel]; [cbn in S0; lia|]. cbn [find_leaf_fuel].
      rewrite (range_ok _ _ _ _ A). cbn [bind]. unfold contains_offset_nonstrict at 1. cbn [rstart rend].
      replace ((p <=? off) && (off <=? p + tlen (Node ty ts))) with true
        by (symmetry; apply andb_true_intro; split; apply Nat.leb_le; lia). cbn [guard].
      unfold range_is_empty at 1. cbn [rstart rend].
      destruct (p =? p + tlen (Node ty ts)) eqn:Z; btrue.
      + rewrite touched_empty; [reflexivity|]. left. lia.
      + cbn [tlen] in *. fold (tlens ts) in *. unfold is_leaf.
        rewrite (children_ok _ _ _ _ A), (range_ok _ _ _ _ A). cbn [bind t_children].
        destruct ts as [|t0 ts0] eqn:Ets; [unfold tlens in Z; cbn in Z; lia|]. rewrite <- Ets in *.
        replace (match child_ids (S i) ts with [] => true | _ :: _ => false end) with false by (rewrite Ets; reflexivity).
        cbn [andb bind].
        assert (HR : forall a x b, ts = a ++ x :: b -> node_range nodes (S i + tsizes a) = Ok (mkRange (p + tlens a) (p + tlens a + tlen x))).
        { intros a x b E. eapply range_ok. eapply child_At. rewrite <- E. exact A. }
        pose proof (filters_hits off ts (S i) p HR) as FH.
        destruct (filter_res (fun c => r <- node_range nodes c;; Ok (negb (range_is_empty r))) (child_ids (S i) ts)) as [cs1| |];
          cbn [bind] in *; try discriminate.
        rewrite FH. cbn [bind].
        replace (touched off (Node ty ts) i p) with (toucheds off ts (S i) p)
          by (unfold touched, toucheds; now rewrite spans_node).
        rewrite toucheds_hits.
        assert (IHx : forall j s c, In (j, s, c) (hits off ts (S i) p) ->
          find_leaf_fuel fuel nodes j off = Ok (of_list (touched off c j s)) /\ 0 < tlen c /\ s <= off <= s + tlen c).
        { intros j s c I. apply hits_in in I as (X & B & C & D & (a & b & E & -> & ->)).
          split; [|auto]. rewrite Forall_forall in F.
          apply (F c ltac:(rewrite E; apply in_or_app; right; left; reflexivity) _ _ (Some i)).
          - eapply child_At. rewrite <- E. exact A.
          - cbn [tsize] in S0. fold (tsizes ts) in S0. rewrite E, tsizes_app, tsizes_cons in S0. lia.
          - exact B. }
        destruct (hits_shape off ts (S i) p) as [[[[j s] c] E]|(i1 & p1 & c1 & i2 & p2 & c2 & E & E1 & E2)]; [lia|lia| |].
        * rewrite E in *. cbn [map fst flat_map snd]. rewrite app_nil_r.
          apply (IHx j s c). left; reflexivity.
        * rewrite E in *. cbn [map fst flat_map snd]. rewrite app_nil_r.
          destruct (IHx i1 p1 c1 (or_introl eq_refl)) as (X1 & L1 & B1).
          destruct (IHx i2 p2 c2 (or_intror (or_introl eq_refl))) as (X2 & L2 & B2).
          rewrite X1. cbn [bind]. rewrite X2. cbn [bind].
          destruct (touched_count off c1 i1 p1 B1 L1) as [C1 _]. destruct (touched_count off c2 i2 p2 B2 L2) as [C2 _].
          specialize (C1 (or_intror E1)). specialize (C2 (or_introl E2)).
          destruct (touched off c1 i1 p1) as [|a1 [|? ?]]; try discriminate.
          destruct (touched off c2 i2 p2) as [|a2 [|? ?]]; try discriminate. reflexivity.
  Qed.

  Lemma find_leaf_outside : forall off i p q t, At T i p q t -> ~ (p <= off <= p + tlen t) ->
    find_leaf_at_offset nodes i off = Panic.
  Proof.
    intros off i p q t A H. unfold find_leaf_at_offset. destruct ST as [L _]. rewrite L.
    pose proof (At_bound _ _ _ _ _ A) as B. pose proof (tsize_pos t).
    destruct (tsize T) as [|k]; [lia|]. cbn [find_leaf_fuel]. rewrite (range_ok _ _ _ _ A). cbn [bind].
    unfold contains_offset_nonstrict. cbn [rstart rend].
    replace ((p <=? off) && (off <=? p + tlen t)) with false; [reflexivity|].
    symmetry. apply not_true_is_false. intros E. btrue. lia.
  Qed.

  (** spans are in increasing order and disjoint *)
  Lemma spans_sorted : forall t i p, exists l, l = spans t i p /\
    forall l1 x l2 y l3, l = l1 ++ x :: l2 ++ y :: l3 -> fst (fst x) < fst (fst y) /\ snd x <= snd (fst y).
  Proof.
    intros t i p. exists (spans t i p). split; [reflexivity|]. revert i p.
    apply (tree_ind' (fun t => forall i p l1 x l2 y l3, spans t i p = l1 ++ x :: l2 ++ y :: l3 ->
      fst (fst x) < fst (fst y) /\ snd x <= snd (fst y))).
    - intros ty n i p l1 x l2 y l3 H. cbn in H. destruct (n =? 0).
      + destruct l1; discriminate.
      + destruct l1 as [|? [|? ?]]; try discriminate. destruct l2; discriminate.
    - intros ty ts F i p l1 x l2 y l3 H. rewrite spans_node in H. revert H. generalize (S i) as j. clear i. intros j.
      revert j p l1 x l2 y l3. induction F as [|c r Hc F IH]; intros j p l1 x l2 y l3 H.
      + destruct l1; discriminate.
      + cbn [spanss] in H.
        assert (B1 : forall z, In z (spans c j p) -> fst (fst z) < j + tsize c /\ snd z <= p + tlen c).
        { intros [[l s] e] I. apply (spans_AtG c j p None) in I as (par & d & G & _ & _ & ->).
          apply AtG_bounds in G. pose proof (tsize_pos d). cbn. lia. }
        assert (B2 : forall us j' p' z, In z (spanss us j' p') -> j' <= fst (fst z) /\ p' <= snd (fst z)).
        { clear. induction us as [|u us IH]; intros j' p' z I; [easy|]. cbn [spanss] in I.
          apply in_app_or in I as [I|I].
          - destruct z as [[l s] e]. apply (spans_AtG u j' p' None) in I as (par & d & G & _). apply AtG_bounds in G. cbn. lia.
          - apply IH in I. lia. }
        assert (SP : forall (a b l1 l2 l3 : list (nat*nat*nat)) x y, a ++ b = l1 ++ x :: l2 ++ y :: l3 ->
           (exists m, a = l1 ++ x :: l2 ++ y :: m) \/ (In x a /\ In y b) \/ (exists m, b = m ++ x :: l2 ++ y :: l3)).
        { clear. induction a as [|z a IH]; intros b l1 l2 l3 x y E.
          - right; right. exists l1. exact E.
          - destruct l1 as [|w l1].
            + cbn in E. injection E as -> E. clear IH.
              assert (K : (exists m, a = l2 ++ y :: m) \/ In y b).
              { clear -E. revert l2 E. induction a as [|u a IH]; intros l2 E.
                - right. cbn in E. rewrite E. apply in_or_app. right; left; reflexivity.
                - destruct l2 as [|v l2]; cbn in E.
                  + injection E as -> E. left. exists a. reflexivity.
                  + injection E as -> E. destruct (IH _ E) as [[m ->]|I]; [left; exists m; reflexivity|auto]. }
              destruct K as [[m ->]|K]; [left; exists m; reflexivity|right; left; split; [left; reflexivity|exact K]].
            + cbn in E. injection E as -> E. destruct (IH _ _ _ _ _ _ E) as [[m ->]|[[I1 I2]|[m ->]]].
              * left. exists m. reflexivity.
              * right; left. split; [right; exact I1|exact I2].
              * right; right. exists m. reflexivity. }
        destruct (SP _ _ _ _ _ _ _ H) as [[m E]|[[I1 I2]|[m E]]].
        * eapply Hc; eauto.
        * apply B1 in I1. apply B2 in I2. lia.
        * eapply IH; eauto.
  Qed.

  Lemma in_touched : forall off i p q t, At T i p q t ->
    forall l, In l (touched off t i p) <-> Below T i l /\ touches T off l.
  Proof.
    intros off i p q t A l. unfold touched. rewrite in_map_iff. split.
    - intros ([[l' s] e] & E & I). cbn in E. subst l'. apply filter_In in I as [I1 I2].
      apply (spans_AtG t i p q) in I1 as (par & c & G & C & L & ->). unfold touch in I2. cbn in I2. btrue.
      split; [eapply AtG_Below; eauto|]. exists s, par, c. split; [eapply AtG_in_At; eauto|]. auto.
    - intros [B (s & par & c & A' & C & L & R)]. exists (l, s, s + tlen c). split; [reflexivity|].
      apply filter_In. split.
      + apply (spans_AtG t i p q). destruct (Below_AtG _ _ _ B _ _ _ A) as (s' & par' & c' & G).
        destruct (At_unique _ _ _ _ _ _ _ _ A' (AtG_in_At _ _ _ _ _ _ _ _ _ A G)) as (-> & -> & ->). eauto 6.
      + unfold touch. cbn. apply andb_true_intro. split; apply Nat.leb_le; lia.
  Qed.

  Lemma find_leaf_spec : forall off i p q t, At T i p q t -> p <= off <= p + tlen t ->
    exists r, find_leaf_at_offset nodes i off = Ok r
      /\ (forall l, In l (leaves_list r) <-> Below T i l /\ touches T off l)
      /\ (r = LNone <-> tlen t = 0)
      /\ (forall a b, r = LBetween a b -> a < b /\ ends_at T a off /\ starts_at T b off).
  Proof.
    intros off i p q t A H. unfold find_leaf_at_offset. destruct ST as [L _]. rewrite L.
    rewrite (find_leaf_ok off t i p q); auto.
    2:{ apply At_bound in A. lia. }
    eexists. split; [reflexivity|].
    assert (CT : tlen t = 0 \/ 0 < tlen t) by lia.
    assert (LL : leaves_list (of_list (touched off t i p)) = touched off t i p).
    { destruct CT as [Z|Z]; [rewrite touched_empty; auto|].
      destruct (touched_count off t i p H Z) as [_ [C|C]];
        destruct (touched off t i p) as [|a [|b [|c l]]]; try discriminate; reflexivity. }
    split; [|split].
    - intros l. rewrite LL. now apply (in_touched off i p q t).
    - destruct CT as [Z|Z].
      + rewrite touched_empty by auto. cbn. tauto.
      + destruct (touched_count off t i p H Z) as [_ [C|C]];
          destruct (touched off t i p) as [|a [|b [|c l]]]; try discriminate; cbn; split; intro X; try discriminate; lia.
    - intros a b E.
      destruct (filter (touch off) (spans t i p)) as [|[[a' s1] e1] [|[[b' s2] e2] l]] eqn:F;
        unfold touched in E; rewrite F in E; cbn in E; try discriminate. injection E as <- <-.
      assert (IA : In (a', s1, e1) (filter (touch off) (spans t i p))) by (rewrite F; left; reflexivity).
      assert (IB : In (b', s2, e2) (filter (touch off) (spans t i p))) by (rewrite F; right; left; reflexivity).
      apply filter_In in IA as [IA TA]. apply filter_In in IB as [IB TB]. unfold touch in TA, TB. cbn in TA, TB. btrue.
      assert (SUB : exists l1 l2 l3, spans t i p = l1 ++ (a', s1, e1) :: l2 ++ (b', s2, e2) :: l3).
      { clear -F. revert F. generalize (spans t i p) as m. induction m as [|x m IH]; intros F; [discriminate|].
        cbn [filter] in F. destruct (touch off x) eqn:X.
        - injection F as -> F. assert (I : In (b', s2, e2) m).
          { apply (proj1 (filter_In (touch off) (b', s2, e2) m)). rewrite F. left; reflexivity. }
          apply in_split in I as (l2 & l3 & ->). exists [], l2, l3. reflexivity.
        - destruct (IH F) as (l1 & l2 & l3 & ->). exists (x :: l1), l2, l3. reflexivity. }
      destruct SUB as (l1 & l2 & l3 & E).
      destruct (spans_sorted t i p) as (sp & Esp & SS). subst sp. destruct (SS _ _ _ _ _ E) as [S1 S2]. cbn in S1, S2.
      apply (spans_AtG t i p q) in IA as (pa & ca & GA & _ & _ & ->). apply (spans_AtG t i p q) in IB as (pb & cb & GB & _ & _ & ->).
      split; [exact S1|]. split.
      + exists s1, pa, ca. split; [eapply AtG_in_At; eauto|]. lia.
      + exists pb, cb. replace off with s2 by lia. eapply AtG_in_At; eauto.
  Qed.

  (** *** Ancestors *)

  Lemma ancestors_fuel_ok : forall i p q t fuel, At T i p q t -> i < fuel ->
    exists l, ancestors_fuel fuel nodes i = Ok l /\ hd_error l = Some i /\ parent_chain T l
      /\ (forall a, In a l <-> Below T a i)
      /\ (forall l1 a l2, l = l1 ++ a :: l2 -> forall b, In b (a :: l2) -> Below T b a).
  Proof.
    intros i. induction i as [i IH] using lt_wf_ind. intros p q t fuel A LF.
    destruct fuel as [|fuel]; [lia|]. cbn [ancestors_fuel]. rewrite (parent_ok _ _ _ _ A). cbn [bind].
    destruct q as [d|].
    - pose proof (At_parent _ _ _ _ _ A) as (pd & qd & ty & pre & post & Hd & E1 & E2).
      destruct (IH d ltac:(lia) _ _ _ fuel Hd ltac:(lia)) as (l & -> & Hl & PC & IN & SUF). cbn [bind].
      exists (i :: l). split; [reflexivity|]. split; [reflexivity|]. split; [|split].
      + destruct l as [|x l]; [discriminate|]. cbn in Hl. injection Hl as ->. split; [eauto|exact PC].
      + intros a. cbn [In]. rewrite IN. split.
        * intros [<-|B]; [eapply Below_refl; eauto|]. eapply Below_child; eauto.
        * intros B. apply Below_up in B as [->|(d' & p' & t' & B & A')]; [auto|].
          destruct (At_unique _ _ _ _ _ _ _ _ A A') as (_ & E & _). injection E as ->. auto.
      + intros [|x l1] a l2 E b IB.
        * cbn in E. injection E as <- <-. destruct IB as [<-|IB]; [eapply Below_refl; eauto|].
          apply IN in IB. eapply Below_child; eauto.
        * cbn in E. injection E as <- E. eapply SUF; eauto.
    - exists [i]. split; [reflexivity|]. split; [reflexivity|]. split; [|split].
      + cbn. eauto.
      + intros a. cbn. split.
        * intros [<-|[]]. eapply Below_refl; eauto.
        * intros B. apply Below_up in B as [->|(d' & p' & t' & B & A')]; [auto|].
          destruct (At_unique _ _ _ _ _ _ _ _ A A') as (_ & E & _). discriminate.
      + intros [|x [|y l1]] a l2 E b IB; try discriminate. cbn in E. injection E as <- <-.
        destruct IB as [<-|[]]. eapply Below_refl; eauto.
  Qed.

  Lemma ancestors_ok : forall i p q t, At T i p q t ->
    exists l, ancestors nodes i = Ok l /\ hd_error l = Some i /\ parent_chain T l
      /\ (forall a, In a l <-> Below T a i)
      /\ (forall l1 a l2, l = l1 ++ a :: l2 -> forall b, In b (a :: l2) -> Below T b a).
  Proof.
    intros i p q t A. unfold ancestors. destruct ST as [L _]. rewrite L. eapply ancestors_fuel_ok; eauto.
    apply At_bound in A. pose proof (tsize_pos t). lia.
  Qed.

  Lemma find_first_spec : forall A (p : A -> bool) l,
    match find_first p l with
    | Some a => exists l1 l2, l = l1 ++ a :: l2 /\ p a = true /\ forall b, In b l1 -> p b = false
    | None => forall b, In b l -> p b = false
    end.
  Proof.
    intros A p. induction l as [|a l IH]; cbn [find_first]; [easy|].
    destruct (p a) eqn:E.
    - exists [], l. repeat split; auto. easy.
    - destruct (find_first p l) as [x|].
      + destruct IH as (l1 & l2 & -> & P & N). exists (a :: l1), l2. split; [reflexivity|]. split; [exact P|].
        intros b [<-|I]; auto.
      + intros b [<-|I]; auto.
  Qed.

  Lemma common_ancestor_ok : forall x y, Below T 0 x -> Below T 0 y ->
    exists c, common_ancestor nodes x y = Ok c /\ Below T c x /\ Below T c y
      /\ forall a, Below T a x -> Below T a y -> Below T a c.
  Proof.
    intros x y X Y. destruct (Below_At _ _ _ X) as (px & qx & tx & AX). destruct (Below_At _ _ _ Y) as (py & qy & ty & AY).
    destruct (ancestors_ok _ _ _ _ AX) as (lx & EX & _ & _ & IX & SX).
    destruct (ancestors_ok _ _ _ _ AY) as (ly & EY & _ & _ & IY & _).
    unfold common_ancestor. rewrite EX. cbn [bind]. rewrite EY. cbn [bind].
    pose proof (find_first_spec _ (fun p => existsb (Nat.eqb p) ly) lx) as FF.
    assert (EB : forall a, existsb (Nat.eqb a) ly = true <-> Below T a y).
    { intros a. rewrite <- IY, existsb_exists. split.
      - intros (z & I & E). apply Nat.eqb_eq in E. now subst.
      - intros I. exists a. split; [exact I|apply Nat.eqb_refl]. }
    destruct (find_first _ lx) as [c|].
    - destruct FF as (l1 & l2 & E & P & N). exists c. split; [reflexivity|].
      split; [apply IX; rewrite E; apply in_or_app; right; left; reflexivity|]. split; [now apply EB|].
      intros a Ax Ay. apply IX in Ax. rewrite E in Ax. apply in_app_or in Ax as [I|I].
      + apply N in I. apply EB in Ay. congruence.
      + eapply SX; eauto.
    - exfalso. apply IX in X. apply FF in X. apply EB in Y. congruence.
  Qed.

  (** *** The smallest covering node *)

  Lemma right_biased_ok : forall n p q t off r, At T n p q t -> p <= off <= p + tlen t -> 0 < tlen t ->
    find_leaf_at_offset nodes n off = Ok r ->
    exists l pl ql tl, right_biased r = Some l /\ Below T n l /\ At T l pl ql tl /\ t_children tl = []
      /\ pl <= off <= pl + tlen tl /\ (off < p + tlen t -> off < pl + tlen tl).
  Proof.
    intros n p q t off r A H Z E. destruct (find_leaf_spec off n p q t A H) as (r' & E' & IN & N & B).
    rewrite E in E'. injection E' as <-.
    assert (W : off < p + tlen t -> exists w pw qw tw, In w (leaves_list r) /\ At T w pw qw tw /\ pw <= off < pw + tlen tw).
    { intros LT. destruct (leaf_at_byte t n p q off ltac:(lia)) as (w & pw & qw & tw & G & C & R).
      pose proof (AtG_in_At _ _ _ _ _ _ _ _ _ A G) as Aw. exists w, pw, qw, tw. split; [|auto].
      apply IN. split; [eapply AtG_Below; eauto|]. exists pw, qw, tw. repeat split; auto; lia. }
    destruct r as [|x|x y].
    - exfalso. assert (tlen t = 0) by (apply N; reflexivity). lia.
    - destruct (proj1 (IN x) (or_introl eq_refl)) as [Bx (px & qx & tx & Ax & Cx & Lx & Rx)].
      exists x, px, qx, tx. repeat (split; [solve [auto]|]). intros LT.
      destruct (W LT) as (w & pw & qw & tw & [<-|[]] & Aw & Rw).
      destruct (At_unique _ _ _ _ _ _ _ _ Ax Aw) as (-> & -> & ->). lia.
    - destruct (proj1 (IN y) (or_intror (or_introl eq_refl))) as [By (py & qy & ty & Ay & Cy & Ly & Ry)].
      destruct (B x y eq_refl) as (_ & _ & (qy' & ty' & Ay')).
      destruct (At_unique _ _ _ _ _ _ _ _ Ay Ay') as (-> & -> & ->).
      exists y, off, qy', ty'. repeat (split; [solve [auto]|]). lia.
  Qed.

  Lemma left_biased_ok : forall n p q t off r, At T n p q t -> p <= off <= p + tlen t -> 0 < tlen t ->
    find_leaf_at_offset nodes n off = Ok r ->
    exists l pl ql tl, left_biased r = Some l /\ Below T n l /\ At T l pl ql tl /\ t_children tl = []
      /\ pl <= off <= pl + tlen tl /\ (p < off -> pl < off).
  Proof.
    intros n p q t off r A H Z E. destruct (find_leaf_spec off n p q t A H) as (r' & E' & IN & N & B).
    rewrite E in E'. injection E' as <-.
    assert (W : p < off -> exists w pw qw tw, In w (leaves_list r) /\ At T w pw qw tw /\ pw < off <= pw + tlen tw).
    { intros LT. destruct (leaf_at_byte t n p q (off - 1) ltac:(lia)) as (w & pw & qw & tw & G & C & R).
      pose proof (AtG_in_At _ _ _ _ _ _ _ _ _ A G) as Aw. exists w, pw, qw, tw. split; [|split; [auto|lia]].
      apply IN. split; [eapply AtG_Below; eauto|]. exists pw, qw, tw. repeat split; auto; lia. }
    destruct r as [|x|x y].
    - exfalso. assert (tlen t = 0) by (apply N; reflexivity). lia.
    - destruct (proj1 (IN x) (or_introl eq_refl)) as [Bx (px & qx & tx & Ax & Cx & Lx & Rx)].
      exists x, px, qx, tx. repeat (split; [solve [auto]|]). intros LT.
      destruct (W LT) as (w & pw & qw & tw & [<-|[]] & Aw & Rw).
      destruct (At_unique _ _ _ _ _ _ _ _ Ax Aw) as (-> & -> & ->). lia.
    - destruct (proj1 (IN x) (or_introl eq_refl)) as [Bx (px & qx & tx & Ax & Cx & Lx & Rx)].
      destruct (B x y eq_refl) as (_ & (px' & qx' & tx' & Ax' & Ex) & _).
      destruct (At_unique _ _ _ _ _ _ _ _ Ax Ax') as (-> & -> & ->).
      exists x, px', qx', tx'. repeat (split; [solve [auto]|]). lia.
  Qed.

  Lemma covering_ok : forall n p q t r, At T n p q t -> proper r -> p <= rstart r -> rend r <= p + tlen t ->
    exists c, find_covering_node nodes n r = Ok c /\ Below T n c /\ covers T c r
      /\ (rstart r < rend r -> forall d, covers T d r -> Below T d c).
  Proof.
    intros n p q t r A P H1 H2. unfold proper in P. unfold find_covering_node. rewrite (range_ok _ _ _ _ A). cbn [bind].
    unfold is_subrange_of. cbn [rstart rend].
    replace ((p <=? rstart r) && (rend r <=? p + tlen t)) with true
      by (symmetry; apply andb_true_intro; split; apply Nat.leb_le; lia). cbn [guard].
    destruct (find_leaf_spec (rstart r) n p q t A ltac:(lia)) as (a & Ea & Ia & Na & Ba).
    destruct (find_leaf_spec (rend r) n p q t A ltac:(lia)) as (b & Eb & Ib & Nb & Bb).
    rewrite Ea. cbn [bind]. rewrite Eb. cbn [bind].
    assert (Z : tlen t = 0 \/ 0 < tlen t) by lia. destruct Z as [Z|Z].
    { assert (a = LNone) by now apply Na. subst a. cbn [right_biased].
      exists n. split; [reflexivity|]. split; [eapply Below_refl; eauto|].
      split; [exists p, q, t; auto|]. intros; lia. }
    destruct (right_biased_ok n p q t (rstart r) a A ltac:(lia) Z Ea) as (l & pl & ql & tl & -> & Bl & Al & Cl & Rl & Sl).
    destruct (left_biased_ok n p q t (rend r) b A ltac:(lia) Z Eb) as (m & pm & qm & tm & -> & Bm & Am & Cm & Rm & Sm).
    destruct (common_ancestor_ok l m) as (c & Ec & Ccl & Ccm & Min);
      [eapply Below_root; eauto|eapply Below_root; eauto|].
    exists c. split; [exact Ec|]. split; [apply Min; auto|]. split.
    - destruct (Below_At_l _ _ _ Ccl) as (pc & qc & tc & Ac). exists pc, qc, tc. split; [exact Ac|].
      pose proof (Below_range _ _ _ _ _ _ _ _ _ Ccl Ac Al). pose proof (Below_range _ _ _ _ _ _ _ _ _ Ccm Ac Am). lia.
    - intros NE d (pd & qd & td & Ad & D1 & D2). apply Min.
      + eapply (cover_above_leaf T (rstart r)); eauto; lia.
      + eapply (cover_above_leaf T (rend r - 1)); eauto; lia.
  Qed.

  Lemma covering_panics : forall n p q t r, At T n p q t -> ~ (p <= rstart r /\ rend r <= p + tlen t) ->
    find_covering_node nodes n r = Panic.
  Proof.
    intros n p q t r A H. unfold find_covering_node. rewrite (range_ok _ _ _ _ A). cbn [bind].
    unfold is_subrange_of. cbn [rstart rend].
    replace ((p <=? rstart r) && (rend r <=? p + tlen t)) with false; [reflexivity|].
    symmetry. apply not_true_is_false. intros E. btrue. lia.
  Qed.
End Stored.
