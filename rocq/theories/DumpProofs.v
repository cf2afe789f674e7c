From Coq Require Import List Arith Bool Lia.
From Verif Require Import Base BaseFacts TextModel TextSpec TextProofs TreeModel TreeSpec TreeProofs SearchModel FileEditSpec DbModel AnalysisModel AnalysisSpec ViewProofs FallEditProofs DumpModel DumpSpec.
Import ListNotations.

Lemma indent_spaces : forall l, indent l = repeat 32 (2 * l).
Proof. induction l as [|l IH]; [reflexivity|]. cbn [indent]. rewrite IH. replace (2 * S l) with (S (S (2 * l))) by lia. reflexivity. Qed.

Section Proofs.
  Variable info : nat -> option (bytes * bool).
  Variable debug : bytes -> bytes.
  Variables (name : nat -> bytes) (ws : nat -> bool).
  Variable f : file.
  Variable T : tree.
  Hypothesis WF : wf_file f T.
  Hypothesis CT : char_tree (f_text f) T.
  Hypothesis KNOWN : forall n, valid f n -> info (ty f n) = Some (name (ty f n), ws (ty f n)).

  Lemma str_index_node : forall n, valid f n -> str_index (f_text f) (rng f n) = Ok (str f n).
  Proof.
    intros n V. destruct (range_aligned f T WF CT n V) as (A & B). pose proof (rng_in f T WF n V) as R. unfold str_index.
    replace (rstart (rng f n) <=? rend (rng f n)) with true by (symmetry; apply Nat.leb_le; lia). cbn [guard].
    rewrite (proj2 (boundary_spec _ _) A), (proj2 (boundary_spec _ _) B). reflexivity.
  Qed.

  Lemma dump_go_ok : forall shown t fuel level n p q, At T n p q t -> tsize t <= fuel ->
    exists b, dump_go info debug fuel (f_nodes f) (f_text f) shown level n = Ok b /\ dumped name ws debug f shown level n b.
  Proof.
    intros shown t. induction t as [y k|y ts IH] using tree_ind'; intros fuel level n p q A LE.
    all: assert (V : valid f n) by exact (at_valid f T WF _ _ _ _ A).
    all: destruct (view_at f T WF _ _ _ _ A) as (_ & TY & _ & _ & K); cbn [t_children t_ty child_ids] in K, TY.
    all: destruct fuel as [|fuel]; [pose proof (tsize_pos (Node y [])); cbn in LE; lia|].
    all: cbn [dump_go]; rewrite (ty_v f n V); cbn [bind]; rewrite (KNOWN n V); cbn [unwrap bind fst snd].
    all: destruct (ws (ty f n) && negb shown) eqn:Q.
    1, 3: apply andb_true_iff in Q; destruct Q as (Q1 & Q2); apply negb_true_iff in Q2; exists []; split; [reflexivity|apply dm_space; assumption].
    all: assert (SH : shown = true \/ ws (ty f n) = false) by (destruct shown, (ws (ty f n)); auto; discriminate Q).
    all: rewrite (kids_v f n V); cbn [bind].
    - rewrite K. rewrite (rng_v f n V). cbn [bind]. rewrite (str_index_node n V). cbn [bind]. eexists. split; [reflexivity|]. rewrite indent_spaces. apply dm_leaf; [exact SH|exact K].
    - assert (G : forall a b, ts = a ++ b -> exists ls, flat_map_res (dump_go info debug fuel (f_nodes f) (f_text f) shown (S level)) (child_ids (S n + tsizes a) b) = Ok (concat ls)
                     /\ Forall2 (dumped name ws debug f shown (S level)) (child_ids (S n + tsizes a) b) ls).
      { intros a b. revert a. induction b as [|x b IHb]; intros a E; [exists []; split; [reflexivity|constructor]|].
        assert (IX : In x ts) by (rewrite E; apply in_or_app; right; left; reflexivity). rewrite Forall_forall in IH.
        assert (AX : At T (S n + tsizes a) (p + tlens a) (Some n) x) by (rewrite E in A; exact (At_child _ _ _ _ _ _ _ _ A)).
        assert (LX : tsize x <= fuel). { cbn [tsize] in LE. fold (tsizes ts) in LE. rewrite E, tsizes_app, tsizes_cons in LE. lia. }
        destruct (IH x IX fuel (S level) _ _ _ AX LX) as (bx & EX & DX). destruct (IHb (a ++ [x])) as (ls & EL & DL); [rewrite E, <- app_assoc; reflexivity|].
        assert (EQ : S n + tsizes (a ++ [x]) = S n + tsizes a + tsize x) by (rewrite tsizes_app, tsizes_cons; unfold tsizes at 2; cbn; lia). rewrite EQ in EL, DL.
        exists (bx :: ls). cbn [child_ids flat_map_res]. rewrite EX. cbn [bind]. rewrite EL. cbn [bind concat]. split; [reflexivity|]. constructor; assumption. }
      destruct (G [] ts eq_refl) as (ls & EL & DL). replace (S n + tsizes []) with (S n) in * by (unfold tsizes; cbn; lia). rewrite <- K in EL, DL. destruct (kids f n) as [|c cs] eqn:KE.
      + rewrite (rng_v f n V). cbn [bind]. rewrite (str_index_node n V). cbn [bind]. eexists. split; [reflexivity|]. rewrite indent_spaces. apply dm_leaf; [exact SH|exact KE].
      + rewrite EL. cbn [bind]. eexists. split; [reflexivity|]. rewrite indent_spaces. apply dm_node; [exact SH|rewrite KE; discriminate|rewrite KE; exact DL].
  Qed.

  Lemma dump_ok : forall shown, exists b, dump info debug f shown = Ok b /\ dumped name ws debug f shown 0 0 b.
  Proof.
    intros shown. unfold dump.
    assert (E : as_str (as_text (f_text f)) = Ok (f_text f)).
    { unfold as_str, str_index, as_text. cbn [trange owned rstart rend]. rewrite (proj2 (Nat.leb_le 0 _) ltac:(lia)). cbn [guard].
      rewrite (proj2 (boundary_spec _ _) (or_introl eq_refl)), (proj2 (boundary_spec _ _) (or_intror (or_introl eq_refl))). cbn [guard andb]. f_equal. apply sub_full. }
    rewrite E. cbn [bind]. apply (dump_go_ok shown T _ 0 0 0 None (At_root T)). rewrite (proj1 (proj1 WF)). lia.
  Qed.
End Proofs.

(** ** The dump with whitespace determines the tree and the text. *)
Inductive dt : Type := DL (ty : nat) (s : bytes) | DN (ty : nat) (ds : list dt).

Fixpoint dt_ind' (P : dt -> Prop) (HL : forall y s, P (DL y s)) (HN : forall y ds, Forall P ds -> P (DN y ds)) (d : dt) : P d :=
  match d with
  | DL y s => HL y s
  | DN y ds => HN y ds ((fix go ds := match ds return Forall P ds with [] => Forall_nil _ | x :: r => Forall_cons _ (dt_ind' P HL HN x) (go r) end) ds)
  end.

(** The subtree with its texts; [s] is the text from the start of the subtree on. *)
Fixpoint deco (t : tree) (s : bytes) : dt :=
  match t with
  | Leaf y n => DL y (firstn n s)
  | Node y [] => DL y []
  | Node y ts => DN y ((fix go ts s := match ts with [] => [] | x :: r => deco x s :: go r (skipn (tlen x) s) end) ts s)
  end.
Fixpoint decos (ts : list tree) (s : bytes) : list dt := match ts with [] => [] | x :: r => deco x s :: decos r (skipn (tlen x) s) end.
Lemma deco_node : forall y x ts s, deco (Node y (x :: ts)) s = DN y (decos (x :: ts) s).
Proof. reflexivity. Qed.

Fixpoint dlines (level : nat) (d : dt) : list (nat * nat * option bytes) :=
  match d with
  | DL y s => [(level, y, Some s)]
  | DN y ds => (level, y, None) :: flat_map (dlines (S level)) ds
  end.

Lemma dlines_head : forall level d, exists y o r, dlines level d = (level, y, o) :: r.
Proof. intros level [y s|y ds]; cbn [dlines]; eauto. Qed.

(** What follows is not deeper. *)
Definition shallow (level : nat) (l : list (nat * nat * option bytes)) : Prop := match l with [] => True | (k, _, _) :: _ => k <= level end.

Lemma dlines_inj : forall d d' level l l', shallow level l -> shallow level l' -> dlines level d ++ l = dlines level d' ++ l' -> d = d' /\ l = l'.
Proof.
  intros d. induction d as [y s|y ds IH] using dt_ind'; intros d' level l l' S1 S2 E.
  - destruct d' as [y' s'|y' ds']; cbn [dlines app] in E; [|discriminate E]. injection E as -> -> ->. auto.
  - destruct d' as [y' s'|y' ds']; cbn [dlines app] in E; [discriminate E|]. injection E as -> E.
    assert (G : ds = ds' /\ l = l').
    { revert ds' E. induction ds as [|x ds IHd]; intros ds' E.
      - destruct ds' as [|x' ds']; [auto|]. exfalso. cbn [flat_map app] in E. destruct (dlines_head (S level) x') as (a & o & r & H). rewrite H in E. subst l. cbn in S1. lia.
      - inversion IH as [|? ? IX IR]; subst. destruct ds' as [|x' ds'].
        + exfalso. cbn [flat_map app] in E. destruct (dlines_head (S level) x) as (a & o & r & H). rewrite H in E. cbn [app] in E. subst l'. cbn in S2. lia.
        + cbn [flat_map] in E. rewrite <- !app_assoc in E.
          assert (SH : forall ds l, shallow level l -> shallow (S level) (flat_map (dlines (S level)) ds ++ l)).
          { intros [|z zs] m M; cbn [flat_map app]; [destruct m as [|((k & ?) & ?) ?]; cbn in *; auto; lia|]. destruct (dlines_head (S level) z) as (a & o & r & H). rewrite H. cbn. lia. }
          destruct (IX x' (S level) _ _ (SH ds l S1) (SH ds' l' S2) E) as (-> & E'). destruct (IHd IR ds' E') as (-> & ->). auto. }
    destruct G as (-> & ->). auto.
Qed.

(** ** Lines *)
Section Lines.
  Variables (name : nat -> bytes) (ws : nat -> bool) (debug : bytes -> bytes) (known : nat -> Prop).
  Hypothesis LG : legible name debug known.

  Definition content (x : nat * nat * option bytes) : bytes :=
    let '(level, y, o) := x in repeat 32 (2 * level) ++ name y ++ match o with Some s => 32 :: debug s | None => [] end.

  Lemma spaces_inj : forall a b u v, match u with 32 :: _ => False | _ => True end -> match v with 32 :: _ => False | _ => True end -> repeat 32 a ++ u = repeat 32 b ++ v -> a = b /\ u = v.
  Proof.
    induction a as [|a IH]; intros [|b] u v U V E; cbn [repeat app] in E.
    - auto.
    - subst u. destruct U.
    - subst v. destruct V.
    - injection E as E. destruct (IH b u v U V E). auto.
  Qed.

  Lemma word_inj : forall a b u v, (forall x, In x a -> x <> 32) -> (forall x, In x b -> x <> 32) ->
    match u with [] => True | x :: _ => x = 32 end -> match v with [] => True | x :: _ => x = 32 end -> a ++ u = b ++ v -> a = b /\ u = v.
  Proof.
    induction a as [|x a IH]; intros [|z b] u v A B U V E; cbn [app] in E.
    - auto.
    - subst u. destruct (B z (or_introl eq_refl) U).
    - subst v. destruct (A x (or_introl eq_refl) V).
    - injection E as -> E. destruct (IH b u v) as (-> & ->); auto; intros w J; [apply A|apply B]; right; exact J.
  Qed.

  Definition known_line (x : nat * nat * option bytes) : Prop := known (snd (fst x)).

  Lemma content_inj : forall x y, known_line x -> known_line y -> content x = content y -> x = y.
  Proof.
    intros ((l & y) & o) ((l' & y') & o') K K' E. unfold known_line in *. cbn [fst snd] in *. unfold content in E.
    assert (H : forall y (w : bytes), known y -> match name y ++ w with 32 :: _ => False | _ => True end).
    { intros z w KZ. pose proof (lg_some _ _ _ LG z KZ) as N. pose proof (fun b => lg_words _ _ _ LG z b KZ) as W. destruct (name z) as [|b r]; [congruence|]. cbn [app].
      destruct (Nat.eq_dec b 32) as [-> |NE]; [destruct (proj1 (W 32 (or_introl eq_refl)) eq_refl)|]. do 33 (destruct b as [|b]; [try exact I; congruence|]). exact I. }
    destruct (spaces_inj _ _ _ _ (H y _ K) (H y' _ K') E) as (L & E2). assert (l = l') by lia. subst l'.
    assert (O1 : match match o with Some s => 32 :: debug s | None => [] end with [] => True | x :: _ => x = 32 end) by (destruct o; reflexivity || exact I).
    assert (O2 : match match o' with Some s => 32 :: debug s | None => [] end with [] => True | x :: _ => x = 32 end) by (destruct o'; reflexivity || exact I).
    destruct (word_inj (name y) (name y') _ _ (fun b J => proj1 (lg_words _ _ _ LG y b K J)) (fun b J => proj1 (lg_words _ _ _ LG y' b K' J)) O1 O2 E2) as (N & Q).
    apply (lg_distinct _ _ _ LG y y' K K') in N. subst y'. destruct o as [s|], o' as [s'|]; try discriminate Q; [|reflexivity]. injection Q as Q. apply (lg_quotes _ _ _ LG) in Q. subst s'. reflexivity.
  Qed.

  Lemma content_line : forall x, known_line x -> ~ In 10 (content x).
  Proof.
    intros ((l & y) & o) K J. unfold known_line, content in *. cbn [fst snd] in K. apply in_app_or in J. destruct J as [J|J]; [apply repeat_spec in J; discriminate J|].
    apply in_app_or in J. destruct J as [J|J]; [exact (proj2 (lg_words _ _ _ LG y 10 K J) eq_refl)|]. destruct o as [s|]; [|destruct J]. destruct J as [J|J]; [discriminate J|]. exact (lg_lines _ _ _ LG s J).
  Qed.

  Lemma line_inj : forall a b u v, ~ In 10 a -> ~ In 10 b -> a ++ 10 :: u = b ++ 10 :: v -> a = b /\ u = v.
  Proof.
    induction a as [|x a IH]; intros [|z b] u v A B E; cbn [app] in E.
    - injection E as ->. auto.
    - injection E as <- _. destruct B. left. reflexivity.
    - injection E as -> _. destruct A. left. reflexivity.
    - injection E as -> E. destruct (IH b u v) as (-> & ->); auto; intros J; [apply A|apply B]; right; exact J.
  Qed.

  Definition printed_lines (l : list (nat * nat * option bytes)) : bytes := flat_map (fun x => content x ++ [10]) l.

  Lemma printed_inj : forall l l', Forall known_line l -> Forall known_line l' -> printed_lines l = printed_lines l' -> l = l'.
  Proof.
    induction l as [|x l IH]; intros [|y l'] K K' E; unfold printed_lines in E; cbn [flat_map] in E; try rewrite <- !app_assoc in E; cbn [app] in E.
    - reflexivity.
    - destruct (content y); discriminate E.
    - destruct (content x); discriminate E.
    - inversion K as [|? ? KX KL]; inversion K' as [|? ? KY KL']; subst. destruct (line_inj _ _ _ _ (content_line x KX) (content_line y KY) E) as (C & R).
      rewrite (content_inj x y KX KY C). f_equal. apply IH; assumption.
  Qed.
End Lines.

(** ** The tree behind the lines *)
Lemma firstn_skipn_comm : forall A (l : list A) n m, n <= m -> firstn n (firstn m l) = firstn n l.
Proof. intros A l n m H. rewrite firstn_firstn. f_equal. lia. Qed.

Fixpoint dtext (d : dt) : bytes := match d with DL _ s => s | DN _ ds => flat_map dtext ds end.

Lemma deco_text : forall t s, tlen t <= length s -> dtext (deco t s) = firstn (tlen t) s.
Proof.
  intros t. induction t as [y n|y ts IH] using tree_ind'; intros s L; [reflexivity|]. destruct ts as [|x ts]; [reflexivity|]. rewrite deco_node. cbn [dtext tlen] in *. fold (tlens (x :: ts)) in *.
  revert s L. induction (x :: ts) as [|z zs IHz]; intros s L; [reflexivity|]. inversion IH as [|? ? IX IR]; subst. cbn [decos flat_map]. rewrite tlens_cons in *.
  rewrite IX by lia. rewrite IHz; [|exact IR|rewrite skipn_length; lia]. rewrite <- (firstn_skipn (tlen z) (firstn (tlen z + tlens zs) s)). rewrite firstn_skipn_comm by lia. f_equal.
  rewrite skipn_firstn_comm. f_equal. lia.
Qed.

Fixpoint same_shape (a b : tree) : Prop :=
  match a, b with
  | Leaf y n, Leaf y' n' => y = y' /\ n = n'
  | Leaf y n, Node y' [] => y = y' /\ n = 0
  | Node y [], Leaf y' n => y = y' /\ n = 0
  | Node y ts, Node y' ts' => y = y' /\ (fix go ts ts' := match ts, ts' with [], [] => True | a :: r, b :: r' => same_shape a b /\ go r r' | _, _ => False end) ts ts'
  | _, _ => False
  end.
Fixpoint same_shapes (ts ts' : list tree) : Prop := match ts, ts' with [], [] => True | a :: r, b :: r' => same_shape a b /\ same_shapes r r' | _, _ => False end.
Lemma same_shape_node : forall y ts y' ts', same_shape (Node y ts) (Node y' ts') <-> y = y' /\ same_shapes ts ts'.
Proof. intros y ts y' ts'. destruct ts; reflexivity. Qed.

Lemma deco_shape : forall t t' s s', tlen t <= length s -> tlen t' <= length s' -> deco t s = deco t' s' -> same_shape t t'.
Proof.
  intros t. induction t as [y n|y ts IH] using tree_ind'; intros t' s s' L L' E.
  - destruct t' as [y' n'|y' [|x' ts']]; cbn [tlen] in *.
    + cbn [deco] in E. injection E as -> E. split; [reflexivity|]. assert (Q : length (firstn n s) = length (firstn n' s')) by (f_equal; exact E). rewrite !firstn_length in Q. lia.
    + cbn [deco] in E. injection E as -> E. split; [reflexivity|]. assert (Q : length (firstn n s) = 0) by (rewrite E; reflexivity). rewrite firstn_length in Q. lia.
    + rewrite deco_node in E. discriminate E.
  - destruct ts as [|x ts].
    + destruct t' as [y' n'|y' [|x' ts']]; cbn [deco] in E.
      * injection E as -> E. split; [reflexivity|]. cbn [tlen] in L'. assert (Q : length (firstn n' s') = 0) by (rewrite <- E; reflexivity). rewrite firstn_length in Q. lia.
      * injection E as ->. apply same_shape_node. cbn. auto.
      * discriminate E.
    + rewrite deco_node in E. destruct t' as [y' n'|y' [|x' ts']]; try discriminate E. rewrite deco_node in E. assert (EY : y = y') by (injection E; auto). subst y'. apply (f_equal (fun d => match d with DN _ ds => ds | DL _ _ => [] end)) in E. cbv beta iota in E. apply same_shape_node. split; [reflexivity|].
      cbn [tlen] in L, L'. fold (tlens (x :: ts)) in L. fold (tlens (x' :: ts')) in L'. revert s s' L L' E. generalize (x' :: ts'). induction (x :: ts) as [|z zs IHz]; intros [|z' zs'] s s' L L' E; try discriminate E; [exact I|].
      inversion IH as [|? ? IX IR]; subst. cbn [decos] in E. rewrite tlens_cons in L, L'. injection E as E1 E2. cbn [same_shapes]. split; [apply (IX z' s s'); [lia|lia|exact E1]|].
      apply (IHz IR zs' (skipn (tlen z) s) (skipn (tlen z') s')); [rewrite skipn_length; lia|rewrite skipn_length; lia|exact E2].
Qed.

Lemma shape_same : forall t t', same_shape t t' -> t_ty t = t_ty t' /\ tlen t = tlen t' /\ tsize t = tsize t' /\
  forall par id pos, layout t par id pos = layout t' par id pos.
Proof.
  intros t. induction t as [y n|y ts IH] using tree_ind'; intros t' S.
  - destruct t' as [y' n'|y' [|x' ts']]; [|..]; cbn in S; try contradiction; destruct S as (-> & ->); auto.
  - destruct t' as [y' n'|y' ts'].
    + destruct ts as [|x ts]; cbn in S; [|contradiction]. destruct S as (-> & ->). auto.
    + apply same_shape_node in S. destruct S as (-> & S).
      assert (G : tlens ts = tlens ts' /\ tsizes ts = tsizes ts' /\ (forall i, child_ids i ts = child_ids i ts') /\ forall par id pos, layouts ts par id pos = layouts ts' par id pos).
      { revert ts' S. induction ts as [|z zs IHz]; intros [|z' zs'] S; cbn in S; try contradiction; [auto|]. inversion IH as [|? ? IX IR]; subst. destruct S as (S1 & S2).
        destruct (IX z' S1) as (_ & A & B & C). destruct (IHz IR zs' S2) as (A' & B' & I' & C'). rewrite !tlens_cons, !tsizes_cons. split; [lia|]. split; [lia|]. split.
        - intros i. cbn [child_ids]. rewrite B, I'. reflexivity.
        - intros par id pos. cbn [layouts]. rewrite C, A, B, C'. reflexivity. }
      destruct G as (A & B & I' & C). split; [reflexivity|]. split; [exact A|]. split; [unfold tsizes in B; cbn [tsize]; rewrite B; reflexivity|].
      intros par id pos. rewrite !layout_node. rewrite C. f_equal. unfold data_of. cbn [t_ty tlen t_children]. unfold tlens in A. rewrite A, I'. reflexivity.
Qed.

Section Both.
  Variables (name : nat -> bytes) (ws : nat -> bool) (debug : bytes -> bytes) (known : nat -> Prop).

  Lemma dumped_lines : forall f T, wf_file f T -> forall t level n p q b, At T n p q t -> dumped name ws debug f true level n b ->
    b = printed_lines name debug (dlines level (deco t (skipn p (f_text f)))).
  Proof.
    intros f T WF t. induction t as [y k|y ts IH] using tree_ind'; intros level n p q b A D.
    - destruct (view_at f T WF _ _ _ _ A) as (_ & TY & _ & RR & K); cbn [t_children t_ty child_ids tlen] in K, TY, RR.
      inversion D as [? ? X|? ? _ K2|? ? ls _ NK _]; subst; [discriminate X| |congruence].
      unfold printed_lines. cbn [deco dlines flat_map content]. unfold str, sub. rewrite RR. cbn [rstart rend]. replace (p + k - p) with k by lia. rewrite <- !app_assoc, ?app_nil_r. cbn [app]. reflexivity.
    - destruct (view_at f T WF _ _ _ _ A) as (_ & TY & _ & RR & K); cbn [t_children t_ty child_ids tlen] in K, TY, RR. destruct ts as [|x ts].
      + cbn [child_ids] in K. inversion D as [? ? X|? ? _ K2|? ? ls _ NK _]; subst; [discriminate X| |congruence].
        unfold printed_lines. cbn [deco dlines flat_map content]. unfold str, sub. rewrite RR. cbn [rstart rend]. replace (p + sum (map tlen []) - p) with 0 by (cbn; lia). cbn [firstn]. rewrite <- !app_assoc, ?app_nil_r. cbn [app]. reflexivity.
      + inversion D as [? ? X|? ? _ K2|? ? ls _ NK F]; subst; [discriminate X|rewrite K in K2; discriminate K2|]. rewrite deco_node. unfold printed_lines. cbn [dlines flat_map content]. rewrite <- !app_assoc. cbn [app]. do 3 f_equal.
        rewrite K in F. clear K NK D. assert (G : forall a c ls, x :: ts = a ++ c -> Forall2 (dumped name ws debug f true (S level)) (child_ids (S n + tsizes a) c) ls ->
          concat ls = flat_map (fun z => content name debug z ++ [10]) (flat_map (dlines (S level)) (decos c (skipn (p + tlens a) (f_text f))))).
        { intros a c. revert a. induction c as [|z c IHc]; intros a ls' E F'; cbn [child_ids] in F'; inversion F' as [|? b' ? ls2 D' F2]; subst; [reflexivity|].
          assert (IZ : In z (x :: ts)) by (rewrite E; apply in_or_app; right; left; reflexivity). rewrite Forall_forall in IH.
          assert (AZ : At T (S n + tsizes a) (p + tlens a) (Some n) z) by (rewrite E in A; exact (At_child _ _ _ _ _ _ _ _ A)).
          cbn [concat decos flat_map]. rewrite flat_map_app. rewrite (IH z IZ _ _ _ _ _ AZ D'). f_equal. rewrite (IHc (a ++ [z]) ls2).
          - rewrite tlens_app, tlens_cons. replace (tlens []) with 0 by reflexivity. rewrite Nat.add_0_r, skipn_skipn. do 4 f_equal. lia.
          - rewrite E, <- app_assoc. reflexivity.
          - rewrite tsizes_app, tsizes_cons. replace (tsizes []) with 0 by reflexivity. replace (S n + (tsizes a + (tsize z + 0))) with (S n + tsizes a + tsize z) by lia. exact F2. }
        specialize (G [] (x :: ts) ls eq_refl). replace (S n + tsizes []) with (S n) in G by (unfold tsizes; cbn; lia). replace (p + tlens []) with p in G by (unfold tlens; cbn; lia). exact (G F).
  Qed.

  Hypothesis LG : legible name debug known.

  Lemma known_lines : forall f T, wf_file f T -> (forall n, valid f n -> known (ty f n)) -> forall t level n p q s, At T n p q t -> Forall (known_line known) (dlines level (deco t s)).
  Proof.
    intros f T WF KN t. induction t as [y k|y ts IH] using tree_ind'; intros level n p q s A.
    all: destruct (view_at f T WF _ _ _ _ A) as (V & TY & _); cbn [t_ty] in TY; pose proof (KN n V) as KY; rewrite TY in KY.
    - cbn [deco dlines]. constructor; [exact KY|constructor].
    - destruct ts as [|x ts]; [cbn [deco dlines]; constructor; [exact KY|constructor]|]. rewrite deco_node. cbn [dlines]. constructor; [exact KY|].
      assert (G : forall a c s, x :: ts = a ++ c -> Forall (known_line known) (flat_map (dlines (S level)) (decos c s))).
      { intros a c. revert a. induction c as [|z c IHc]; intros a s' E; [constructor|]. cbn [decos flat_map]. apply Forall_app. split.
        - assert (IZ : In z (x :: ts)) by (rewrite E; apply in_or_app; right; left; reflexivity). rewrite Forall_forall in IH. eapply (IH z IZ). rewrite E in A. exact (At_child _ _ _ _ _ _ _ _ A).
        - apply (IHc (a ++ [z])). rewrite E, <- app_assoc. reflexivity. }
      exact (G [] (x :: ts) s eq_refl).
  Qed.

  Lemma dump_determines : forall f T f' T' b, wf_file f T -> wf_file f' T' -> (forall n, valid f n -> known (ty f n)) -> (forall n, valid f' n -> known (ty f' n)) ->
    dumped name ws debug f true 0 0 b -> dumped name ws debug f' true 0 0 b -> f = f'.
  Proof.
    intros f T f' T' b WF WF' KN KN' D D'. pose proof (dumped_lines f T WF T 0 0 0 None b (At_root T) D) as E. pose proof (dumped_lines f' T' WF' T' 0 0 0 None b (At_root T') D') as E'. cbn [skipn] in E, E'.
    rewrite E in E'. apply (printed_inj name debug known LG) in E'; [|exact (known_lines f T WF KN T 0 0 0 None _ (At_root T))|exact (known_lines f' T' WF' KN' T' 0 0 0 None _ (At_root T'))].
    destruct (dlines_inj (deco T (f_text f)) (deco T' (f_text f')) 0 [] [] I I ltac:(rewrite !app_nil_r; exact E')) as (DE & _).
    destruct WF as (ST & TL). destruct WF' as (ST' & TL'). pose proof (deco_shape T T' (f_text f) (f_text f') ltac:(lia) ltac:(lia) DE) as SH. destruct (shape_same T T' SH) as (_ & _ & _ & LY).
    pose proof (deco_text T (f_text f) ltac:(lia)) as X. pose proof (deco_text T' (f_text f') ltac:(lia)) as X'. rewrite TL, firstn_all in X. rewrite TL', firstn_all in X'. rewrite DE in X. rewrite X in X'.
    apply stores_layout in ST. apply stores_layout in ST'. destruct f as [tx nd], f' as [tx' nd']. cbn [f_text f_nodes] in *. subst nd nd' tx'. rewrite (LY None 0 0). reflexivity.
  Qed.
End Both.
