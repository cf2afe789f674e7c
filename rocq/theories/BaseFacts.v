(** Facts about the helpers of [Base]. *)
From Coq Require Import List Arith Bool Lia.
From Verif Require Import Base.
Import ListNotations.

Lemma bind_ok : forall A B (x : res A) (f : A -> res B) b,
  bind x f = Ok b -> exists a, x = Ok a /\ f a = Ok b.
Proof. intros A B x f b H. destruct x; try discriminate. exists a; auto. Qed.

Lemma guard_ok : forall A c (k : res A) a, guard c k = Ok a -> c = true /\ k = Ok a.
Proof. intros A c k a H. destruct c; try discriminate; auto. Qed.

Lemma usub_ok : forall a b c, usub a b = Ok c -> b <= a /\ c = a - b.
Proof.
  intros a b c H. unfold usub in H. destruct (b <=? a) eqn:E; try discriminate.
  injection H as <-. apply Nat.leb_le in E. auto.
Qed.

Lemma usub_le : forall a b, b <= a -> usub a b = Ok (a - b).
Proof. intros a b H. unfold usub. apply Nat.leb_le in H. now rewrite H. Qed.

Lemma index_ok : forall A (l : list A) i a, index l i = Ok a <-> nth_error l i = Some a.
Proof.
  intros A l i a. unfold index, unwrap. destruct (nth_error l i); split; intro H; try discriminate; congruence.
Qed.

Lemma skipn_skipn : forall A a b (l : list A), skipn a (skipn b l) = skipn (b + a) l.
Proof.
  intros A a b. induction b; intros l; simpl; auto. destruct l; auto. now rewrite skipn_nil.
Qed.

Lemma sub_length : forall A s e (l : list A), s <= e -> e <= length l -> length (sub s e l) = e - s.
Proof. intros A s e l H1 H2. unfold sub. rewrite firstn_length, skipn_length. lia. Qed.

Lemma sub_app : forall A (l : list A) a b c, a <= b -> b <= c -> sub a b l ++ sub b c l = sub a c l.
Proof.
  intros A l a b c H1 H2. unfold sub.
  replace (skipn b l) with (skipn (b - a) (skipn a l)).
  2:{ rewrite skipn_skipn. f_equal. lia. }
  set (m := skipn a l).
  rewrite <- (firstn_skipn (b - a) (firstn (c - a) m)). f_equal.
  - rewrite firstn_firstn. f_equal. lia.
  - rewrite skipn_firstn_comm. f_equal. lia.
Qed.

Lemma sub_full : forall A (l : list A), sub 0 (length l) l = l.
Proof. intros A l. unfold sub. rewrite Nat.sub_0_r. apply firstn_all. Qed.

Lemma sub_empty : forall A s (l : list A), sub s s l = [].
Proof. intros A s l. unfold sub. now rewrite Nat.sub_diag. Qed.

Lemma sub_to_end : forall A s (l : list A), sub s (length l) l = skipn s l.
Proof.
  intros A s l. unfold sub. apply firstn_all2. rewrite skipn_length. lia.
Qed.

Lemma sub_from_start : forall A e (l : list A), sub 0 e l = firstn e l.
Proof. intros A e l. unfold sub. now rewrite Nat.sub_0_r. Qed.

Lemma sub_sub : forall A s e s' e' (l : list A),
  e' <= e - s -> sub s' e' (sub s e l) = sub (s + s') (s + e') l.
Proof.
  intros A s e s' e' l H. unfold sub. rewrite skipn_firstn_comm, skipn_skipn, firstn_firstn.
  replace (s + e' - (s + s')) with (e' - s') by lia.
  replace (Nat.min (e' - s') (e - s - s')) with (e' - s') by lia. reflexivity.
Qed.

Lemma nth_error_sub : forall A s e i (l : list A),
  i < e - s -> nth_error (sub s e l) i = nth_error l (s + i).
Proof.
  intros A s e i l H. unfold sub.
  assert (G : forall s (l : list A), nth_error (skipn s l) i = nth_error l (s + i)).
  { intros s0. induction s0; intros l0; simpl; auto. destruct l0; simpl; auto. now destruct i. }
  rewrite <- G. generalize (skipn s l). clear G.
  remember (e - s) as n. clear Heqn. revert n H.
  induction i; intros n H m; destruct n; try lia; destruct m; simpl; auto. apply IHi. lia.
Qed.

Lemma set_nth_length : forall A i (a : A) l, length (set_nth i a l) = length l.
Proof. intros A i a l. revert i. induction l; destruct i; simpl; auto. Qed.

Lemma nth_error_set_nth_eq : forall A i (a : A) l, i < length l -> nth_error (set_nth i a l) i = Some a.
Proof. intros A i a l. revert i. induction l; destruct i; simpl; intros; try lia; auto. apply IHl. lia. Qed.

Lemma nth_error_set_nth_neq : forall A i j (a : A) l, i <> j -> nth_error (set_nth i a l) j = nth_error l j.
Proof.
  intros A i j a l. revert i j. induction l; destruct i, j; simpl; intros; try lia; auto.
Qed.

Lemma set_nth_app_r : forall A i (a : A) l m, set_nth (length l + i) a (l ++ m) = l ++ set_nth i a m.
Proof. intros A i a l m. induction l; simpl; auto. now rewrite IHl. Qed.

Lemma set_nth_app_l : forall A i (a : A) l m, i < length l -> set_nth i a (l ++ m) = set_nth i a l ++ m.
Proof. intros A i a l m. revert i. induction l; simpl; intros; [lia|]. destruct i; simpl; auto. rewrite IHl; auto. lia. Qed.

Lemma sum_app : forall l m, sum (l ++ m) = sum l + sum m.
Proof. intros l m. unfold sum. induction l; simpl; lia. Qed.

Lemma list_eqb_spec : forall A (eqb : A -> A -> bool),
  (forall a b, eqb a b = true <-> a = b) -> forall l m, list_eqb eqb l m = true <-> l = m.
Proof.
  intros A eqb H. induction l; destruct m; simpl; split; intro E; try discriminate; auto.
  - apply andb_prop in E as [E1 E2]. apply H in E1. apply IHl in E2. congruence.
  - injection E as -> ->. apply andb_true_intro. split; [now apply H|now apply IHl].
Qed.

Lemma bytes_eqb_spec : forall l m, bytes_eqb l m = true <-> l = m.
Proof. apply list_eqb_spec. apply Nat.eqb_eq. Qed.

Lemma is_prefix_spec : forall p s, is_prefix p s = true <-> exists r, s = p ++ r.
Proof.
  induction p; intros s; simpl.
  - split; intros; eauto.
  - destruct s; simpl; split; intro H; try discriminate.
    + destruct H as [r H]; discriminate.
    + apply andb_prop in H as [H1 H2]. apply Nat.eqb_eq in H1. apply IHp in H2 as [r ->]. subst. now exists r.
    + destruct H as [r H]. injection H as -> ->. rewrite Nat.eqb_refl. simpl. apply IHp. now exists r.
Qed.

(** [find_sub] returns the least position of an occurrence. *)
Lemma find_sub_some : forall n s i, find_sub n s = Some i ->
  i <= length s /\ is_prefix n (skipn i s) = true /\ forall j, j < i -> is_prefix n (skipn j s) = false.
Proof.
  intros n s. induction s as [|b s IH]; intros i H; cbn [find_sub] in H.
  - destruct (is_prefix n []) eqn:E; try discriminate. injection H as <-.
    split; [simpl; lia|]. split; [exact E|]. intros; lia.
  - destruct (is_prefix n (b :: s)) eqn:E.
    + injection H as <-. split; [simpl; lia|]. split; [exact E|]. intros; lia.
    + destruct (find_sub n s) as [k|] eqn:F; try discriminate. simpl in H. injection H as <-.
      destruct (IH k eq_refl) as (A & B & C). split; [simpl; lia|]. split; [exact B|].
      intros j Hj. destruct j; [exact E|]. simpl. apply C. lia.
Qed.

Lemma find_sub_none : forall n s, find_sub n s = None ->
  forall j, j <= length s -> is_prefix n (skipn j s) = false.
Proof.
  intros n s. induction s as [|b s IH]; intros H j Hj; cbn [find_sub] in H.
  - destruct (is_prefix n []) eqn:E; try discriminate. simpl in Hj. now replace j with 0 by lia.
  - destruct (is_prefix n (b :: s)) eqn:E; try discriminate.
    destruct (find_sub n s) as [k|] eqn:F; try discriminate.
    destruct j; [exact E|]. simpl. apply IH; auto. simpl in Hj. lia.
Qed.

Lemma find_sub_first : forall n s i, i <= length s -> is_prefix n (skipn i s) = true ->
  (forall j, j < i -> is_prefix n (skipn j s) = false) -> find_sub n s = Some i.
Proof.
  intros n s i Hi H1 H2. destruct (find_sub n s) as [k|] eqn:F.
  - apply find_sub_some in F as (A & B & C). f_equal.
    destruct (lt_eq_lt_dec k i) as [[L|E]|L]; auto.
    + rewrite H2 in B; [discriminate|lia].
    + rewrite C in H1; [discriminate|lia].
  - rewrite (find_sub_none _ _ F i Hi) in H1. discriminate.
Qed.

Lemma nth_error_ext : forall A (l m : list A), (forall i, nth_error l i = nth_error m i) -> l = m.
Proof.
  intros A. induction l as [|a l IH]; intros [|b m] H; auto.
  - specialize (H 0). discriminate.
  - specialize (H 0). discriminate.
  - pose proof (H 0) as H0. injection H0 as ->. f_equal. apply IH. intros i. exact (H (S i)).
Qed.

Lemma Forall2_impl : forall A B (P Q : A -> B -> Prop) l m, (forall a b, P a b -> Q a b) -> Forall2 P l m -> Forall2 Q l m.
Proof. intros A B P Q l m H F. induction F; constructor; auto. Qed.

Lemma nth_error_skipn : forall A (l : list A) n i, nth_error (skipn n l) i = nth_error l (n + i).
Proof. intros A l. induction l as [|x l IH]; intros [|n] i; cbn [skipn plus nth_error]; auto; destruct i; reflexivity. Qed.
