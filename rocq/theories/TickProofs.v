(** The tick counter changes nothing the parser does, more fuel does not change it, and a cache that holds only makes it
    smaller. *)
From Coq Require Import List Arith Bool Lia.
From Verif Require Import Base BaseFacts TextModel EditModel LexModel TreeModel GrammarModel ParserModel ParserProofs ConvertModel ReparseModel ReparseSpec
  MonoProofs CacheProofs TickModel.
Import ListNotations.

(** ** More fuel *)
Lemma later_tbind : forall A B (x y : ticking A) (k k' : A -> ticking B), later x y -> (forall a, later (k a) (k' a)) -> later (tbind x k) (tbind y k').
Proof. intros A B x y k k' X H. unfold tbind. apply later_bind; [exact X|]. intros [a n]. apply later_bind; [apply H|]. intros [b m]. apply later_refl. Qed.
Lemma later_tick : forall A (x y : ticking A), later x y -> later (tick x) (tick y).
Proof. intros A x y X. unfold tick. apply later_bind; [exact X|]. intros [a n]. apply later_refl. Qed.

Section Mono.
  Variable E : env.
  Definition t_mono (rec rec' : nat -> pos -> st -> tresult) : Prop := forall e p s, later (rec e p s) (rec' e p s).
  Ltac thru := match goal with |- later (tbind _ _) _ => apply later_tbind | _ => apply later_bind end.
  Ltac same := apply later_refl.

  Section Rec.
    Variables rec rec' : nat -> pos -> st -> tresult.
    Hypothesis M : t_mono rec rec'.

    Ltac step :=
      match goal with
      | |- later (tbind _ _) (tbind _ _) => apply later_tbind; [|intro]
      | |- later (bind _ _) (bind _ _) => apply later_bind; [|intro]
      | |- later ?x ?x => same
      | |- later (rec _ _ _) (rec' _ _ _) => apply M
      | a : prod _ _ |- _ => destruct a
      | |- later (match ?x with _ => _ end) (match ?x with _ => _ end) => destruct x
      end.
    Ltac go := repeat step.

    Lemma t_pred_mono : forall e p s, later (t_pred rec e p s) (t_pred rec' e p s).
    Proof. intros. unfold t_pred. go. Qed.

    Lemma t_or_mono : forall l p s, later (t_or rec l p s) (t_or rec' l p s).
    Proof. induction l as [|a l IH]; intros; cbn [t_or]; go; apply IH. Qed.

    Lemma t_and_parts_mono : forall l n p s, later (t_parts rec l n p s) (t_parts rec' l n p s).
    Proof. induction l as [|a l IH]; intros; cbn [t_parts]; go; apply IH. Qed.

    Lemma t_rep_mono : forall n n' b p s, n <= n' -> later (t_rep rec n b p s) (t_rep rec' n' b p s).
    Proof.
      induction n as [|n IH]; intros n' b p s L; [left; reflexivity|]. destruct n' as [|n']; [lia|]. cbn [t_rep]. go. apply IH. lia.
    Qed.

    Lemma t_skip_mono : forall n n' a b k p s, n <= n' -> later (t_skip E rec n a b k p s) (t_skip E rec' n' a b k p s).
    Proof.
      induction n as [|n IH]; intros n' a b k p s L; [left; reflexivity|]. destruct n' as [|n']; [lia|]. cbn [t_skip].
      thru; [apply t_pred_mono|]. intros [r s1]. thru; [destruct r; go|]. intros [r2 s2]. destruct r2 as [q|]; [same|].
      thru; [same|]. intros s3. thru; [same|]. intros [b0 s4]. destruct b0 as [[t q]|]; [|same].
      apply IH. lia.
    Qed.

    Section Go.
      Variables go go' : nat -> pos -> st -> tresult.
      Hypothesis G : forall m p s, later (go m p s) (go' m p s).

      Lemma t_infixes_mono : forall l lhs p s, later (t_infixes E rec go l lhs p s) (t_infixes E rec' go' l lhs p s).
      Proof.
        induction l as [|x l IH]; intros; cbn [t_infixes]; [same|].
        thru; [same|]. intros s1. thru; [apply M|]. intros [r s2]. destruct r as [p1|].
        - thru; [same|]. intros s3. thru; [|intros [q s4]; same].
          destruct (ix_rhs x); [|same]. thru; [apply G|]. intros [r2 s4]. same.
        - thru; [same|]. intros s3. apply IH.
      Qed.

      Lemma t_loop_mono : forall n n' l lhs p s, n <= n' -> later (t_loop E rec go n l lhs p s) (t_loop E rec' go' n' l lhs p s).
      Proof.
        induction n as [|n IH]; intros n' l lhs p s L; [left; reflexivity|]. destruct n' as [|n']; [lia|]. cbn [t_loop].
        thru; [apply t_infixes_mono|]. intros [r s1]. destruct r as [[q m]|]; [|same]. apply IH. lia.
      Qed.

      Lemma t_prefixes_mono : forall l p s, later (t_prefixes E rec go l p s) (t_prefixes E rec' go' l p s).
      Proof.
        induction l as [|x l IH]; intros; cbn [t_prefixes]; [same|].
        thru; [same|]. intros s1. thru; [apply M|]. intros [r s2].
        thru; [destruct r; [apply G|same]|]. intros [r2 s3]. destruct r2 as [q|]; [same|].
        thru; [same|]. intros s4. apply IH.
      Qed.

      Lemma t_prefix_mono : forall t p s, later (t_prefix E rec go t p s) (t_prefix E rec' go' t p s).
      Proof.
        intros. unfold t_prefix. thru; [apply t_or_mono|]. intros [r s1]. destruct r as [q|]; [same|apply t_prefixes_mono].
      Qed.
    End Go.

    Lemma t_pratt_mono : forall n n' f f' t m p s, n <= n' -> f <= f' -> later (t_pratt E rec f n t m p s) (t_pratt E rec' f' n' t m p s).
    Proof.
      induction n as [|n IH]; intros n' f f' t m p s L LF; [left; reflexivity|]. destruct n' as [|n']; [lia|]. cbn [t_pratt].
      thru; [apply t_prefix_mono; intros; apply IH; lia|]. intros [r s1]. destruct r as [q|]; [|same].
      apply t_loop_mono; auto. intros. apply IH; lia.
    Qed.

    Lemma t_step_mono : forall f f' e p s, f <= f' -> later (t_step E rec f e p s) (t_step E rec' f' e p s).
    Proof.
      intros f f' e p s L. unfold t_step. apply later_tick. thru; [|intros [r s1]; same]. unfold t_inner.
      thru; [same|]. intros x. destruct x.
      - unfold t_pub. go.
      - unfold t_pub_replace. go.
      - apply t_or_mono.
      - unfold t_and. thru; [apply t_and_parts_mono|]. intros [[n q] s1]. same.
      - same.
      - same.
      - apply t_rep_mono; auto.
      - apply t_skip_mono; auto.
      - unfold t_opt. go.
      - unfold t_not. thru; [apply t_pred_mono|]. intros [r s1]. same.
      - same.
      - same.
      - unfold t_layer. thru; [apply t_pred_mono|]. intros [r s1]. destruct r; go.
      - apply t_pratt_mono; auto.
      - unfold t_enter. go.
      - unfold t_enter. go.
      - same.
      - unfold t_call. go.
      - unfold t_var. go.
      - same.
      - unfold t_inject. go.
      - unfold t_cached. go.
    Qed.
  End Rec.


  Lemma t_parse_mono : forall f f', f <= f' -> t_mono (t_expr E f) (t_expr E f').
  Proof.
    induction f as [|f IH]; intros f' L e p s; [left; reflexivity|]. destruct f' as [|f']; [lia|]. cbn [t_expr].
    apply t_step_mono; [|lia]. apply IH. lia.
  Qed.

  Lemma t_events_mono : forall f f', f <= f' -> later (t_events E f) (t_events E f').
  Proof.
    intros f f' L. unfold t_events. thru; [apply t_parse_mono; auto|]. intros [r s1]. same.
  Qed.
End Mono.

(** ** Forgetting the ticks *)
Definition forget {A} (x : ticking A) : res A := '(a, _) <- x ;; Ok a.
Definition seen {A} (x : ticking A) (y : res A) : Prop := forget x = y.

Lemma seen_tbind : forall A B (x : ticking A) y (k : A -> ticking B) k', seen x y -> (forall a, seen (k a) (k' a)) -> seen (tbind x k) (bind y k').
Proof.
  intros A B x y k k' X H. unfold seen, forget, tbind in *. subst y. destruct x as [[a n]| |]; cbn [bind]; [|reflexivity|reflexivity].
  rewrite <- H. destruct (k a) as [[b m]| |]; reflexivity.
Qed.
Lemma seen_bind : forall A B (x : res A) (k : A -> ticking B) k', (forall a, seen (k a) (k' a)) -> seen (bind x k) (bind x k').
Proof. intros A B x k k' H. destruct x as [a| |]; cbn [bind]; [apply H|reflexivity|reflexivity]. Qed.
Lemma seen_tick : forall A (x : ticking A) y, seen x y -> seen (tick x) y.
Proof. intros A x y X. unfold seen, forget, tick in *. destruct x as [[a n]| |]; exact X. Qed.
Lemma seen_free : forall A (x : res A), seen (free x) x.
Proof. intros A x. destruct x; reflexivity. Qed.

Section Forget.
  Variable E : env.
  Definition seeing (rec : nat -> pos -> st -> tresult) (rec' : nat -> pos -> st -> result) : Prop := forall e p s, seen (rec e p s) (rec' e p s).

  Section Rec.
    Variable rec : nat -> pos -> st -> tresult.
    Variable rec' : nat -> pos -> st -> result.
    Hypothesis M : seeing rec rec'.

    Ltac step :=
      match goal with
      | |- seen (tbind _ _) (bind _ _) => apply seen_tbind; [|intro]
      | |- seen (bind _ _) (bind _ _) => apply seen_bind; intro
      | |- seen (ret _) (Ok _) => reflexivity
      | |- seen (free _) _ => apply seen_free
      | |- seen (rec _ _ _) (rec' _ _ _) => apply M
      | H : context [seen] |- seen _ _ => apply H
      | a : prod _ _ |- _ => destruct a
      | |- seen (match ?x with _ => _ end) _ => destruct x
      end.
    Ltac go := repeat step.

    Lemma pred_seen : forall e p s, seen (t_pred rec e p s) (parse_pred rec' e p s).
    Proof. intros. unfold t_pred, parse_pred. go. Qed.

    Lemma or_seen : forall l p s, seen (t_or rec l p s) (parse_or rec' l p s).
    Proof. induction l as [|a l IH]; intros; cbn [t_or parse_or]; go. Qed.

    Lemma and_parts_seen : forall l n p s, seen (t_parts rec l n p s) (and_parts rec' l n p s).
    Proof. induction l as [|a l IH]; intros; cbn [t_parts and_parts]; go. Qed.

    Lemma rep_seen : forall n b p s, seen (t_rep rec n b p s) (rep_loop rec' n b p s).
    Proof. induction n as [|n IH]; intros b p s; [reflexivity|]. cbn [t_rep rep_loop]. go. Qed.

    Lemma skip_seen : forall n a b k p s, seen (t_skip E rec n a b k p s) (skip_loop E rec' n a b k p s).
    Proof. induction n as [|n IH]; intros a b k p s; [reflexivity|]. cbn [t_skip skip_loop]. apply seen_tbind; [apply pred_seen|]. intros. go. Qed.

    Section Go.
      Variable go : nat -> pos -> st -> tresult.
      Variable go' : nat -> pos -> st -> result.
      Hypothesis G : forall m p s, seen (go m p s) (go' m p s).

      Lemma infixes_seen : forall l lhs p s, seen (t_infixes E rec go l lhs p s) (try_infixes E rec' go' l lhs p s).
      Proof. induction l as [|x l IH]; intros; cbn [t_infixes try_infixes]; go. Qed.

      Lemma loop_seen : forall n l lhs p s, seen (t_loop E rec go n l lhs p s) (pratt_loop E rec' go' n l lhs p s).
      Proof.
        induction n as [|n IH]; intros l lhs p s; [reflexivity|]. cbn [t_loop pratt_loop].
        apply seen_tbind; [apply infixes_seen|]. intros. go.
      Qed.

      Lemma prefixes_seen : forall l p s, seen (t_prefixes E rec go l p s) (try_prefixes E rec' go' l p s).
      Proof. induction l as [|x l IH]; intros; cbn [t_prefixes try_prefixes]; go. Qed.

      Lemma prefix_seen : forall t p s, seen (t_prefix E rec go t p s) (pratt_prefix E rec' go' t p s).
      Proof.
        intros. unfold t_prefix, pratt_prefix. apply seen_tbind; [apply or_seen|]. intros [r s1]. destruct r as [q|]; [reflexivity|apply prefixes_seen].
      Qed.
    End Go.

    Lemma pratt_seen : forall n f t m p s, seen (t_pratt E rec f n t m p s) (pratt_go E rec' f n t m p s).
    Proof.
      induction n as [|n IH]; intros f t m p s; [reflexivity|]. cbn [t_pratt pratt_go].
      apply seen_tbind; [apply prefix_seen; intros; apply IH|]. intros [r s1]. destruct r as [q|]; [|reflexivity].
      apply loop_seen. intros. apply IH.
    Qed.

    Lemma step_seen : forall f e p s, seen (t_step E rec f e p s) (parse_step E rec' f e p s).
    Proof.
      intros f e p s. unfold t_step, parse_step. apply seen_tick. apply seen_tbind; [|intros [r s1]; go]. unfold t_inner, parse_inner.
      apply seen_bind. intros x. destruct x.
      - unfold t_pub, parse_pub. go.
      - unfold t_pub_replace, parse_pub_replace. go.
      - apply or_seen.
      - unfold t_and, parse_and. apply seen_tbind; [apply and_parts_seen|]. intros. go.
      - go.
      - go.
      - apply rep_seen.
      - apply skip_seen.
      - unfold t_opt, parse_opt. go.
      - unfold t_not, parse_not. apply seen_tbind; [apply pred_seen|]. intros. go.
      - go.
      - go.
      - unfold t_layer, parse_layer. apply seen_tbind; [apply pred_seen|]. intros. go.
      - apply pratt_seen.
      - unfold t_enter, parse_enter. go.
      - unfold t_enter, parse_enter. go.
      - go.
      - unfold t_call, parse_call. go.
      - unfold t_var, parse_var. go.
      - go.
      - unfold t_inject, parse_inject. go.
      - unfold t_cached, parse_cached. go.
    Qed.
  End Rec.

  Lemma expr_seen : forall f, seeing (t_expr E f) (parse_expr E f).
  Proof. induction f as [|f IH]; intros e p s; [reflexivity|]. cbn [t_expr parse_expr]. apply step_seen. exact IH. Qed.

  Lemma events_seen : forall f, seen (t_events E f) (parse_events E f).
  Proof.
    intros f. unfold t_events, parse_events. apply seen_tbind; [apply expr_seen|]. intros [r s1]. apply seen_bind. intro l. destruct (p_empty l); [reflexivity|].
    apply seen_bind. intro s2. apply seen_bind. intros [q s3]. reflexivity.
  Qed.
End Forget.
