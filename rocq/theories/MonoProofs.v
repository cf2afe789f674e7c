(** More fuel never changes an outcome. *)
From Coq Require Import List Arith Bool Lia.
From Verif Require Import Base BaseFacts TreeModel LexModel GrammarModel ParserModel ConvertModel.
Import ListNotations.

(** [y] is what [x] was going to be. *)
Definition later {A} (x y : res A) : Prop := x = OutOfFuel \/ x = y.

Lemma later_refl : forall A (x : res A), later x x.
Proof. intros; right; reflexivity. Qed.

Lemma later_bind : forall A B (x y : res A) (k k' : A -> res B), later x y -> (forall a, later (k a) (k' a)) -> later (bind x k) (bind y k').
Proof.
  intros A B x y k k' [->| ->] H; [left; reflexivity|]. destruct y as [a| |]; cbn; [apply H|apply later_refl|apply later_refl].
Qed.

Section Mono.
  Variable E : env.

  Definition mono (rec rec' : nat -> pos -> st -> result) : Prop := forall e p s, later (rec e p s) (rec' e p s).

  Section Rec.
    Variables rec rec' : nat -> pos -> st -> result.
    Hypothesis M : mono rec rec'.

    Ltac step :=
      match goal with
      | |- later (bind _ _) (bind _ _) => apply later_bind; [|intro]
      | |- later ?x ?x => apply later_refl
      | |- later (rec _ _ _) (rec' _ _ _) => apply M
      | a : prod _ _ |- _ => destruct a
      | |- later (match ?x with _ => _ end) (match ?x with _ => _ end) => destruct x
      end.
    Ltac go := repeat step.

    Lemma pred_mono : forall e p s, later (parse_pred rec e p s) (parse_pred rec' e p s).
    Proof. intros. unfold parse_pred. go. Qed.

    Lemma or_mono : forall l p s, later (parse_or rec l p s) (parse_or rec' l p s).
    Proof. induction l as [|a l IH]; intros; cbn [parse_or]; go; apply IH. Qed.

    Lemma and_parts_mono : forall l n p s, later (and_parts rec l n p s) (and_parts rec' l n p s).
    Proof. induction l as [|a l IH]; intros; cbn [and_parts]; go; apply IH. Qed.

    Lemma rep_mono : forall n n' b p s, n <= n' -> later (rep_loop rec n b p s) (rep_loop rec' n' b p s).
    Proof.
      induction n as [|n IH]; intros n' b p s L; [left; reflexivity|]. destruct n' as [|n']; [lia|]. cbn [rep_loop]. go. apply IH. lia.
    Qed.

    Lemma skip_mono : forall n n' a b k p s, n <= n' -> later (skip_loop E rec n a b k p s) (skip_loop E rec' n' a b k p s).
    Proof.
      induction n as [|n IH]; intros n' a b k p s L; [left; reflexivity|]. destruct n' as [|n']; [lia|]. cbn [skip_loop].
      apply later_bind; [apply pred_mono|]. intros [r s1]. apply later_bind; [destruct r; go|]. intros [r2 s2]. destruct r2 as [q|]; [apply later_refl|].
      apply later_bind; [apply later_refl|]. intros s3. apply later_bind; [apply later_refl|]. intros [b0 s4]. destruct b0 as [[t q]|]; [|apply later_refl].
      apply IH. lia.
    Qed.

    Section Go.
      Variables go go' : nat -> pos -> st -> result.
      Hypothesis G : forall m p s, later (go m p s) (go' m p s).

      Lemma infixes_mono : forall l lhs p s, later (try_infixes E rec go l lhs p s) (try_infixes E rec' go' l lhs p s).
      Proof.
        induction l as [|x l IH]; intros; cbn [try_infixes]; [apply later_refl|].
        apply later_bind; [apply later_refl|]. intros s1. apply later_bind; [apply M|]. intros [r s2]. destruct r as [p1|].
        - apply later_bind; [apply later_refl|]. intros s3. apply later_bind; [|intros [q s4]; apply later_refl].
          destruct (ix_rhs x); [|apply later_refl]. apply later_bind; [apply G|]. intros [r2 s4]. apply later_refl.
        - apply later_bind; [apply later_refl|]. intros s3. apply IH.
      Qed.

      Lemma loop_mono : forall n n' l lhs p s, n <= n' -> later (pratt_loop E rec go n l lhs p s) (pratt_loop E rec' go' n' l lhs p s).
      Proof.
        induction n as [|n IH]; intros n' l lhs p s L; [left; reflexivity|]. destruct n' as [|n']; [lia|]. cbn [pratt_loop].
        apply later_bind; [apply infixes_mono|]. intros [r s1]. destruct r as [[q m]|]; [|apply later_refl]. apply IH. lia.
      Qed.

      Lemma prefixes_mono : forall l p s, later (try_prefixes E rec go l p s) (try_prefixes E rec' go' l p s).
      Proof.
        induction l as [|x l IH]; intros; cbn [try_prefixes]; [apply later_refl|].
        apply later_bind; [apply later_refl|]. intros s1. apply later_bind; [apply M|]. intros [r s2].
        apply later_bind; [destruct r; [apply G|apply later_refl]|]. intros [r2 s3]. destruct r2 as [q|]; [apply later_refl|].
        apply later_bind; [apply later_refl|]. intros s4. apply IH.
      Qed.

      Lemma prefix_mono : forall t p s, later (pratt_prefix E rec go t p s) (pratt_prefix E rec' go' t p s).
      Proof.
        intros. unfold pratt_prefix. apply later_bind; [apply or_mono|]. intros [r s1]. destruct r as [q|]; [apply later_refl|apply prefixes_mono].
      Qed.
    End Go.

    Lemma pratt_mono : forall n n' f f' t m p s, n <= n' -> f <= f' -> later (pratt_go E rec f n t m p s) (pratt_go E rec' f' n' t m p s).
    Proof.
      induction n as [|n IH]; intros n' f f' t m p s L LF; [left; reflexivity|]. destruct n' as [|n']; [lia|]. cbn [pratt_go].
      apply later_bind; [apply prefix_mono; intros; apply IH; lia|]. intros [r s1]. destruct r as [q|]; [|apply later_refl].
      apply loop_mono; auto. intros. apply IH; lia.
    Qed.

    Lemma step_mono : forall f f' e p s, f <= f' -> later (parse_step E rec f e p s) (parse_step E rec' f' e p s).
    Proof.
      intros f f' e p s L. unfold parse_step. apply later_bind; [|intros [r s1]; apply later_refl]. unfold parse_inner.
      apply later_bind; [apply later_refl|]. intros x. destruct x.
      - unfold parse_pub. go.
      - unfold parse_pub_replace. go.
      - apply or_mono.
      - unfold parse_and. apply later_bind; [apply and_parts_mono|]. intros [[n q] s1]. apply later_refl.
      - apply later_refl.
      - apply later_refl.
      - apply rep_mono; auto.
      - apply skip_mono; auto.
      - unfold parse_opt. go.
      - unfold parse_not. apply later_bind; [apply pred_mono|]. intros [r s1]. apply later_refl.
      - apply later_refl.
      - apply later_refl.
      - unfold parse_layer. apply later_bind; [apply pred_mono|]. intros [r s1]. destruct r; go.
      - apply pratt_mono; auto.
      - unfold parse_enter. go.
      - unfold parse_enter. go.
      - apply later_refl.
      - unfold parse_call. go.
      - unfold parse_var. go.
      - apply later_refl.
      - unfold parse_inject. go.
      - unfold parse_cached. go.
    Qed.
  End Rec.

  Lemma parse_mono : forall f f', f <= f' -> mono (parse_expr E f) (parse_expr E f').
  Proof.
    induction f as [|f IH]; intros f' L e p s; [left; reflexivity|]. destruct f' as [|f']; [lia|]. cbn [parse_expr].
    apply step_mono; [|lia]. apply IH. lia.
  Qed.

  Lemma events_mono : forall f f', f <= f' -> later (parse_events E f) (parse_events E f').
  Proof.
    intros f f' L. unfold parse_events. apply later_bind; [apply parse_mono; auto|]. intros [r s1]. apply later_refl.
  Qed.
End Mono.

Lemma parse_file_mono : forall L f f' txt, f <= f' -> later (parse_file L f txt) (parse_file L f' txt).
Proof.
  intros L f f' txt LE. unfold parse_file. apply later_bind; [apply later_refl|]. intros toks. apply later_bind; [|intros [evs calls]; apply later_refl].
  unfold def_parse. apply later_bind; [apply later_refl|]. intros ft. apply later_bind; [apply events_mono; auto|]. intros evs. apply later_refl.
Qed.
