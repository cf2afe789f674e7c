(** Proofs about searching and comparing texts. *)
From Coq Require Import List Arith Bool Lia.
From Verif Require Import Base BaseFacts TextModel TextSpec TextProofs ScanModel ScanSpec ScanProofs TextOpsModel TextOpsSpec.
Import ListNotations.

Lemma suffix_spec : forall p s, is_suffix p s = true <-> exists r, s = r ++ p.
Proof.
  intros p s. unfold is_suffix. rewrite is_prefix_spec. split.
  - intros (r & E). exists (rev r). apply (f_equal (@rev nat)) in E. rewrite rev_involutive, rev_app_distr, rev_involutive in E. exact E.
  - intros (r & ->). exists (rev r). apply rev_app_distr.
Qed.

Lemma rfind_some : forall n s i, rfind_sub n s = Some i -> last_at n s i.
Proof.
  intros n s. induction s as [|b s IH]; intros i E; cbn [rfind_sub] in E.
  - destruct (is_prefix n []) eqn:P; [|discriminate E]. injection E as <-. split; [apply occurs_prefix; auto|]. intros j J O. apply occurs_prefix in O. cbn in O. lia.
  - destruct (rfind_sub n s) as [k|] eqn:R.
    + injection E as <-. destruct (IH k eq_refl) as (O & L). split.
      * apply occurs_prefix in O. apply occurs_prefix. cbn [length skipn]. split; [lia|tauto].
      * intros [|j] J O'; [lia|]. apply (L j); [lia|]. apply occurs_prefix in O'. apply occurs_prefix. cbn [length skipn] in O'. split; [lia|tauto].
    + destruct (is_prefix n (b :: s)) eqn:P; [|discriminate E]. injection E as <-. split; [apply occurs_prefix; split; [lia|exact P]|].
      intros [|j] J O; [lia|]. apply occurs_prefix in O. cbn [length skipn] in O. clear - O R. revert j O R. induction s as [|c s IH]; intros j (L & P) R; cbn [rfind_sub] in R.
      * rewrite skipn_nil in P. rewrite P in R. discriminate R.
      * destruct (rfind_sub n s) eqn:Q; [discriminate R|]. destruct (is_prefix n (c :: s)) eqn:P'; [discriminate R|]. destruct j as [|j]; [cbn [skipn] in P; congruence|]. apply (IH j); [cbn [length skipn] in *; split; [lia|exact P]|reflexivity].
Qed.
Lemma rfind_none : forall n s, rfind_sub n s = None -> forall j, ~ occurs n s j.
Proof.
  intros n s. induction s as [|b s IH]; intros E j O; cbn [rfind_sub] in E; apply occurs_prefix in O; destruct O as (L & P).
  - rewrite skipn_nil in P. rewrite P in E. discriminate E.
  - destruct (rfind_sub n s); [discriminate E|]. destruct (is_prefix n (b :: s)) eqn:Q; [discriminate E|]. destruct j as [|j]; [cbn [skipn] in P; congruence|]. apply (IH eq_refl j). apply occurs_prefix. cbn [length skipn] in *. split; [lia|exact P].
Qed.
Lemma last_at_fun : forall n s i j, last_at n s i -> last_at n s j -> i = j.
Proof. intros n s i j (O & L) (O' & L'). destruct (lt_eq_lt_dec i j) as [[X|X]|X]; [destruct (L j X O')|exact X|destruct (L' i X O)]. Qed.

Lemma cmp_eq : forall a b, bytes_cmp a b = Eq <-> a = b.
Proof.
  induction a as [|x a IH]; intros [|y b]; cbn [bytes_cmp]; try (split; [discriminate|discriminate]); [split; reflexivity|].
  destruct (Nat.compare_spec x y) as [->|L|G]; [rewrite IH; split; [intros ->; reflexivity|intros E; injection E as ->; reflexivity]|split; [discriminate|intros E; injection E as -> _; lia]|split; [discriminate|intros E; injection E as -> _; lia]].
Qed.
Lemma cmp_sym : forall a b, bytes_cmp b a = CompOpp (bytes_cmp a b).
Proof.
  induction a as [|x a IH]; intros [|y b]; cbn [bytes_cmp CompOpp]; try reflexivity. rewrite (Nat.compare_antisym x y). destruct (Nat.compare x y); cbn [CompOpp]; [apply IH|reflexivity|reflexivity].
Qed.
Lemma precedes_cons : forall x a b, precedes a b -> precedes (x :: a) (x :: b).
Proof. intros x a b [p y r|p u v r r' L]; [exact (pr_shorter (x :: p) y r)|exact (pr_smaller (x :: p) u v r r' L)]. Qed.
Lemma cmp_lt : forall a b, bytes_cmp a b = Lt <-> precedes a b.
Proof.
  intros a b. split.
  - revert b. induction a as [|x a IH]; intros [|y b] E; cbn [bytes_cmp] in E; try discriminate E; [exact (pr_shorter [] y b)|].
    destruct (Nat.compare_spec x y) as [->|L|G]; [apply precedes_cons; exact (IH b E)|exact (pr_smaller [] x y a b L)|discriminate E].
  - intros [p y r|p x y r r' L]; induction p as [|z p IH]; cbn [app bytes_cmp]; try rewrite Nat.compare_refl; auto. rewrite (proj2 (Nat.compare_lt_iff x y) L). reflexivity.
Qed.
Lemma cmp_gt : forall a b, bytes_cmp a b = Gt <-> precedes b a.
Proof. intros a b. rewrite <- cmp_lt, (cmp_sym a b). destruct (bytes_cmp a b); cbn [CompOpp]; split; congruence. Qed.
Lemma cmp_trans : forall a b c, bytes_cmp a b = Lt -> bytes_cmp b c = Lt -> bytes_cmp a c = Lt.
Proof.
  induction a as [|x a IH]; intros [|y b] [|z c] E F; cbn [bytes_cmp] in *; try discriminate; auto.
  destruct (Nat.compare_spec x y) as [->|L|G]; try discriminate E.
  - destruct (Nat.compare y z) eqn:C; try discriminate F; [exact (IH b c E F)|reflexivity].
  - destruct (Nat.compare_spec y z) as [->|L'|G']; try discriminate F; rewrite (proj2 (Nat.compare_lt_iff _ _)) by lia; reflexivity.
Qed.

(** A place where a needle was found can be sliced. *)
Lemma found_slice : forall t s n i, wf_text t -> shows t s -> utf8 s -> utf8 n -> n <> [] -> occurs n s i ->
  exists t', slice t (mkRange i (i + length n)) = Ok t' /\ wf_text t' /\ shows t' n.
Proof.
  intros t s n i W SH US UN NE (a & b & E & LA).
  assert (B : bytes_of t = s /\ aligned (owned t) (rstart (trange t)) /\ aligned (owned t) (rend (trange t))).
  { unfold shows, as_str, str_index in SH. apply guard_ok in SH. destruct SH as (LE & SH). apply guard_ok in SH. destruct SH as (AL & SH). injection SH as <-. apply andb_true_iff in AL. destruct AL as (A1 & A2). apply boundary_spec in A1, A2. auto. }
  destruct B as (BS & A1 & A2). assert (LS : length s = rend (trange t) - rstart (trange t)) by (rewrite <- BS; unfold bytes_of; destruct W as (W1 & W2); rewrite sub_length by auto; reflexivity).
  assert (BND : rstart (trange t) <= rend (trange t) /\ rend (trange t) <= length (owned t)) by exact W.
  assert (LI : i + length n <= length s) by (subst s; rewrite !app_length; lia).
  destruct (slice_ok t (mkRange i (i + length n)) W) as (t' & S & W' & O & R & BY); [unfold proper; cbn [rstart rend]; lia|cbn [rend]; rewrite BS; exact LI|]. cbn [rstart rend] in *.
  exists t'. split; [exact S|]. split; [exact W'|].
  assert (NTH : forall k, k < length s -> nth_error (owned t) (rstart (trange t) + k) = nth_error s k).
  { intros k K. rewrite <- BS. unfold bytes_of, sub. rewrite <- (nth_error_skipn nat (owned t) (rstart (trange t)) k). rewrite <- (firstn_skipn (rend (trange t) - rstart (trange t)) (skipn (rstart (trange t)) (owned t))) at 1. apply nth_error_app1. rewrite firstn_length, skipn_length. lia. }
  rewrite E in US. destruct (utf8_around a n b US UN NE) as (U1 & U2).
  assert (AI : aligned (owned t) (rstart (trange t) + i)).
  { right. right. destruct n as [|x n]; [congruence|]. exists x. split; [rewrite NTH by (cbn [length] in LI; lia); rewrite E, nth_error_app2 by lia; replace (i - length a) with 0 by lia; reflexivity|]. exact (utf8_head _ _ UN eq_refl). }
  assert (AJ : aligned (owned t) (rstart (trange t) + (i + length n))).
  { destruct b as [|y b]; [replace (rstart (trange t) + (i + length n)) with (rend (trange t)); [exact A2|]; subst s; rewrite !app_length in LS; cbn [length] in LS; lia|].
    right. right. exists y. split; [|exact (utf8_head _ _ U2 eq_refl)]. assert (K : i + length n < length s) by (subst s; rewrite !app_length; cbn [length]; lia).
    rewrite NTH by exact K. rewrite E, nth_error_app2 by lia. rewrite nth_error_app2 by lia. replace (i + length n - length a - length n) with 0 by lia. reflexivity. }
  unfold shows. rewrite (as_str_ok t' W'); [|rewrite O, R; cbn [rstart]; exact AI|rewrite O, R; cbn [rend]; exact AJ].
  rewrite BY, BS, E. unfold sub. rewrite skipn_app, skipn_all2 by lia. replace (i - length a) with 0 by lia. cbn [app skipn]. replace (i + length n - i) with (length n) by lia. rewrite firstn_app, firstn_all, Nat.sub_diag, firstn_O, app_nil_r. reflexivity.
Qed.
