(** Runs of the analysis: what a call of [collect_all_diagnostics] returns. *)
From Coq Require Import List Arith Bool Lia Permutation Sorted.
From Verif Require Import Base BaseFacts TextModel TreeModel TreeSpec FileEditSpec DbModel DbSpec DbProofs DbTrace
  AnalysisModel AnalysisSpec ViewProofs AnalysisProofs CollectProofs.
Import ListNotations.

Lemma asked_prefix : forall g ks during c, (forall e, In e during -> exists q v, e = EAnswer q v) ->
  follows (ask_all ks (CCollect g)) during c ->
  exists ks1 ks2, ks = ks1 ++ ks2 /\ c = ask_all ks2 (CCollect g) /\ forall k, In k ks1 -> exists v, In (EAnswer k v) during.
Proof.
  intros g ks during c NS H. induction H as [|k v log c H IH|ds log c H IH].
  - exists [], ks. split; [reflexivity|]. split; [reflexivity|]. intros k [].
  - destruct IH as (ks1 & ks2 & E & EC & A); [intros e J; apply NS; right; exact J|].
    destruct ks2 as [|k2 ks2]; [discriminate EC|]. cbn [ask_all] in EC. injection EC as <- ->.
    exists (ks1 ++ [k]), ks2. split; [rewrite <- app_assoc; exact E|]. split; [reflexivity|].
    intros x J. apply in_app_iff in J. destruct J as [J|[<-|[]]].
    + destruct (A x J) as (w & W). exists w. right. exact W.
    + exists v. left. reflexivity.
  - destruct (NS (ESnapshot ds) (or_introl eq_refl)) as (q & v & X). discriminate X.
Qed.

Lemma asked_all : forall c0 g ks before during after ds c, (forall e, In e during -> exists q v, e = EAnswer q v) ->
  follows c0 before (ask_all ks (CCollect g)) -> follows c0 (after ++ ESnapshot ds :: during ++ before) c ->
  forall k, In k ks -> exists v, In (EAnswer k v) during.
Proof.
  intros c0 g ks before during after ds c NS B H k J.
  destruct (follows_older _ _ _ _ H) as (c1 & H1 & _). inversion H1 as [| |? ? c2 H2]; subst.
  destruct (follows_older _ _ _ _ H2) as (c3 & H3 & H4). pose proof (follows_det _ _ _ _ B H3) as E. subst c3.
  destruct (asked_prefix _ _ _ _ NS H4) as (ks1 & ks2 & -> & EC & A). destruct ks2 as [|k2 ks2]; [|discriminate EC].
  rewrite app_nil_r in J. exact (A k J).
Qed.

Lemma concat_without : forall (P : key -> bool) ks (dss : list (list diagnostic)) (R : key -> list diagnostic -> Prop), Forall2 R ks dss ->
  (forall k d, R k d -> P k = false -> d = []) ->
  exists dss', Forall2 R (filter P ks) dss' /\ concat dss' = concat dss.
Proof.
  intros P ks dss R H N. induction H as [|k d ks dss H1 H IH]. { exists []. split; [constructor|reflexivity]. }
  destruct IH as (dss' & F & E). cbn [filter]. destruct (P k) eqn:PK.
  - exists (d :: dss'). split; [constructor; assumption|]. cbn [concat]. rewrite E. reflexivity.
  - exists dss'. split; [exact F|]. rewrite (N k d H1 PK). exact E.
Qed.

Definition not_method (k : key) : bool := match k with QMethod _ => false | _ => true end.

Section Runs.
  Variables (f : file) (T : tree).
  Hypothesis WF : wf_file f T.
  Hypothesis CT : char_tree (f_text f) T.
  Hypothesis CO : complete f.
  Notation exec := (fall_exec f).

  Lemma wanted_says : forall cs k, api_clients f cs -> wanted exec cs k -> exists v ds, evaluates exec k v ds /\ says f k v ds.
  Proof.
    intros cs k AC (c & k0 & J & A & [->|N]).
    - apply (says_ok f T WF CT CO). left. exact (AC c k0 J A).
    - pose proof (needs_reported f T WF CT CO k0 k (AC c k0 J A) N) as R. apply (says_ok f T WF CT CO).
      destruct k; try (left; exact R); [right; left; reflexivity|right; right; reflexivity|destruct R].
  Qed.

  Lemma wanted_reported : forall cs k, api_clients f cs -> wanted exec cs k -> not_method k = true -> reported f k.
  Proof.
    intros cs k AC (c & k0 & J & A & [->|N]) NM; [|exact (needs_reported f T WF CT CO k0 k (AC c k0 J A) N)].
    pose proof (AC c k0 J A) as X. destruct k0; try exact X; try (destruct X; fail); discriminate NM.
  Qed.

  Lemma answered_says : forall q v, api_key f q -> answers f q v -> exists ds, says f q v ds.
  Proof.
    intros q v A (cs & l & i & c0 & t & (_ & N) & J).
    pose proof (inv_run key_eqb key_eqb_spec key_kind exec cs l _ (inv_start key_kind exec cs)) as I.
    destruct (i_threads _ _ _ _ I i t N) as (_ & L & _). destruct (i_cache _ _ _ _ I q v (L q v J)) as ((ds & E) & _).
    destruct (says_ok f T WF CT CO q (or_introl A)) as (v' & ds' & E' & S'). destruct (evaluates_det _ _ _ _ _ _ E E') as (-> & ->).
    exists ds'. exact S'.
  Qed.

  Lemma collect_spec : forall ds out, collect_returns f ds out ->
    exists ks dss, NoDup ks /\ (forall k, In k ks <-> reported f k) /\
      Forall2 (fun k d => exists v, evaluates exec k v d /\ says f k v d) ks dss /\ ds = concat dss.
  Proof.
    intros ds out (cs & l & i & c0 & t & before & during & after & g & cl & AC & (C0 & NT) & LOG & NS & FB & CL & _).
    unfold collect_all_diagnostics, collect_client in CL. destruct (collect_keys_ok f T WF) as (keys & CK & KIN). rewrite CK in CL. cbn [bind] in CL.
    injection CL as <-.
    pose proof (inv_run key_eqb key_eqb_spec key_kind exec cs l _ (inv_start key_kind exec cs)) as I.
    destruct (i_threads _ _ _ _ I i t NT) as (_ & _ & SN). destruct (SN _ _ _ LOG) as (order & ND & (dss & F & ->) & W & ANS).
    destruct (track_follows c0 t (track key_eqb key_kind exec cs l i c0 t C0 NT)) as (c' & FC). rewrite LOG in FC.
    assert (ALL : forall k, In k keys -> exists v, In (EAnswer k v) (during ++ before)).
    { intros k J. destruct (asked_all _ _ _ _ _ _ _ _ NS FB FC k J) as (v & V). exists v. apply in_app_iff. left. exact V. }
    assert (F' : Forall2 (fun k d => exists v, evaluates exec k v d /\ says f k v d) order dss).
    { clear ND ANS LOG NS SN FC. induction F as [|k d order dss (v & E) F IH]; [constructor|]. constructor.
      - destruct (wanted_says cs k AC (W k (or_introl eq_refl))) as (v' & d' & E' & S'). destruct (evaluates_det _ _ _ _ _ _ E E') as (-> & ->).
        exists v'. split; assumption.
      - apply IH. intros k' J. apply W. right. exact J. }
    destruct (concat_without not_method order dss _ F') as (dss' & F'' & EC).
    { intros k d (v & _ & S') NM. destruct k; try discriminate NM. destruct S' as (o & _ & _ & ->). reflexivity. }
    exists (filter not_method order), dss'. split; [apply NoDup_filter; exact ND|]. split; [|split; [exact F''|symmetry; exact EC]].
    intros k. rewrite filter_In. split.
    - intros (J & NM). exact (wanted_reported cs k AC (W k J) NM).
    - intros R.
      assert (IN : forall q, In q keys -> In q order /\ forall k', needs exec (exec q) k' -> In k' order).
      { intros q J. destruct (ALL q J) as (v & V). exact (ANS q v V). }
      assert (API : forall q, api_key f q -> not_method q = true -> In q keys).
      { intros q A NM. apply KIN. split; [exact A|]. intros n ->. discriminate NM. }
      destruct k as [| | | |n|n|n|n|n]; try (destruct R; fail); try (split; [|reflexivity]); try (match goal with |- In ?q order => exact (proj1 (IN q (API q R eq_refl))) end).
      + destruct R as [(n & r & s & A & ER & RN & NP)|(n & s & A & N & NB)].
        * destruct (ref_ok f T WF CT CO n A) as (_ & _ & _ & _ & _ & ND' & _). apply (IN (QRef n) (API (QRef n) A eq_refl)). exact (ND' r s ER RN NP).
        * destruct (call_ok f T WF CT CO n A) as (s' & _ & _ & N' & _ & _ & ND' & _). rewrite N in N'. injection N' as <-.
          apply (IN (QCall n) (API (QCall n) A eq_refl)). exact (ND' NB).
      + destruct R as (n & s & b & A & N & NC & AR).
        destruct (call_ok f T WF CT CO n A) as (s' & _ & _ & N' & _ & _ & _ & ND' & _). rewrite N in N'. injection N' as <-.
        apply (IN (QCall n) (API (QCall n) A eq_refl)). exact (ND' b NC AR).
  Qed.
End Runs.

(** ** The sort is stable *)
Definition same_b (a b : diagnostic) : bool := negb (diag_ltb a b) && negb (diag_ltb b a).

Lemma same_b_spec : forall a b, same_b a b = true <-> same_place a b.
Proof.
  intros a b. unfold same_b, same_place. rewrite andb_true_iff, !negb_true_iff. split.
  - intros (A & B). split; apply diag_le_total; assumption.
  - intros (A & B).
    assert (G : forall x y, diag_le x y -> diag_ltb y x = false).
    { clear. intros x y H. unfold diag_ltb, diag_le, severity_rank, priority in *.
      apply not_true_iff_false. intros X.
      rewrite orb_true_iff, andb_true_iff, orb_true_iff, andb_true_iff, !Nat.ltb_lt, !Nat.eqb_eq in X.
      destruct (d_severity x), (d_severity y); (destruct H as [H|(E & H)]; [lia|try discriminate E; lia]). }
    split; apply G; assumption.
Qed.

Lemma same_b_trans : forall a b c, same_b a b = true -> same_b b c = true -> same_b a c = true.
Proof.
  intros a b c A B. apply same_b_spec in A, B. apply same_b_spec. destruct A as (A1 & A2), B as (B1 & B2).
  split; eapply diag_le_trans; eassumption.
Qed.

Lemma same_b_sym : forall a b, same_b a b = true -> same_b b a = true.
Proof. intros a b A. unfold same_b in *. rewrite andb_comm. exact A. Qed.

Lemma insert_filter : forall x d l, filter (same_b x) (insert_diag d l) = filter (same_b x) (d :: l).
Proof.
  intros x d l. induction l as [|y l IH]; [reflexivity|]. cbn [insert_diag]. destruct (diag_ltb y d) eqn:E; [|reflexivity].
  cbn [filter] in *. rewrite IH. destruct (same_b x d) eqn:SD, (same_b x y) eqn:SY; try reflexivity.
  exfalso. pose proof (same_b_trans _ _ _ (same_b_sym _ _ SY) SD) as X. unfold same_b in X. rewrite E in X. discriminate X.
Qed.

Lemma sort_filter_diags : forall x l, filter (same_b x) (sort_diags l) = filter (same_b x) l.
Proof.
  intros x l. induction l as [|d l IH]; [reflexivity|]. cbn [sort_diags]. rewrite insert_filter. cbn [filter]. rewrite IH. reflexivity.
Qed.

Lemma stable_filter : forall P l, (forall a b, P a = true -> P b = true -> same_place a b) -> filter P (sort_diags l) = filter P l.
Proof.
  intros P l HP. destruct (existsb P l) eqn:E.
  - apply existsb_exists in E. destruct E as (x & _ & X).
    assert (G : forall m, filter P m = filter P (filter (same_b x) m)).
    { induction m as [|y m IH]; [reflexivity|]. cbn [filter]. destruct (same_b x y) eqn:S1.
      - cbn [filter]. rewrite IH. reflexivity.
      - destruct (P y) eqn:Y; [|exact IH]. assert (Z : same_b x y = true) by (apply same_b_spec; apply HP; assumption). congruence. }
    rewrite (G (sort_diags l)), (G l), sort_filter_diags. reflexivity.
  - assert (N : forall m, (forall y, In y m -> P y = false) -> filter P m = []).
    { induction m as [|y m IH]; intros H; [reflexivity|]. cbn [filter]. rewrite (H y (or_introl eq_refl)). apply IH. intros z Z. apply H. right. exact Z. }
    assert (L : forall y, In y l -> P y = false).
    { intros y J. destruct (P y) eqn:Y; [|reflexivity]. assert (X : existsb P l = true) by (apply existsb_exists; exists y; split; assumption). congruence. }
    rewrite (N l L). apply N. intros y J. apply L. exact (Permutation_in _ (sort_diags_perm l) J).
Qed.

Lemma concat_perm : forall A B (R : A -> list B -> Prop) ks ks' dss dss', Permutation ks ks' ->
  (forall k d d', R k d -> R k d' -> d = d') -> Forall2 R ks dss -> Forall2 R ks' dss' -> Permutation (concat dss) (concat dss').
Proof.
  intros A B R ks ks' dss dss' P D. revert dss dss'. induction P as [|k ks ks' P IH|k k' ks|k1 k2 k3 P IH P' IH']; intros dss dss' F F'.
  - inversion F; inversion F'; subst. constructor.
  - inversion F as [|? d ? ds H1 H2]; inversion F' as [|? d' ? ds' H1' H2']; subst. cbn [concat]. rewrite (D _ _ _ H1 H1').
    apply Permutation_app_head. exact (IH _ _ H2 H2').
  - inversion F as [|? d ? ds H1 H2]; subst. inversion H2 as [|? e ? es H3 H4]; subst.
    inversion F' as [|? d' ? ds' H1' H2']; subst. inversion H2' as [|? e' ? es' H3' H4']; subst. cbn [concat].
    rewrite (D _ _ _ H1 H3'), (D _ _ _ H3 H1').
    assert (E : es = es').
    { clear - D H4 H4'. revert es' H4'. induction H4 as [|x y xs ys H4 F IH]; intros es' H4'; inversion H4'; subst; [reflexivity|].
      f_equal; [eapply D; eassumption|apply IH; assumption]. }
    rewrite E, !app_assoc. apply Permutation_app_tail. apply Permutation_app_comm.
  - assert (M : exists m, Forall2 R k2 m).
    { clear - P F. revert dss F. induction P as [|k ks ks' P IH|k k' ks|k1 k2 k3 P IH P' IH']; intros dss F.
      - exists []. constructor.
      - inversion F as [|? d ? ds H1 H2]; subst. destruct (IH _ H2) as (m & M). exists (d :: m). constructor; assumption.
      - inversion F as [|? d ? ds H1 H2]; subst. inversion H2 as [|? e ? es H3 H4]; subst. exists (e :: d :: es). constructor; [assumption|constructor; assumption].
      - destruct (IH _ F) as (m & M). exact (IH' _ M). }
    destruct M as (m & M). exact (Permutation_trans (IH _ _ F M) (IH' _ _ M F')).
Qed.
