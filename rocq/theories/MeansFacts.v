(** The specification of the analysis determines every answer and every report. *)
From Coq Require Import List Arith Bool Lia NArith Sorted.
From Verif Require Import Base BaseFacts TextModel TreeModel DbModel DbSpec AnalysisModel AnalysisSpec IndexSpec IndexProofs
  ViewProofs AnalysisProofs CollectProofs.
Import ListNotations.

Lemma sorted_unique : forall l l', StronglySorted lex_lt l -> StronglySorted lex_lt l' -> (forall b, In b l <-> In b l') -> l = l'.
Proof.
  intros l. induction l as [|x l IH]; intros l' S1 S2 E.
  - destruct l' as [|y l']; [reflexivity|]. destruct (proj2 (E y) (or_introl eq_refl)).
  - destruct l' as [|y l']; [destruct (proj1 (E x) (or_introl eq_refl))|].
    inversion S1 as [|? ? S1' F1]; subst. inversion S2 as [|? ? S2' F2]; subst. rewrite Forall_forall in F1, F2.
    assert (x = y) as <-.
    { destruct (proj1 (E x) (or_introl eq_refl)) as [X|X]; [symmetry; exact X|].
      destruct (proj2 (E y) (or_introl eq_refl)) as [Y|Y]; [exact Y|].
      exfalso. apply (lex_irrefl x). eapply lex_trans; [apply F1; exact Y|apply F2; exact X]. }
    f_equal. apply IH; [exact S1'|exact S2'|]. intros b. split; intros J.
    + destruct (proj1 (E b) (or_intror J)) as [<-|X]; [|exact X]. destruct (lex_irrefl _ (F1 _ J)).
    + destruct (proj2 (E b) (or_intror J)) as [<-|X]; [|exact X]. destruct (lex_irrefl _ (F2 _ J)).
Qed.

Lemma builtin_in : forall s, existsb (bytes_eqb s) builtins = true -> In s builtins.
Proof. intros s H. apply existsb_exists in H. destruct H as (x & J & E). apply bytes_eqb_spec in E. subst x. exact J. Qed.

Section Facts.
  Variable f : file.

  Lemma context_list_fun : forall l l', context_list f l -> context_list f l' -> l = l'.
  Proof. intros l l' (S1 & E1) (S2 & E2). apply sorted_unique; [exact S1|exact S2|]. intros b. rewrite E1, E2. reflexivity. Qed.

  Lemma context_number_fun : forall b i j, context_number f b i -> context_number f b j -> i = j.
  Proof.
    intros b i j (l & L & E) (l' & L' & E'). rewrite (context_list_fun _ _ L L') in *. destruct L' as (SS & _).
    assert (G : forall l, StronglySorted lex_lt l -> forall i j b, nth_error l i = Some b -> nth_error l j = Some b -> i = j).
    { clear. intros l SS. induction SS as [|x l SS IH F]; intros i j b E E'; [destruct i; discriminate E|]. rewrite Forall_forall in F.
      destruct i as [|i], j as [|j]; cbn in E, E'; try reflexivity.
      - injection E as ->. destruct (lex_irrefl _ (F _ (nth_error_In _ _ E'))).
      - injection E' as ->. destruct (lex_irrefl _ (F _ (nth_error_In _ _ E))).
      - f_equal. exact (IH i j b E E'). }
    exact (G _ SS _ _ _ E E').
  Qed.

  Lemma public_args_fun : forall l rs k, public_args f l rs k -> forall rs' k', public_args f l rs' k' -> rs = rs' /\ k = k'.
  Proof.
    intros l rs k H. induction H as [|a r s l rs k TA RA MT H IH|a l rs k NO H IH]; intros rs' k' H'; inversion H' as [|? r' s' ? rs'' k'' TA' RA' MT' H''|? ? ? k'' NO' H'']; subst.
    - split; reflexivity.
    - destruct (IH _ _ H'') as (-> & ->). pose proof (resolves_fun f _ _ _ RA RA') as X. injection X as ->. split; reflexivity.
    - destruct NO'. split; [exact TA|]. exists r, s. split; assumption.
    - destruct NO. split; [exact TA'|]. exists r', s'. split; assumption.
    - destruct (IH _ _ H'') as (-> & ->). split; reflexivity.
  Qed.

  Lemma calls_rule_fun : forall n r r', calls_rule f n r -> calls_rule f n r' -> r = r'.
  Proof.
    intros n r r' (s & N & _ & F & _) (s' & N' & _ & F' & _). rewrite N in N'. injection N' as <-. exact (first_such_fun _ _ _ _ _ F F').
  Qed.

  (** Which built-in function it is, or none. *)
  Lemma named_fun : forall s s' n, named f s n -> named f s' n -> s = s'.
  Proof. intros s s' n N N'. unfold named in *. rewrite N in N'. injection N' as E. exact E. Qed.

  Ltac names :=
    repeat match goal with
    | H : In (?s, ?k) _ |- _ => is_var s; cbn [In] in H; repeat (destruct H as [H|H]; [injection H as <- <-|]); [..|destruct H]
    end.

  Lemma call_means_fun : forall n o ds o' ds', call_means f n o ds -> call_means f n o' ds' -> o = o' /\ ds = ds'.
  Proof.
    intros n o ds o' ds' H H'.
    assert (NB : forall s r, named f s n -> calls_rule f n r -> existsb (bytes_eqb s) builtins = true -> False).
    { intros s r N (s' & N' & B & _) E. rewrite (named_fun _ _ _ N N') in E. exact (B (builtin_in _ E)). }
    assert (NU : forall s s', named f s n -> named f s' n -> ~ In s' builtins -> existsb (bytes_eqb s) builtins = true -> False).
    { intros s s' N N' B E. rewrite (named_fun _ _ _ N N') in E. exact (B (builtin_in _ E)). }
    assert (NC : forall c, names_context f n c -> exists a l, exprs f n = a :: l).
    { intros c (fn & a & m & _ & _ & HD & _). destruct (exprs f n) as [|x l]; [discriminate HD|]. exists x, l. reflexivity. }
    destruct H; destruct H'; names;
    try (split; reflexivity);
    try match goal with N : named f ?s n, N' : named f ?s' n |- _ =>
      tryif constr_eq s s' then fail else (exfalso; pose proof (named_fun _ _ _ N N') as X; revert X; vm_compute; discriminate) end;
    try match goal with N : named f ?s n, C : calls_rule f n ?r |- _ => exfalso; exact (NB s r N C eq_refl) end;
    try match goal with N : named f ?s n, N' : named f ?s' n, B : ~ In ?s' builtins |- _ => exfalso; exact (NU s s' N N' B eq_refl) end;
    try match goal with C : calls_rule f n ?r, U : forall r, ~ calls_rule f n r |- _ => destruct (U r C) end;
    try match goal with C : names_context f n ?r, U : forall r, ~ names_context f n r |- _ => destruct (U r C) end;
    try match goal with E : exprs f n = _, E' : exprs f n = _ |- _ => rewrite E in E'; injection E'; intros; subst; split; reflexivity end;
    try match goal with E : exprs f n = _, L : length (exprs f n) < _ |- _ => rewrite E in L; cbn [length] in L; lia end;
    try match goal with C : names_context f n ?c, L : length (exprs f n) < 1 |- _ =>
      destruct (NC c C) as (? & ? & X); rewrite X in L; cbn [length] in L; lia end;
    try match goal with C : names_context f n ?c, C' : names_context f n ?c', N : context_number f ?c ?i, N' : context_number f ?c' ?j |- _ =>
      rewrite (names_context_fun f _ _ _ C C') in N; rewrite (context_number_fun _ _ _ N N') end;
    try (split; reflexivity);
    try match goal with E : exprs f n = _, E' : exprs f n = _ |- _ => rewrite E in E'; injection E'; intros; subst; split; reflexivity end;
    try lia;
    try match goal with P : public_args f _ _ _, P' : public_args f _ _ _ |- _ => destruct (public_args_fun _ _ _ P _ _ P') as (-> & ->); split; reflexivity end;
    try match goal with P : calls_rule f n _, P' : calls_rule f n _ |- _ => rewrite (calls_rule_fun _ _ _ P P'); split; reflexivity end;
    try match goal with P : kid f IDENT n = _, P' : kid f IDENT n = _ |- _ => rewrite P in P'; injection P' as <-; split; reflexivity end.
  Qed.

  Lemma variant_fun : forall r s x s' x', variant_attr f r s x -> variant_attr f r s' x' -> s = s' /\ x = x'.
  Proof.
    intros r s x s' x' (pre & post & E & A & N) (pre' & post' & E' & A' & N').
    assert (G : forall (l1 l2 r1 r2 : list bytes) a b, l1 ++ a :: r1 = l2 ++ b :: r2 -> length l1 < length l2 -> In a l2).
    { clear. intros l1. induction l1 as [|x l1 IH]; intros [|y l2] r1 r2 a b E L; cbn in L; try lia; cbn in E; injection E as -> E.
      - left. reflexivity.
      - right. apply (IH l2 r1 r2 a b E). lia. }
    rewrite E in E'. destruct (lt_eq_lt_dec (length pre) (length pre')) as [[L|L]|L].
    - destruct (N' s (G _ _ _ _ _ _ E' L) x A).
    - assert (pre = pre' /\ s = s') as (_ & <-).
      { revert E' L. clear. revert pre'. induction pre as [|y pre IH]; intros [|z pre'] E L; try discriminate L; cbn in E; injection E as -> E.
        - split; reflexivity.
        - destruct (IH pre' E ltac:(cbn in L; lia)) as (-> & ->). split; reflexivity. }
      split; [reflexivity|]. exact (attr_fun f _ _ _ _ A A').
    - symmetry in E'. destruct (N s' (G _ _ _ _ _ _ E' L) x' A').
  Qed.

  Lemma pratt_means_fun : forall r o ds o' ds', pratt_means f r o ds -> pratt_means f r o' ds' -> o = o' /\ ds = ds'.
  Proof.
    intros r o ds o' ds' H H'.
    assert (KN : forall i, kid f IDENT r = Some i -> name_of f r <> None) by (intros i K; unfold name_of; rewrite K; discriminate).
    assert (BP : forall b parts b' parts', body_parts f r b parts -> body_parts f r b' parts' -> b = b' /\ parts = parts').
    { intros b parts b' parts' (E & _ & a & EA & _ & EP) (E' & _ & a' & EA' & _ & EP'). rewrite E in E'. injection E' as <-.
      rewrite EA in EA'. injection EA' as <-. rewrite EP in EP'. split; [reflexivity|exact EP']. }
    assert (VF : forall s x s' x', variant_attr f r s x -> variant_attr f r s' x' -> s = s' /\ x = x') by (intros; eapply variant_fun; eassumption).
    destruct H; destruct H';
    try (split; reflexivity);
    try match goal with V : variant_attr f r ?s ?x, U : forall s x, ~ variant_attr f r s x |- _ => destruct (U s x V) end;
    try match goal with K : kid f IDENT r = Some ?i, N : name_of f r = None |- _ => destruct (KN i K N) end;
    try congruence;
    try match goal with V : variant_attr f r ?s ?x, V' : variant_attr f r ?s' ?x' |- _ =>
      destruct (VF _ _ _ _ V V') as (? & ?); subst; try discriminate; try contradiction end;
    try (split; reflexivity);
    try match goal with B : body_parts f r _ _, B' : body_parts f r _ _ |- _ => destruct (BP _ _ _ _ B B') as (X & Y); try (injection Y as ?); subst end;
    try (split; reflexivity);
    try match goal with B : body_parts f r _ _ |- _ => destruct B as (? & ? & ? & ? & ? & ?) end;
    try match goal with E : hd_error (exprs f r) = Some ?b, E' : hd_error (exprs f r) = Some ?b' |- _ =>
      tryif constr_eq b b' then fail else (rewrite E in E'; injection E' as ?; subst) end;
    try (split; reflexivity); try contradiction;
    try match goal with E : exprs f ?b = [_], N : length (exprs f ?b) <> 1 |- _ => rewrite E in N; destruct (N eq_refl) end;
    try match goal with E : exprs f ?b = [?a], E' : exprs f ?b = [?a'] |- _ => rewrite E in E'; injection E' as ?; subst end;
    try (split; reflexivity); try contradiction; try congruence;
    try match goal with K : kid f IDENT r = Some ?i, K' : kid f IDENT r = Some ?i' |- _ => rewrite K in K'; injection K' as ?; subst end;
    try (split; reflexivity); try contradiction; try (cbn [length] in *; congruence);
    (split; [congruence|reflexivity]).
  Qed.

  Lemma trait_refs_fun : forall n l l', trait_refs f n l -> trait_refs f n l' -> l = l'.
  Proof.
    intros n l l' (pre & post & E & N & C & ->) (pre' & post' & E' & N' & C' & ->). rewrite E in E'. f_equal. clear E.
    revert pre' E' N N'. induction pre as [|x pre IH]; intros [|y pre'] E' N N'; cbn in E'.
    - exact E'.
    - subst post. destruct (N' y (or_introl eq_refl) C).
    - subst post'. destruct (N x (or_introl eq_refl) C').
    - injection E' as -> E'. apply (IH pre' E'); intros z Z; [apply N|apply N']; right; exact Z.
  Qed.

  Lemma traits_mean_fun : forall l ts ds ts' ds', traits_mean f l ts ds -> traits_mean f l ts' ds' -> ts = ts' /\ ds = ds'.
  Proof.
    intros l ts ds ts' ds' H. revert ts' ds'. induction H as [|i l t ts ds L H IH|i l ts ds L H IH]; intros ts' ds' H'; inversion H'; subst.
    - split; reflexivity.
    - match goal with X : traits_mean f l _ _ |- _ => destruct (IH _ _ X) as (-> & ->) end.
      match goal with X : last_such _ _ ?t' |- _ => rewrite (last_such_fun _ _ _ _ _ L X) end. split; reflexivity.
    - match goal with X : none_such _ _ |- _ => destruct (last_not_none _ _ _ _ L X) end.
    - match goal with X : last_such _ _ _ |- _ => destruct (last_not_none _ _ _ _ X L) end.
    - match goal with X : traits_mean f l _ _ |- _ => destruct (IH _ _ X) as (-> & ->) end. split; reflexivity.
  Qed.

  Lemma selects_fun : forall s o o', selects f s o -> selects f s o' -> o = o'.
  Proof.
    intros s o o' H H'. destruct H; destruct H';
      try match goal with X : first_such ?P ?l _, Y : none_such ?P ?l |- _ => destruct (first_not_none _ _ _ _ X Y) end;
      try match goal with X : first_such ?P ?l _, Y : first_such ?P ?l _ |- _ => rewrite (first_such_fun _ _ _ _ _ X Y); reflexivity end;
      try reflexivity;
      match goal with X : _ = None \/ none_such ?P ?l, Y : first_such ?P ?l _ |- _ => destruct X as [X|X]; [congruence|destruct (first_not_none _ _ _ _ Y X)] end.
  Qed.

  Lemma method_means_fun : forall n o o', method_means f n o -> method_means f n o' -> o = o'.
  Proof.
    intros n o o' H H'. destruct H as [sel s c K N SE D|sel s t K N SE D|sel s c K N SE NT D|sel s K N SE];
      destruct H' as [sel' s' c' K' N' SE' D'|sel' s' t' K' N' SE' D'|sel' s' c' K' N' SE' NT' D'|sel' s' K' N' SE'];
      rewrite K in K'; injection K' as <-; rewrite (named_fun _ _ _ N N') in SE; pose proof (selects_fun _ _ _ SE SE') as E;
      try congruence; try discriminate E; injection E as <-; try reflexivity; try (destruct (NT _ eq_refl)); try (destruct (NT' _ eq_refl)).
  Qed.

  Lemma only_fun : forall l ds ds', used_once f l ds -> used_once f l ds' -> ds = ds'.
  Proof.
    intros l ds ds' H. revert ds'. induction H as [|b c l ds O H IH|b l ds O H IH]; intros ds' H'; inversion H' as [|? c' ? ds'' O' H''|? ? ? O' H'']; subst.
    - reflexivity.
    - rewrite (IH _ H''). destruct O as (A & B & C), O' as (A' & B' & C'). rewrite (C _ A' B'). reflexivity.
    - destruct (O' c O).
    - destruct (O c' O').
    - exact (IH _ H'').
  Qed.

  Lemma unused_fun : forall l ds ds', unused_rules f l ds -> unused_rules f l ds' -> ds = ds'.
  Proof.
    intros l ds ds' H. revert ds'. induction H as [|r i l ds HD NU K H IH|r l ds O H IH]; intros ds' H'; inversion H' as [|? i' ? ds'' HD' NU' K' H''|? ? ? O' H'']; subst.
    - reflexivity.
    - rewrite K in K'. injection K' as <-. rewrite (IH _ H''). reflexivity.
    - destruct O' as [X|[X|X]]; [destruct (HD X)|destruct (NU X)|unfold name_of in X; rewrite K in X; discriminate X].
    - destruct O as [X|[X|X]]; [destruct (HD' X)|destruct (NU' X)|unfold name_of in X; rewrite K' in X; discriminate X].
    - exact (IH _ H'').
  Qed.

  Lemma picks_fun : forall A (P : list A -> A -> Prop) pre l out out', picks P pre l out -> picks P pre l out' -> out = out'.
  Proof.
    intros A P pre l out out' H. revert out'. induction H as [pre|pre x l out Y H IH|pre x l out Y H IH]; intros out' H'; inversion H'; subst; try contradiction.
    - reflexivity.
    - f_equal. apply IH. assumption.
    - apply IH. assumption.
  Qed.

  (** What is reported about a key is determined. *)
  Lemma says_fun : forall k v ds v' ds', says f k v ds -> says f k v' ds' -> ds = ds'.
  Proof.
    intros k v ds v' ds' H H'. destruct k as [| | | |n|n|n|n|n]; cbn [says] in H, H'.
    - destruct H as (o & P & ->), H' as (o' & P' & ->). rewrite (picks_fun _ _ _ _ _ _ P P'). reflexivity.
    - destruct H as (o & P & F), H' as (o' & P' & F'). rewrite (picks_fun _ _ _ _ _ _ P P') in F. clear P P'. revert ds F.
      induction F' as [|r d o' ds' (i & K & ->) F' IH]; intros ds F; inversion F as [|? d' ? ds'' (i' & K' & ->) F'']; subst; [reflexivity|].
      rewrite K in K'. injection K' as <-. f_equal. exact (IH _ F'').
    - destruct H as (l & _ & L & U), H' as (l' & _ & L' & U'). rewrite (context_list_fun _ _ L L') in U. exact (only_fun _ _ _ U U').
    - exact (unused_fun _ _ _ H H').
    - destruct H as (o & _ & R & D), H' as (o' & _ & R' & D'). rewrite (resolves_fun f _ _ _ R R') in D.
      destruct D as [(-> & NC & ->)|([N|C] & ->)], D' as [(E' & NC' & ->)|([N'|C'] & ->)]; try reflexivity; try congruence; contradiction.
    - destruct H as (o & _ & M), H' as (o' & _ & M'). exact (proj2 (call_means_fun _ _ _ _ _ M M')).
    - destruct H as (o & _ & M), H' as (o' & _ & M'). exact (proj2 (pratt_means_fun _ _ _ _ _ M M')).
    - destruct H as (o & _ & _ & ->), H' as (o' & _ & _ & ->). reflexivity.
    - destruct H as (r & ts & _ & R & M), H' as (r' & ts' & _ & R' & M'). rewrite (trait_refs_fun _ _ _ R R') in M.
      exact (proj2 (traits_mean_fun _ _ _ _ _ M M')).
  Qed.
End Facts.
