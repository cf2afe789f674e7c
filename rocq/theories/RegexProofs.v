(** Proofs about regular expressions and the lexers made of them. *)
From Coq Require Import List Arith NArith Bool Lia.
From Verif Require Import Base BaseFacts TextModel EditModel LexModel LexSpec LexProofs TextSpec TextProofs ScanModel ScanSpec ScanProofs RegexModel RegexSpec.
Import ListNotations.

(** ** Characters *)
Lemma chars_all : forall s, concat (chars s) = s.
Proof.
  induction s as [|b s IH]; [reflexivity|]. destruct s as [|c s]; [reflexivity|].
  change (chars (b :: c :: s)) with (if is_cont c then match chars (c :: s) with [] => [[b]] | ch :: q => (b :: ch) :: q end else [b] :: chars (c :: s)).
  destruct (is_cont c).
  - destruct (chars (c :: s)) as [|ch q]; [discriminate IH|]. cbn [concat app] in *. rewrite IH. reflexivity.
  - cbn [concat app]. rewrite IH. reflexivity.
Qed.

Lemma chars_full : forall s, Forall (fun c => c <> []) (chars s).
Proof.
  induction s as [|b s IH]; [constructor|]. destruct s as [|c s]; [repeat constructor; discriminate|].
  change (chars (b :: c :: s)) with (if is_cont c then match chars (c :: s) with [] => [[b]] | ch :: q => (b :: ch) :: q end else [b] :: chars (c :: s)).
  destruct (is_cont c).
  - destruct (chars (c :: s)) as [|ch q]; [repeat constructor; discriminate|]. inversion IH; subst. constructor; [discriminate|assumption].
  - constructor; [discriminate|exact IH].
Qed.

Lemma utf8_chars : forall s, utf8 s -> exists cs, Forall utf8_char cs /\ s = concat cs /\ chars s = cs.
Proof.
  intros s (cs & F & ->). exists cs. split; [exact F|]. split; [reflexivity|]. apply chars_concat.
  eapply Forall_impl; [|exact F]. intros c H. exact (proj1 H).
Qed.

Lemma chars_app : forall w a, utf8 w -> utf8 a -> chars (w ++ a) = chars w ++ chars a.
Proof.
  intros w a W A. destruct (utf8_chars w W) as (cs & F & -> & ->). destruct (utf8_chars a A) as (ds & G & -> & ->).
  rewrite <- concat_app. apply chars_concat. apply Forall_app. split; eapply Forall_impl; try eassumption; intros c H; exact (proj1 H).
Qed.

(** A position after some of the characters lies between characters. *)
Lemma chars_aligned : forall s cs rest, utf8 s -> chars s = cs ++ rest -> aligned s (length (concat cs)).
Proof.
  intros s cs rest U E. destruct (utf8_chars s U) as (ds & F & -> & E'). rewrite E in E'. subst ds. rewrite concat_app.
  apply boundary_spec. apply boundary_at. exists rest. split; [|reflexivity]. apply Forall_app in F. exact (proj2 F).
Qed.

(** ** Regular expressions *)
Lemma star_round : forall U a s, matches U (Star a) s -> s <> [] ->
  exists x y, s = x ++ y /\ x <> [] /\ matches U a x /\ matches U (Star a) y.
Proof.
  intros U a s M. remember (Star a) as r eqn:E. revert E. induction M as [| | | | | |a' x y M1 IH1 M2 IH2]; intros E NE; try discriminate E.
  - congruence.
  - injection E as ->. destruct x as [|c x].
    + cbn [app] in *. auto.
    + exists (c :: x), y. repeat split; auto. discriminate.
Qed.

Lemma in_runs : forall U a (f : list bytes -> list (list bytes)),
  (forall s rest, In rest (f s) <-> exists cs, s = cs ++ rest /\ matches U a cs) ->
  forall fuel s rest, length s <= fuel ->
  (In rest (runs f fuel s) <-> exists cs, s = cs ++ rest /\ matches U (Star a) cs).
Proof.
  intros U a f F. induction fuel as [|n IH]; intros s rest L; cbn [runs].
  - destruct s; [|cbn in L; lia]. split.
    + intros [<-|[]]. exists []. split; [reflexivity|constructor].
    + intros (cs & E & _). destruct cs; [|discriminate E]. left. exact E.
  - rewrite in_app_iff, in_flat_map. split.
    + intros [(r & I & R)|[<-|[]]].
      * destruct (Nat.ltb_spec (length r) (length s)); [|destruct R]. apply F in I. destruct I as (x & -> & M).
        apply IH in R; [|lia]. destruct R as (y & -> & N). exists (x ++ y). rewrite app_assoc. split; [reflexivity|]. constructor; assumption.
      * exists []. split; [reflexivity|constructor].
    + intros (cs & E & M). destruct cs as [|c cs]; [right; left; exact E|left].
      destruct (star_round U a _ M) as (x & y & EX & NE & A & B); [discriminate|]. rewrite EX in E. rewrite <- app_assoc in E.
      exists (y ++ rest). split; [apply F; eauto|]. assert (length (y ++ rest) < length s).
      { rewrite E, app_length with (l := x). destruct x; [congruence|]. cbn. lia. }
      rewrite (proj2 (Nat.ltb_lt _ _) H). apply IH; [lia|]. exists y. auto.
Qed.

Lemma in_ends : forall U r s rest, In rest (ends U r s) <-> exists cs, s = cs ++ rest /\ matches U r cs.
Proof.
  intros U. induction r as [|k|a IHa b IHb|a IHa b IHb|a IHa]; intros s rest; cbn [ends].
  - split.
    + intros [<-|[]]. exists []. split; [reflexivity|constructor].
    + intros (cs & -> & M). inversion M; subst. left. reflexivity.
  - split.
    + destruct s as [|c s]; [intros []|]. destruct (in_set U k c) eqn:I; [|intros []]. intros [<-|[]]. exists [c]. split; [reflexivity|constructor; exact I].
    + intros (cs & -> & M). inversion M as [|? c I| | | | |]; subst. cbn [app]. rewrite I. left. reflexivity.
  - rewrite in_flat_map. split.
    + intros (m & I & J). apply IHa in I. destruct I as (x & -> & A). apply IHb in J. destruct J as (y & -> & B).
      exists (x ++ y). rewrite app_assoc. split; [reflexivity|]. constructor; assumption.
    + intros (cs & -> & M). inversion M as [| |? ? x y A B| | | |]; subst. exists (y ++ rest). split.
      * apply IHa. exists x. rewrite app_assoc. auto.
      * apply IHb. eauto.
  - rewrite in_app_iff, IHa, IHb. split.
    + intros [(cs & E & M)|(cs & E & M)]; exists cs; split; try exact E; [apply m_left|apply m_right]; exact M.
    + intros (cs & E & M). inversion M; subst; [left|right]; eauto.
  - apply in_runs; [exact IHa|lia].
Qed.

Lemma find_some : forall U r s n, find U r s = Some n -> exists cs rest, chars s = cs ++ rest /\ matches U r cs /\ n = length (concat cs).
Proof.
  intros U r s n H. unfold find in H. destruct (ends U r (chars s)) as [|rest l] eqn:E; [discriminate H|]. cbn in H. injection H as <-.
  assert (I : In rest (ends U r (chars s))) by (rewrite E; left; reflexivity). apply in_ends in I. destruct I as (cs & EC & M).
  exists cs, rest. split; [exact EC|]. split; [exact M|]. rewrite <- (chars_all s) at 1. rewrite EC, concat_app, app_length. lia.
Qed.

Lemma find_none : forall U r s, find U r s = None <-> forall cs rest, chars s = cs ++ rest -> ~ matches U r cs.
Proof.
  intros U r s. unfold find. split.
  - intros H cs rest E M. destruct (ends U r (chars s)) as [|x l] eqn:EE; [|discriminate H].
    assert (I : In rest (ends U r (chars s))) by (apply in_ends; eauto). rewrite EE in I. destruct I.
  - intros H. destruct (ends U r (chars s)) as [|rest l] eqn:E; [reflexivity|]. exfalso.
    assert (I : In rest (ends U r (chars s))) by (rewrite E; left; reflexivity). apply in_ends in I. destruct I as (cs & EC & M). eapply H; eauto.
Qed.

(** ** Candidates *)
Lemma try_rule_takes : forall U s r n, try_rule U s r = Ok (Some n) -> takes U r s n.
Proof.
  intros U s r n H. unfold try_rule in H. destruct (find U (r_re r) s) as [m|] eqn:F; [|discriminate H].
  destruct (find_some _ _ _ _ F) as (cs & rest & E & M & L). exists cs, rest. split; [exact E|]. split; [exact M|].
  destruct (r_f r); [exact H|]. injection H as <-. exact L.
Qed.

Lemma candidates_in : forall U s rules c, candidates U s rules = Ok c -> forall k n, In (k, n) c ->
  exists r, In (k, r) rules /\ try_rule U s r = Ok (Some n).
Proof.
  intros U s. induction rules as [|[k r] rules IH]; intros c H k' n I; cbn [candidates] in H.
  - injection H as <-. destruct I.
  - apply bind_ok in H. destruct H as (o & O & H). apply bind_ok in H. destruct H as (c' & C & H). injection H as <-. destruct o as [m|].
    + destruct I as [I|I].
      * injection I as <- <-. exists r. split; [left; reflexivity|exact O].
      * destruct (IH _ C _ _ I) as (r' & J & T). exists r'. split; [right; exact J|exact T].
    + destruct (IH _ C _ _ I) as (r' & J & T). exists r'. split; [right; exact J|exact T].
Qed.

Lemma candidates_all : forall U s rules c, candidates U s rules = Ok c -> forall k r, In (k, r) rules ->
  exists o, try_rule U s r = Ok o /\ forall n, o = Some n -> In (k, n) c.
Proof.
  intros U s. induction rules as [|[k r] rules IH]; intros c H k' r' I; [destruct I|]. cbn [candidates] in H.
  apply bind_ok in H. destruct H as (o & O & H). apply bind_ok in H. destruct H as (c' & C & H). injection H as <-. destruct I as [I|I].
  - injection I as <- <-. exists o. split; [exact O|]. intros n ->. left. reflexivity.
  - destruct (IH _ C _ _ I) as (o' & O' & T). exists o'. split; [exact O'|]. intros n N. destruct o; [right|]; apply T; exact N.
Qed.

Lemma candidates_same : forall U s s' rules, (forall k r, In (k, r) rules -> try_rule U s' r = try_rule U s r) ->
  candidates U s' rules = candidates U s rules.
Proof.
  intros U s s'. induction rules as [|[k r] rules IH]; intros H; cbn [candidates]; [reflexivity|].
  rewrite (H k r (or_introl eq_refl)), IH; [reflexivity|]. intros k' r' I. apply (H k'). right. exact I.
Qed.

(** ** Kinds *)
Lemma numbered_ok : forall rules tys, (N.of_nat (length tys + length rules) <= 65536)%N ->
  fst (numbered tys rules) = tys ++ map r_ty rules /\
  forall k r, In (k, r) (snd (numbered tys rules)) -> In r rules /\ nth_error (tys ++ map r_ty rules) (N.to_nat k) = Some (r_ty r).
Proof.
  induction rules as [|r rules IH]; intros tys L; cbn [numbered map length] in *.
  - split; [rewrite app_nil_r; reflexivity|]. intros k r [].
  - destruct (numbered (tys ++ [r_ty r]) rules) as [tys' l] eqn:E. destruct (IH (tys ++ [r_ty r])) as [A B].
    { rewrite app_length. cbn [length]. replace (length tys + 1 + length rules) with (length tys + S (length rules)) by lia. exact L. }
    rewrite E in A, B. cbn [fst snd] in *. rewrite <- app_assoc in *. cbn [app] in *. split; [exact A|].
    intros k r' [I|I].
    + injection I as <- <-. split; [left; reflexivity|]. rewrite N.mod_small by lia. rewrite Nnat.Nat2N.id.
      rewrite nth_error_app2 by lia. rewrite Nat.sub_diag. reflexivity.
    + destruct (B _ _ I) as [B1 B2]. split; [right; exact B1|exact B2].
Qed.

Lemma numbered_rules : forall rules tys, map snd (snd (numbered tys rules)) = rules.
Proof.
  induction rules as [|r rules IH]; intros tys; cbn [numbered]; [reflexivity|].
  specialize (IH (tys ++ [r_ty r])). destruct (numbered (tys ++ [r_ty r]) rules) as [tys' l]. cbn [snd map] in *. rewrite IH. reflexivity.
Qed.

Lemma rule_kind : forall rules r, In r rules -> exists k, In (k, r) (snd (new_lexer rules)).
Proof.
  intros rules r I. rewrite <- (numbered_rules rules [ERROR]) in I. apply in_map_iff in I. destruct I as ([k r'] & E & I).
  cbn [snd] in E. subst r'. exists k. exact I.
Qed.

Definition few (rules : list lex_rule) : Prop := (N.of_nat (length rules) < 65536)%N.

Lemma new_lexer_ok : forall rules, few rules ->
  fst (new_lexer rules) = ERROR :: map r_ty rules /\
  forall k r, In (k, r) (snd (new_lexer rules)) -> In r rules /\ nth_error (ERROR :: map r_ty rules) (N.to_nat k) = Some (r_ty r).
Proof. intros rules F. unfold few in F. apply (numbered_ok rules [ERROR]). cbn [length]. lia. Qed.

(** What [next_token] returns. *)
Lemma next_token_cases : forall U pick err rules s t, few rules -> picks pick -> next_token U pick err rules s = Ok t ->
  (exists r, In r rules /\ tk_ty t = r_ty r /\ takes U r s (tk_len t))
  \/ (t = mkTok ERROR (err s) /\ forall r, In r rules -> try_rule U s r = Ok None).
Proof.
  intros U pick err rules s t F P H. unfold next_token in H. destruct (new_lexer_ok rules F) as [T K].
  pose proof (rule_kind rules) as RK. destruct (new_lexer rules) as [tys l]. cbn [fst snd] in *. subst tys.
  apply bind_ok in H. destruct H as ([k n] & M & H). unfold m_next in M. apply bind_ok in M. destruct M as (c & C & M). injection M as M.
  destruct c as [|x c].
  - injection M as <- <-. cbn [N.to_nat nth_error unwrap bind] in H. injection H as <-. right. split; [reflexivity|].
    intros r I. destruct (RK r I) as (k & J). destruct (candidates_all _ _ _ _ C _ _ J) as (o & O & A). rewrite O. destruct o as [m|]; [destruct (A m eq_refl)|reflexivity].
  - pose proof (P (x :: c)) as I. rewrite M in I. specialize (I ltac:(discriminate)).
    destruct (candidates_in _ _ _ _ C _ _ I) as (r & J & O). destruct (K _ _ J) as [R N]. rewrite N in H. cbn [unwrap bind] in H. injection H as <-.
    left. exists r. split; [exact R|]. split; [reflexivity|]. cbn [tk_len]. apply try_rule_takes. exact O.
Qed.

Lemma try_panics : forall U rules s, (forall r, In r rules -> exists o, try_rule U s r = Ok o) -> forall l, map snd l = rules ->
  exists c, candidates U s l = Ok c.
Proof.
  intros U rules s H l. revert rules H. induction l as [|[k r] l IH]; intros rules H E; cbn [candidates]; [eauto|]. subst rules. cbn [map snd] in H.
  destruct (H r (or_introl eq_refl)) as (o & ->). destruct (IH (map snd l)) as (c & ->); [|reflexivity|cbn [bind]; eauto].
  intros r' I. apply H. right. exact I.
Qed.

Lemma next_token_total : forall U pick err rules s, few rules -> picks pick -> (forall r, In r rules -> exists o, try_rule U s r = Ok o) ->
  exists t, next_token U pick err rules s = Ok t.
Proof.
  intros U pick err rules s F P H. unfold next_token. destruct (new_lexer_ok rules F) as [T K].
  pose proof (numbered_rules rules [ERROR]) as NR. fold (new_lexer rules) in NR. destruct (new_lexer rules) as [tys l]. cbn [fst snd] in *. subst tys.
  destruct (try_panics U rules s H l NR) as (c & C). unfold m_next. rewrite C. cbn [bind]. destruct c as [|x c]; [cbn; eauto|].
  pose proof (P (x :: c) ltac:(discriminate)) as I. destruct (pick (x :: c)) as [k n].
  destruct (candidates_in _ _ _ _ C _ _ I) as (r & J & O). destruct (K _ _ J) as [R N]. rewrite N. cbn [unwrap bind]. eauto.
Qed.

Lemma longest_fold : forall c b, In (fold_left longer c b) (b :: c) /\ forall x, In x (b :: c) -> snd x <= snd (fold_left longer c b).
Proof.
  induction c as [|x c IH]; intros b; cbn [fold_left].
  - split; [left; reflexivity|]. intros x [<-|[]]. lia.
  - destruct (IH (longer b x)) as [A B]. split.
    + destruct A as [A|A]; [|right; right; exact A]. rewrite <- A. unfold longer. destruct (snd b <? snd x); [right; left|left]; reflexivity.
    + assert (LB : snd b <= snd (longer b x) /\ snd x <= snd (longer b x)) by (unfold longer; destruct (Nat.ltb_spec (snd b) (snd x)); cbn; lia).
      pose proof (B (longer b x) (or_introl eq_refl)). intros y [<-|[<-|I]]; [lia|lia|apply B; right; exact I].
Qed.

Lemma longest_picks : picks longest.
Proof. intros [|x c] NE; [congruence|]. exact (proj1 (longest_fold c x)). Qed.

Lemma longest_max : forall c x, In x c -> snd x <= snd (longest c).
Proof. intros [|y c] x I; [destruct I|]. exact (proj2 (longest_fold c y) x I). Qed.
