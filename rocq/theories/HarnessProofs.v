(** Splitting, trimming, and the textual forms of trees under them. *)
From Coq Require Import List Arith Bool Lia.
From Verif Require Import Base BaseFacts TextModel TextSpec TextProofs TreeModel TreeSpec LexModel ScanModel ScanSpec RegexProofs AnalysisModel AnalysisSpec DumpModel DumpSpec DumpProofs HarnessModel HarnessSpec.
Import ListNotations.
Open Scope list_scope.

(** ** Splitting *)

Lemma is_prefix_app : forall p r, is_prefix p (p ++ r) = true.
Proof. intros p r. apply is_prefix_spec. exists r. reflexivity. Qed.

Lemma occurs_find : forall n s i, occurs n s i <-> i <= length s /\ is_prefix n (skipn i s) = true.
Proof.
  intros n s i. split.
  - intros (a & b & -> & <-). split; [rewrite !app_length; lia|]. rewrite skipn_app, skipn_all, Nat.sub_diag. cbn [app skipn]. apply is_prefix_app.
  - intros (L & P). apply is_prefix_spec in P. destruct P as (b & E). exists (firstn i s), b. split; [rewrite <- E; symmetry; apply firstn_skipn|]. apply firstn_length_le. exact L.
Qed.

Lemma occurs_none : forall n s, (forall j, ~ occurs n s j) <-> find_sub n s = None.
Proof.
  intros n s. split.
  - intros H. destruct (find_sub n s) as [i|] eqn:F; [|reflexivity]. destruct (find_sub_some _ _ _ F) as (A & B & _). exfalso. apply (H i). apply occurs_find. auto.
  - intros F j O. apply occurs_find in O. destruct O as (A & B). rewrite (find_sub_none _ _ F j A) in B. discriminate B.
Qed.

Definition clean (t : bytes) : Prop := forall j, ~ occurs stars (t ++ [10]) j.

Lemma overlap : forall k, 0 < k < 10 -> forall r, is_prefix stars (skipn k (stars ++ r)) = false.
Proof. intros k K r. do 10 (destruct k as [|k]; [try lia; reflexivity|]). lia. Qed.

Lemma stars_find : forall t r, clean t -> find_sub stars (t ++ stars ++ r) = Some (length t).
Proof.
  intros t r C. apply find_sub_first.
  - rewrite !app_length. lia.
  - rewrite skipn_app, skipn_all, Nat.sub_diag. cbn [skipn app]. apply is_prefix_app.
  - intros j J. destruct (is_prefix stars (skipn j (t ++ stars ++ r))) eqn:P; [exfalso|reflexivity].
    destruct (le_lt_dec (j + 11) (S (length t))) as [IN|OUT].
    + apply (C j). apply occurs_find. split; [rewrite app_length; cbn [length]; lia|]. apply is_prefix_spec in P. destruct P as (b & E).
      assert (Q : firstn 11 (skipn j (t ++ stars ++ r)) = stars) by (rewrite E; reflexivity).
      replace (t ++ stars ++ r) with ((t ++ [10]) ++ tl stars ++ r) in Q by (rewrite <- app_assoc; reflexivity). rewrite skipn_app, firstn_app in Q.
      assert (LL : length (skipn j (t ++ [10])) = S (length t) - j) by (rewrite skipn_length, app_length; cbn [length]; lia).
      replace (11 - length (skipn j (t ++ [10]))) with 0 in Q by lia. rewrite firstn_O, app_nil_r in Q. rewrite <- (firstn_skipn 11 (skipn j (t ++ [10]))), Q. apply is_prefix_app.
    + (* the occurrence would end inside the separator *)
      pose proof P as P'. apply is_prefix_spec in P'. destruct P' as (b & E). set (k := length t - j).
      assert (K : 0 < k < 10) by (unfold k; lia).
      assert (Q : skipn k stars ++ b = stars ++ r).
      { assert (S1 : skipn k (skipn j (t ++ stars ++ r)) = stars ++ r).
        { rewrite skipn_skipn. replace (j + k) with (length t) by (unfold k; lia). rewrite skipn_app, skipn_all, Nat.sub_diag. reflexivity. }
        rewrite E, skipn_app in S1. replace (k - length stars) with 0 in S1 by (cbn [length stars]; lia). exact S1. }
      pose proof (f_equal (firstn (11 - k)) Q) as Q'. rewrite firstn_app in Q'. rewrite skipn_length in Q'. replace (11 - k - (length stars - k)) with 0 in Q' by (cbn [length stars]; lia).
      rewrite firstn_O, app_nil_r in Q'. clear - K Q'. do 10 (destruct k as [|k]; [try lia; cbn in Q'; discriminate Q'|]). lia.
Qed.

Lemma split_join : forall front last fuel, Forall clean front -> (forall j, ~ occurs stars last j) -> length (join stars (front ++ [last])) <= fuel ->
  split_loop fuel stars (join stars (front ++ [last])) = front ++ [last].
Proof.
  intros front last. induction front as [|t front IH]; intros fuel C NL LE.
  - cbn [app join]. destruct fuel as [|fuel]; [reflexivity|]. cbn [split_loop]. rewrite (proj1 (occurs_none _ _) NL). reflexivity.
  - apply Forall_cons_iff in C. destruct C as (C1 & C2).
    assert (J : join stars ((t :: front) ++ [last]) = t ++ stars ++ join stars (front ++ [last])).
    { cbn [app join]. destruct (front ++ [last]) eqn:Z; [destruct front; discriminate Z|reflexivity]. }
    rewrite J in *. rewrite !app_length in LE. change (length stars) with 11 in LE. destruct fuel as [|fuel]; [lia|]. cbn [split_loop].
    rewrite (stars_find t _ C1). rewrite firstn_app, firstn_all, Nat.sub_diag. cbn [firstn app]. rewrite app_nil_r. f_equal.
    replace (skipn (length t + length stars) (t ++ stars ++ join stars (front ++ [last]))) with (join stars (front ++ [last])).
    2:{ rewrite app_assoc, skipn_app, skipn_all2 by (rewrite app_length; lia). rewrite app_length, Nat.sub_diag. reflexivity. }
    apply IH; [exact C2|exact NL|lia].
Qed.

Lemma split_separable : forall fuel s, length s <= fuel -> separable (split_loop fuel stars s).
Proof.
  induction fuel as [|fuel IH]; intros s LE; cbn [split_loop].
  - exists [], s. split; [reflexivity|]. split; [|constructor]. destruct s; [|cbn in LE; lia]. apply occurs_none. reflexivity.
  - destruct (find_sub stars s) as [i|] eqn:F.
    2:{ exists [], s. split; [reflexivity|]. split; [apply occurs_none; exact F|constructor]. }
    destruct (find_sub_some _ _ _ F) as (A & B & NB). apply is_prefix_spec in B. destruct B as (r & B).
    assert (LS : length (skipn i s) = 11 + length r) by (rewrite B, app_length; reflexivity). rewrite skipn_length in LS.
    destruct (IH (skipn (i + length stars) s)) as (front & last & E & NL & C); [rewrite skipn_length; change (length stars) with 11; lia|].
    exists (firstn i s :: front), last. rewrite E. split; [reflexivity|]. split; [exact NL|]. constructor; [|exact C].
    intros j O. apply occurs_find in O. destruct O as (J & P). rewrite app_length, firstn_length_le in J by exact A. cbn [length] in J.
    assert (PL : j + 11 <= i + 1).
    { apply is_prefix_spec in P. destruct P as (b & E'). apply (f_equal (@length nat)) in E'. rewrite skipn_length, !app_length, firstn_length_le in E' by exact A. cbn [length stars] in E'. lia. }
    assert (NJ : is_prefix stars (skipn j s) = false) by (apply NB; lia).
    assert (E2 : s = (firstn i s ++ [10]) ++ tl stars ++ r).
    { rewrite <- app_assoc. transitivity (firstn i s ++ skipn i s); [symmetry; apply firstn_skipn|]. rewrite B. reflexivity. }
    rewrite E2, skipn_app in NJ. apply is_prefix_spec in P. destruct P as (b & P). rewrite P in NJ. rewrite <- app_assoc in NJ. rewrite is_prefix_app in NJ. discriminate NJ.
Qed.

Lemma split_iff : forall ts, split stars (join stars ts) = ts <-> separable ts.
Proof.
  intros ts. split.
  - intros E. rewrite <- E. apply split_separable. apply Nat.le_refl.
  - intros (front & last & -> & NL & C). apply split_join; [exact C|exact NL|apply Nat.le_refl].
Qed.

(** ** Trimming *)

Lemma drop_is : forall p cs, drop_while p cs = drop_ws p cs.
Proof. intros p cs. induction cs as [|c cs IH]; [reflexivity|]. cbn. rewrite IH. reflexivity. Qed.
Lemma trim_is : forall space s, trim_str space s = concat (strip space (chars s)).
Proof. intros space s. unfold trim_str, strip. rewrite !drop_is. reflexivity. Qed.

Lemma drop_spaces : forall p a cs, Forall (fun c => p c = true) a -> drop_while p (a ++ cs) = drop_while p cs.
Proof. intros p a cs H. induction H as [|c a E _ IH]; [reflexivity|]. cbn. rewrite E. exact IH. Qed.
Lemma drop_split : forall p cs, exists a, cs = a ++ drop_while p cs /\ Forall (fun c => p c = true) a.
Proof.
  intros p cs. induction cs as [|c cs (a & E & F)]; [exists []; split; [reflexivity|constructor]|]. cbn. destruct (p c) eqn:P.
  - exists (c :: a). split; [cbn; rewrite <- E; reflexivity|constructor; assumption].
  - exists []. split; [reflexivity|constructor].
Qed.
Definition trimmed (p : bytes -> bool) (cs : list bytes) : list bytes := rev (drop_while p (rev (drop_while p cs))).
Lemma trimmed_split : forall p cs, exists a b, cs = a ++ trimmed p cs ++ b /\ Forall (fun c => p c = true) a /\ Forall (fun c => p c = true) b.
Proof.
  intros p cs. destruct (drop_split p cs) as (a & E & A). destruct (drop_split p (rev (drop_while p cs))) as (b & E2 & B).
  exists a, (rev b). split; [|split; [exact A|apply Forall_rev; exact B]]. unfold trimmed. rewrite <- rev_app_distr, <- E2, rev_involutive. exact E.
Qed.

(** The end of what is left does not depend on the spaces. *)
Lemma drop_end : forall p x b, Forall (fun c => p c = true) b -> exists b', Forall (fun c => p c = true) b' /\ drop_while p (x ++ b) = drop_while p x ++ b'.
Proof.
  intros p x b B. induction x as [|c x (b' & F & E)]; cbn [app drop_while].
  - exists []. split; [constructor|]. rewrite <- (app_nil_r b), drop_spaces by exact B. reflexivity.
  - destruct (p c); [exists b'; auto|]. exists b. split; [exact B|reflexivity].
Qed.
Lemma trimmed_core : forall p a core b, Forall (fun c => p c = true) a -> Forall (fun c => p c = true) b -> trimmed p (a ++ core ++ b) = trimmed p core.
Proof.
  intros p a core b A B. unfold trimmed. rewrite drop_spaces by exact A. destruct (drop_end p core b B) as (b' & F & ->). rewrite rev_app_distr, drop_spaces by (apply Forall_rev; exact F). reflexivity.
Qed.

Lemma utf8_valid : forall s, utf8 s -> Forall valid_char (chars s).
Proof.
  intros s U. destruct (utf8_chars s U) as (cs & F & E & ->). eapply Forall_impl; [|exact F]. intros c (V & _). exact V.
Qed.

Lemma trim_same : forall space s t, utf8 s -> utf8 t -> (trim_str space s = trim_str space t <-> same_inside space s t).
Proof.
  intros space s t US UT. unfold trim_str. fold (trimmed space (chars s)). fold (trimmed space (chars t)).
  destruct (trimmed_split space (chars s)) as (a & b & E & A & B). destruct (trimmed_split space (chars t)) as (a' & b' & E' & A' & B'). split.
  - intros H. assert (Q : trimmed space (chars s) = trimmed space (chars t)).
    { pose proof (utf8_valid s US) as V. rewrite E in V. apply Forall_app in V. destruct V as (_ & V). apply Forall_app in V. destruct V as (V & _).
      pose proof (utf8_valid t UT) as W. rewrite E' in W. apply Forall_app in W. destruct W as (_ & W). apply Forall_app in W. destruct W as (W & _).
      rewrite <- (chars_concat _ V), <- (chars_concat _ W), H. reflexivity. }
    exists a, b, a', b', (trimmed space (chars s)). split; [exact E|]. split; [rewrite Q; exact E'|]. rewrite !Forall_app. auto.
  - intros (x & y & x' & y' & core & X & Y & F). rewrite !Forall_app in F. destruct F as (F1 & F2 & F3 & F4). rewrite X, Y, !trimmed_core by assumption. reflexivity.
Qed.

Lemma chars_app_ascii : forall a b s, is_cont b = false -> chars (a ++ b :: s) = chars a ++ chars (b :: s).
Proof.
  induction a as [|x a IH]; intros b s N; [reflexivity|]. destruct a as [|y a].
  - cbn [app]. cbn [chars]. rewrite N. reflexivity.
  - specialize (IH b s N). cbn [app] in *. change (chars (x :: y :: a ++ b :: s)) with (if is_cont y then match chars (y :: a ++ b :: s) with [] => [[x]] | ch :: r => (x :: ch) :: r end else [x] :: chars (y :: a ++ b :: s)).
    rewrite IH. change (chars (x :: y :: a)) with (if is_cont y then match chars (y :: a) with [] => [[x]] | ch :: r => (x :: ch) :: r end else [x] :: chars (y :: a)).
    destruct (is_cont y); [|reflexivity]. destruct (chars (y :: a)) as [|ch r] eqn:C; [|reflexivity]. exfalso. pose proof (chars_all (y :: a)) as Z. rewrite C in Z. discriminate Z.
Qed.

(** ** Textual forms of trees *)

Definition visible (b : nat) : Prop := 33 <= b <= 126.
Lemma visible_not_cont : forall b, visible b -> is_cont b = false.
Proof. intros b (A & B). unfold is_cont. apply andb_false_iff. left. apply Nat.leb_gt. lia. Qed.

(** A line: not empty, without line break, its last byte is visible. *)
Definition line (l : bytes) : Prop := ~ In 10 l /\ exists m y, l = m ++ [y] /\ visible y.
Definition lines_of (ls : list bytes) : bytes := flat_map (fun l => l ++ [10]) ls.

Section Lines.
  Variables (name : nat -> bytes) (ws : nat -> bool) (debug : bytes -> bytes) (f : file) (known : nat -> Prop).
  Hypothesis NM : forall t, known t -> name t <> [] /\ Forall visible (name t).
  Hypothesis DB : forall s, exists m, debug s = 34 :: m ++ [34] /\ ~ In 10 m.
  Hypothesis KN : forall n, valid f n -> known (ty f n).
  Hypothesis KV : forall n k, valid f n -> In k (kids f n) -> valid f k.

  Lemma visible_in : forall l, Forall visible l -> ~ In 10 l.
  Proof. intros l F I. rewrite Forall_forall in F. specialize (F _ I). destruct F. lia. Qed.
  Lemma name_end : forall t, known t -> exists m y, name t = m ++ [y] /\ visible y.
  Proof.
    intros t K. destruct (NM t K) as (NE & F). destruct (exists_last NE) as (m & y & E). exists m, y. split; [exact E|]. rewrite E in F. apply Forall_app in F. destruct F as (_ & F). inversion F; assumption.
  Qed.
  Lemma spaces_in : forall k, ~ In 10 (repeat 32 k).
  Proof. intros k I. apply repeat_spec in I. discriminate I. Qed.

  Lemma dumped_form : forall shown level n b, dumped name ws debug f shown level n b -> valid f n ->
    (b = [] /\ shown = false /\ ws (ty f n) = true) \/ exists l ls, b = lines_of (l :: ls) /\ line l /\ Forall line ls /\
      exists x m, l = repeat 32 (2 * level) ++ x :: m /\ visible x /\ (match m with [] => True | y :: _ => y < 128 end).
  Proof.
    intros shown. fix IH 4. intros level n b D VN. destruct D as [level n E W|level n E K|level n ls E K F].
    - left. auto.
    - right. destruct (DB (str f n)) as (m & DE & DN). destruct (name_end _ (KN n VN)) as (nm & y & NE & V). destruct (NM _ (KN n VN)) as (_ & FV).
      exists (repeat 32 (2 * level) ++ name (ty f n) ++ [32] ++ debug (str f n)), []. split; [unfold lines_of; cbn [flat_map]; rewrite app_nil_r, <- !app_assoc; reflexivity|].
      split.
      { split.
        - rewrite !in_app_iff. intros [I|[I|[I|I]]]; [exact (spaces_in _ I)|exact (visible_in _ FV I)|destruct I as [I|[]]; discriminate I|].
          rewrite DE in I. destruct I as [I|I]; [discriminate I|]. apply in_app_iff in I. destruct I as [I|[I|[]]]; [exact (DN I)|discriminate I].
        - rewrite DE. exists (repeat 32 (2 * level) ++ name (ty f n) ++ [32] ++ 34 :: m), 34. split; [rewrite <- !app_assoc; reflexivity|unfold visible; lia]. }
      split; [constructor|]. destruct (name (ty f n)) as [|x r]; [destruct nm; discriminate NE|]. inversion FV; subst. exists x, (r ++ [32] ++ debug (str f n)).
      split; [reflexivity|]. split; [assumption|]. destruct r as [|z r]; cbn; [lia|]. inversion H2; subst. unfold visible in *. lia.
    - right. destruct (name_end _ (KN n VN)) as (nm & y & NE & V). destruct (NM _ (KN n VN)) as (_ & FV).
      assert (G : exists rest, concat ls = lines_of rest /\ Forall line rest).
      { assert (VK : forall k, In k (kids f n) -> valid f k) by (intros k; apply KV; exact VN). clear -IH F VK. revert F VK. generalize (kids f n). intros ks0. revert ks0 ls. fix IHF 3. intros ks0 ls0 F VK. destruct F as [|k b ks bs D F]; [exists []; split; [reflexivity|constructor]|].
        destruct (IHF ks bs F (fun k J => VK k (or_intror J))) as (rest & E & FL). destruct (IH _ _ _ D (VK _ (or_introl eq_refl))) as [(-> & _)|(l & ls & -> & L1 & L2 & _)].
        - exists rest. auto.
        - exists ((l :: ls) ++ rest). split; [unfold lines_of in *; rewrite flat_map_app; cbn [concat]; rewrite E; reflexivity|]. apply Forall_app. split; [constructor; assumption|exact FL]. }
      destruct G as (rest & GE & GL). exists (repeat 32 (2 * level) ++ name (ty f n)), rest. split; [unfold lines_of; cbn [flat_map]; fold (lines_of rest); rewrite GE, <- !app_assoc; reflexivity|].
      split.
      { split; [rewrite in_app_iff; intros [I|I]; [exact (spaces_in _ I)|exact (visible_in _ FV I)]|]. exists (repeat 32 (2 * level) ++ nm), y. rewrite NE, app_assoc. auto. }
      split; [exact GL|]. destruct (name (ty f n)) as [|x r]; [destruct nm; discriminate NE|]. inversion FV; subst. exists x, r. split; [reflexivity|]. split; [assumption|].
      destruct r as [|z r]; [exact I|]. inversion H2; subst. unfold visible in *. lia.
  Qed.
End Lines.

Lemma lines_inj : forall ls ls' r r', Forall (fun l => ~ In 10 l) ls -> Forall (fun l => ~ In 10 l) ls' -> length ls = length ls' -> lines_of ls ++ r = lines_of ls' ++ r' -> ls = ls' /\ r = r'.
Proof.
  induction ls as [|l ls IH]; intros [|l' ls'] r r' F F' LEN E; try discriminate LEN; [auto|]. inversion F as [|a x F1 F2]; subst. inversion F' as [|a x F1' F2']; subst.
  unfold lines_of in E. cbn [flat_map] in E. rewrite <- !app_assoc in E. cbn [app] in E. destruct (line_inj l l' _ _ F1 F1' E) as (-> & E2).
  destruct (IH ls' r r' F2 F2') as (-> & ->); [injection LEN; auto|exact E2|]. auto.
Qed.

(** Blocks of lines with blank lines after them can be told apart. *)
Lemma blocks_step : forall ls ls' r r', Forall line ls -> Forall line ls' -> lines_of ls ++ [10; 10] ++ r = lines_of ls' ++ [10; 10] ++ r' -> ls = ls' /\ r = r'.
Proof.
  induction ls as [|l ls IH]; intros [|l' ls'] r r' F F' E.
  - cbn in E. injection E as ->. auto.
  - exfalso. inversion F' as [|a x (N & m & y & -> & V) F2]; subst. unfold lines_of in E. cbn [flat_map app] in E. destruct m as [|z m]; cbn in E; injection E as E _; [destruct V; lia|]. apply N. left. symmetry. exact E.
  - exfalso. inversion F as [|a x (N & m & y & -> & V) F2]; subst. unfold lines_of in E. cbn [flat_map app] in E. destruct m as [|z m]; cbn in E; injection E as E _; [destruct V; lia|]. apply N. left. exact E.
  - inversion F as [|a x F1 F2]; subst. inversion F' as [|a x F1' F2']; subst. unfold lines_of in E. cbn [flat_map] in E. rewrite <- !app_assoc in E. cbn [app] in E.
    destruct (line_inj l l' _ _ (proj1 F1) (proj1 F1') E) as (-> & E2). destruct (IH ls' r r' F2 F2' E2) as (-> & ->). auto.
Qed.

(** Trimming takes exactly the last line break away. *)
Lemma trim_lines : forall space l ls, space_ok space -> line l -> Forall line ls -> (exists x m, l = x :: m /\ visible x /\ match m with [] => True | y :: _ => y < 128 end) ->
  trim_str space (lines_of (l :: ls)) ++ [10] = lines_of (l :: ls).
Proof.
  intros space l ls (SN & SV) L1 L2 (x & m & E & VX & AM).
  assert (H : exists r y, lines_of (l :: ls) = r ++ [y; 10] /\ visible y).
  { clear - L1 L2. revert l L1. induction ls as [|k ls IH]; intros l (_ & r & y & -> & V).
    - exists r, y. split; [unfold lines_of; cbn [flat_map]; rewrite app_nil_r, <- app_assoc; reflexivity|exact V].
    - inversion L2; subst. destruct (IH ltac:(assumption) k ltac:(assumption)) as (r' & z & E & VZ). exists (((r ++ [y]) ++ [10]) ++ r'), z.
      unfold lines_of in *. change (flat_map (fun l => l ++ [10]) ((r ++ [y]) :: k :: ls)) with (((r ++ [y]) ++ [10]) ++ flat_map (fun l => l ++ [10]) (k :: ls)). rewrite E, <- !app_assoc. auto. }
  destruct H as (r & y & EB & VY).
  assert (HD : exists cs, chars (lines_of (l :: ls)) = [x] :: cs).
  { unfold lines_of. cbn [flat_map]. rewrite E. cbn [app]. destruct m as [|z m]; cbn [app].
    - exists (chars (10 :: flat_map (fun l => l ++ [10]) ls)). reflexivity.
    - eexists. cbn [chars]. assert (Z : is_cont z = false) by (unfold is_cont; apply andb_false_iff; left; apply Nat.leb_gt; lia). rewrite Z. reflexivity. }
  destruct HD as (cs & HD). unfold trim_str. rewrite HD. cbn [drop_while]. rewrite (SV x VX). rewrite <- HD.
  assert (CE : chars (lines_of (l :: ls)) = (chars r ++ [[y]]) ++ [[10]]).
  { rewrite EB, (chars_app_ascii r y [10] (visible_not_cont _ VY)). cbn [chars]. change (is_cont 10) with false. cbn iota. rewrite <- app_assoc. reflexivity. }
  rewrite CE, rev_app_distr. cbn [rev app drop_while]. rewrite SN. rewrite rev_app_distr. cbn [rev app drop_while]. rewrite (SV y VY). cbn [rev]. rewrite rev_involutive.
  rewrite EB. rewrite concat_app, chars_all. cbn [concat app]. rewrite <- app_assoc. reflexivity.
Qed.

(** ** Sections of recorded tests *)

(** Characters are found again in any run of them, also in texts that are not UTF-8. *)
Definition tail_ok (c : bytes) : Prop := match c with [] => False | x :: r => is_cont x = false /\ Forall (fun b => is_cont b = true) r end.
Definition head_ok (c : bytes) : Prop := match c with [] => False | _ :: r => Forall (fun b => is_cont b = true) r end.
Definition chunked (cs : list bytes) : Prop := match cs with [] => True | c :: r => head_ok c /\ Forall tail_ok r end.

Lemma chunked_chars : forall s, chunked (chars s).
Proof.
  induction s as [|x s IH]; [exact I|]. destruct s as [|y s]; [cbn; auto|].
  change (chars (x :: y :: s)) with (if is_cont y then match chars (y :: s) with [] => [[x]] | ch :: r => (x :: ch) :: r end else [x] :: chars (y :: s)).
  assert (H : exists r R, chars (y :: s) = (y :: r) :: R).
  { destruct (chars (y :: s)) as [|c R] eqn:C; [exfalso; pose proof (chars_all (y :: s)) as Z; rewrite C in Z; discriminate Z|].
    destruct c as [|z r]; [destruct IH as (H & _); destruct H|]. exists r, R. pose proof (chars_all (y :: s)) as Z. rewrite C in Z. cbn [concat app] in Z. injection Z as -> _. reflexivity. }
  destruct H as (r & R & C). rewrite C in *. destruct IH as (H1 & H2). destruct (is_cont y) eqn:Y.
  - split; [cbn; constructor; [exact Y|exact H1]|exact H2].
  - split; [cbn; constructor|]. constructor; [split; [exact Y|exact H1]|exact H2].
Qed.

Lemma tail_head : forall c, tail_ok c -> head_ok c.
Proof. intros [|x r] H; [exact H|exact (proj2 H)]. Qed.

Lemma chunked_mid : forall a m b, chunked (a ++ m ++ b) -> chunked m.
Proof.
  intros a m b H. destruct m as [|c m]; [exact I|]. destruct a as [|x a]; cbn [app chunked] in H; destruct H as (H1 & H2).
  - split; [exact H1|]. rewrite Forall_app in H2. apply H2.
  - rewrite Forall_app in H2. destruct H2 as (_ & H2). apply Forall_cons_iff in H2. destruct H2 as (H2 & H3). rewrite Forall_app in H3. split; [apply tail_head; exact H2|apply H3].
Qed.

Lemma chars_one : forall r x, Forall (fun b => is_cont b = true) r -> chars (x :: r) = [x :: r].
Proof.
  induction r as [|y r IH]; intros x F; [reflexivity|]. apply Forall_cons_iff in F. destruct F as (Y & F).
  change (chars (x :: y :: r)) with (if is_cont y then match chars (y :: r) with [] => [[x]] | ch :: q => (x :: ch) :: q end else [x] :: chars (y :: r)). rewrite Y, (IH y F). reflexivity.
Qed.

Lemma chars_chunks : forall cs, chunked cs -> chars (concat cs) = cs.
Proof.
  induction cs as [|c cs IH]; intros H; [reflexivity|]. destruct H as (H1 & H2). destruct c as [|x r]; [destruct H1|]. cbn [concat].
  destruct cs as [|c cs]; [cbn [concat]; rewrite app_nil_r; apply chars_one; exact H1|]. apply Forall_cons_iff in H2. destruct H2 as (H2 & H3).
  assert (G : chars (concat (c :: cs)) = c :: cs) by (apply IH; split; [apply tail_head; exact H2|exact H3]). destruct c as [|z c]; [destruct H2|].
  change (concat ((z :: c) :: cs)) with (z :: c ++ concat cs) in *. rewrite (chars_app_ascii (x :: r) z _ (proj1 H2)), (chars_one r x H1), G. reflexivity.
Qed.

Lemma trimmed_twice : forall p cs, trimmed p (trimmed p cs) = trimmed p cs.
Proof. intros p cs. destruct (trimmed_split p cs) as (a & b & E & A & B). rewrite E at 2. rewrite (trimmed_core p a _ b A B). reflexivity. Qed.

Lemma trim_twice : forall space s, trim_str space (trim_str space s) = trim_str space s.
Proof.
  intros space s. unfold trim_str. fold (trimmed space (chars s)). destruct (trimmed_split space (chars s)) as (a & b & E & _). pose proof (chunked_chars s) as C. rewrite E in C.
  rewrite (chars_chunks _ (chunked_mid _ _ _ C)). fold (trimmed space (trimmed space (chars s))). rewrite trimmed_twice. reflexivity.
Qed.

Lemma trimmed_chars : forall space s, trim_str space s = s -> trimmed space (chars s) = chars s.
Proof.
  intros space s H. rewrite <- H at 2. unfold trim_str. fold (trimmed space (chars s)). destruct (trimmed_split space (chars s)) as (a & b & E & _). pose proof (chunked_chars s) as C. rewrite E in C.
  rewrite (chars_chunks _ (chunked_mid _ _ _ C)). reflexivity.
Qed.

Lemma drop_short : forall p cs, length (drop_while p cs) <= length cs.
Proof. intros p cs. induction cs as [|c cs IH]; cbn; [lia|]. destruct (p c); cbn; lia. Qed.
Lemma trimmed_solid : forall p c cs, trimmed p (c :: cs) = c :: cs -> p c = false.
Proof.
  intros p c cs H. destruct (p c) eqn:P; [|reflexivity]. exfalso. apply (f_equal (@length bytes)) in H. unfold trimmed in H. cbn [drop_while] in H. rewrite P, rev_length in H.
  pose proof (drop_short p cs). pose proof (drop_short p (rev (drop_while p cs))) as Q. rewrite rev_length in Q. cbn [length] in H. lia.
Qed.
Lemma trimmed_id : forall p c m e, p c = false -> p e = false -> (forall cs, c :: cs = m ++ [e] -> trimmed p (m ++ [e]) = m ++ [e]).
Proof.
  intros p c m e C E cs H. unfold trimmed. rewrite <- H. cbn [drop_while]. rewrite C, H, rev_app_distr. cbn [rev app drop_while]. rewrite E. cbn [rev]. rewrite rev_involutive. reflexivity.
Qed.

(** The text of a tree without its last line break: it starts and ends with a visible character. *)
Definition tree_text (d : bytes) : Prop := exists l ls, d = lines_of (l :: ls) /\ line l /\ Forall line ls /\ exists x m, l = x :: m /\ visible x /\ match m with [] => True | y :: _ => y < 128 end.

Lemma tree_ends : forall d, tree_text d -> exists x cs r y, chars d = [x] :: cs /\ visible x /\ d = r ++ [y; 10] /\ visible y.
Proof.
  intros d (l & ls & -> & L1 & L2 & x & m & E & VX & AM).
  assert (H : exists r y, lines_of (l :: ls) = r ++ [y; 10] /\ visible y).
  { clear - L1 L2. revert l L1. induction ls as [|k ls IH]; intros l (_ & r & y & -> & V).
    - exists r, y. split; [unfold lines_of; cbn [flat_map]; rewrite app_nil_r, <- app_assoc; reflexivity|exact V].
    - inversion L2; subst. destruct (IH ltac:(assumption) k ltac:(assumption)) as (r' & z & E & VZ). exists (((r ++ [y]) ++ [10]) ++ r'), z.
      unfold lines_of in *. change (flat_map (fun l => l ++ [10]) ((r ++ [y]) :: k :: ls)) with (((r ++ [y]) ++ [10]) ++ flat_map (fun l => l ++ [10]) (k :: ls)). rewrite E, <- !app_assoc. auto. }
  destruct H as (r & y & EB & VY).
  assert (HD : exists cs, chars (lines_of (l :: ls)) = [x] :: cs).
  { unfold lines_of. cbn [flat_map]. rewrite E. cbn [app]. destruct m as [|z m]; cbn [app].
    - exists (chars (10 :: flat_map (fun l => l ++ [10]) ls)). reflexivity.
    - eexists. cbn [chars]. assert (Z : is_cont z = false) by (unfold is_cont; apply andb_false_iff; left; apply Nat.leb_gt; lia). rewrite Z. reflexivity. }
  destruct HD as (cs & HD). exists x, cs, r, y. auto.
Qed.

Lemma app_cases : forall (a b c d : bytes), a ++ b = c ++ d -> (exists m, a = c ++ m /\ d = m ++ b) \/ (exists m, c = a ++ m /\ b = m ++ d).
Proof.
  induction a as [|x a IH]; intros b c d E; [right; exists c; auto|]. destruct c as [|y c]; [left; exists (x :: a); auto|]. cbn in E. injection E as -> E.
  destruct (IH _ _ _ E) as [(m & -> & ->)|(m & -> & ->)]; [left|right]; exists m; auto.
Qed.

Lemma lines_start : forall ls s, Forall line ls -> lines_of ls <> 10 :: s.
Proof.
  intros [|l ls] s F E; [discriminate E|]. inversion F as [|a b (N & m & y & -> & V) F2]; subst. unfold lines_of in E. cbn [flat_map] in E. destruct m as [|z m]; cbn in E; injection E as E _; [destruct V; lia|]. apply N. left. exact E.
Qed.
Lemma lines_blank : forall ls a b, Forall line ls -> lines_of ls <> a ++ 10 :: 10 :: b.
Proof.
  induction ls as [|l ls IH]; intros a b F E; [destruct a; discriminate E|]. apply Forall_cons_iff in F. destruct F as ((N & _) & F).
  change (lines_of (l :: ls)) with ((l ++ [10]) ++ lines_of ls) in E. rewrite <- app_assoc in E. cbn [app] in E. destruct (app_cases _ _ _ _ E) as [(m & -> & H)|(m & -> & H)].
  - destruct m as [|z m]; cbn in H; [injection H as H; exact (lines_start _ _ F (eq_sym H))|]. injection H as H _. apply N. apply in_or_app. right. left. symmetry. exact H.
  - destruct m as [|z m]; cbn in H; [injection H as H; exact (lines_start _ _ F H)|]. injection H as _ H. exact (IH _ _ F H).
Qed.

Lemma tree_blank : forall d, tree_text d -> (forall s, d <> 10 :: s) /\ forall a b, d <> a ++ 10 :: 10 :: b.
Proof.
  intros d (l & ls & -> & L1 & L2 & _). split; [intros s; apply lines_start|intros a b; apply lines_blank]; constructor; assumption.
Qed.

(** Where the test ends and the tree begins. *)
Lemma blank_inj : forall t d t' d', tree_text d -> tree_text d' -> t ++ [10; 10] ++ d = t' ++ [10; 10] ++ d' -> t = t' /\ d = d'.
Proof.
  assert (H : forall m d d', tree_text d -> [10; 10] ++ d = m ++ [10; 10] ++ d' -> m = []).
  { intros m d d' D E. destruct (tree_blank d D) as (S & B). destruct m as [|x [|y m]]; [reflexivity| |]; exfalso; cbn in E.
    - injection E as _ E. exact (S _ E).
    - injection E as _ _ E. exact (B _ _ E). }
  intros t d t' d' D D' E. destruct (app_cases _ _ _ _ E) as [(m & -> & Q)|(m & -> & Q)].
  - pose proof (H _ _ _ D' Q) as ->. rewrite app_nil_r. cbn in Q. injection Q as ->. auto.
  - pose proof (H _ _ _ D Q) as ->. rewrite app_nil_r. cbn in Q. injection Q as ->. auto.
Qed.

Definition sec (x : bytes * bytes) : bytes := fst x ++ [10; 10] ++ snd x ++ [10].
Definition sec_ok (space : bytes -> bool) (x : bytes * bytes) : Prop := match fst x with [] => True | b :: _ => is_cont b = false end /\ trim_str space (fst x) = fst x /\ tree_text (snd x) /\ forall j, ~ occurs dashes (sec x) j.

Lemma trim_front : forall space a s, Forall (fun b => space [b] = true /\ b < 128) a -> match s with [] => True | b :: _ => is_cont b = false end -> trim_str space (a ++ s) = trim_str space s.
Proof.
  intros space a s A H. unfold trim_str. fold (trimmed space (chars (a ++ s))). fold (trimmed space (chars s)).
  assert (E : chars (a ++ s) = map (fun b => [b]) a ++ chars s).
  { clear - A H. induction A as [|x a (SX & LX) A IH]; [reflexivity|]. cbn [app map]. rewrite <- IH. destruct (a ++ s) as [|y r] eqn:Q; [reflexivity|]. cbn [chars].
    assert (Y : is_cont y = false).
    { destruct a as [|z a]; cbn in Q; [subst s; exact H|]. injection Q as -> _. inversion A; subst. unfold is_cont. apply andb_false_iff. left. apply Nat.leb_gt. lia. }
    rewrite Y. reflexivity. }
  assert (Z : trimmed space (chars (a ++ s)) = trimmed space (chars s)); [|rewrite Z; reflexivity].
  rewrite E. transitivity (trimmed space (map (fun b => [b]) a ++ chars s ++ [])); [rewrite app_nil_r; reflexivity|]. apply trimmed_core; [|constructor].
  apply Forall_forall. intros c I. apply in_map_iff in I. destruct I as (b & <- & I). rewrite Forall_forall in A. apply (A b I).
Qed.

Lemma trim_sec : forall space x, space_ok space -> sec_ok space x -> (fst x = [] /\ trim_str space (sec x) ++ [10] = snd x) \/ (fst x <> [] /\ trim_str space (sec x) ++ [10] = fst x ++ [10; 10] ++ snd x).
Proof.
  intros space (t & d) (SN & SV) (_ & TT & TD & _). cbn [fst snd] in *. unfold sec. cbn [fst snd]. destruct (tree_ends d TD) as (x & cs & r & y & HD & VX & ED & VY).
  assert (G : forall u, (exists c rest, chars (u ++ r ++ [y]) = c :: rest /\ space c = false) -> trim_str space (u ++ d ++ [10]) ++ [10] = u ++ d).
  { intros u (c & rest & EC & SC). rewrite ED. assert (CE : chars (u ++ (r ++ [y; 10]) ++ [10]) = chars (u ++ r ++ [y]) ++ [[10]; [10]]).
    { replace (u ++ (r ++ [y; 10]) ++ [10]) with ((u ++ r) ++ y :: [10; 10]) by (rewrite <- !app_assoc; reflexivity). rewrite (chars_app_ascii (u ++ r) y [10; 10] (visible_not_cont _ VY)).
      replace (u ++ r ++ [y]) with ((u ++ r) ++ y :: []) by (rewrite <- app_assoc; reflexivity). rewrite (chars_app_ascii (u ++ r) y [] (visible_not_cont _ VY)). rewrite <- app_assoc. reflexivity. }
    unfold trim_str. rewrite CE. fold (trimmed space (chars (u ++ r ++ [y]) ++ [[10]; [10]])).
    pose proof (trimmed_core space [] (chars (u ++ r ++ [y])) [[10]; [10]] (Forall_nil _)) as Z. cbn [app] in Z. rewrite Z by (repeat constructor; exact SN).
    assert (L : chars (u ++ r ++ [y]) = chars (u ++ r) ++ [[y]]) by (replace (u ++ r ++ [y]) with ((u ++ r) ++ y :: []) by (rewrite <- app_assoc; reflexivity); apply (chars_app_ascii (u ++ r) y [] (visible_not_cont _ VY))).
    assert (TI : trimmed space (chars (u ++ r ++ [y])) = chars (u ++ r ++ [y])) by (rewrite L in EC |- *; exact (trimmed_id space c (chars (u ++ r)) [y] SC (SV y VY) rest (eq_sym EC))). rewrite TI. rewrite chars_all, <- !app_assoc. reflexivity. }
  destruct t as [|b t].
  - left. split; [reflexivity|]. cbn [app]. change (10 :: 10 :: d ++ [10]) with ([10; 10] ++ d ++ [10]). rewrite trim_front.
    + specialize (G []). cbn [app] in G. apply G. rewrite ED in HD. replace (r ++ [y; 10]) with (r ++ y :: [10]) in HD by reflexivity. rewrite (chars_app_ascii r y [10] (visible_not_cont _ VY)) in HD.
      rewrite (chars_app_ascii r y [] (visible_not_cont _ VY)). cbn [chars] in *. change (is_cont 10) with false in HD. cbn iota in HD.
      destruct (chars r) as [|c0 cr]; cbn [app] in *; injection HD as -> _; eexists _, _; (split; [reflexivity|exact (SV x VX)]).
    + repeat constructor; try exact SN; lia.
    + pose proof (chars_all d) as Z. rewrite HD in Z. cbn [concat app] in Z. rewrite <- Z. cbn [app]. apply visible_not_cont. exact VX.
  - right. split; [discriminate|]. set (u := (b :: t) ++ [10; 10]). replace ((b :: t) ++ [10; 10] ++ d ++ [10]) with (u ++ d ++ [10]) by (unfold u; rewrite <- app_assoc; reflexivity).
    replace ((b :: t) ++ [10; 10] ++ d) with (u ++ d) by (unfold u; rewrite <- app_assoc; reflexivity). apply G.
    unfold u. replace (((b :: t) ++ [10; 10]) ++ r ++ [y]) with ((b :: t) ++ 10 :: 10 :: r ++ [y]) by (rewrite <- app_assoc; reflexivity).
    rewrite (chars_app_ascii (b :: t) 10 (10 :: r ++ [y]) eq_refl). pose proof (trimmed_chars space (b :: t) TT) as TC. destruct (chars (b :: t)) as [|c rest] eqn:CC; [exfalso; pose proof (chars_all (b :: t)) as Z; rewrite CC in Z; discriminate Z|].
    cbn [app]. exists c, (rest ++ chars (10 :: 10 :: r ++ [y])). split; [reflexivity|exact (trimmed_solid _ _ _ TC)].
Qed.

Lemma trim_sec_inj : forall space x x', space_ok space -> sec_ok space x -> sec_ok space x' -> trim_str space (sec x) = trim_str space (sec x') -> x = x'.
Proof.
  intros space (t & d) (t' & d') SP OK OK' E. destruct (trim_sec space _ SP OK) as [(A & B)|(A & B)]; destruct (trim_sec space _ SP OK') as [(A' & B')|(A' & B')]; cbn [fst snd] in *; rewrite E in B; rewrite B in B'.
  - rewrite A, A', B'. reflexivity.
  - exfalso. destruct OK as (_ & _ & OK & _). exact (proj2 (tree_blank _ OK) _ _ B').
  - exfalso. destruct OK' as (_ & _ & OK' & _). symmetry in B'. exact (proj2 (tree_blank _ OK') _ _ B').
  - destruct (blank_inj t d t' d' (proj1 (proj2 (proj2 OK))) (proj1 (proj2 (proj2 OK'))) B') as (-> & ->). reflexivity.
Qed.

Lemma trim_sec_some : forall space x, space_ok space -> sec_ok space x -> trim_str space (sec x) <> [].
Proof.
  intros space (t & d) SP OK E. destruct (trim_sec space _ SP OK) as [(A & B)|(A & B)]; cbn [fst snd] in *; rewrite E in B; cbn [app] in B.
  - destruct OK as (_ & _ & OK & _). exact (proj1 (tree_blank _ OK) [] (eq_sym B)).
  - destruct t as [|b [|c t]]; [exact (A eq_refl)|discriminate B|discriminate B].
Qed.

(** Cutting the record at the dashes *)
Definition recorded (l : list (bytes * bytes)) : bytes := flat_map (fun x => sec x ++ dashes ++ [10]) l.
Fixpoint parts (p : bytes) (l : list (bytes * bytes)) : list bytes := match l with [] => [p] | x :: r => (p ++ sec x) :: parts [10] r end.

Lemma nth_dashes : forall k r, k < 40 -> nth k (dashes ++ r) 0 = 45.
Proof.
  intros k r K. rewrite app_nth1 by (unfold dashes; rewrite repeat_length; exact K). unfold dashes. apply (repeat_spec 40). apply nth_In. rewrite repeat_length. exact K.
Qed.

Lemma nth_of_skipn : forall j (s : bytes) k, nth k (skipn j s) 0 = nth (j + k) s 0.
Proof. induction j as [|j IH]; intros [|x s] k; cbn [skipn nth plus]; auto; destruct k; reflexivity. Qed.

Lemma dash_find : forall p s r, (forall j, ~ occurs dashes s j) -> (p = [] \/ p = [10]) -> (exists s0, s = s0 ++ [10]) -> find_sub dashes ((p ++ s) ++ dashes ++ r) = Some (length (p ++ s)).
Proof.
  intros p s r N PP (s0 & ES).
  assert (G : forall s r, (forall j, ~ occurs dashes s j) -> (exists s0, s = s0 ++ [10]) -> forall j, j < length s -> is_prefix dashes (skipn j (s ++ dashes ++ r)) = false).
  { clear. intros s r N (s0 & ES) j J. destruct (is_prefix dashes (skipn j (s ++ dashes ++ r))) eqn:P; [exfalso|reflexivity]. apply is_prefix_spec in P. destruct P as (b & E).
    destruct (le_lt_dec (j + 40) (length s)) as [IN|OUT].
    - apply (N j). apply occurs_find. split; [lia|]. rewrite skipn_app in E. replace (j - length s) with 0 in E by lia. cbn [skipn] in E.
      pose proof (f_equal (firstn 40) E) as Q. rewrite firstn_app in Q. assert (LL : length (skipn j s) = length s - j) by apply skipn_length. replace (40 - length (skipn j s)) with 0 in Q by lia. rewrite firstn_O, app_nil_r in Q.
      rewrite <- (firstn_skipn 40 (skipn j s)), Q. rewrite firstn_app. replace (40 - length dashes) with 0 by reflexivity. rewrite firstn_O, app_nil_r. change (firstn 40 dashes) with dashes. apply is_prefix_app.
    - assert (Z : nth (length s - 1 - j) (skipn j (s ++ dashes ++ r)) 0 = 10).
      { rewrite skipn_app. rewrite app_nth1 by (rewrite skipn_length; lia). rewrite <- (firstn_skipn j s) in ES. pose proof (nth_of_skipn j s (length s - 1 - j)) as Q. rewrite Q. replace (j + (length s - 1 - j)) with (length s - 1) by lia.
        rewrite firstn_skipn in ES. rewrite ES. rewrite app_length. cbn [length]. rewrite app_nth2 by lia. replace (length s0 + 1 - 1 - length s0) with 0 by lia. reflexivity. }
      rewrite E, nth_dashes in Z by lia. discriminate Z. }
  apply find_sub_first.
  - rewrite !app_length. lia.
  - rewrite skipn_app, skipn_all, Nat.sub_diag. cbn [skipn app]. apply is_prefix_app.
  - intros j J. destruct PP as [->| ->]; cbn [app] in *; [apply (G s r N (ex_intro _ s0 ES)); exact J|]. destruct j as [|j]; [reflexivity|]. cbn [length] in J. cbn [skipn]. apply (G s r N (ex_intro _ s0 ES)). lia.
Qed.

Lemma sec_end : forall x, exists s0, sec x = s0 ++ [10].
Proof. intros (t & d). exists (t ++ [10; 10] ++ d). unfold sec. cbn [fst snd]. rewrite <- !app_assoc. reflexivity. Qed.

Lemma split_recorded : forall space l p fuel, Forall (sec_ok space) l -> (p = [] \/ p = [10]) -> length (p ++ recorded l) <= fuel -> split_loop fuel dashes (p ++ recorded l) = parts p l.
Proof.
  intros space l. induction l as [|x l IH]; intros p fuel F PP LE.
  - unfold recorded. cbn [flat_map parts]. rewrite app_nil_r. destruct fuel; [reflexivity|]. destruct PP as [->| ->]; reflexivity.
  - apply Forall_cons_iff in F. destruct F as ((_ & _ & _ & N) & F). unfold recorded in *. cbn [flat_map parts] in *. fold (recorded l) in *.
    replace (p ++ (sec x ++ dashes ++ [10]) ++ recorded l) with ((p ++ sec x) ++ dashes ++ [10] ++ recorded l) in * by (rewrite <- !app_assoc; reflexivity).
    rewrite !app_length in LE. assert (LD : length dashes = 40) by reflexivity. destruct fuel as [|fuel]; [lia|]. cbn [split_loop]. rewrite (dash_find p (sec x) _ N PP (sec_end x)).
    rewrite firstn_app, firstn_all, Nat.sub_diag, firstn_O, app_nil_r. f_equal. rewrite (app_assoc (p ++ sec x)), skipn_app, skipn_all2 by (rewrite app_length; lia). rewrite !app_length, Nat.sub_diag. cbn [app skipn].
    apply (IH [10] fuel); [exact F|right; reflexivity|]. rewrite app_length. lia.
Qed.

Lemma report_iff : forall space e a, report_diff space e a = Ok tt <-> trim_str space e = trim_str space a.
Proof.
  intros space e a. unfold report_diff, compute_diff, bytes_eqb. destruct (list_eqb Nat.eqb (trim_str space e) (trim_str space a)) eqn:Q; cbn [negb].
  - apply (list_eqb_spec _ Nat.eqb Nat.eqb_eq) in Q. split; auto.
  - split; [discriminate|]. intros X. apply (list_eqb_spec _ Nat.eqb Nat.eqb_eq) in X. congruence.
Qed.
Lemma report_or : forall space e a, report_diff space e a = Ok tt \/ report_diff space e a = Panic.
Proof. intros space e a. unfold report_diff. destruct (compute_diff space e a); auto. Qed.

Lemma sections_or : forall space l, check_sections space l = Ok tt \/ check_sections space l = Panic.
Proof.
  intros space l. induction l as [|(e & a) l IH]; [left; reflexivity|]. cbn [check_sections]. destruct (bytes_eqb e a); cbn [bind]; [exact IH|]. destruct (report_or space e a) as [->| ->]; cbn [bind]; auto.
Qed.
Lemma sections_iff : forall space l, check_sections space l = Ok tt <-> Forall (fun x => trim_str space (fst x) = trim_str space (snd x)) l.
Proof.
  intros space l. induction l as [|(e & a) l IH]; [split; [constructor|reflexivity]|]. cbn [check_sections]. rewrite Forall_cons_iff, <- IH. cbn [fst snd]. destruct (bytes_eqb e a) eqn:Q; cbn [bind].
  - apply (list_eqb_spec _ Nat.eqb Nat.eqb_eq) in Q. subst a. split; [auto|intros (_ & H); exact H].
  - destruct (report_or space e a) as [R|R]; rewrite R; cbn [bind].
    + apply report_iff in R. split; [auto|intros (_ & H); exact H].
    + split; [discriminate|]. intros (H & _). apply report_iff in H. congruence.
Qed.

Lemma trim_p : forall space p x, space_ok space -> (p = [] \/ p = [10]) -> sec_ok space x -> trim_str space (p ++ sec x) = trim_str space (sec x).
Proof.
  intros space p (t & d) (SN & SV) [->| ->] OK; [reflexivity|]. apply trim_front; [constructor; [split; [exact SN|lia]|constructor]|].
  unfold sec. cbn [fst snd]. destruct OK as (H & _). cbn [fst] in H. destruct t as [|b t]; [reflexivity|exact H].
Qed.

(** The sections match exactly when the tests and their trees are the same, however many there are. *)
Lemma parts_match : forall space l l' p p', space_ok space -> Forall (sec_ok space) l -> Forall (sec_ok space) l' -> (p = [] \/ p = [10]) -> (p' = [] \/ p' = [10]) ->
  (Forall (fun x => trim_str space (fst x) = trim_str space (snd x)) (combine (parts p l) (parts p' l')) <-> l = l').
Proof.
  intros space l. induction l as [|x l IH]; intros l' p p' SP F F' PP PP'; destruct l' as [|x' l'].
  - split; [reflexivity|intros _]. cbn. constructor; [|constructor]. cbn [fst snd]. destruct SP as (SN & _). destruct PP as [->| ->]; destruct PP' as [->| ->]; unfold trim_str; cbn; rewrite ?SN; reflexivity.
  - split; [|discriminate]. intros H. exfalso. cbn [parts combine] in H. apply Forall_cons_iff in H. destruct H as (H & _). cbn [fst snd] in H. apply Forall_cons_iff in F'. rewrite (trim_p _ _ _ SP PP' (proj1 F')) in H.
    apply (trim_sec_some space x' SP (proj1 F')). rewrite <- H. destruct SP as (SN & _). destruct PP as [->| ->]; unfold trim_str; cbn; rewrite ?SN; reflexivity.
  - split; [|discriminate]. intros H. exfalso. cbn [parts combine] in H. apply Forall_cons_iff in H. destruct H as (H & _). cbn [fst snd] in H. apply Forall_cons_iff in F. rewrite (trim_p _ _ _ SP PP (proj1 F)) in H.
    apply (trim_sec_some space x SP (proj1 F)). rewrite H. destruct SP as (SN & _). destruct PP' as [->| ->]; unfold trim_str; cbn; rewrite ?SN; reflexivity.
  - apply Forall_cons_iff in F. destruct F as (O & F). apply Forall_cons_iff in F'. destruct F' as (O' & F'). cbn [parts combine]. rewrite Forall_cons_iff, (IH l' [10] [10] SP F F') by (right; reflexivity). cbn [fst snd].
    rewrite (trim_p _ _ _ SP PP O), (trim_p _ _ _ SP PP' O'). split.
    + intros (E & ->). rewrite (trim_sec_inj space x x' SP O O' E). reflexivity.
    + intros E. injection E as -> ->. auto.
Qed.
