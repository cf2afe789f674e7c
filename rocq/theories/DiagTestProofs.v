(** Proofs about tests of diagnostics. *)
From Coq Require Import List Arith Bool NArith Lia String Ascii.
From Verif Require Import Base BaseFacts TextModel TextSpec TextProofs TreeModel TreeSpec TreeProofs SearchModel LexModel FileEditSpec FileEditProofs EditorProofs GrammarModel ParserModel ConvertModel
  DbModel DbSpec DbProofs DbTrace AnalysisModel AnalysisSpec SearchProofs ScanSpec ScanProofs ViewProofs AnalysisProofs CollectProofs RunProofs AnalysisFacts TraversalProofs PropsComplete PropsAnalysis HarnessModel HarnessSpec HarnessProofs MetricsModel MetricsSpec MetricsProofs
  DiagTestModel DiagTestSpec.
Import ListNotations.
Open Scope list_scope.
Open Scope nat_scope.
Local Notation length := List.length.

(** ** Wording *)
Lemma literal_spells : forall w, spells w (literal w).
Proof.
  induction w as [|c w IH]; [exact I|]. cbn [spells literal]. split; [|exact IH]. unfold nat_of_ascii. rewrite Nnat.N2Nat.id. reflexivity.
Qed.
Lemma literal_app : forall a b, literal (a ++ b)%string = literal a ++ literal b.
Proof. induction a as [|c a IH]; intros b; [reflexivity|]. cbn [String.append literal app]. rewrite IH. reflexivity. Qed.

Lemma spells_fun : forall w s s', spells w s -> spells w s' -> s = s'.
Proof.
  induction w as [|c w IH]; intros [|b s] [|b' s'] H H'; cbn [spells] in *; try contradiction; [reflexivity|]. destruct H as (A & H), H' as (A' & H'). f_equal; [lia|exact (IH s s' H H')].
Qed.

Lemma message_worded : forall m, worded m (message_text m).
Proof.
  intros m. destruct m; cbn [message_text]; try (constructor; apply literal_spells).
  - apply w_wrong. unfold number. rewrite <- !literal_app. apply literal_spells.
  - apply w_expected. unfold number. rewrite <- !literal_app. apply literal_spells.
Qed.
Lemma worded_fun : forall m s, worded m s -> s = message_text m.
Proof.
  intros m s W. destruct W; cbn [message_text]; try (eapply spells_fun; [eassumption|apply literal_spells]).
  - unfold number. rewrite <- !literal_app. eapply spells_fun; [eassumption|apply literal_spells].
  - unfold number. rewrite <- !literal_app. eapply spells_fun; [eassumption|apply literal_spells].
  - rewrite (spells_fun _ a _ H (literal_spells _)), (spells_fun _ b _ H0 (literal_spells _)). reflexivity.
Qed.

(** A message ends with a visible character. *)
Lemma message_end : forall m, exists r y, message_text m = r ++ [y] /\ visible y.
Proof.
  assert (DG : forall n, exists r y, number n = r ++ [y] /\ visible y).
  { intros n. unfold number. destruct (decimal_digits (N.of_nat n)) as (D & NE). revert D NE. generalize (decimal (N.of_nat n)). intros w. induction w as [|c w IH]; intros D NE; [contradiction|].
    cbn [all_digits] in D. destruct D as (DC & D). destruct w as [|c' w].
    - exists [], (nat_of_ascii c). split; [reflexivity|]. unfold digit in DC. unfold visible. lia.
    - destruct (IH D ltac:(discriminate)) as (r & y & E & V). exists (nat_of_ascii c :: r), y. split; [|exact V]. cbn [literal app] in *. rewrite E. reflexivity. }
  assert (AP : forall a b, (exists r y, b = r ++ [y] /\ visible y) -> exists r y, a ++ b = r ++ [y] /\ visible y).
  { intros a b (r & y & -> & V). exists (a ++ r), y. rewrite app_assoc. auto. }
  assert (LI : forall w, match rev (literal w) with [] => false | y :: _ => (33 <=? y) && (y <=? 126) end = true -> exists r y, literal w = r ++ [y] /\ visible y).
  { intros w H. destruct (rev (literal w)) as [|y r] eqn:E; [discriminate H|]. apply andb_true_iff in H. destruct H as (H1 & H2). apply Nat.leb_le in H1, H2. exists (rev r), y. split; [|unfold visible; lia].
    rewrite <- (rev_involutive (literal w)), E. reflexivity. }
  intros m. destruct m; cbn [message_text]; try (apply LI; vm_compute; reflexivity); repeat apply AP; try apply DG. apply LI; vm_compute; reflexivity.
Qed.

(** ** Lines *)
Lemma join_lines : forall ls, lines_joined ls (HarnessModel.join [10] ls).
Proof.
  induction ls as [|l ls IH]; [constructor|]. destruct ls as [|k ls]; [constructor|]. cbn [HarnessModel.join] in *. change (l ++ [10] ++ match ls with [] => k | _ => k ++ [10] ++ HarnessModel.join [10] ls end) with (l ++ 10 :: HarnessModel.join [10] (k :: ls)). constructor. exact IH.
Qed.
Lemma lines_fun : forall ls s s', lines_joined ls s -> lines_joined ls s' -> s = s'.
Proof.
  intros ls s s' H. revert s'. induction H as [|l|l k ls s H IH]; intros s' H'; inversion H'; subst; try reflexivity. f_equal. f_equal. apply IH. assumption.
Qed.

Lemma app_same : forall (a b c d : bytes), a ++ b = c ++ d -> length a = length c -> a = c /\ b = d.
Proof.
  induction a as [|x a IH]; intros b [|y c] d E L; cbn [length] in L; try discriminate L; [auto|]. cbn [app] in E. injection E as -> E. destruct (IH b c d E ltac:(lia)) as (-> & ->). auto.
Qed.
Lemma described_fun : forall txt d s s', described txt d s -> described txt d s' -> s = s'.
Proof.
  intros txt d s s' (b & p & a & w & E & L1 & L2 & W & ->) (b' & p' & a' & w' & E' & L1' & L2' & W' & ->). rewrite (worded_fun _ _ W), (worded_fun _ _ W').
  rewrite E in E'. destruct (app_same _ _ _ _ E' ltac:(lia)) as (-> & E2). destruct (app_same _ _ _ _ E2 ltac:(lia)) as (-> & _). reflexivity.
Qed.

(** ** A lone thread *)
Section Lone.
  Variables K V D : Type.
  Variable K_eqb : K -> K -> bool.
  Variable kind : K -> nat.
  Variable exec : K -> prog K V D.
  Notation go := (run_schedule K_eqb kind exec).

  Lemma lone_threads : forall l (s : state K V D) t, st_threads s = [t] -> exists u, st_threads (go l s) = [u].
  Proof.
    intros l. induction l as [|i l IH]; intros s t E; [exists t; exact E|]. cbn [run_schedule]. destruct (step_at K_eqb kind exec i s) as [s'|] eqn:S1; [|exact (IH s t E)].
    unfold step_at in S1. rewrite E in S1. destruct i as [|i]; [|destruct i; discriminate S1]. cbn [nth_error] in S1. destruct (tstep K_eqb kind exec 0 (st_shared s) t) as [(sh, t')|]; [|discriminate S1].
    injection S1 as <-. apply (IH _ t'). reflexivity.
  Qed.

  (** Any schedule of one thread is some number of its steps. *)
  Lemma lone_steps : forall l (s : state K V D) t, st_threads s = [t] -> exists n, go l s = go (repeat 0 n) s.
  Proof.
    intros l. induction l as [|i l IH]; intros s t E; [exists 0; reflexivity|]. cbn [run_schedule]. destruct (step_at K_eqb kind exec i s) as [s'|] eqn:S1; [|exact (IH s t E)].
    pose proof S1 as S2. unfold step_at in S1. rewrite E in S1. destruct i as [|i]; [|destruct i; discriminate S1]. cbn [nth_error] in S1. destruct (tstep K_eqb kind exec 0 (st_shared s) t) as [(sh, t')|]; [|discriminate S1].
    injection S1 as <-. destruct (IH (State sh (set_nth 0 t' [t])) t' eq_refl) as (n & H). exists (S n). cbn [repeat run_schedule]. rewrite S2. exact H.
  Qed.

  Lemma run_app : forall l l' (s : state K V D), go (l ++ l') s = go l' (go l s).
  Proof. intros l. induction l as [|i l IH]; intros l' s; [reflexivity|]. cbn [app run_schedule]. destruct (step_at K_eqb kind exec i s); apply IH. Qed.

  Lemma lone_stays : forall m (s : state K V D) t, st_threads s = [t] -> t_ctl t = Client CRet \/ t_ctl t = Dead -> go (repeat 0 m) s = s.
  Proof.
    intros m s t E F. assert (N : step_at K_eqb kind exec 0 s = None).
    { unfold step_at. rewrite E. cbn [nth_error]. unfold tstep. destruct F as [F|F]; rewrite F; reflexivity. }
    induction m as [|m IH]; [reflexivity|]. cbn [repeat run_schedule]. rewrite N. exact IH.
  Qed.
End Lone.

(** ** Fresh analyses *)
Section Fresh.
  Variables (f : file) (T : tree).
  Hypothesis WF : wf_file f T.
  Hypothesis CT : char_tree (f_text f) T.
  Hypothesis CO : complete f.
  Notation exec := (fall_exec f).

  (** With enough steps the collection ends; more change nothing. *)
  Lemma fresh_ok : exists n ds, collect_returns f ds (sort_diags ds) /\ forall more, fresh_diagnostics f (n + more) = Ok (sort_diags ds).
  Proof.
    destruct (AnalysisFacts.collect_ok f T WF (fun _ => CRet)) as (cl & E).
    assert (A : api_clients f [cl]).
    { intros c k [<-|[]] X. destruct (collect_asks f T WF _ _ _ E X) as [Y|(ds & Y)]; [exact Y|inversion Y]. }
    pose proof (all_halt key_eqb key_eqb_spec key_kind exec [cl] (fun k _ => exec_outcome f k)) as AC.
    destruct (acc_complete key_eqb key_eqb_spec key_kind exec [cl] _ AC (inv_start key_kind exec [cl])) as (l & F).
    destruct (lone_steps _ _ _ key_eqb key_kind exec l (start [cl]) _ eq_refl) as (n & EN). rewrite EN in F.
    destruct (lone_threads _ _ _ key_eqb key_kind exec (repeat 0 n) (start [cl]) _ eq_refl) as (t & ET).
    assert (NT : nth_error (st_threads (run_schedule key_eqb key_kind exec (repeat 0 n) (start [cl]))) 0 = Some t) by (rewrite ET; reflexivity).
    assert (ND : t_ctl t <> Dead) by (apply (api_alive f T WF CT CO [cl] (repeat 0 n) t A); exact (nth_error_In _ _ NT)).
    pose proof (track key_eqb key_kind exec [cl] (repeat 0 n) 0 cl t eq_refl NT) as TR. destruct (F 0 t NT) as [C|C]; [|contradiction].
    unfold on_track in TR. rewrite C in TR. destruct TR as (_ & FO).
    destruct (collect_keys_ok f T WF) as (ks & EK & KS). pose proof E as E'. unfold collect_all_diagnostics, collect_client in E'.
    rewrite EK in E'. cbn [bind] in E'. injection E' as EC.
    assert (FO' : follows (AnalysisModel.ask_all ks (CCollect (fun _ => CRet))) (t_log t) CRet) by (rewrite EC; exact FO).
    destruct (follows_collect _ _ FO') as (ds & during & LOG & AN).
    exists n, ds. split.
    - exists [cl], (repeat 0 n), 0, cl, t, [], during, [], (fun _ => CRet), cl.
      split; [exact A|]. split; [split; [reflexivity|exact NT]|]. split; [rewrite List.app_nil_r; exact LOG|]. split; [exact AN|].
      split; [constructor|]. split; [exact E|reflexivity].
    - intros more. unfold fresh_diagnostics. rewrite E. cbn [bind]. rewrite repeat_app, run_app, (lone_stays _ _ _ key_eqb key_kind exec more _ t ET (or_introl C)), ET, C, LOG. reflexivity.
  Qed.

  (** Every part of the text that a diagnostic is about is that of a node. *)
  Lemma rng_part : forall n, exists before part after, f_text f = before ++ part ++ after /\ length before = rstart (rng f n) /\ length before + length part = rend (rng f n) /\
    exists u, slice (as_text (f_text f)) (rng f n) = Ok u /\ as_str u = Ok part.
  Proof.
    assert (G : forall a b, a <= b -> b <= length (f_text f) -> aligned (f_text f) a -> aligned (f_text f) b -> exists before part after, f_text f = before ++ part ++ after /\ length before = a /\ length before + length part = b /\
      exists u, slice (as_text (f_text f)) (mkRange a b) = Ok u /\ as_str u = Ok part).
    { intros a b L1 L2 A B. destruct (slice_as_str (f_text f) a b L1 A B) as (u & E & S). exists (firstn a (f_text f)), (sub a b (f_text f)), (skipn b (f_text f)).
      assert (LB : length (sub a b (f_text f)) = b - a) by (unfold sub; rewrite firstn_length, skipn_length; lia).
      rewrite firstn_length. split; [|split; [lia|split; [lia|exists u; auto]]].
      unfold sub. rewrite <- (firstn_skipn a (f_text f)) at 1. f_equal. rewrite <- (firstn_skipn (b - a) (skipn a (f_text f))) at 1. f_equal. rewrite skipn_skipn. f_equal. lia. }
    intros n. destruct (Nat.lt_ge_cases n (length (f_nodes f))) as [V|V].
    - destruct (valid_at f T WF n V) as (p & q & t & A & E). unfold rng, at_node. rewrite E. cbn [data_of n_range rstart rend]. destruct (CT _ _ _ _ A) as (A1 & A2). apply G; try assumption; [lia|].
      exact (aligned_le _ _ A2).
    - apply nth_error_None in V. unfold rng, at_node. rewrite V. cbn [rstart rend]. apply G; [lia|lia|left; reflexivity|left; reflexivity].
  Qed.
End Fresh.

Lemma says_node : forall f k v ds d, says f k v ds -> In d ds -> exists n, d_range d = rng f n.
Proof.
  intros f k v ds d S J.
  assert (AR : forall n k, In d (arity_error f k n) -> exists n, d_range d = rng f n).
  { intros n k0 X. unfold arity_error in X. destruct (length (exprs f n) =? k0); [destruct X|]. destruct X as [<-|[]]. exists n. reflexivity. }
  destruct k; cbn [says] in S.
  - destruct S as (out & _ & ->). apply in_map_iff in J. destruct J as (n & <- & _). exists n. reflexivity.
  - destruct S as (out & _ & F). induction F as [|r e out ds (i & _ & ->) F IH]; [destruct J|]. destruct J as [<-|J]; [exists i; reflexivity|exact (IH J)].
  - destruct S as (l & _ & _ & U). induction U as [|b c l ds O U IH|b l ds O U IH]; [destruct J| |exact (IH J)]. destruct J as [<-|J]; [exists c; reflexivity|exact (IH J)].
  - induction S as [|r i l ds H1 H2 H3 U IH|r l ds H1 U IH]; [destruct J| |exact (IH J)]. destruct J as [<-|J]; [exists i; reflexivity|exact (IH J)].
  - destruct S as (o & _ & _ & [(_ & _ & ->)|(_ & ->)]); [|destruct J]. destruct J as [<-|[]]. exists n. reflexivity.
  - destruct S as (o & _ & C). destruct C; try (exact (AR _ _ J)).
    + apply in_app_or in J. destruct J as [J|[<-|[]]]; [exact (AR _ _ J)|exists a; reflexivity].
    + apply repeat_spec in J. subst d. exists n. reflexivity.
    + destruct (length (params f r) =? length (exprs f n)); [destruct J|]. destruct J as [<-|[]]. exists n. reflexivity.
    + destruct J as [<-|[]]. exists i. reflexivity.
  - destruct S as (o & _ & P). destruct P; try (destruct J; fail);
      try (destruct J as [<-|[]]; match goal with |- exists n, d_range (error_at f ?x _) = _ => exists x; reflexivity end).
    destruct (priority_of f x); [|destruct J]. destruct J as [<-|[]]. exists i. reflexivity.
  - destruct S as (o & _ & _ & ->). destruct J.
  - destruct S as (refs & ts & _ & _ & M). induction M as [|i l t ts ds H M IH|i l ts ds H M IH]; [destruct J|exact (IH J)|]. destruct J as [<-|J]; [exists i; reflexivity|exact (IH J)].
Qed.

Section Listing.
  Variables (f : file) (T : tree).
  Hypothesis WF : wf_file f T.
  Hypothesis CT : char_tree (f_text f) T.
  Hypothesis CO : complete f.

  Lemma collected_node : forall ds out d, collect_returns f ds out -> In d out -> exists n, d_range d = rng f n.
  Proof.
    intros ds out d R J. destruct (C36_collect f T ds out WF CT CO R) as (_ & (ks & dss & _ & _ & F & PM) & _). apply (Permutation.Permutation_in _ PM) in J. clear - F J.
    induction F as [|k e ks dss (v & SV) F IH]; [destruct J|]. cbn [List.concat] in J. apply in_app_or in J. destruct J as [J|J]; [|exact (IH J)]. exact (says_node f k v e d SV J).
  Qed.

  Lemma root_text : node_text f root = Ok (as_text (f_text f)).
  Proof.
    destruct WF as (ST & L). unfold node_text, root. rewrite (range_ok _ _ ST _ _ _ _ (At_root T)). cbn [bind].
    unfold slice, as_text, text_len, usub, from_to, guard. cbn [trange rstart rend owned]. rewrite <- L. cbn [plus]. rewrite Nat.sub_0_r.
    repeat (match goal with |- context [?a <=? ?b] => replace (a <=? b) with true by (symmetry; apply Nat.leb_le; lia) end; cbn [bind]; rewrite ?Nat.sub_0_r). reflexivity.
  Qed.

  Lemma line_ok : forall d, (exists n, d_range d = rng f n) -> exists s, diagnostic_line f d = Ok s /\ described (f_text f) d s.
  Proof.
    intros d (n & E). destruct (rng_part f T WF CT n) as (b & p & a & TX & L1 & L2 & u & SL & AS). unfold diagnostic_line. rewrite root_text. cbn [bind]. rewrite E, SL. cbn [bind]. rewrite AS. cbn [bind].
    eexists. split; [reflexivity|]. exists b, p, a, (message_text (d_message d)). rewrite E. split; [exact TX|]. split; [exact L1|]. split; [exact L2|]. split; [apply message_worded|]. destruct (d_severity d); reflexivity.
  Qed.

  Lemma lines_ok : forall ds, (forall d, In d ds -> exists n, d_range d = rng f n) ->
    exists ls, flat_map_res (fun d => s <- diagnostic_line f d ;; Ok [s]) ds = Ok ls /\ Forall2 (described (f_text f)) ds ls.
  Proof.
    induction ds as [|d ds IH]; intros H; [exists []; split; [reflexivity|constructor]|]. destruct (line_ok d (H d (or_introl eq_refl))) as (s & E & DS). destruct (IH (fun e J => H e (or_intror J))) as (ls & EL & F).
    exists (s :: ls). split; [|constructor; assumption]. cbn [flat_map_res]. rewrite E. cbn [bind]. rewrite EL. reflexivity.
  Qed.

  Lemma errors_iff : (no_error_nodes f -> no_errors_in f = Ok tt) /\ (~ no_error_nodes f -> no_errors_in f = Panic).
  Proof.
    destruct WF as (ST & L). unfold no_errors_in. unfold root. rewrite (subtree_ok _ T ST T 0 0 None (At_root T)). cbn [bind].
    rewrite (filter_res_pure _ _ (fun n => ty f n =? ERROR)).
    2:{ intros n J. apply post_in in J. rewrite (ty_v f n); [reflexivity|]. unfold valid. pose proof (proj1 ST) as LN. rewrite LN. lia. }
    cbn [bind]. split.
    - intros NE. destruct (filter (fun n => ty f n =? ERROR) (post T 0)) as [|n l] eqn:FE; [reflexivity|]. exfalso.
      assert (J : In n (filter (fun n => ty f n =? ERROR) (post T 0))) by (rewrite FE; left; reflexivity). apply filter_In in J. destruct J as (J & E). apply Nat.eqb_eq in E. apply post_in in J.
      apply (NE n). split; [|exact E]. unfold valid. pose proof (proj1 ST) as LN. rewrite LN. lia.
    - intros NE. destruct (filter (fun n => ty f n =? ERROR) (post T 0)) as [|n l] eqn:FE; [|reflexivity]. exfalso. apply NE. intros n (V & E).
      assert (J : In n (filter (fun n => ty f n =? ERROR) (post T 0))). { apply filter_In. split; [|apply Nat.eqb_eq; exact E]. apply post_in. unfold valid in V. pose proof (proj1 ST) as LN. rewrite LN in V. lia. }
      rewrite FE in J. exact J.
  Qed.
End Listing.

(** ** Trimming does nothing to lists of diagnostics. *)
Definition solid (s : bytes) : Prop := (exists x m, s = x :: 32 :: m /\ visible x) /\ exists r y, s = r ++ [y] /\ visible y.
Lemma described_solid : forall txt d s, described txt d s -> solid s.
Proof.
  intros txt d s (b & p & a & w & _ & _ & _ & W & ->). split.
  - eexists _, _. split; [reflexivity|]. destruct (d_severity d); unfold visible; lia.
  - rewrite (worded_fun _ _ W). destruct (message_end (d_message d)) as (r & y & -> & V). exists (match d_severity d with Error => 69 | Warning => 87 end :: 32 :: p ++ 58 :: 32 :: r), y. split; [|exact V].
    cbn [app]. rewrite <- app_assoc. reflexivity.
Qed.
Lemma joined_solid : forall ls s, lines_joined ls s -> ls <> [] -> Forall solid ls -> solid s.
Proof.
  intros ls s H. induction H as [|l|l k ls s H IH]; intros NE F; [contradiction|inversion F; assumption|]. inversion F as [|? ? F1 F2]; subst. destruct (IH ltac:(discriminate) F2) as (_ & r & y & -> & V).
  destruct F1 as ((x & m & -> & VX) & _). split; [exists x, (m ++ 10 :: r ++ [y]); auto|]. exists ((x :: 32 :: m) ++ 10 :: r), y. split; [|exact V]. rewrite <- app_assoc. reflexivity.
Qed.
Lemma trim_solid : forall space s, space_ok space -> solid s -> trim_str space s = s.
Proof.
  intros space s (_ & SV) ((x & m & E & VX) & r & y & E' & VY).
  assert (C1 : exists cs, chars s = [x] :: cs) by (rewrite E; eexists; cbn [chars]; reflexivity). destruct C1 as (cs & C1).
  assert (C2 : chars s = chars r ++ [[y]]) by (rewrite E', (chars_app_ascii r y [] (visible_not_cont _ VY)); reflexivity).
  assert (C3 : [x] :: cs = chars r ++ [[y]]) by congruence.
  pose proof (trimmed_id space [x] (chars r) [y] (SV x VX) (SV y VY) cs C3) as TR. change (trimmed space (chars r ++ [[y]] : list bytes) = chars r ++ [[y]]) in TR.
  assert (TR' : trimmed space (chars s) = chars s) by (rewrite C2; exact TR).
  change (List.concat (HarnessProofs.trimmed space (chars s)) = s). etransitivity; [apply f_equal; exact TR'|]. apply RegexProofs.chars_all.
Qed.
Lemma trim_listing : forall space txt ds ls s, space_ok space -> Forall2 (described txt) ds ls -> lines_joined ls s -> trim_str space s = s.
Proof.
  intros space txt ds ls s SO F H. destruct ls as [|l ls]; [inversion H; reflexivity|]. apply trim_solid; [exact SO|]. apply (joined_solid _ _ H ltac:(discriminate)).
  revert F. generalize (l :: ls). intros ks F. induction F as [|d k ds' ks' D F IH]; constructor; [exact (described_solid _ _ _ D)|exact IH].
Qed.
