(** What is sent to the editor for an edit made with the builder. *)
From Coq Require Import List Arith Bool Lia.
From Verif Require Import Base BaseFacts TextModel EditModel TextSpec TextProofs VsSpec.
Import ListNotations.

Lemma advance_shape : forall b o, last_offset b <= o ->
  advance_to b o = Ok (mkEB (segments b ++ (if last_offset b =? o then [] else [Copy (mkRange (last_offset b) o)])) o (eb_text_len b)).
Proof.
  intros [sg lo n] o H. cbn [last_offset segments eb_text_len] in *. unfold advance_to. cbn [last_offset]. destruct (Nat.compare lo o) eqn:E.
  - apply Nat.compare_eq in E. subst o. rewrite Nat.eqb_refl, app_nil_r. reflexivity.
  - apply Nat.compare_lt_iff in E. replace (lo =? o) with false by (symmetry; apply Nat.eqb_neq; lia). unfold copy_up_to. cbn [last_offset]. rewrite usub_le by exact H. cbn [bind].
    unfold copy_len. cbn [last_offset segments eb_text_len]. rewrite from_len_ok. cbn [bind]. replace (lo + (o - lo)) with o by lia. reflexivity.
  - apply Nat.compare_gt_iff in E. lia.
Qed.

Lemma ops_ordered_app : forall a p k b n, ops_ordered p k a -> ops_ordered k n b -> ops_ordered p n (a ++ b).
Proof.
  induction a as [|[r|i] a IH]; cbn [app ops_ordered]; intros p k b n H B; [subst; exact B| |eauto]. destruct H as (H1 & H2 & H3). split; [exact H1|]. split; [exact H2|eauto].
Qed.

Lemma advance_ops : forall lo o pos, pos <= lo -> lo <= o -> exists k, ops_ordered pos k (if lo =? o then [] else [Copy (mkRange lo o)]) /\ ((k = pos /\ lo = o) \/ (k = o /\ lo < o)).
Proof.
  intros lo o pos P L. destruct (lo =? o) eqn:E.
  - apply Nat.eqb_eq in E. exists pos. cbn. auto.
  - apply Nat.eqb_neq in E. exists o. cbn [ops_ordered rstart rend]. split; [auto|right; lia].
Qed.

Lemma advance_aligned : forall s lo o, aligned s lo -> aligned s o -> ops_aligned s (if lo =? o then [] else [Copy (mkRange lo o)]).
Proof. intros s lo o A B. destruct (lo =? o); constructor; [cbn; auto|constructor]. Qed.

(** Which segments a call adds. *)
Lemma call_shape : forall b c, last_offset b <= r_from (repl_of_call c) -> r_from (repl_of_call c) <= r_to (repl_of_call c) ->
  exists ins, run_call b c = Ok (mkEB (segments b ++ (if last_offset b =? r_from (repl_of_call c) then [] else [Copy (mkRange (last_offset b) (r_from (repl_of_call c)))]) ++ ins)
                 (r_to (repl_of_call c)) (eb_text_len b)) /\ (ins = [] \/ exists t, ins = [Insert t]).
Proof.
  intros b c H1 H2. pose proof (advance_shape b _ H1) as E. destruct c as [o t|r|r t]; cbn [repl_of_call r_from r_to r_what] in *; cbn [run_call].
  - unfold eb_insert. rewrite E. cbn [bind]. unfold insert_. cbn [segments last_offset eb_text_len]. exists [Insert t]. split; [rewrite <- app_assoc; reflexivity|eauto].
  - unfold eb_delete. rewrite E. cbn [bind]. rewrite range_len_ok by exact H2. cbn [bind]. unfold delete_len. cbn [segments last_offset eb_text_len].
    exists []. split; [rewrite app_nil_r; f_equal; f_equal; lia|auto].
  - unfold eb_replace. rewrite E. cbn [bind]. rewrite range_len_ok by exact H2. cbn [bind]. unfold delete_len, insert_. cbn [segments last_offset eb_text_len].
    exists [Insert t]. split; [rewrite <- app_assoc; f_equal; f_equal; lia|eauto].
Qed.

Lemma ordered_from : forall rs p n r, ordered p n rs -> In r rs -> p <= r_from r.
Proof.
  induction rs as [|x rs IH]; intros p n r H J; [destruct J|]. cbn [ordered] in H. destruct H as (H1 & H2 & H3). destruct J as [<-|J]; [exact H1|]. pose proof (IH _ _ _ H3 J). lia.
Qed.

Lemma calls_shape : forall cs b ops, ordered (last_offset b) (eb_text_len b) (map repl_of_call cs) -> (b' <- run_calls b cs ;; eb_build b') = Ok ops ->
  exists segs, ops = segments b ++ segs
    /\ (forall s, length s = eb_text_len b -> aligned s (last_offset b) -> repls_aligned s (map repl_of_call cs) -> ops_aligned s segs)
    /\ forall pos, pos <= last_offset b -> exists k, ops_ordered pos k segs /\ k <= eb_text_len b
         /\ (forall i, k <= i -> last_offset b <= i -> i < eb_text_len b -> removed (map repl_of_call cs) i)
         /\ (k = pos \/ (last_offset b < k /\ ~ removed (map repl_of_call cs) (k - 1))).
Proof.
  induction cs as [|c cs IH]; intros b ops O E; cbn [map ordered run_calls] in *.
  - cbn [bind] in E. unfold eb_build in E. rewrite (advance_shape b _ O) in E. cbn [bind segments] in E. injection E as <-. eexists. split; [reflexivity|]. split.
    + intros s LS A _. apply advance_aligned; [exact A|]. right. left. auto.
    + intros pos P. destruct (advance_ops _ _ pos P O) as (k & OK & [(-> & Q)|(-> & Q)]); (eexists; split; [exact OK|]).
      * split; [lia|]. split; [intros; lia|auto].
      * split; [lia|]. split; [intros; lia|]. right. split; [exact Q|]. intros (r & [] & _).
  - destruct O as (H1 & H2 & H3). destruct (call_shape b c H1 H2) as (ins & EC & IN). rewrite EC in E. cbn [bind] in E.
    destruct (IH (mkEB _ (r_to (repl_of_call c)) (eb_text_len b)) ops H3 E) as (s2 & -> & AL & K). cbn [segments last_offset eb_text_len] in *.
    assert (RC : forall i, removed (map repl_of_call cs) i -> removed (repl_of_call c :: map repl_of_call cs) i) by (intros i (r & J & B); exists r; split; [right; exact J|exact B]).
    assert (RI : forall i, removed (repl_of_call c :: map repl_of_call cs) i -> (r_from (repl_of_call c) <= i < r_to (repl_of_call c)) \/ removed (map repl_of_call cs) i) by (intros i (r & [<-|J] & B); [left; exact B|right; exists r; auto]).
    assert (RL : forall i, removed (map repl_of_call cs) i -> r_to (repl_of_call c) <= i) by (intros i (r & J & B); pose proof (ordered_from _ _ _ _ H3 J); lia).
    assert (IO : forall p, ops_ordered p p ins) by (intros p; destruct IN as [-> | (t & ->)]; reflexivity).
    exists ((if last_offset b =? r_from (repl_of_call c) then [] else [Copy (mkRange (last_offset b) (r_from (repl_of_call c)))]) ++ ins ++ s2). split; [rewrite <- !app_assoc; reflexivity|]. split.
    + intros s LS A R. inversion R as [|? ? (A1 & A2) R']; subst. apply Forall_app. split; [apply advance_aligned; assumption|]. apply Forall_app. split.
      * destruct IN as [-> | (t & ->)]; repeat constructor.
      * apply AL; assumption.
    + intros pos P. destruct (advance_ops _ _ pos P H1) as (k1 & O1 & C1). assert (K1 : k1 <= r_to (repl_of_call c)) by (destruct C1 as [(-> & Q)|(-> & Q)]; lia).
      destruct (K k1 K1) as (k & O2 & KN & T & LK). exists k. split; [exact (ops_ordered_app _ _ _ _ _ O1 (ops_ordered_app _ _ _ _ _ (IO k1) O2))|]. split; [exact KN|].
      pose proof (ops_ordered_le _ _ _ O2) as LE. split.
      * intros i I1 I2 I3. destruct (Nat.le_gt_cases (r_to (repl_of_call c)) i) as [Q|Q]; [apply RC; apply T; assumption|]. exists (repl_of_call c). split; [left; reflexivity|].
        destruct C1 as [(-> & Q1)|(-> & Q1)]; lia.
      * destruct LK as [-> |(LK & NK)].
        -- destruct C1 as [(-> & Q1)|(-> & Q1)]; [left; reflexivity|]. right. split; [exact Q1|]. intros X. apply RI in X. destruct X as [X|X]; [lia|]. apply RL in X. lia.
        -- right. split; [lia|]. intros X. apply RI in X. destruct X as [X|X]; [lia|contradiction].
Qed.

Lemma to_vs_upto : forall s ops pos k, ops_ordered pos k ops -> k <= length s -> ops_aligned s ops -> aligned s pos ->
  exists es new, to_vs_from pos ops = Ok es /\ ordered pos (length s) (map repl_of_vs es) /\ repls_aligned s (map repl_of_vs es)
    /\ apply ops (as_text s) = Ok new /\ splice pos s (map repl_of_vs es) = new ++ sub k (length s) s.
Proof.
  intros s. induction ops as [|[r|i] ops IH]; intros pos k H KL A P.
  - cbn in H. subst k. exists [], []. cbn. repeat split; auto. constructor.
  - cbn [ops_ordered] in H. destruct H as (H1 & H2 & H3). inversion A as [|? ? A0 A3]; subst. cbn in A0. destruct A0 as [A1 A2].
    destruct (IH (rend r) k H3 KL A3 A2) as (es & new & E & O & R & Ap & S).
    assert (AP : apply (Copy r :: ops) (as_text s) = Ok (sub (rstart r) (rend r) s ++ new)) by (destruct r as [a b]; rewrite apply_copy by auto; rewrite Ap; reflexivity).
    cbn [to_vs_from]. destruct (rstart r =? pos) eqn:Ep; cbn [negb].
    + apply Nat.eqb_eq in Ep. exists es, (sub (rstart r) (rend r) s ++ new). split; [exact E|]. split; [eapply ordered_weaken; [|exact O]; lia|]. split; [exact R|]. split; [exact AP|].
      rewrite <- app_assoc, <- S, <- Ep. apply splice_sub; [exact H2|]. eapply ordered_head; eauto.
    + rewrite from_to_ok by lia. cbn [bind]. rewrite E. cbn [bind]. eexists. exists (sub (rstart r) (rend r) s ++ new). split; [reflexivity|].
      cbn [map repl_of_vs vs_delete vs_insert rstart rend ordered r_from r_to]. split; [split; [lia|]; split; [lia|]; eapply ordered_weaken; [|exact O]; lia|]. split; [constructor; auto|]. split; [exact AP|].
      cbn [splice r_from r_what r_to]. rewrite sub_empty. cbn [app]. rewrite <- app_assoc, <- S. apply splice_sub; [exact H2|]. eapply ordered_head; eauto.
  - cbn [ops_ordered] in H. inversion A as [|? ? _ A3]; subst. destruct (IH pos k H KL A3 P) as (es & new & E & O & R & Ap & S).
    cbn [to_vs_from]. rewrite from_len_ok, Nat.add_0_r. cbn [bind]. rewrite E. cbn [bind]. eexists. exists (i ++ new). split; [reflexivity|].
    cbn [map repl_of_vs vs_delete vs_insert rstart rend ordered r_from r_to]. split; [split; [lia|]; split; [lia|exact O]|]. split; [constructor; auto|].
    rewrite apply_insert, Ap. cbn [bind splice r_from r_what r_to]. split; [reflexivity|]. rewrite sub_empty. cbn [app repl_of_vs r_what r_to r_from vs_delete vs_insert rend]. rewrite S, app_assoc. reflexivity.
Qed.

Lemma builder_to_vs : forall s cs ops, repls_aligned s (map repl_of_call cs) -> build_edit (as_text s) cs = Ok ops ->
  exists es new k, to_vs_edits ops = Ok es /\ ordered 0 (length s) (map repl_of_vs es) /\ repls_aligned s (map repl_of_vs es) /\ apply ops (as_text s) = Ok new
    /\ splice 0 s (map repl_of_vs es) = new ++ sub k (length s) s /\ k <= length s
    /\ (forall i, k <= i -> i < length s -> removed (map repl_of_call cs) i) /\ (k = 0 \/ ~ removed (map repl_of_call cs) (k - 1)).
Proof.
  intros s cs ops A B.
  assert (O : ordered 0 (length s) (map repl_of_call cs)).
  { assert (D : forall rs p n, {ordered p n rs} + {~ ordered p n rs}).
    { induction rs as [|r rs IH]; intros p n; cbn [ordered]; [apply le_dec|]. destruct (le_dec p (r_from r)) as [X|X]; [|right; tauto]. destruct (le_dec (r_from r) (r_to r)) as [Y|Y]; [|right; tauto].
      destruct (IH (r_to r) n) as [Z|Z]; [left; tauto|right; tauto]. }
    destruct (D (map repl_of_call cs) 0 (length s)) as [Q|Q]; [exact Q|]. rewrite (build_edit_panics s cs Q) in B. discriminate B. }
  unfold build_edit, eb_new in B. rewrite text_len_ok in B by apply as_text_wf. rewrite as_text_bytes in B. cbn [bind] in B.
  destruct (calls_shape cs (mkEB [] 0 (length s)) ops O B) as (segs & -> & AL & K). cbn [segments last_offset eb_text_len app] in *.
  destruct (K 0 (le_n 0)) as (k & OK & KN & T & L). assert (A0 : aligned s 0) by (left; reflexivity).
  destruct (to_vs_upto s segs 0 k OK KN (AL s eq_refl A0 A) A0) as (es & new & E & OR & R & Ap & S). exists es, new, k. repeat split; auto.
  - intros i I1 I2. apply T; [exact I1|lia|exact I2].
  - destruct L as [L|(L1 & L2)]; auto.
Qed.
