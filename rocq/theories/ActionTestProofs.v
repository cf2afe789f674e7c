(** Proofs about the tests of actions. *)
From Coq Require Import List Arith Bool Lia.
From Verif Require Import Base BaseFacts TextModel TextSpec TextProofs EditModel TreeModel TreeSpec TreeProofs LexModel ScanModel ScanSpec ScanProofs RelexChars ConvertModel FileEditSpec
  AnalysisModel AnalysisSpec ViewProofs CodegenProofs HarnessModel HarnessSpec HarnessProofs EditorModel FallEditModel FallEditSpec FallEditProofs ExtractProofs RustEditModel RustEditSpec RustEditProofs ActionTestModel ActionTestSpec.
Import ListNotations.

Lemma in_actions : forall id l, existsb (bytes_eqb id) l = true <-> In id l.
Proof.
  intros id l. rewrite existsb_exists. split.
  - intros (x & I & E). apply bytes_eqb_spec in E. subst x. exact I.
  - intros I. exists id. split; [exact I|apply bytes_eqb_spec; reflexivity].
Qed.

Lemma extract_marked : forall a b c, markable a b c -> extract_range (marked a b c) marker = Ok (a ++ b ++ c, selection a b).
Proof.
  intros a b c (UA & UB & UC & NA & NB). assert (UM : utf8 marker) by (apply ascii_utf8; repeat constructor; lia).
  unfold marked. apply (extract_range_at a marker b c).
  - apply find_sub_occurs. apply find1_is. exact NA.
  - apply find_sub_occurs. apply find1_is. exact NB.
  - repeat apply utf8_app; assumption.
  - repeat apply utf8_app; assumption.
  - apply utf8_app; assumption.
  - exact UC.
Qed.

Lemma trim_trim : forall space s, utf8 s -> trim_str space (trim_str space s) = trim_str space s.
Proof.
  intros space s U. destruct (trimmed_split space (chars s)) as (a & b & E & A & B). unfold trim_str. fold (trimmed space (chars s)). pose proof (utf8_valid s U) as V. rewrite E in V.
  apply Forall_app in V. destruct V as (_ & V). apply Forall_app in V. destruct V as (V & _). rewrite (chars_concat _ V). fold (trimmed space (trimmed space (chars s))). f_equal.
  rewrite <- (trimmed_core space a (trimmed space (chars s)) b A B), <- E. reflexivity.
Qed.

Section Tests.
  Variable space : bytes -> bool.
  Variable parse : bytes -> res file.
  Variable actions : file -> range -> res (list bytes).
  Variable apply_action : file -> range -> bytes -> res (option (list edit_op)).
  Variables (a b c : bytes) (f : file) (ids : list bytes).
  Hypothesis MK : markable a b c.
  Hypothesis PA : parse (a ++ b ++ c) = Ok f.
  Hypothesis TX : f_text f = a ++ b ++ c.
  Hypothesis AC : actions f (selection a b) = Ok ids.

  Lemma no_action_run : forall id, check_no_context_action parse actions id (marked a b c) = if existsb (bytes_eqb id) ids then Panic else Ok tt.
  Proof. intros id. unfold check_no_context_action. rewrite (extract_marked a b c MK). cbn [bind fst snd]. rewrite PA. cbn [bind]. rewrite AC. reflexivity. Qed.

  Lemma action_missing : forall id after, ~ In id ids -> check_context_action space parse actions apply_action id (marked a b c) after = Panic.
  Proof.
    intros id after N. unfold check_context_action. rewrite (extract_marked a b c MK). cbn [bind fst snd]. rewrite PA. cbn [bind]. rewrite AC. cbn [bind].
    destruct (existsb (bytes_eqb id) ids) eqn:E; [apply in_actions in E; contradiction|reflexivity].
  Qed.

  Lemma action_run : forall id ops out after, In id ids -> apply_action f (selection a b) id = Ok (Some ops) -> apply ops (as_text (a ++ b ++ c)) = Ok out -> utf8 after -> utf8 out ->
    (check_context_action space parse actions apply_action id (marked a b c) after = Ok tt \/ check_context_action space parse actions apply_action id (marked a b c) after = Panic)
    /\ (check_context_action space parse actions apply_action id (marked a b c) after = Ok tt <-> same_inside space after out).
  Proof.
    intros id ops out after I A AP UA UO.
    assert (E : check_context_action space parse actions apply_action id (marked a b c) after = report_diff space (trim_str space after) (trim_str space out)).
    { unfold check_context_action. rewrite (extract_marked a b c MK). cbn [bind fst snd]. rewrite PA. cbn [bind]. rewrite AC. cbn [bind].
      rewrite (proj2 (in_actions id ids) I). cbn [negb]. rewrite A. cbn [bind]. rewrite TX, AP. reflexivity. }
    rewrite E. split; [apply report_or|]. rewrite report_iff, !trim_trim by assumption. apply trim_same; assumption.
  Qed.
End Tests.

(** ** The new texts are made of whole characters. *)
Section Whole.
  Variables (f : file) (T : tree).
  Hypothesis WF : wf_file f T.
  Hypothesis CT : char_tree (f_text f) T.
  Hypothesis UT : utf8 (f_text f).

  Lemma aligned_0 : aligned (f_text f) 0.
  Proof. left. reflexivity. Qed.
  Lemma aligned_end : aligned (f_text f) (length (f_text f)).
  Proof. right. left. reflexivity. Qed.

  Lemma str_utf8 : forall n, valid f n -> utf8 (str f n).
  Proof. intros n V. destruct (rng_in f T WF n V). destruct (range_aligned f T WF CT n V). apply aligned_sub; auto. Qed.

  Lemma up_to : forall x, aligned (f_text f) x -> utf8 (sub 0 x (f_text f)).
  Proof. intros x A. pose proof (aligned_le _ _ A). apply aligned_sub; auto using aligned_0. lia. Qed.
  Lemma from_on : forall x, aligned (f_text f) x -> utf8 (sub x (length (f_text f)) (f_text f)).
  Proof. intros x A. pose proof (aligned_le _ _ A). apply aligned_sub; auto using aligned_end. Qed.

  Lemma exchanged_utf8 : forall o l r, swappable f o l r -> utf8 (exchanged f l r).
  Proof.
    intros o l r (p & _ & b & pre & m1 & m2 & post & _ & _ & K & _). assert (K' : kids f b = pre ++ l :: (m1 ++ p :: m2) ++ r :: post) by (rewrite K, <- app_assoc; reflexivity).
    destruct (kids_before f T WF b pre l (m1 ++ p :: m2) r post K') as (LR & _).
    assert (VL : valid f l) by (apply (kids_valid f T WF b); rewrite K'; apply in_or_app; right; left; reflexivity).
    assert (VR : valid f r) by (apply (kids_valid f T WF b); rewrite K'; apply in_or_app; right; right; apply in_or_app; right; left; reflexivity).
    destruct (range_aligned f T WF CT l VL) as (L1 & L2). destruct (range_aligned f T WF CT r VR) as (R1 & R2). pose proof (aligned_le _ _ R1).
    unfold exchanged. repeat apply utf8_app; auto using str_utf8, up_to, from_on. apply aligned_sub; auto.
  Qed.

  Lemma moved_aligned : forall r e m, extractable f r e -> moved f r e m -> aligned (f_text f) (rstart m) /\ aligned (f_text f) (rend m).
  Proof.
    intros r e m (_ & ((V & _) & _ & _) & _) [(a & b & (_ & _ & _ & pre & mid & post & K & _) & ->)|(_ & ->)]; [|exact (range_aligned f T WF CT e V)].
    assert (VA : valid f a) by (apply (kids_valid f T WF e); rewrite K; apply in_or_app; right; left; reflexivity).
    assert (VB : valid f b) by (apply (kids_valid f T WF e); rewrite K; apply in_or_app; right; right; apply in_or_app; right; left; reflexivity).
    split; [exact (proj1 (range_aligned f T WF CT a VA))|exact (proj2 (range_aligned f T WF CT b VB))].
  Qed.

  Lemma extracted_utf8 : forall r e m rule, extractable f r e -> moved f r e m -> valid f rule -> rstart m <= rend m -> rend m <= rend (rng f rule) -> utf8 (extracted f m rule).
  Proof.
    intros r e m rule X MV V L1 L2. destruct (moved_aligned r e m X MV) as (A1 & A2). destruct (range_aligned f T WF CT rule V) as (_ & A3). pose proof (aligned_le _ _ A3). pose proof (aligned_le _ _ A2).
    unfold extracted. repeat apply utf8_app; auto using up_to, from_on; try (apply aligned_sub; auto); apply ascii_utf8; unfold s_new_rule; repeat constructor; lia.
  Qed.

  Lemma braced_utf8 : forall s, valid f s -> utf8 (braced f s).
  Proof.
    intros s V. destruct (range_aligned f T WF CT s V) as (A1 & A2). unfold braced. repeat apply utf8_app; auto using str_utf8, up_to, from_on; apply ascii_utf8; repeat constructor; lia.
  Qed.

  Lemma listing_utf8 : forall l s, listing l s -> Forall utf8 l -> utf8 s.
  Proof.
    intros l s H. induction H as [|x|x y l s H IH]; intros F; [exact (ascii_utf8 [] (Forall_nil _))|exact (Forall_inv F)|].
    repeat apply utf8_app; [exact (Forall_inv F)|apply ascii_utf8; repeat constructor; lia|exact (IH (Forall_inv_tail F))].
  Qed.

  Lemma generics_utf8 : forall d params args, generics f d params args -> utf8 params /\ utf8 args.
  Proof.
    intros d params args [|p ls ts lnames tnames s KP KL KT FL FT LS].
    - split; exact (ascii_utf8 [] (Forall_nil _)).
    - split; [apply str_utf8; exact (kid_valid f T WF _ _ _ KP)|]. repeat apply utf8_app; try (apply ascii_utf8; repeat constructor; lia).
      apply (listing_utf8 _ _ LS). apply Forall_app. split.
      + clear - WF CT UT FL. induction FL as [|l x ls xs (m & K & <-) F IH]; constructor; [apply str_utf8; exact (kid_valid f T WF _ _ _ K)|exact IH].
      + clear - WF CT UT FT. induction FT as [|l x ls xs N F IH]; constructor; [|exact IH]. unfold rs_name in N. destruct (kid f RS_IDENT l) as [m|] eqn:K; [|discriminate N]. injection N as <-. apply str_utf8; exact (kid_valid f T WF _ _ _ K).
  Qed.

  Lemma with_impl_utf8 : forall d name params args, valid f d -> rs_name f d = Some name -> generics f d params args -> utf8 (with_impl f d name params args).
  Proof.
    intros d name params args V N G. destruct (generics_utf8 _ _ _ G). destruct (range_aligned f T WF CT d V) as (_ & A).
    assert (UN : utf8 name) by (unfold rs_name in N; destruct (kid f RS_IDENT d) as [m|] eqn:K; [|discriminate N]; injection N as <-; apply str_utf8; exact (kid_valid f T WF _ _ _ K)).
    unfold with_impl. repeat apply utf8_app; auto using up_to, from_on; apply ascii_utf8; unfold s_impl; repeat constructor; lia.
  Qed.
End Whole.
