(** Relexing texts in UTF-8 with a lexer whose tokens are determined by the whole characters around them. *)
From Coq Require Import List Arith Bool Lia.
From Verif Require Import Base BaseFacts TextModel EditModel LexModel LexSpec LexProofs TextSpec TextProofs ScanSpec ScanProofs RegexModel RegexSpec RegexProofs RegexLang.
Import ListNotations.

(** The copies of an edit that applies start and end between characters. *)
Definition aligned_op (old : bytes) (op : edit_op) : Prop :=
  match op with Copy r => aligned old (rstart r) /\ aligned old (rend r) | Insert _ => True end.

Lemma apply_aligned : forall old ops acc new, apply_from acc ops (as_text old) = Ok new -> Forall (aligned_op old) ops.
Proof.
  intros old. induction ops as [|[r|t] ops IH]; intros acc new E; cbn [apply_from] in E; [constructor| |].
  - apply bind_ok in E. destruct E as (u & E1 & E). apply bind_ok in E. destruct E as (c & E2 & E). constructor; [|exact (IH _ _ E)].
    pose proof (as_text_wf old) as W. destruct (slice_inv _ _ _ W E1) as [P1 P2]. rewrite as_text_bytes in P2.
    destruct (slice_ok (as_text old) r W P1) as (u' & F & _ & O & R & B); [rewrite as_text_bytes; exact P2|].
    rewrite E1 in F. injection F as <-. unfold as_str, str_index in E2. apply guard_ok in E2. destruct E2 as [_ E2].
    apply guard_ok in E2. destruct E2 as [E2 _]. apply andb_true_iff in E2. rewrite R, O in E2. cbn [as_text owned trange rstart rend] in E2.
    destruct E2 as [X Y]. apply boundary_spec in X. apply boundary_spec in Y. split; [exact X|exact Y].
  - apply bind_ok in E. destruct E as (c & E2 & E). constructor; [exact I|exact (IH _ _ E)].
Qed.

Lemma aligned_sub : forall s a b, utf8 s -> aligned s a -> aligned s b -> a <= b <= length s -> utf8 (sub a b s).
Proof.
  intros s a b U A B L. unfold sub. pose proof (utf8_skip s a U A) as US. apply utf8_take; [exact US|].
  destruct B as [-> | [-> | (x & N & C)]].
  - replace (0 - a) with 0 by lia. left. reflexivity.
  - right. left. rewrite skipn_length. reflexivity.
  - right. right. exists x. rewrite nth_error_skipn. replace (a + (b - a)) with b by lia. auto.
Qed.

Lemma result_utf8 : forall old ops, utf8 old -> Forall (valid_op old) ops -> Forall (aligned_op old) ops -> inserts_utf8 ops -> utf8 (result_of old ops).
Proof.
  intros old ops U. induction ops as [|op ops IH]; intros V A I; [exact utf8_nil|].
  pose proof (Forall_inv V) as V1. pose proof (Forall_inv A) as A1. pose proof (Forall_inv I) as I1.
  unfold result_of in *. cbn [flat_map]. apply utf8_app.
  - destruct op as [r|t]; cbn [valid_op aligned_op op_bytes] in *; [apply aligned_sub; tauto|exact I1].
  - apply IH; [exact (Forall_inv_tail V)|exact (Forall_inv_tail A)|exact (Forall_inv_tail I)].
Qed.

(** A valid prefix leaves a valid rest. *)
Lemma utf8_rest : forall w b, utf8 w -> utf8 (w ++ b) -> utf8 b.
Proof.
  intros w b (cs & F & ->). induction F as [|c cs U F IH]; intros V; [exact V|]. cbn [concat] in V. rewrite <- app_assoc in V.
  apply IH. clear IH F. destruct U as (VC & CL). destruct c as [|x r]; [destruct VC|]. specialize (CL x eq_refl).
  destruct V as (ds & G & E). destruct ds as [|d ds]; [discriminate E|]. inversion G as [|? ? UD G']; subst. destruct UD as (VD & DL). cbn [concat] in E.
  destruct d as [|y q]; [destruct VD|]. assert (y = x) by (cbn in E; congruence). subst y. specialize (DL x eq_refl).
  assert (LE : length (x :: r) = length (x :: q)) by congruence. destruct (app_len_inv _ _ _ _ E LE) as [_ ->]. exists ds. auto.
Qed.

Lemma reads_whole : forall lx, progressing lx -> whole_tokens lx -> forall txt done rest, reads lx txt done rest -> utf8 txt ->
  aligned txt (lens done) /\ rest = skipn (lens done) txt /\ lens done <= length txt.
Proof.
  intros lx P W txt done rest R. induction R as [txt|txt t ts rest NE E R IH]; intros U.
  - split; [left; reflexivity|]. split; [reflexivity|cbn; lia].
  - pose proof (W txt NE U) as A. rewrite E in A. destruct (P txt NE) as [P1 P2]. rewrite E in P1, P2. pose proof (utf8_skip _ _ U A) as US.
    destruct (IH US) as (B & C & D). rewrite lens_cons. rewrite skipn_length in D. split; [apply aligned_skip; [exact A|lia|exact B]|]. split; [|lia].
    rewrite C, skipn_skipn. reflexivity.
Qed.

Lemma tails_skip : forall lx fine, token_tails lx fine -> forall txt toks, tokenizes lx txt toks -> fine txt -> forall before ts, toks = before ++ ts ->
  fine (skipn (lens before) txt).
Proof.
  intros lx fine TT txt toks T. induction T as [|txt t ts' NE E T IH]; intros F before ts EQ.
  - destruct before; [exact F|discriminate EQ].
  - destruct before as [|x before]; [exact F|]. cbn [app] in EQ. injection EQ as <- EQ. rewrite lens_cons, <- skipn_skipn.
    apply (IH) with (ts := ts); [|exact EQ]. pose proof (TT txt NE F) as X. rewrite E in X. exact X.
Qed.

Lemma local_ahead : forall lx fine old new old_toks (ends : nat -> Prop), progressing lx -> whole_tokens lx -> local_on lx fine -> token_tails lx fine -> fine old -> utf8 old -> utf8 new ->
  tokenizes lx old old_toks -> (forall e, ends e -> aligned old e) -> ahead lx old new old_toks ends.
Proof.
  intros lx fine old new old_toks ends P W LT TT FO UO UN TK AE before ts done q m E T F R Q EN L1 L2 C LE.
  pose proof (whole_lex lx P W _ _ TK UO (length before)) as AB. rewrite E, firstn_app, Nat.sub_diag, firstn_all, firstn_O, app_nil_r in AB.
  destruct (reads_whole lx P W _ _ _ R UN) as (AD & _ & LD). subst q. specialize (AE _ EN).
  pose proof (utf8_skip _ _ UO AB) as UU. pose proof (utf8_skip _ _ UN AD) as UV.
  set (u := skipn (lens before) old) in *. set (v := skipn (lens done) new) in *.
  assert (AM : aligned u m).
  { destruct AE as [Z | [Z | (x & N & X)]].
    - left. lia.
    - right. left. unfold u. rewrite skipn_length. lia.
    - right. right. exists x. unfold u. rewrite nth_error_skipn. auto. }
  set (w := firstn m u). assert (UW : utf8 w) by (apply utf8_take; assumption).
  assert (EU : u = w ++ skipn m u) by (symmetry; apply firstn_skipn). assert (EV : v = w ++ skipn m v) by (unfold w; rewrite <- C; symmetry; apply firstn_skipn).
  assert (LW : length w = m) by (unfold w; apply firstn_length_le; unfold u; rewrite skipn_length; lia).
  rewrite EU, EV. apply LT.
  - exact UW.
  - apply utf8_skip; assumption.
  - rewrite EV in UV. eapply utf8_rest; eauto.
  - rewrite <- EU. intros toks LX. destruct (lex_ok lx u P) as (us & LX' & TU). rewrite LX in LX'. injection LX' as ->.
    rewrite (tokenizes_fun _ _ _ TU _ T). exact F.
  - rewrite <- EU. exact (tails_skip lx fine TT _ _ TK FO _ _ E).
  - rewrite <- EU, LW. exact LE.
Qed.

Lemma relex_chars : forall lx fine old old_toks ops new, progressing lx -> whole_tokens lx -> local_on lx fine -> token_tails lx fine -> fine old -> utf8 old -> inserts_utf8 ops ->
  lex lx old = Ok old_toks -> apply ops (as_text old) = Ok new ->
  utf8 new /\ exists region ts, relex lx old_toks ops new = Ok (ts, region) /\ lex lx new = Ok ts.
Proof.
  intros lx fine old old_toks ops new P W LT TT FO UO IU L A. destruct (apply_result _ _ _ A) as [V ->]. pose proof (apply_aligned _ _ _ _ A) as AL.
  pose proof (result_utf8 old ops UO V AL IU) as UN. split; [exact UN|].
  destruct (lex_ok lx old P) as (us & E & T). rewrite L in E. injection E as <-.
  destruct (relex_ahead lx old old_toks ops P (tokenizes_lens lx P _ _ T) V) as (ts & region & R & _ & _ & _ & K).
  exists region, ts. split; [exact R|]. destruct (lex_ok lx (result_of old ops) P) as (ws & E & TN).
  rewrite E. f_equal. eapply tokenizes_fun; [exact TN|]. apply K; [|exact T].
  apply (local_ahead lx fine); try assumption. intros e (r & I & ->). rewrite Forall_forall in AL. exact (proj2 (AL _ I)).
Qed.
