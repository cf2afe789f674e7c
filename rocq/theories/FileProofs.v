(** Whole files: from a text to the stored tree. *)
From Coq Require Import List Arith Bool Lia.
From Verif Require Import Base BaseFacts TextModel TextSpec TextProofs LexModel LexSpec LexProofs GrammarModel ParserModel ForestSpec SemSpec
  TreeModel TreeSpec TreeProofs ConvertModel ConvertSpec SpanSpec RefineProofs ReshuffleProofs SpanProofs ConvertProofs.
Import ListNotations.

Lemma texts_ok : forall txt toks off, off + lens toks <= length txt ->
  token_texts (as_text txt) off toks = Ok (with_text txt off toks).
Proof.
  intros txt. induction toks as [|t toks IH]; intros off L; [reflexivity|]. rewrite lens_cons in L. cbn [token_texts with_text].
  unfold from_len, from_to. rewrite (proj2 (Nat.leb_le _ _)) by lia. cbn [guard bind]. unfold slice, text_len, as_text at 1 2 3 4. cbn [trange rstart rend owned].
  rewrite usub_le by lia. cbn [bind]. rewrite Nat.sub_0_r. rewrite (proj2 (Nat.leb_le (off + tk_len t) _)) by lia. cbn [guard plus].
  rewrite (proj2 (Nat.leb_le off _)) by lia. cbn [guard]. rewrite usub_le by lia. cbn [bind]. unfold from_to.
  replace (off + (off + tk_len t - off)) with (off + tk_len t) by lia.
  rewrite (proj2 (Nat.leb_le _ _)) by lia. cbn [guard bind]. rewrite IH by lia. cbn [bind as_text owned trange rstart plus].
  replace (off + (off + tk_len t - off)) with (off + tk_len t) by lia. reflexivity.
Qed.

Lemma with_text_fst : forall txt toks off, map fst (with_text txt off toks) = toks.
Proof. intros txt. induction toks as [|t toks IH]; intros off; [reflexivity|]. cbn. f_equal. apply IH. Qed.

(** ** Converting the events of one tree *)
Section Root.
  Variable is_ws : nat -> bool.
  Variable binder : nat -> list (nat * text) -> bool -> res nat.
  Hypothesis BL : forall ty w b k, binder ty w b = Ok k -> k <= length w.

  Lemma run_all : forall z ts, is_run is_ws z ts -> Forall (fun t => white is_ws t = true) ts -> z = ts.
  Proof.
    intros z ts [_ (r & -> & N)] A. apply Forall_app in A. destruct A as [_ A]. destruct r as [|t r]; [rewrite app_nil_r; reflexivity|].
    inversion A. congruence.
  Qed.

  Lemma convert_ok : forall txt toks t, attached t -> (exists ty pre body, t = PNode ty pre body) ->
    lens toks <= length txt -> fits is_ws (tokss [t]) (with_text txt 0 toks) ->
    match convert is_ws binder (as_text txt) toks (encs [t]) with
    | Ok calls => exists T used rest, calls = calls_of T /\ with_text txt 0 toks = used ++ rest
        /\ placed_root is_ws binder t (with_text txt 0 toks) T rest /\ covers is_ws [t] used [T]
    | _ => binder_fails is_ws binder (with_text txt 0 toks)
    end.
  Proof.
    intros txt toks t AT (ty & pre & body & ->) LL FT. unfold convert. rewrite reshuffle_ok by (cbn [all_attached]; auto). cbn [bind].
    rewrite flats_cons. cbn [flats flat_map]. rewrite app_nil_r.
    pose proof (flat_node_app ty pre body []) as EF. rewrite app_nil_r in EF. rewrite EF. rewrite texts_ok by exact LL. cbn [bind].
    rewrite tokss_node, <- (app_nil_r (tokss (pre ++ body))) in FT.
    pose proof (go_ok is_ws binder BL (S (length (flats (pre ++ body)))) ty (pre ++ body) (S (length (flats (pre ++ body) ++ [EvEnd])))
      (with_text txt 0 toks) [] [] (fill_all is_ws binder BL _) ltac:(lia) ltac:(rewrite app_length; lia) FT) as G.
    destruct (go is_ws binder _ ty (with_text txt 0 toks) (flats (pre ++ body) ++ [EvEnd])) as [[[calls edge] ne]| |]; cbn [bind]; auto.
    destruct G as (a & u & b & cs & z & E1 & PL & CV & RZ & BZ & FU & FB & -> & -> & ->).
    apply fits_nil_white in FB.
    assert (FUB : Forall (fun t => white is_ws t = true) (u ++ b)) by (apply Forall_app; auto).
    rewrite (run_all z (u ++ b) RZ FUB) in BZ.
    exists (Node ty (cs ++ map raw_leaf u)), (a ++ u), b. split; [reflexivity|]. split; [rewrite <- app_assoc; exact E1|]. split.
    - exists ty, pre, body, cs, u. auto 10.
    - rewrite <- (app_nil_r (a ++ u)). apply cov_node; [|constructor]. rewrite <- (app_nil_r (pre ++ body)).
      apply covers_app; auto. apply covers_white; auto.
  Qed.
End Root.

(** ** Files *)

Lemma own_len : forall sp o, own_spaces sp = Ok o -> length o = length sp.
Proof.
  induction sp as [|[t x] sp IH]; intros o H; cbn [own_spaces] in H; [injection H as <-; reflexivity|].
  apply bind_ok in H. destruct H as (b & _ & H). apply bind_ok in H. destruct H as (bs & H1 & H2). injection H2 as <-. cbn. f_equal. auto.
Qed.

Lemma file_binder_le : forall L fty, (forall ty sp b, l_binder L ty sp b <= length sp) ->
  forall ty w b k, file_binder L fty ty w b = Ok k -> k <= length w.
Proof.
  intros L fty LB ty w b k H. unfold file_binder in H. destruct (ty =? fty); [injection H as <-; auto|].
  apply bind_ok in H. destruct H as (o & H1 & H2). injection H2 as <-. rewrite <- (own_len _ _ H1). apply LB.
Qed.

(** The root has the type of the file. *)
Lemma sem_root : forall E fuel ty body t, nth_error (g_rules (e_g E)) 0 = Some (EPub ty body false) -> sem_file E fuel = Ok t ->
  exists fty F, nth_error (g_types (e_g E)) ty = Some fty /\ t = PNode fty [] F.
Proof.
  intros E fuel ty body t R0 H. unfold sem_file in H. apply bind_ok in H. destruct H as ([r h] & Q & H).
  destruct fuel as [|f]; [discriminate|]. cbn [sem] in Q. unfold sem_step in Q. rewrite (proj2 (index_ok _ _ _ _) R0) in Q. cbn [bind] in Q.
  unfold sem_pub in Q. apply bind_ok in Q. destruct Q as (fty & TY & Q). apply bind_ok in Q. destruct Q as ([r1 h1] & _ & Q).
  destruct r1 as [[p1 F]|]; [|injection Q as <- <-; discriminate]. cbn [bind] in Q. injection Q as <- <-. cbn [unwrap bind] in H.
  exists fty. destruct (p_empty p1).
  - injection H as <-. exists F. split; [apply index_ok; exact TY|reflexivity].
  - apply bind_ok in H. destruct H as (T & _ & H). injection H as <-. eexists. split; [apply index_ok; exact TY|reflexivity].
Qed.

(** ** No whitespace inside contextual tokens *)
Lemma no_ws_byte_tight : forall cache g is_ws txt toks, lens toks = length txt -> Forall (fun t => 0 < tk_len t) toks ->
  no_ws_byte g is_ws txt toks -> tight (new_env cache g is_ws txt toks) is_ws.
Proof.
  intros cache g is_ws txt toks LEN POS NB i ty ctx RI k o raw IK ST j t LT TJ WS. cbn [new_env e_idx e_toks e_text e_g] in *.
  destruct (Nat.le_gt_cases (o + length ctx) (lens (firstn j toks))) as [H|H]; auto. exfalso.
  apply (non_ws_split (new_env cache g is_ws txt toks) is_ws LEN) in IK. destruct IK as (a & t0 & b & EQ & RW & OF & _ & _). cbn in RW, OF. subst raw o.
  assert (LA : lens a <= lens (firstn j toks)).
  { rewrite EQ. rewrite firstn_app. rewrite lens_app. rewrite firstn_all2 by lia. lia. }
  set (x := lens (firstn j toks)) in *.
  assert (LJ : x + tk_len t <= length txt).
  { rewrite <- LEN. rewrite <- (firstn_skipn j toks), lens_app. fold x.
    destruct (skipn j toks) as [|t' r] eqn:SK.
    - assert (Q : nth_error toks j = None). { apply nth_error_None. rewrite <- (firstn_skipn j toks), SK, app_nil_r, firstn_length. lia. } congruence.
    - assert (Q : t' = t).
      { assert (W := nth_error_app2 (firstn j toks) (t' :: r) (n := j)). rewrite firstn_length_le in W by (apply Nat.lt_le_incl, nth_error_Some; congruence).
        rewrite <- SK, firstn_skipn, TJ, Nat.sub_diag, SK in W. specialize (W (le_n _)). cbn in W. congruence. }
      subst t'. rewrite lens_cons. lia. }
  assert (PT : 0 < tk_len t) by (rewrite Forall_forall in POS; apply POS; eapply nth_error_In; eauto).
  destruct (nth_error txt x) as [c|] eqn:NX; [|apply nth_error_None in NX; lia].
  apply (NB i ty ctx RI j t c TJ WS NX). rewrite <- ST.
  assert (N2 : nth_error (sub (lens a) (lens a + length ctx) txt) (x - lens a) = Some c).
  { rewrite nth_error_sub by lia. replace (lens a + (x - lens a)) with x by lia. exact NX. }
  eapply nth_error_In; eauto.
Qed.

Lemma covers_len : forall is_ws F ts cs, covers is_ws F ts cs -> sum (map tlen cs) = lens (map fst ts).
Proof.
  intros is_ws F ts cs H. induction H; cbn [map sum tlen raw_leaf] in *.
  - reflexivity.
  - rewrite lens_cons. unfold sum in *. cbn [fold_right]. lia.
  - rewrite map_app, lens_app. unfold sum in *. cbn [fold_right]. lia.
  - rewrite map_app, lens_app. unfold sum in *. cbn [fold_right tlen]. lia.
  - auto.
Qed.

(** Parsing a file: the tree semantics, whitespace attached, stored. *)
Lemma parse_file_ok : forall L fuel txt f inc ty body,
  progressing (l_lexer L) -> (forall ty sp b, l_binder L ty sp b <= length sp) ->
  nth_error (g_rules (l_g L)) 0 = Some (EPub ty body false) ->
  parse_file L fuel txt = Ok (f, inc) ->
  forall toks, lex (l_lexer L) txt = Ok toks ->
  no_ws_byte (l_g L) (l_ws L) txt toks ->
  let E := new_env None (l_g L) (l_ws L) txt toks in
  sem_file E fuel <> Panic ->
  exists t T fty, sem_file E fuel = Ok t /\ i_tokens inc = toks /\ i_events inc = encs [t]
    /\ f_text f = txt /\ wf_file f T
    /\ nth_error (g_types (l_g L)) ty = Some fty
    /\ placed_root (l_ws L) (file_binder L fty) t (with_text txt 0 toks) T []
    /\ covers (l_ws L) [t] (with_text txt 0 toks) [T]
    /\ spans E 0 (tokss [t]) (length (e_idx E)).
Proof.
  intros L fuel txt f inc ty body PR LB R0 H toks LX NB E NP. unfold parse_file in H. rewrite LX in H. cbn [bind] in H.
  apply bind_ok in H. destruct H as ([evs calls] & DP & H). apply bind_ok in H. destruct H as (f' & FN & H). injection H as <- <-.
  unfold def_parse in DP. apply bind_ok in DP. destruct DP as (fty & FT & DP). apply bind_ok in DP. destruct DP as (evs' & PE & DP).
  apply bind_ok in DP. destruct DP as (calls' & CV & DP). injection DP as -> ->.
  destruct (lex_ok (l_lexer L) txt PR) as (ts & LX' & TK). rewrite LX in LX'. injection LX' as <-.
  pose proof (tokenizes_lens _ PR _ _ TK) as LEN. destruct (tokenizes_cut _ PR _ _ TK) as (_ & POS & _).
  assert (TI : tight E (l_ws L)) by (apply no_ws_byte_tight; auto).
  pose proof (file_ref E eq_refl fuel) as RF. unfold rf in RF.
  destruct (sem_file E fuel) as [t| |] eqn:SF; [|congruence|fold E in PE; congruence].
  destruct RF as (b & EB & EV). fold E in PE. rewrite PE in EB. injection EB as EB. rewrite <- EB in EV. clear b EB. subst evs.
  destruct (sem_root E fuel ty body t R0 SF) as (fty' & F & TF & ET). cbn [E new_env e_g] in TF.
  assert (fty' = fty).
  { unfold file_type in FT. rewrite (proj2 (index_ok _ _ _ _) R0) in FT. cbn [bind] in FT. apply index_ok in FT. congruence. } subst fty'.
  destruct (file_spans E (l_ws L) eq_refl LEN TI fuel t SF) as [SP AT].
  assert (FIT : fits (l_ws L) (tokss [t]) (with_text txt 0 toks)).
  { eapply (spans_fits E (l_ws L) eq_refl LEN 0 _ _ SP eq_refl _ []); [apply with_text_fst|reflexivity]. }
  pose proof (convert_ok (l_ws L) (file_binder L fty) (file_binder_le L fty LB) txt toks t AT ltac:(rewrite ET; eauto) ltac:(lia) FIT) as CO.
  rewrite CV in CO. destruct CO as (T & used & rest & -> & EU & PL & CC).
  assert (rest = []).
  { destruct PL as (ty1 & pre1 & b1 & cs & u & E1 & _ & _ & _ & BB). rewrite ET in E1. injection E1 as <- _ _.
    unfold file_binder in BB. rewrite Nat.eqb_refl in BB. injection BB as BB. unfold seen in BB. rewrite map_length, app_length in BB.
    destruct rest; auto. cbn in BB. lia. }
  subst rest. rewrite app_nil_r in EU. rewrite <- EU in CC.
  exists t, T, fty. split; [reflexivity|]. split; [reflexivity|]. split; [reflexivity|].
  unfold file_new in FN. apply bind_ok in FN. destruct FN as (nodes & TB & FN). injection FN as <-. split; [reflexivity|].
  split; [|auto].
  destruct PL as (ty1 & pre1 & b1 & cs & u & E1 & -> & _ & _ & _).
  assert (B := build_ok [Node ty1 (cs ++ map raw_leaf u)] (Forall_cons (Node ty1 (cs ++ map raw_leaf u)) I (Forall_nil _))).
  cbn [flat_map layouts] in B. rewrite !app_nil_r in B. rewrite TB in B. injection B as ->.
  split; [exact (layout_stores (Node ty1 (cs ++ map raw_leaf u)))|]. cbn [f_text]. apply covers_len in CC. cbn [map sum fold_right] in CC. rewrite Nat.add_0_r in CC. rewrite CC.
  rewrite with_text_fst. exact LEN.
Qed.
