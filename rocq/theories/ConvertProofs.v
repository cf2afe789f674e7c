(** Attaching whitespace: the tree covers every raw token exactly once. *)
From Coq Require Import List Arith Bool Lia.
From Verif Require Import Base BaseFacts TextModel TextSpec TextProofs LexModel LexSpec LexProofs GrammarModel ParserModel ForestSpec SemSpec
  TreeModel TreeSpec TreeProofs ConvertModel ConvertSpec SpanSpec RefineProofs ReshuffleProofs SpanProofs.
Import ListNotations.

Section Fill.
  Variable is_ws : nat -> bool.
  Variable binder : nat -> list (nat * text) -> bool -> res nat.
  Hypothesis BL : forall ty w b k, binder ty w b = Ok k -> k <= length w.

  Notation white := (white is_ws).
  Notation covers := (covers is_ws).
  Notation fits := (fits is_ws).
  Notation spaces := (spaces is_ws).

  Lemma spaces_run : forall ts, is_run is_ws (spaces ts) ts.
  Proof.
    induction ts as [|t ts IH]; cbn [ConvertModel.spaces].
    - split; [constructor|]. exists []. split; auto.
    - destruct (is_ws (tk_ty (fst t))) eqn:W.
      + destruct IH as [F (r & E & N)]. split; [constructor; auto|]. exists r. split; [cbn; f_equal; exact E|exact N].
      + split; [constructor|]. exists (t :: ts). split; [reflexivity|exact W].
  Qed.

  Lemma fits_drop : forall w l ts, Forall (fun t => white t = true) w -> fits l (w ++ ts) -> fits l ts.
  Proof.
    induction w as [|x w IH]; intros l ts FW H; [exact H|]. apply IH; [inversion FW; auto|].
    inversion_clear FW as [|? ? Wx _]. cbn [app] in H. remember (x :: w ++ ts) as u eqn:EU. revert EU.
    induction H as [|l y u W H IHH|ty l g u G H IHH]; intros EU; [discriminate| |].
    - injection EU as -> ->. exact H.
    - destruct g as [|y g].
      + cbn [app] in EU. change (@length rtok []) with (length (@nil rtok)). apply (fits_group _ ty l []); auto.
      + cbn in EU. injection EU as -> _. inversion G as [|? ? Wy]. congruence.
  Qed.

  Lemma fits_take : forall ty n l ts, fits ((ty, n) :: l) ts -> match ts with [] => True | t :: _ => white t = false end ->
    exists g r, ts = g ++ r /\ length g = n /\ Forall (fun t => white t = false) g /\ fits l r.
  Proof.
    intros ty n l ts H. inversion H as [|? w ts' W H' |? ? g r G H']; subst; intros N; [congruence|].
    exists g, r. auto.
  Qed.

  Lemma fits_nil_white : forall ts, fits [] ts -> Forall (fun t => white t = true) ts.
  Proof. intros ts H. remember [] as l eqn:E. revert E. induction H; intros; [constructor|constructor; auto|discriminate]. Qed.

  Lemma covers_white : forall w, Forall (fun t => white t = true) w -> covers [] w (map raw_leaf w).
  Proof. induction 1; cbn; constructor; auto. Qed.

  Lemma covers_pre : forall w F ts cs, Forall (fun t => white t = true) w -> covers F ts cs -> covers F (w ++ ts) (map raw_leaf w ++ cs).
  Proof. induction 1; cbn; intros; auto. constructor; auto. Qed.

  Lemma covers_app : forall F ts cs, covers F ts cs -> forall G us ds, covers G us ds -> covers (F ++ G) (ts ++ us) (cs ++ ds).
  Proof.
    induction 1; intros G us ds HG; cbn [app].
    - exact HG.
    - constructor; auto.
    - rewrite <- app_assoc. apply cov_tok; auto.
    - rewrite <- app_assoc. apply cov_node; auto.
    - apply cov_cached. rewrite app_assoc. auto.
  Qed.

  Lemma leaf_calls_raw : forall w, leaf_calls w = flat_map calls_of (map raw_leaf w).
  Proof. induction w as [|x w IH]; [reflexivity|]. cbn. f_equal. exact IH. Qed.

  (** The only way to fail is a failing binder. *)
  Definition binder_fails (ts : list rtok) : Prop :=
    exists ty w b, incl w ts /\ Forall (fun t => white t = true) w /\ forall k, binder ty (seen w) b <> Ok k.

  Lemma binder_fails_incl : forall a b, binder_fails a -> incl a b -> binder_fails b.
  Proof. intros a b (ty & w & x & I & R) H. exists ty, w, x. split; auto. intros y Y. auto. Qed.

  Definition fill_spec (n : nat) : Prop := forall F, length (flats F) < n -> forall fuel ts l rest,
    length (flats F) < fuel -> fits (tokss F ++ l) ts ->
    match fill is_ws binder fuel ts (flats F ++ EvEnd :: rest) with
    | Ok (calls, nt, ne) => exists a b cs, ts = a ++ b /\ placed is_ws binder F ts cs b /\ covers F a cs /\ fits l b
        /\ calls = flat_map calls_of cs /\ nt = length a /\ ne = S (length (flats F))
    | _ => binder_fails ts
    end.

  Lemma skipn_len_app : forall A (a b : list A) n, n = length a -> skipn n (a ++ b) = b.
  Proof. intros A a b n ->. rewrite skipn_app, skipn_all, Nat.sub_diag. reflexivity. Qed.
  Lemma firstn_len_app : forall A (a b : list A) n, n = length a -> firstn n (a ++ b) = a.
  Proof. intros A a b n ->. rewrite firstn_app, firstn_all, Nat.sub_diag. apply app_nil_r. Qed.

  (** A whole node, given that [fill] works for its children. *)
  Lemma go_ok : forall n ty children fuel ts l rest, fill_spec n -> length (flats children) < n -> length (flats children) < fuel ->
    fits (tokss children ++ l) ts ->
    match go is_ws binder (fill is_ws binder fuel) ty ts (flats children ++ EvEnd :: rest) with
    | Ok (calls, edge, ne) => exists a u b cs z, ts = a ++ u ++ b /\ placed is_ws binder children ts cs (u ++ b) /\ covers children a cs
        /\ is_run is_ws z (u ++ b) /\ binder ty (seen z) false = Ok (length u) /\ Forall (fun t => white t = true) u
        /\ fits l b /\ calls = calls_of (Node ty (cs ++ map raw_leaf u)) /\ edge = length a + length u /\ ne = S (length (flats children))
    | _ => binder_fails ts
    end.
  Proof.
    intros n ty children fuel ts l rest FS L1 L2 FT. unfold go.
    pose proof (FS children L1 fuel ts l rest L2 FT) as H.
    destruct (fill is_ws binder fuel ts (flats children ++ EvEnd :: rest)) as [[[calls nt] ne]| |]; cbn [bind]; auto.
    destruct H as (a & b & cs & -> & PL & CV & FL & -> & -> & ->).
    rewrite (proj2 (Nat.leb_le _ _)) by (rewrite app_length; lia). cbn [guard]. rewrite skipn_len_app by reflexivity.
    destruct (spaces_run b) as [WR (r & Eb & NR)].
    destruct (binder ty (for_binder (spaces b)) false) as [k| |] eqn:BE; cbn [bind].
    - pose proof (BL _ _ _ _ BE) as LE. unfold for_binder in LE. rewrite map_length in LE.
      assert (LB : length (spaces b) <= length b) by (rewrite Eb at 2; rewrite app_length; lia).
      rewrite (proj2 (Nat.leb_le _ _)) by lia. cbn [guard].
      set (u := firstn k b). assert (LU : length u = k) by (unfold u; rewrite firstn_length; lia).
      assert (EU : b = u ++ skipn k b) by (symmetry; apply firstn_skipn).
      assert (UW : u = firstn k (spaces b)).
      { unfold u. rewrite Eb at 1. rewrite firstn_app. replace (k - length (spaces b)) with 0 by lia. cbn. apply app_nil_r. }
      assert (FU : Forall (fun t => white t = true) u).
      { rewrite UW. rewrite <- (firstn_skipn k (spaces b)) in WR. apply Forall_app in WR. apply WR. }
      exists a, u, (skipn k b), cs, (spaces b). rewrite <- EU.
      split; [reflexivity|]. split; [exact PL|]. split; [exact CV|].
      split; [split; [exact WR|exists r; auto]|]. split; [rewrite LU; exact BE|]. split; [exact FU|].
      split; [apply (fits_drop u); auto; rewrite <- EU; exact FL|]. split; [|split; [lia|reflexivity]].
      cbn [calls_of]. rewrite flat_map_app. fold u. rewrite leaf_calls_raw, <- app_assoc. reflexivity.
    - exists ty, (spaces b), false. split; [|split; [exact WR|]].
      + intros y Y. apply in_or_app. right. rewrite Eb. apply in_or_app. auto.
      + intros k Q. change (seen (spaces b)) with (for_binder (spaces b)) in Q. congruence.
    - exists ty, (spaces b), false. split; [|split; [exact WR|]].
      + intros y Y. apply in_or_app. right. rewrite Eb. apply in_or_app. auto.
      + intros k Q. change (seen (spaces b)) with (for_binder (spaces b)) in Q. congruence.
  Qed.

  Lemma toks_node : forall ty pre b, toks (PNode ty pre b) = tokss (pre ++ b).
  Proof. intros. rewrite tokss_app. reflexivity. Qed.

  Lemma tokss_cons : forall t F, tokss (t :: F) = toks t ++ tokss F.
  Proof. reflexivity. Qed.

  Lemma flat_node_app : forall ty pre b X, flat (PNode ty pre b) ++ X = EvStart ty None :: flats (pre ++ b) ++ EvEnd :: X.
  Proof. intros. rewrite flat_node, flats_app, <- !app_assoc. cbn. rewrite <- !app_assoc. reflexivity. Qed.

  Lemma fill_all : forall n, fill_spec n.
  Proof.
    induction n as [|n IH]; intros F LF; [lia|]. intros fuel ts l rest LFu FT.
    destruct fuel as [|f]; [lia|]. destruct F as [|t F].
    - cbn [flats flat_map app fill]. exists [], ts, []. split; [reflexivity|]. split; [constructor|]. split; [constructor|].
      cbn in FT. auto.
    - rewrite flats_cons in *. rewrite app_length in LF, LFu. rewrite tokss_cons, <- app_assoc in FT.
      destruct t as [ty pre body|ty k|key body].
      + (* node *)
        rewrite <- app_assoc, flat_node_app. set (X := flats F ++ EvEnd :: rest).
        assert (LN : length (flat (PNode ty pre body)) = S (S (length (flats (pre ++ body))))).
        { pose proof (flat_node_app ty pre body []) as Q. rewrite app_nil_r in Q. rewrite Q. cbn [length]. rewrite app_length. cbn. lia. }
        rewrite LN in *. cbn [fill]. destruct (spaces_run ts) as [WR (r & Et & NR)].
        destruct (binder ty (for_binder (spaces ts)) true) as [bd| |] eqn:BE; cbn [bind].
        2,3: exists ty, (spaces ts), true; split; [rewrite Et at 2; intros y Y; apply in_or_app; auto|]; split; [exact WR|];
          intros k Q; change (seen (spaces ts)) with (for_binder (spaces ts)) in Q; congruence.
        pose proof (BL _ _ _ _ BE) as LE. unfold for_binder in LE. rewrite map_length in LE.
        rewrite usub_le by exact LE. cbn [bind]. set (lw := length (spaces ts) - bd).
        assert (LS : length (spaces ts) <= length ts) by (rewrite Et at 2; rewrite app_length; lia).
        set (w := firstn lw (spaces ts)). set (v := skipn lw (spaces ts)).
        assert (WV : spaces ts = w ++ v) by (symmetry; apply firstn_skipn).
        assert (Lw : length w = lw) by (unfold w; rewrite firstn_length; unfold lw; lia).
        assert (Lv : length v = bd) by (unfold v; rewrite skipn_length; unfold lw; lia).
        rewrite WV in WR. apply Forall_app in WR. destruct WR as [Ww Wv].
        assert (ET : ts = w ++ v ++ r) by (rewrite Et, WV, <- app_assoc; reflexivity).
        assert (SK : skipn lw ts = v ++ r) by (rewrite ET; apply skipn_len_app; auto).
        assert (FI : firstn lw ts = w) by (rewrite ET; apply firstn_len_app; auto).
        rewrite SK, FI. rewrite toks_node in FT. rewrite ET in FT. apply fits_drop in FT; [|exact Ww].
        pose proof (go_ok n ty (pre ++ body) f (v ++ r) (tokss F ++ l) X IH ltac:(lia) ltac:(lia) FT) as G.
        destruct (go is_ws binder (fill is_ws binder f) ty (v ++ r) (flats (pre ++ body) ++ EvEnd :: X)) as [[[calls edge] ne]| |]; cbn [bind].
        2,3: eapply binder_fails_incl; [exact G|]; rewrite ET; intros y Y; apply in_or_app; auto.
        destruct G as (a & u & b & cs & z & Ea & PL & CV & RZ & BZ & FU & FL & -> & -> & ->).
        rewrite Ea. rewrite (proj2 (Nat.leb_le _ _)) by (rewrite !app_length; lia).
        rewrite (proj2 (Nat.leb_le _ _)) by (rewrite !app_length; cbn; lia). cbn [andb guard].
        replace (skipn (length a + length u) (a ++ u ++ b)) with b
          by (rewrite app_assoc; symmetry; apply skipn_len_app; rewrite app_length; reflexivity).
        replace (skipn (S (length (flats (pre ++ body)))) (flats (pre ++ body) ++ EvEnd :: X)) with X.
        2:{ symmetry. replace (flats (pre ++ body) ++ EvEnd :: X) with ((flats (pre ++ body) ++ [EvEnd]) ++ X) by (rewrite <- app_assoc; reflexivity).
            apply skipn_len_app. rewrite app_length. cbn. lia. }
        pose proof (IH F ltac:(lia) f b l rest ltac:(lia) FL) as HF. fold X in HF.
        destruct (fill is_ws binder f b X) as [[[calls' nt] ne']| |]; cbn [bind].
        2,3: eapply binder_fails_incl; [exact HF|]; rewrite ET, Ea; intros y Y; apply in_or_app; right; apply in_or_app; right; apply in_or_app; auto.
        destruct HF as (a' & b' & cs' & -> & PL' & CV' & FL' & -> & -> & ->).
        exists (w ++ a ++ u ++ a'), b', (map raw_leaf w ++ Node ty (cs ++ map raw_leaf u) :: cs').
        split; [rewrite ET, Ea, <- !app_assoc; reflexivity|]. split.
        { rewrite ET. rewrite Ea in PL. eapply (pl_node _ _ ty pre body F w v r cs z u (a' ++ b') cs' b').
          - split; [apply Forall_app; auto|]. exists r. rewrite <- app_assoc. split; [reflexivity|exact NR].
          - rewrite <- WV. change (seen (spaces ts)) with (for_binder (spaces ts)). rewrite Lv. exact BE.
          - rewrite Ea. exact PL.
          - exact RZ.
          - exact BZ.
          - exact PL'. }
        split; [apply covers_pre; auto; rewrite app_assoc; apply cov_node; auto;
                rewrite <- (app_nil_r (pre ++ body)); apply covers_app; auto; apply covers_white; auto|].
        split; [exact FL'|]. split; [rewrite leaf_calls_raw, flat_map_app; cbn [flat_map]; reflexivity|].
        split; [rewrite !app_length; lia|rewrite app_length, LN; lia].
      + (* token *)
        cbn [flat app] in *. cbn [length] in LF, LFu. cbn [fill]. destruct (spaces_run ts) as [WR (r & Et & NR)].
        replace (skipn (length (spaces ts)) ts) with r by (rewrite Et at 2; symmetry; apply skipn_len_app; reflexivity).
        cbn [toks app] in FT. rewrite Et in FT. apply fits_drop in FT; [|exact WR].
        destruct (fits_take _ _ _ _ FT NR) as (g & r' & -> & <- & Wg & FT').
        rewrite (proj2 (Nat.leb_le _ _)) by (rewrite app_length; lia). cbn [guard].
        rewrite skipn_len_app, firstn_len_app by reflexivity.
        pose proof (IH F ltac:(lia) f r' l rest ltac:(lia) FT') as HF.
        destruct (fill is_ws binder f r' (flats F ++ EvEnd :: rest)) as [[[calls' nt] ne']| |]; cbn [bind].
        2,3: eapply binder_fails_incl; [exact HF|]; rewrite Et; intros y Y; apply in_or_app; right; apply in_or_app; auto.
        destruct HF as (a' & b' & cs' & -> & PL' & CV' & FL' & -> & -> & ->).
        exists (spaces ts ++ g ++ a'), b', (map raw_leaf (spaces ts) ++ Leaf ty (lens (map fst g)) :: cs').
        split; [rewrite Et at 1; rewrite <- !app_assoc; reflexivity|]. split.
        { rewrite Et at 1. apply pl_tok; auto. split; [exact WR|]. exists (g ++ a' ++ b'). auto. }
        split; [apply covers_pre; auto; apply cov_tok; auto|]. split; [exact FL'|].
        split; [|split; [rewrite !app_length; lia|cbn [length]; rewrite ?app_length; lia]].
        rewrite leaf_calls_raw, flat_map_app. cbn [flat_map calls_of app]. do 2 f_equal. unfold lens. rewrite map_map. reflexivity.
      + (* cached *)
        cbn [flat] in *. fold (flats body) in *. cbn [length app] in *. cbn [fill].
        cbn [toks] in FT. fold (tokss body) in FT. rewrite app_assoc, <- tokss_app in FT.
        rewrite <- flats_app.
        pose proof (IH (body ++ F)) as HF. rewrite flats_app, app_length in HF.
        specialize (HF ltac:(lia) f ts l rest ltac:(lia) FT). rewrite <- flats_app in HF.
        destruct (fill is_ws binder f ts (flats (body ++ F) ++ EvEnd :: rest)) as [[[calls' nt] ne']| |]; cbn [bind]; auto.
        destruct HF as (a' & b' & cs' & -> & PL' & CV' & FL' & -> & -> & ->).
        exists a', b', cs'. split; [reflexivity|]. split; [constructor; auto|]. split; [constructor; auto|].
        split; [exact FL'|]. split; [reflexivity|]. split; [reflexivity|]. rewrite flats_app. cbn [length]. rewrite ?app_length. lia.
  Qed.
End Fill.

(** ** From token positions to raw tokens *)

Section Fits.
  Variable E : env.
  Variable is_ws : nat -> bool.
  Hypothesis IDX : e_idx E = non_ws is_ws (e_toks E).
  Hypothesis LEN : lens (e_toks E) = length (e_text E).

  Definition nw (l : list token) : nat := length (filter (fun t => negb (is_ws (tk_ty t))) l).

  Lemma nw_app : forall a b, nw (a ++ b) = nw a + nw b.
  Proof. intros. unfold nw. rewrite filter_app, app_length. reflexivity. Qed.

  Lemma nw_zero : forall l, nw l = 0 -> Forall (fun t => is_ws (tk_ty t) = true) l.
  Proof.
    induction l as [|t l IH]; intros H; constructor; unfold nw in H; cbn in H.
    - destruct (is_ws (tk_ty t)); auto. discriminate.
    - apply IH. destruct (is_ws (tk_ty t)); [exact H|discriminate].
  Qed.

  Lemma spans_fits : forall k l k', spans E k l k' -> k' = length (e_idx E) ->
    forall (txts : list rtok) a, map fst (a ++ txts) = e_toks E -> nw (map fst a) = k -> fits is_ws l txts.
  Proof.
    intros k l k' H. induction H as [k|k ty n l k' AD LO H IH]; intros EK txts a EM NA.
    - assert (Z : nw (map fst txts) = 0).
      { rewrite EK in NA. rewrite IDX in NA. unfold non_ws in NA. rewrite non_ws_length in NA. fold (nw (e_toks E)) in NA. rewrite <- EM, map_app, nw_app in NA. lia. }
      apply nw_zero in Z. clear -Z. induction txts as [|t txts IHt]; [constructor|]. cbn in Z. inversion_clear Z.
      apply fits_space; auto.
    - destruct n as [|n].
      + rewrite Nat.add_0_r in IH. apply (fits_group _ ty l []); [constructor|]. eapply IH; eauto.
      + destruct AD as [LB AD].
        destruct (nth_error (e_idx E) k) as [[o raw]|] eqn:IK; [|apply nth_error_None in IK; lia].
        destruct (idx_split E is_ws IDX LEN _ _ _ IK) as (b & t & c & Eb & -> & _ & Wt & Cb). fold (nw b) in Cb.
        (* the whitespace between [a] and token [k] *)
        assert (LAB : length a <= length b).
        { destruct (Nat.le_gt_cases (length a) (length b)); auto. exfalso.
          assert (Q : firstn (S (length b)) (map fst a) = b ++ [t]).
          { apply (f_equal (firstn (S (length b)))) in EM. rewrite Eb, map_app in EM. rewrite firstn_app in EM.
            rewrite map_length in EM. replace (S (length b) - length a) with 0 in EM by lia. rewrite firstn_O, app_nil_r in EM.
            rewrite EM. replace (b ++ t :: c) with ((b ++ [t]) ++ c) by (rewrite <- app_assoc; reflexivity).
            rewrite firstn_app. replace (S (length b) - length (b ++ [t])) with 0 by (rewrite app_length; cbn [length]; lia).
            rewrite firstn_O, app_nil_r. apply firstn_all2. rewrite app_length. cbn [length]. lia. }
          assert (X : nw (map fst a) >= nw (b ++ [t])).
          { rewrite <- Q. rewrite <- (firstn_skipn (S (length b)) (map fst a)) at 1. rewrite nw_app. lia. }
          rewrite nw_app in X. unfold nw at 3 in X. cbn in X. rewrite Wt in X. cbn in X. lia. }
        (* the n+1 tokens from there *)
        assert (GR : forall m, m <= n -> exists g c', length g = S m /\ e_toks E = b ++ g ++ c' /\ Forall (fun t => is_ws (tk_ty t) = false) g).
        { induction m as [|m IHm]; intros Lm.
          - exists [t], c. repeat split; auto.
          - destruct (IHm ltac:(lia)) as (g & c' & Lg & Eg & Wg).
            assert (IM : forall j, j <= S n -> j < S n -> exists o, nth_error (e_idx E) (k + j) = Some (o, length b + j)).
            { induction j as [|j IHj]; intros L1 L2; [rewrite !Nat.add_0_r; eauto|].
              destruct (IHj ltac:(lia) ltac:(lia)) as (o1 & X1). destruct (AD j ltac:(lia)) as (x & y & r & A1 & A2).
              rewrite X1 in A1. injection A1 as -> <-. exists y. replace (k + S j) with (k + j + 1) by lia. rewrite A2. f_equal. f_equal. lia. }
            destruct (IM (S m) ltac:(lia) ltac:(lia)) as (o' & X).
            destruct (idx_split E is_ws IDX LEN _ _ _ X) as (b2 & t2 & c2 & Eb2 & L2 & _ & Wt2 & _).
            rewrite Eg in Eb2. rewrite app_assoc in Eb2.
            destruct (app_same_len _ _ _ _ _ Eb2 ltac:(rewrite app_length; lia)) as [E1 E2]. subst c'.
            exists (g ++ [t2]), c2. split; [rewrite app_length; cbn; lia|]. split; [rewrite Eg, <- !app_assoc; reflexivity|].
            apply Forall_app. auto. }
        destruct (GR n (le_n _)) as (g & c' & Lg & Eg & Wg).
        (* split the paired list accordingly *)
        set (d := length b - length a).
        assert (ET : txts = firstn d txts ++ firstn (S n) (skipn d txts) ++ skipn (S n) (skipn d txts)).
        { rewrite firstn_skipn, firstn_skipn. reflexivity. }
        set (w := firstn d txts) in *. set (gg := firstn (S n) (skipn d txts)) in *. set (rr := skipn (S n) (skipn d txts)) in *.
        assert (LT : length (a ++ txts) = length (e_toks E)) by (rewrite <- EM, map_length; reflexivity).
        rewrite Eg, !app_length in LT.
        assert (Lw : length w = d) by (unfold w; rewrite firstn_length; unfold d; lia).
        assert (Lgg : length gg = S n) by (unfold gg; rewrite firstn_length, skipn_length; unfold d; lia).
        rewrite ET in EM. rewrite Eg in EM. rewrite !map_app in EM. rewrite app_assoc in EM.
        destruct (app_same_len _ _ _ _ _ EM ltac:(rewrite app_length, !map_length; unfold d in *; lia)) as [E1 E2].
        destruct (app_same_len _ _ _ _ _ E2 ltac:(rewrite map_length; lia)) as [E3 E4].
        assert (Ww : Forall (fun t => white is_ws t = true) w).
        { assert (Z : nw (map fst w) = 0) by (rewrite <- E1, nw_app in Cb; lia).
          apply nw_zero in Z. clear -Z. induction w as [|x w IHw]; [constructor|]. cbn in Z. inversion_clear Z. constructor; auto. }
        assert (Wgg : Forall (fun t => white is_ws t = false) gg).
        { rewrite <- E3 in Wg. clear -Wg. induction gg as [|x w IHw]; [constructor|]. cbn in Wg. inversion_clear Wg. constructor; auto. }
        assert (FR : fits is_ws l rr).
        { apply (IH EK rr (a ++ w ++ gg)).
          - rewrite !map_app, <- !app_assoc. rewrite app_assoc, E1, E3, E4. symmetry. exact Eg.
          - rewrite !map_app, app_assoc, E1, E3, nw_app, Cb.
            assert (Q : nw g = length g).
            { clear -Wg. unfold nw. induction Wg as [|x g Wx _ IHg]; [reflexivity|]. cbn. rewrite Wx. cbn. f_equal. exact IHg. }
            rewrite Q, Lg. reflexivity. }
        rewrite ET, <- Lgg. clear -Ww Wgg FR.
        induction Ww as [|x w' Wx _ IHw]; [cbn [app]; apply fits_group; auto|]. cbn [app]. apply fits_space; auto.
  Qed.
End Fits.
