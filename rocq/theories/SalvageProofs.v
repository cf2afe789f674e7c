(** The salvaging walk: it never panics, and what its entries stand for. *)
From Coq Require Import List Arith Bool Lia.
From Verif Require Import Base BaseFacts TextModel EditModel LexModel LexSpec LexProofs GrammarModel ParserModel ForestSpec SpanSpec SpanProofs
  WindowProofs ReparseModel OccurProofs.
Import ListNotations.

(** Leaves among events. *)
Fixpoint evleaves (l : list event) : list (nat * nat) :=
  match l with [] => [] | EvToken ty n :: r => (ty, n) :: evleaves r | _ :: r => evleaves r end.

Lemma evleaves_app : forall a b, evleaves (a ++ b) = evleaves a ++ evleaves b.
Proof. induction a as [|x a IH]; intros b; [reflexivity|]. cbn [app evleaves]. rewrite IH. destruct x; reflexivity. Qed.

Lemma enc_leaves : forall t fp, evleaves (enc fp t) = toks t.
Proof.
  assert (L : forall F, Forall (fun t => forall fp, evleaves (enc fp t) = toks t) F -> evleaves (encs F) = tokss F).
  { induction 1 as [|t F H HF IH]; [reflexivity|]. unfold encs, tokss in *. cbn [flat_map]. rewrite evleaves_app, H, IH. reflexivity. }
  apply (ptree_nest (fun t => forall fp, evleaves (enc fp t) = toks t)).
  - intros ty pre b HP HB fp. destruct (enc_node fp ty pre b) as (P & -> & X). rewrite evleaves_app. cbn [evleaves].
    rewrite evleaves_app, (L b HB). cbn [evleaves]. rewrite app_nil_r. cbn [toks]. f_equal. destruct pre as [|x rest]; [subst; reflexivity|]. destruct X as (d & ->).
    inversion HP as [|? ? HX HR]; subst. rewrite evleaves_app, HX, (L rest HR). reflexivity.
  - intros ty n fp. reflexivity.
  - intros k b HB fp. exact (L b HB).
Qed.

Lemma encs_leaves : forall F, evleaves (encs F) = tokss F.
Proof. induction F as [|t F IH]; [reflexivity|]. unfold encs, tokss in *. cbn [flat_map]. rewrite evleaves_app, enc_leaves, IH. reflexivity. Qed.

Lemma spans_split : forall E a b k k', spans E k (evleaves (a ++ b)) k' ->
  spans E k (evleaves a) (k + evtoks a) /\ spans E (k + evtoks a) (evleaves b) k'.
Proof.
  intros E. induction a as [|x a IH]; intros b k k' H; cbn [app evleaves evtoks] in *.
  - rewrite Nat.add_0_r. split; [apply sp_nil|exact H].
  - destruct x; try (apply IH; exact H). inversion H as [|? ? ? ? ? AD LO SP]; subst. apply IH in SP. rewrite Nat.add_assoc. split; [|apply SP].
    apply sp_cons; [exact AD|exact LO|apply SP].
Qed.

Lemma spans_end : forall E k l k', spans E k l k' -> k + sum (map snd l) = k'.
Proof. induction 1 as [k|k ty n l k' A B C IH]; unfold sum in *; cbn [map fold_right snd]; lia. Qed.

(** Nodes of type ERROR. *)
Definition is_error (e : event) : bool := match e with EvStart ty _ => ty =? ERROR | _ => false end.

Section Walk.
  Variable E : env.
  Variable is_ws : nat -> bool.
  Hypothesis IDX : e_idx E = non_ws is_ws (e_toks E).
  Hypothesis LEN : lens (e_toks E) = length (e_text E).

  (** The walk has passed [k] solid tokens. *)
  Definition wat0 (k : nat) (w : walk) : Prop :=
    exists A, e_toks E = A ++ fst w /\ snd w = lens A /\ solid is_ws A = k.
  Definition wat (k : nat) (w : walk) : Prop := wat0 k w /\ forall t r, fst w = t :: r -> is_ws (tk_ty t) = false.

  Lemma solid_app : forall a b, solid is_ws (a ++ b) = solid is_ws a + solid is_ws b.
  Proof. intros. unfold solid. rewrite filter_app, app_length. reflexivity. Qed.

  Lemma skip_wat : forall r A k p, e_toks E = A ++ r -> p = lens A -> solid is_ws A = k -> wat k (w_skip is_ws r p).
  Proof.
    induction r as [|t r IH]; intros A k p H1 H2 H3; cbn [w_skip].
    - split; [exists A; auto|]. discriminate.
    - destruct (is_ws (tk_ty t)) eqn:W.
      + apply IH with (A := A ++ [t]).
        * rewrite <- app_assoc. exact H1.
        * rewrite lens_app, lens_cons. subst. cbn. lia.
        * rewrite solid_app, H3. unfold solid. cbn [filter]. rewrite W. cbn. lia.
      + split; [exists A; auto|]. cbn [fst]. intros u v X. injection X as <- <-. exact W.
  Qed.

  Lemma wat_idx : forall k w t r, wat k w -> fst w = t :: r -> exists raw, nth_error (e_idx E) k = Some (snd w, raw)
    /\ nth_error (e_toks E) raw = Some t /\ fst w = skipn raw (e_toks E).
  Proof.
    intros k w t r [(A & H1 & H2 & H3) H4] X. exists (length A). rewrite IDX. unfold non_ws. rewrite H1.
    assert (N : forall A off i, nth_error (non_ws_from is_ws off i (A ++ t :: r)) (solid is_ws A) = Some (off + lens A, i + length A)).
    { clear A H1 H2 H3. induction A as [|a A IH]; intros off i; cbn [app non_ws_from].
      - rewrite (H4 _ _ X). cbn. rewrite !Nat.add_0_r. reflexivity.
      - unfold solid in *. cbn [filter]. destruct (is_ws (tk_ty a)) eqn:W; cbn [negb length nth_error]; rewrite IH, lens_cons; do 2 f_equal; lia. }
    rewrite X, <- H3, (N A 0 0), H2. cbn [Nat.add]. split; [reflexivity|]. split.
    - rewrite nth_error_app2, Nat.sub_diag by lia. reflexivity.
    - rewrite skipn_app, Nat.sub_diag, skipn_all. reflexivity.
  Qed.

  Lemma wat_in : forall k w, wat k w -> k < length (e_idx E) -> exists t r, fst w = t :: r.
  Proof.
    intros k w [(A & H1 & H2 & H3) H4] L. destruct (fst w) as [|t r]; [|eauto]. exfalso.
    rewrite IDX in L. unfold non_ws in L. rewrite non_ws_len, H1, app_nil_r in L. lia.
  Qed.

  Lemma bumps_wat : forall n k w, adjacent E k n -> wat0 k w -> (0 < n -> forall t r, fst w = t :: r -> is_ws (tk_ty t) = false) ->
    exists w1, w_bumps n w = Ok w1 /\ wat0 (k + n) w1.
  Proof.
    induction n as [|n IH]; intros k w AD W HD.
    - exists w. rewrite Nat.add_0_r. auto.
    - assert (WW : wat k w) by (split; [exact W|apply HD; lia]). destruct AD as [AL AD].
      destruct (wat_in k w WW) as (t & r & X); [lia|]. destruct (wat_idx k w t r WW X) as (raw & I1 & I2 & I3).
      cbn [w_bumps]. unfold w_bump. rewrite X. cbn [bind].
      destruct (IH (k + 1) (r, snd w + tk_len t)) as (w1 & B & W1).
      + split; [lia|]. intros j Lj. destruct (AD (S j)) as (o & o' & rw & N1 & N2); [lia|]. exists o, o', rw.
        replace (k + 1 + j) with (k + S j) by lia. auto.
      + destruct W as (A & H1 & H2 & H3). exists (A ++ [t]). cbn [fst snd]. rewrite X in H1. split; [rewrite <- app_assoc; exact H1|].
        split; [rewrite lens_app, lens_cons; cbn; lia|]. rewrite solid_app, H3. unfold solid. cbn [filter]. rewrite (HD ltac:(lia) _ _ X). reflexivity.
      + intros Ln u v Y. cbn [fst] in Y. destruct (AD 0) as (o & o' & rw & N1 & N2); [lia|]. rewrite Nat.add_0_r in N1, N2.
        rewrite I1 in N1. injection N1 as <- <-.
        rewrite IDX in N2. apply (non_ws_split E is_ws LEN) in N2. destruct N2 as (a & x & b & T1 & T2 & T3 & T4 & T5). cbn in T2.
        assert (SK : u = x).
        { assert (Q1 : nth_error (e_toks E) (raw + 1) = Some u).
          { assert (Q : nth_error (skipn raw (e_toks E)) 1 = Some u) by (rewrite <- I3, X, Y; reflexivity). rewrite nth_error_skipn in Q. exact Q. }
          rewrite T1, T2, nth_error_app2, Nat.sub_diag in Q1 by lia. cbn in Q1. congruence. }
        subst. exact T4.
      + exists w1. split; [exact B|]. replace (k + S n) with (k + 1 + n) by lia. exact W1.
  Qed.

  Lemma eat_wat : forall n k w, adjacent E k n -> wat k w -> exists w1, w_eat is_ws n w = Ok w1 /\ wat (k + n) w1.
  Proof.
    intros n k w AD [W HD]. unfold w_eat. destruct (bumps_wat n k w AD W) as (w1 & B & (A & H1 & H2 & H3)); [auto|]. rewrite B. cbn [bind].
    eexists. split; [reflexivity|]. eapply skip_wat; [exact H1|exact H2|exact H3].
  Qed.

  Lemma segment_wat : forall seg rest k k' w nt he, spans E k (evleaves seg) k' -> wat k w ->
    exists w1, segment is_ws (length seg) (seg ++ rest) w nt he = Ok (rest, w1, nt + evtoks seg, he || existsb is_error seg) /\ wat k' w1.
  Proof.
    induction seg as [|e seg IH]; intros rest k k' w nt he SP W; cbn [evleaves app length segment evtoks existsb] in *.
    - inversion SP; subst. exists w. rewrite Nat.add_0_r, orb_false_r. auto.
    - destruct e as [ty fp|ty n| |key n]; cbn [is_error orb].
      + destruct (IH rest k k' w nt (if ty =? ERROR then true else he) SP W) as (w1 & X & Y). exists w1. split; [|exact Y]. rewrite X.
        f_equal. f_equal. destruct (ty =? ERROR), he; reflexivity.
      + inversion SP as [|? ? ? ? ? AD LO SP']; subst. destruct (eat_wat n k w AD W) as (w1 & B & W1). rewrite B. cbn [bind].
        destruct (IH rest _ _ w1 (nt + n) he SP' W1) as (w2 & X & Y). exists w2. split; [|exact Y]. rewrite X, Nat.add_assoc. reflexivity.
      + apply (IH rest k k' w nt he SP W).
      + apply (IH rest k k' w nt he SP W).
  Qed.

  Lemma wat_le : forall k k' w w', wat k w -> wat k' w' -> k <= k' -> snd w <= snd w'.
  Proof.
    intros k k' w w' [(A & H1 & H2 & H3) H4] [(A' & H1' & H2' & H3') H4'] L.
    destruct (Nat.le_gt_cases (length A) (length A')) as [G|G].
    - assert (Q : A = firstn (length A) A').
      { assert (Q : firstn (length A) (A ++ fst w) = firstn (length A) (A' ++ fst w')) by congruence.
        rewrite firstn_app, Nat.sub_diag, firstn_all in Q. cbn [firstn] in Q. rewrite app_nil_r in Q. rewrite Q at 1. rewrite firstn_app.
        replace (length A - length A') with 0 by lia. cbn [firstn]. rewrite app_nil_r. reflexivity. }
      rewrite H2, H2', Q. apply (lens_firstn_le E LEN).
    - (* the walk at k' is behind: then only whitespace lies between, but it stands on a solid token *)
      exfalso. assert (Q : exists m, A = A' ++ m /\ fst w' = m ++ fst w).
      { exists (skipn (length A') A). assert (Q : firstn (length A') A = A').
        { assert (Q : firstn (length A') (A ++ fst w) = firstn (length A') (A' ++ fst w')) by congruence.
          rewrite firstn_app in Q. replace (length A' - length A) with 0 in Q by lia. cbn [firstn] in Q. rewrite app_nil_r in Q.
          rewrite Q, firstn_app, Nat.sub_diag, firstn_all. cbn [firstn]. rewrite app_nil_r. reflexivity. }
        assert (AE : A = A' ++ skipn (length A') A) by (rewrite <- Q at 1; rewrite firstn_skipn; reflexivity).
        split; [exact AE|]. apply (app_inv_head A'). rewrite app_assoc, <- AE, <- H1'. exact H1. }
      destruct Q as (m & EA & EW). destruct m as [|t m]; [rewrite app_nil_r in EA; subst; lia|].
      cbn [app] in EW. specialize (H4' _ _ EW). rewrite EA, solid_app in H3. unfold solid at 2 in H3. cbn [filter] in H3. rewrite H4' in H3. cbn in H3. lia.
  Qed.

  (** Where an edit puts a copied range. [skips r] says which copies the code leaves out of the count. *)
  Fixpoint before (rng : range) (ops : list edit_op) : nat :=
    match ops with
    | [] => 0
    | Copy c :: r => (if is_subrange_of rng c then 0 else rend c - rstart c) + before rng r
    | Insert t :: r => length t + before rng r
    end.

  Definition placed_at (ops : list edit_op) (rng : range) (off : nat) : Prop :=
    exists pre c post, ops = pre ++ Copy c :: post /\ rstart c <= rstart rng /\ rend rng <= rend c /\ off = before rng pre + (rstart rng - rstart c).

  Lemma place_ok : forall key val rng ops, Forall (fun o => match o with Copy c => rstart c <= rend c | Insert _ => True end) ops ->
    forall all pre m ins, all = pre ++ ops -> ins = before rng pre ->
    exists m', place key val rng ins ops m = Ok m' /\ forall x, In x m' -> In x m \/ exists off, x = ((off, key), val) /\ placed_at all rng off.
  Proof.
    intros key val rng. induction ops as [|o ops IH]; intros V all pre m ins HA HI; cbn [place].
    - exists m. auto.
    - inversion V as [|? ? V1 V2]; subst.
      assert (BA : forall u v, before rng (u ++ v) = before rng u + before rng v).
      { clear. induction u as [|a u IHx]; intros v; [reflexivity|]. cbn [app before]. rewrite IHx. destruct a; lia. }
      destruct o as [c|t].
      + destruct (is_subrange_of rng c) eqn:SB.
        * pose proof SB as SB'. unfold is_subrange_of in SB'. apply andb_prop in SB'. destruct SB' as [S1 S2]. apply Nat.leb_le in S1, S2.
          unfold usub. apply Nat.leb_le in S1. rewrite S1. cbn [guard bind]. apply Nat.leb_le in S1.
          destruct (IH V2 (pre ++ Copy c :: ops) (pre ++ [Copy c]) (((before rng pre + (rstart rng - rstart c), key), val) :: m) (before rng pre)) as (m' & P & Q).
          -- rewrite <- app_assoc. reflexivity.
          -- rewrite BA. cbn [before]. rewrite SB. lia.
          -- exists m'. split; [exact P|]. intros x X. apply Q in X. destruct X as [[X|X]|X]; [|auto|auto].
             right. eexists. split; [symmetry; exact X|]. exists pre, c, ops. auto.
        * unfold usub. rewrite (proj2 (Nat.leb_le _ _) V1). cbn [guard bind].
          destruct (IH V2 (pre ++ Copy c :: ops) (pre ++ [Copy c]) m (before rng pre + (rend c - rstart c))) as (m' & P & Q).
          -- rewrite <- app_assoc. reflexivity.
          -- rewrite BA. cbn [before]. rewrite SB. lia.
          -- eauto.
      + destruct (IH V2 (pre ++ Insert t :: ops) (pre ++ [Insert t]) m (before rng pre + length t)) as (m' & P & Q).
        * rewrite <- app_assoc. reflexivity.
        * rewrite BA. cbn [before]. lia.
        * eauto.
  Qed.

  Variable all : list event.
  Variable ops : list edit_op.
  Hypothesis V : Forall (fun o => match o with Copy c => rstart c <= rend c | Insert _ => True end) ops.
  Hypothesis SEG : forall l1 key n l2, all = l1 ++ EvCached key n :: l2 -> n <= length l2.

  (** What an entry stands for. *)
  Definition entry_ok (x : (nat * nat) * (nat * nat * nat)) : Prop :=
    let '((off, key), (se, ne, nt)) := x in
    exists l1 seg l2 w w1, all = l1 ++ EvCached key ne :: seg ++ l2 /\ length seg = ne /\ se = S (length l1) /\ nt = evtoks seg
      /\ existsb is_error seg = false /\ wat (evtoks l1) w /\ wat (evtoks l1 + nt) w1
      /\ spans E (evtoks l1) (evleaves seg) (evtoks l1 + nt) /\ snd w <= snd w1
      /\ placed_at ops (mkRange (snd w) (snd w1)) off.

  Lemma loop_ok : forall fuel evs l1 kend w m, length evs < fuel -> all = l1 ++ evs -> spans E (evtoks l1) (evleaves evs) kend -> wat (evtoks l1) w ->
    Forall entry_ok m -> exists m', salvage_loop fuel is_ws ops evs (length l1) w m = Ok m' /\ Forall entry_ok m'.
  Proof.
    induction fuel as [|f IH]; intros evs l1 kend w m L HA SP W FM; [lia|]. cbn [salvage_loop].
    destruct evs as [|e evs]; [eauto|]. cbn [length] in L.
    assert (SHIFT : forall x r, l1 ++ x :: r = (l1 ++ [x]) ++ r) by (intros; rewrite <- app_assoc; reflexivity).
    assert (SK : forall x, evs = evs -> evtoks [x] = 0 -> evleaves [x] = [] -> all = l1 ++ x :: evs -> spans E (evtoks l1) (evleaves (x :: evs)) kend ->
      exists m', salvage_loop f is_ws ops evs (S (length l1)) w m = Ok m' /\ Forall entry_ok m').
    { intros x _ Z1 Z2 HX SX. replace (S (length l1)) with (length (l1 ++ [x])) by (rewrite app_length; cbn; lia).
      assert (T0 : evtoks (l1 ++ [x]) = evtoks l1) by (rewrite evtoks_app, Z1; lia).
      apply IH with (kend := kend); [lia|rewrite <- SHIFT; exact HX|rewrite T0|rewrite T0; exact W|exact FM].
      change (x :: evs) with ([x] ++ evs) in SX. rewrite evleaves_app, Z2 in SX. exact SX. }
    destruct e as [ty fp|ty n| |key n].
    - apply (SK (EvStart ty fp) eq_refl eq_refl eq_refl HA SP).
    - cbn [evleaves] in SP. inversion SP as [|? ? ? ? ? AD LO SP']; subst k ty0 n0 l k'. destruct (eat_wat n _ w AD W) as (w1 & B & W1). rewrite B. cbn [bind].
      replace (S (length l1)) with (length (l1 ++ [EvToken ty n])) by (rewrite app_length; cbn; lia).
      assert (T0 : evtoks (l1 ++ [EvToken ty n]) = evtoks l1 + n) by (rewrite evtoks_app; cbn; lia).
      apply IH with (kend := kend); [lia|rewrite <- SHIFT; exact HA|rewrite T0; exact SP'|rewrite T0; exact W1|exact FM].
    - apply (SK EvEnd eq_refl eq_refl eq_refl HA SP).
    - pose proof (SEG _ _ _ _ HA) as LN. set (seg := firstn n evs). set (rest := skipn n evs).
      assert (LS : length seg = n) by (unfold seg; apply firstn_length_le; exact LN).
      assert (EV : evs = seg ++ rest) by (unfold seg, rest; rewrite firstn_skipn; reflexivity).
      cbn [evleaves] in SP. rewrite EV in SP. destruct (spans_split _ _ _ _ _ SP) as [SP1 SP2].
      destruct (segment_wat seg rest _ _ w 0 false SP1 W) as (w1 & SG & W1). rewrite LS in SG. rewrite EV, SG. cbn [bind orb Nat.add].
      assert (T0 : evtoks (l1 ++ EvCached key n :: seg) = evtoks l1 + evtoks seg) by (rewrite evtoks_app; reflexivity).
      assert (NX : forall m2, Forall entry_ok m2 -> exists m', salvage_loop f is_ws ops rest (S (length l1) + n) w1 m2 = Ok m' /\ Forall entry_ok m').
      { intros m2 F2. replace (S (length l1) + n) with (length (l1 ++ EvCached key n :: seg)) by (rewrite app_length; cbn [length]; lia).
        apply IH with (kend := kend); [rewrite EV, app_length in L; lia| |rewrite T0; exact SP2|rewrite T0; exact W1|exact F2].
        rewrite HA, EV, <- app_assoc. reflexivity. }
      change (S (length l1 + n)) with (S (length l1) + n). destruct (existsb is_error seg) eqn:HE; [apply NX; exact FM|].
      assert (LW : snd w <= snd w1) by (eapply wat_le; [exact W|exact W1|lia]).
      unfold from_to. rewrite (proj2 (Nat.leb_le _ _) LW). cbn [guard bind].
      destruct (place_ok key (S (length l1), n, evtoks seg) (mkRange (snd w) (snd w1)) ops V ops [] m 0 eq_refl eq_refl) as (m1 & PL & IN).
      rewrite PL. cbn [bind]. apply NX. apply Forall_forall. intros x X. apply IN in X. rewrite Forall_forall in FM. destruct X as [X|(off & -> & X)]; [auto|].
      exists l1, seg, rest, w, w1. rewrite <- EV. split; [exact HA|]. split; [exact LS|]. split; [reflexivity|]. split; [reflexivity|]. split; [exact HE|]. split; [exact W|].
      split; [exact W1|]. split; [exact SP1|]. split; [exact LW|exact X].
  Qed.

  Lemma salvage_ok : forall kend, spans E 0 (evleaves all) kend -> exists m, salvage all (e_toks E) is_ws ops = Ok m /\ Forall entry_ok m.
  Proof.
    intros kend SP. unfold salvage. apply (loop_ok (S (length all)) all [] kend); [lia|reflexivity|exact SP| |constructor].
    apply skip_wat with (A := []); reflexivity.
  Qed.
End Walk.
