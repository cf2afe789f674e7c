(** Proofs about the editor features. *)
From Coq Require Import List Arith Bool Lia.
From Verif Require Import Base BaseFacts TextModel EditModel TreeModel SearchModel FileEditModel EditorModel
  TextSpec TextProofs TreeSpec TreeProofs SearchSpec SearchProofs TraversalProofs FileEditSpec FileEditProofs EditorSpec.
Import ListNotations.

Section Extend.
  Variable f : file.
  Variable T : tree.
  Variable ws : nat -> bool.
  Hypothesis W : wf_file f T.

  Let ST : stores (f_nodes f) T := proj1 W.
  Let LT : tlen T = length (f_text f) := proj2 W.

  Lemma At_within : forall n p q t, At T n p q t -> p + tlen t <= length (f_text f).
  Proof. intros n p q t A. apply AtG_At in A. apply AtG_bounds in A. lia. Qed.

  Lemma first_other_ok : forall r l, (forall n, In n l -> exists p q t, At T n p q t) ->
    (exists l1 n l2, l = l1 ++ n :: l2 /\ (forall m, In m l1 -> has_range T m r) /\ ~ has_range T n r
        /\ first_other_range f l r = Ok (Some n))
    \/ ((forall m, In m l -> has_range T m r) /\ first_other_range f l r = Ok None).
  Proof.
    intros r. induction l as [|n l IH]; intros H.
    - right. split; [easy|reflexivity].
    - destruct (H n (or_introl eq_refl)) as (p & q & t & A). cbn [first_other_range].
      rewrite (range_ok _ _ ST _ _ _ _ A). cbn [bind].
      destruct (range_eqb (mkRange p (p + tlen t)) r) eqn:E.
      + apply range_eqb_spec in E. assert (HR : has_range T n r) by (exists p, q, t; auto).
        destruct IH as [(l1 & m & l2 & -> & P & N & E')|[P E']]; [intros; apply H; right; auto| |].
        * left. exists (n :: l1), m, l2. split; [reflexivity|]. split; [intros x [<-|I]; auto|]. auto.
        * right. split; [intros x [<-|I]; auto|]. exact E'.
      + left. exists [], n, l. split; [reflexivity|]. split; [easy|]. split; [|reflexivity].
        intros (p' & q' & t' & A' & ->). destruct (At_unique _ _ _ _ _ _ _ _ A A') as (-> & -> & ->).
        assert (range_eqb (mkRange p' (p' + tlen t')) (mkRange p' (p' + tlen t')) = true) by now apply range_eqb_spec.
        congruence.
  Qed.

  (** One step from a non-empty selection inside the file. *)
  Lemma extend_step : forall r, rstart r < rend r -> rend r <= length (f_text f) ->
    exists c l, find_covering_node (f_nodes f) root r = Ok c /\ ancestors (f_nodes f) c = Ok l
      /\ (forall a, In a l <-> covers T a r) /\ (forall a, In a l -> Below T a c) /\ covers T c r
      /\ ((extend_selection f ws r = Ok None /\ r = mkRange 0 (length (f_text f)))
          \/ exists r' n, extend_selection f ws r = Ok (Some r') /\ r <> mkRange 0 (length (f_text f))
               /\ has_range T n r' /\ covers T n r /\ r' <> r
               /\ (forall d rd, has_range T d rd -> covers T d r -> rd <> r -> contains_range rd r')
               /\ (has_range T c r \/ n = c)).
  Proof.
    intros r NE IN.
    destruct (covering_ok (f_nodes f) T ST root 0 None T r (At_root T)) as (c & Ec & _ & Cc & Min);
      [unfold proper; lia|lia|lia|]. specialize (Min NE).
    destruct Cc as (pc & qc & tc & Ac & Cc1 & Cc2).
    destruct (ancestors_ok (f_nodes f) T ST _ _ _ _ Ac) as (l & El & Hl & _ & Il & Sl).
    exists c, l. split; [exact Ec|]. split; [exact El|].
    assert (CI : forall a, In a l <-> covers T a r).
    { intros a. rewrite Il. split; [|apply Min]. intros B. destruct (Below_At_l _ _ _ B) as (pa & qa & ta & Aa).
      exists pa, qa, ta. split; [exact Aa|]. pose proof (Below_range _ _ _ _ _ _ _ _ _ B Aa Ac). lia. }
    split; [exact CI|]. split; [intros a I; now apply Il|]. split; [exists pc, qc, tc; auto|].
    unfold extend_selection. replace (range_is_empty r) with false
      by (symmetry; unfold range_is_empty; apply Nat.eqb_neq; lia).
    rewrite Ec. cbn [bind]. rewrite El. cbn [bind].
    destruct (first_other_ok r l) as [(l1 & n & l2 & E & P & N & EF)|[P EF]].
    - intros n I. apply CI in I as (p & q & t & A & _). eauto.
    - right. rewrite EF. cbn [bind].
      assert (In_n : In n l) by (rewrite E; apply in_or_app; right; left; reflexivity).
      apply CI in In_n as (pn & qn & tn & An & C1 & C2). rewrite (range_ok _ _ ST _ _ _ _ An). cbn [bind].
      exists (mkRange pn (pn + tlen tn)), n. split; [reflexivity|]. split.
      { intros ->. apply N. exists pn, qn, tn. split; [exact An|]. cbn in *. pose proof (At_within _ _ _ _ An).
        f_equal; lia. }
      split; [exists pn, qn, tn; auto|]. split; [exists pn, qn, tn; auto|]. split.
      { intros E0. apply N. exists pn, qn, tn. auto. }
      split.
      { intros d rd (pd & qd & td & Ad & ->) CV NR. apply CI in CV. rewrite E in CV. apply in_app_or in CV as [I|I].
        - apply P in I. destruct I as (pd' & qd' & td' & Ad' & ->).
          destruct (At_unique _ _ _ _ _ _ _ _ Ad Ad') as (-> & -> & ->). congruence.
        - pose proof (Sl _ _ _ E d I) as B. pose proof (Below_range _ _ _ _ _ _ _ _ _ B Ad An). unfold contains_range. cbn. lia. }
      destruct l1 as [|x l1].
      + right. rewrite E in Hl. cbn in Hl. congruence.
      + left. rewrite E in Hl. cbn in Hl. injection Hl as ->. apply P. left. reflexivity.
    - left. rewrite EF. cbn [bind]. split; [reflexivity|].
      assert (I0 : In 0 l) by (apply CI; exists 0, None, T; split; [apply At_root|lia]).
      apply P in I0 as (p & q & t & A & ->). destruct (At_unique _ _ _ _ _ _ _ _ A (At_root T)) as (-> & -> & ->).
      cbn. now rewrite LT.
  Qed.

  Lemma chain_decreasing : forall l a, parent_chain T (a :: l) -> forall b, In b l -> b < a.
  Proof.
    induction l as [|x l IH]; intros a PC b I; [easy|]. cbn [parent_chain] in PC. destruct PC as [(p & t & A) PC].
    assert (x < a).
    { apply At_parent in A as (pd & qd & ty & pre & post & _ & E & _). lia. }
    destruct I as [<-|I]; [exact H|]. specialize (IH x PC b I). lia.
  Qed.

  Lemma ancestors_nodup : forall n p q t l, At T n p q t -> ancestors (f_nodes f) n = Ok l -> NoDup l.
  Proof.
    intros n p q t l A E. destruct (ancestors_ok (f_nodes f) T ST _ _ _ _ A) as (l' & E' & _ & PC & _).
    rewrite E in E'. injection E' as <-. clear E A. induction l as [|a l IH]; [constructor|]. constructor.
    - intros I. apply (chain_decreasing l a PC) in I. lia.
    - destruct l as [|b l]; [constructor|]. apply IH. apply PC.
  Qed.

  (** After a step, the new selection is exactly the range of its covering node. *)
  Lemma extend_next : forall r c l r' n, rstart r < rend r -> rend r <= length (f_text f) ->
    (forall a, In a l <-> covers T a r) -> (forall a, In a l -> Below T a c) -> covers T c r ->
    ancestors (f_nodes f) c = Ok l ->
    has_range T n r' -> covers T n r ->
    rstart r' < rend r' /\ rend r' <= length (f_text f)
    /\ exists c2 l2, find_covering_node (f_nodes f) root r' = Ok c2 /\ ancestors (f_nodes f) c2 = Ok l2
        /\ has_range T c2 r' /\ Below T n c2 /\ Below T c2 c /\ (c2 <> c -> length l2 < length l).
  Proof.
    intros r c l r' n NE IN CI BI CC El (pn & qn & tn & An & ->) (pn' & qn' & tn' & An' & CV1 & CV2).
    destruct (At_unique _ _ _ _ _ _ _ _ An An') as (<- & <- & <-). clear An'.
    pose proof (At_within _ _ _ _ An) as Wn. set (r' := mkRange pn (pn + tlen tn)) in *.
    assert (NE' : rstart r' < rend r') by (cbn; lia). assert (IN' : rend r' <= length (f_text f)) by (cbn; lia).
    split; [exact NE'|]. split; [exact IN'|].
    destruct (extend_step r' NE' IN') as (c2 & l2 & Ec2 & El2 & CI2 & BI2 & CC2 & _).
    exists c2, l2. split; [exact Ec2|]. split; [exact El2|].
    assert (Bn : Below T n c2) by (apply BI2, CI2; exists pn, qn, tn; cbn; auto).
    destruct CC2 as (p2 & q2 & t2 & A2 & D1 & D2).
    pose proof (Below_range _ _ _ _ _ _ _ _ _ Bn An A2) as BR.
    split; [exists p2, q2, t2; split; [exact A2|]; unfold r' in *; cbn in *; f_equal; lia|].
    assert (Bc : Below T c2 c) by (apply BI, CI; exists p2, q2, t2; split; [exact A2|]; unfold r' in *; cbn in *; lia).
    split; [exact Bn|]. split; [exact Bc|]. intros NEQ.
    assert (ND : NoDup (c :: l2)).
    { constructor; [|eapply ancestors_nodup; eauto]. intros I. apply BI2 in I. apply NEQ. eapply Below_antisym; eauto. }
    assert (INC : incl (c :: l2) l).
    { intros a [<-|I]; [apply CI; exact CC|]. apply CI. apply BI2 in I.
      pose proof (Below_trans _ _ _ _ I Bc) as B. destruct (Below_At_l _ _ _ B) as (pa & qa & ta & Aa).
      destruct CC as (pc & qc & tc & Ac & ? & ?). exists pa, qa, ta. split; [exact Aa|].
      pose proof (Below_range _ _ _ _ _ _ _ _ _ B Aa Ac). lia. }
    pose proof (NoDup_incl_length ND INC) as LL. cbn in LL. lia.
  Qed.

  Lemma exact_unique : forall c r r', has_range T c r -> has_range T c r' -> r = r'.
  Proof.
    intros c r r' (p & q & t & A & ->) (p' & q' & t' & A' & ->).
    destruct (At_unique _ _ _ _ _ _ _ _ A A') as (-> & -> & ->). reflexivity.
  Qed.

  (** From a selection that is the range of its covering node: fewer steps than ancestors. *)
  Lemma extend_exact : forall m r c l, rstart r < rend r -> rend r <= length (f_text f) ->
    find_covering_node (f_nodes f) root r = Ok c -> ancestors (f_nodes f) c = Ok l -> length l <= m -> has_range T c r ->
    exists k, extends_to f ws k r (mkRange 0 (length (f_text f))) /\ k < length l.
  Proof.
    induction m as [|m IH]; intros r c l NE IN Ec El Lm HR;
      destruct (extend_step r NE IN) as (c' & l' & Ec' & El' & CI & BI & CC & ST1);
      rewrite Ec in Ec'; injection Ec' as <-; rewrite El in El'; injection El' as <-;
      (assert (I0 : In 0 l) by (apply CI; exists 0, None, T; split; [apply At_root|lia]));
      (assert (LP : 0 < length l) by (destruct l; [easy|cbn; lia])); [lia|].
    destruct ST1 as [[_ ->]|(r' & n & Ex & NW & HRn & CV & NR & _ & _)].
    { exists 0. split; [constructor|exact LP]. }
    destruct (extend_next r c l r' n NE IN CI BI CC El HRn CV) as (NE' & IN' & c2 & l2 & Ec2 & El2 & HR2 & _ & _ & LL).
    assert (NEQ : c2 <> c) by (intros ->; apply NR; exact (exact_unique _ _ _ HR2 HR)). specialize (LL NEQ).
    destruct (IH r' c2 l2 NE' IN' Ec2 El2 ltac:(lia) HR2) as (k & EX & KL).
    exists (S k). split; [econstructor; eauto|lia].
  Qed.

  Lemma extend_reaches_aux : forall r c l, rstart r < rend r -> rend r <= length (f_text f) ->
    find_covering_node (f_nodes f) root r = Ok c -> ancestors (f_nodes f) c = Ok l ->
    exists k, extends_to f ws k r (mkRange 0 (length (f_text f))) /\ k <= length l.
  Proof.
    intros r c l NE IN Ec El.
    destruct (extend_step r NE IN) as (c' & l' & Ec' & El' & CI & BI & CC & ST1). rewrite Ec in Ec'. injection Ec' as <-.
    rewrite El in El'. injection El' as <-.
    destruct ST1 as [[_ ->]|(r' & n & Ex & NW & HRn & CV & NR & _ & K)].
    { exists 0. split; [constructor|lia]. }
    destruct K as [HR| ->].
    - destruct (extend_exact (length l) r c l NE IN Ec El (le_n _) HR) as (k & EX & KL). exists k. split; [exact EX|lia].
    - destruct (extend_next r c l r' c NE IN CI BI CC El HRn CV) as (NE' & IN' & c2 & l2 & Ec2 & El2 & HR2 & B1 & B2 & _).
      assert (c2 = c) by (eapply Below_antisym; eauto). subst c2. rewrite El in El2. injection El2 as <-.
      destruct (extend_exact (length l) r' c l NE' IN' Ec2 El (le_n _) HR2) as (k & EX & KL).
      exists (S k). split; [econstructor; eauto|lia].
  Qed.

  Lemma extend_reaches : forall r, rstart r < rend r -> rend r <= length (f_text f) ->
    exists c l k, find_covering_node (f_nodes f) root r = Ok c /\ ancestors (f_nodes f) c = Ok l
      /\ k <= length l /\ extends_to f ws k r (mkRange 0 (length (f_text f)))
      /\ extend_selection f ws (mkRange 0 (length (f_text f))) = Ok None.
  Proof.
    intros r NE IN. destruct (extend_step r NE IN) as (c & l & Ec & El & _).
    destruct (extend_reaches_aux r c l NE IN Ec El) as (k & EX & KL).
    exists c, l, k. split; [exact Ec|]. split; [exact El|]. split; [exact KL|]. split; [exact EX|].
    destruct (extend_step (mkRange 0 (length (f_text f)))) as (c' & l' & _ & _ & _ & _ & _ & [[E _]|(r' & n & _ & NW & _)]);
      [cbn; lia|cbn; lia|exact E|congruence].
  Qed.
End Extend.

(** ** Newlines *)

Lemma find_newline : forall s, match find_sub newline s with
  | Some k => first_newline s k
  | None => ~ has_newline s
  end.
Proof.
  induction s as [|b s IH]; [exact (fun H => H)|]. unfold newline in *. cbn [find_sub is_prefix].
  destruct (10 =? b) eqn:E; cbn [andb].
  - apply Nat.eqb_eq in E. subst. split; [reflexivity|exact (fun H => H)].
  - apply Nat.eqb_neq in E. destruct (find_sub [10] s) as [k|]; cbn [option_map].
    + destruct IH as [N F]. split; [exact N|]. cbn [firstn]. intros [H|H]; [congruence|contradiction].
    + intros [H|H]; [congruence|contradiction].
Qed.

Lemma find_newline_iff : forall s, (match find_sub newline s with Some _ => true | None => false end) = true <-> has_newline s.
Proof.
  intros s. pose proof (find_newline s) as F. destruct (find_sub newline s) as [k|].
  - split; [|reflexivity]. intros _. destruct F as [N _]. eapply nth_error_In; eauto.
  - split; [discriminate|contradiction].
Qed.

Section Empty.
  Variable f : file.
  Variable T : tree.
  Variable ws : nat -> bool.
  Hypothesis W : wf_file f T.
  Hypothesis CT : char_tree (f_text f) T.

  Let ST : stores (f_nodes f) T := proj1 W.
  Let LT : tlen T = length (f_text f) := proj2 W.

  Lemma node_str : forall n p q t, At T n p q t ->
    exists x, node_text f n = Ok x /\ as_str x = Ok (sub p (p + tlen t) (f_text f)).
  Proof.
    intros n p q t A. destruct (CT _ _ _ _ A) as [A1 A2].
    destruct (slice_as_str (f_text f) p (p + tlen t) ltac:(lia) A1 A2) as (x & E & S).
    exists x. split; [|exact S]. unfold node_text. rewrite (range_ok _ _ ST _ _ _ _ A). exact E.
  Qed.

  Lemma is_ws_ok : forall n p q t, At T n p q t -> is_ws f ws n = Ok (ws (t_ty t)).
  Proof. intros n p q t A. unfold is_ws. now rewrite (ty_ok _ _ ST _ _ _ _ A). Qed.

  Lemma is_ws_cases : forall n p q t, At T n p q t ->
    (is_ws f ws n = Ok true /\ ws_node T ws n) \/ (is_ws f ws n = Ok false /\ solid_node T ws n).
  Proof.
    intros n p q t A. rewrite (is_ws_ok _ _ _ _ A). destruct (ws (t_ty t)) eqn:E; [left|right];
      (split; [reflexivity|]); exists (t_ty t); (split; [exists p, q, t; auto|exact E]).
  Qed.

  Lemma ws_or_solid : forall n, ws_node T ws n -> solid_node T ws n -> False.
  Proof.
    intros n (a & (p & q & t & A & <-) & E) (b & (p' & q' & t' & A' & <-) & E').
    destruct (At_unique _ _ _ _ _ _ _ _ A A') as (-> & -> & ->). congruence.
  Qed.

  Lemma touches_At : forall off n, touches T off n -> exists p q t, At T n p q t.
  Proof. intros off n (p & q & t & A & _). eauto. Qed.

  Lemma extend_empty_ok : forall off, off <= length (f_text f) -> aligned (f_text f) off ->
    exists o, extend_selection f ws (mkRange off off) = Ok o /\ empty_result f T ws off o.
  Proof.
    intros off IN AL. unfold extend_selection. replace (range_is_empty (mkRange off off)) with true
      by (symmetry; unfold range_is_empty; cbn; apply Nat.eqb_refl). cbn [rstart]. unfold extend_empty.
    destruct (find_leaf_spec (f_nodes f) T ST off root 0 None T (At_root T)) as (lf & El & Il & Nl & Bl); [lia|].
    rewrite El. cbn [bind].
    assert (SORT : forall a rest m, leaves_list lf = a :: rest -> In m (leaves_list lf) -> a <= m).
    { intros a rest m E I. destruct lf as [|x|x y]; [easy| |].
      - cbn in E, I. injection E as <- <-. destruct I as [<-|[]]; lia.
      - destruct (Bl x y eq_refl) as [L _]. cbn in E, I. injection E as <- <-. destruct I as [<-|[<-|[]]]; lia. }
    assert (TI : forall m, In m (leaves_list lf) <-> touches T off m).
    { intros m. rewrite Il. split; [tauto|]. intros H. split; [|exact H]. destruct (touches_At _ _ H) as (p & q & t & A).
      eapply Below_root; eauto. }
    assert (FILT : forall l, (forall m, In m l -> touches T off m) ->
       exists g, filter_res (fun n => b <- is_ws f ws n ;; Ok (negb b)) l = Ok (filter g l)
         /\ forall m, In m l -> (g m = true /\ solid_node T ws m) \/ (g m = false /\ ws_node T ws m)).
    { intros l H. exists (fun m => match is_ws f ws m with Ok b => negb b | _ => true end). split.
      - induction l as [|m l IH]; [reflexivity|]. cbn [filter_res filter].
        rewrite IH by (intros; apply H; right; auto).
        destruct (touches_At _ _ (H m (or_introl eq_refl))) as (p & q & t & A). rewrite (is_ws_ok _ _ _ _ A). cbn [bind].
        destruct (ws (t_ty t)); reflexivity.
      - intros m I. destruct (touches_At _ _ (H m I)) as (p & q & t & A).
        destruct (is_ws_cases _ _ _ _ A) as [[-> S]|[-> S]]; cbn; auto. }
    destruct (FILT (leaves_list lf)) as (g & Eg & Hg); [intros; now apply TI|]. rewrite Eg. cbn [bind].
    destruct (filter g (leaves_list lf)) as [|leaf fr] eqn:EF.
    - (* only whitespace *)
      assert (ALL : forall m, touches T off m -> ws_node T ws m).
      { intros m I. apply TI in I. destruct (Hg m I) as [[G _]|[_ S]]; [|exact S].
        assert (In m (filter g (leaves_list lf))) by (apply filter_In; auto). rewrite EF in H. easy. }
      destruct (leaves_list lf) as [|w rest] eqn:EL.
      { exists None. split; [reflexivity|]. left. split; [|reflexivity].
        destruct lf; try discriminate. assert (tlen T = 0) by (apply Nl; reflexivity). lia. }
      assert (TW : touches T off w) by (apply TI; rewrite ?EL; left; reflexivity).
      assert (WMIN : forall m, touches T off m -> ws_node T ws m /\ w <= m).
      { intros m I. split; [auto|]. apply (SORT w rest m); [reflexivity|now apply TI]. }
      pose proof TW as (p & q & t & A & _ & _ & R1 & R2). rewrite (range_ok _ _ ST _ _ _ _ A). cbn [bind rstart rend].
      rewrite from_to_ok by exact R2. cbn [bind]. destruct (CT _ _ _ _ A) as [A1 A2].
      destruct (slice_as_str (f_text f) off (p + tlen t) R2 AL A2) as (sx & Esx & Ssx). rewrite Esx. cbn [bind].
      destruct (node_str _ _ _ _ A) as (x & Ex & Sx). rewrite Ex. cbn [bind]. unfold contains at 1. rewrite Sx. cbn [bind].
      assert (HR : has_range T w (mkRange p (p + tlen t))) by (exists p, q, t; auto).
      pose proof (find_newline_iff (sub p (p + tlen t) (f_text f))) as N1.
      destruct (match find_sub newline (sub p (p + tlen t) (f_text f)) with Some _ => true | None => false end); cbn [andb].
      + unfold contains. rewrite Ssx. cbn [bind]. pose proof (find_newline_iff (sub off (p + tlen t) (f_text f))) as N2.
        destruct (match find_sub newline (sub off (p + tlen t) (f_text f)) with Some _ => true | None => false end); cbn [negb andb].
        * eexists. split; [reflexivity|]. right; right. exists w, (mkRange p (p + tlen t)). split; [exact TW|]. split; [exact WMIN|].
          split; [exact HR|]. right. split; [|reflexivity]. right; left. cbn [rstart rend]. now apply N2.
        * assert (N2' : ~ has_newline (sub off (p + tlen t) (f_text f))) by (intros H; apply N2 in H; discriminate).
          pose proof (aligned_le _ _ A2) as LE.
          destruct (slice_as_str (f_text f) (p + tlen t) (length (f_text f)) LE A2 ltac:(right; left; reflexivity)) as (rx & Erx & Srx).
          unfold slice_suffix. rewrite text_len_ok by apply as_text_wf. rewrite as_text_bytes. cbn [bind].
          rewrite from_to_ok by exact LE. cbn [bind]. rewrite Erx. cbn [bind]. unfold TextModel.find. rewrite Srx. cbn [bind].
          rewrite sub_to_end. pose proof (find_newline (skipn (p + tlen t) (f_text f))) as N3.
          destruct (find_sub newline (skipn (p + tlen t) (f_text f))) as [k|].
          -- rewrite from_len_ok. cbn [bind]. destruct N3 as [N3 N3'].
             assert (KL : p + tlen t + k < length (f_text f)).
             { assert (k < length (skipn (p + tlen t) (f_text f))) by (apply nth_error_Some; congruence). rewrite skipn_length in H. lia. }
             destruct (covering_ok (f_nodes f) T ST root 0 None T (mkRange (p + tlen t) (p + tlen t + k)) (At_root T)) as (c & Ec & _ & Cc & Min);
               [unfold proper; cbn; lia|cbn; lia|cbn; lia|]. rewrite Ec. cbn [bind].
             destruct Cc as (pc & qc & tc & Ac & C1 & C2). rewrite (range_ok _ _ ST _ _ _ _ Ac). cbn [bind].
             eexists. split; [reflexivity|]. right; right. exists w, (mkRange p (p + tlen t)). split; [exact TW|]. split; [exact WMIN|].
             split; [exact HR|]. left. cbn [rstart rend]. split; [now apply N1|]. split; [exact N2'|].
             exists k, c, (mkRange pc (pc + tlen tc)). split; [split; auto|]. split; [exists pc, qc, tc; auto|].
             split; [exists pc, qc, tc; auto|]. split; [reflexivity|]. intros K. apply Min. cbn. lia.
          -- eexists. split; [reflexivity|]. right; right. exists w, (mkRange p (p + tlen t)). split; [exact TW|]. split; [exact WMIN|].
             split; [exact HR|]. right. split; [|reflexivity]. right; right. exact N3.
      + eexists. split; [reflexivity|]. right; right. exists w, (mkRange p (p + tlen t)). split; [exact TW|]. split; [exact WMIN|].
        split; [exact HR|]. right. split; [|reflexivity]. left. cbn [rstart rend]. intros H. apply N1 in H. discriminate.
    - (* a solid leaf *)
      assert (IL : In leaf (filter g (leaves_list lf))) by (rewrite EF; left; reflexivity).
      apply filter_In in IL as [IL GL]. assert (TL : touches T off leaf) by now apply TI.
      destruct (touches_At _ _ TL) as (p & q & t & A). rewrite (range_ok _ _ ST _ _ _ _ A). cbn [bind].
      eexists. split; [reflexivity|]. right; left. exists leaf, (mkRange p (p + tlen t)). split; [exact TL|].
      split; [destruct (Hg leaf IL) as [[_ S]|[G _]]; [exact S|congruence]|].
      split; [|split; [exists p, q, t; auto|reflexivity]].
      intros m TM SM. apply TI in TM. assert (GM : g m = true).
      { destruct (Hg m TM) as [[G _]|[_ S]]; [exact G|]. exfalso. eapply ws_or_solid; eauto. }
      clear El Nl TI Eg Hg. destruct lf as [|x|x y]; [easy| |].
      + destruct TM as [<-|[]], IL as [<-|[]]. lia.
      + destruct (Bl x y eq_refl) as [L _]. cbn in EF. destruct (g x) eqn:GX.
        * injection EF as <- _. destruct TM as [<-|[<-|[]]]; lia.
        * destruct TM as [<-|[<-|[]]]; [congruence|]. destruct IL as [<-|[<-|[]]]; [congruence|lia].
  Qed.
End Empty.

(** ** The swap action *)

Section EditedTwo.
  Variable s : bytes.
  Variable rep : nat -> option bytes.

  Let E := edited (fun _ => false) rep (fun _ => None) s.
  Let Es := editeds (fun _ => false) rep (fun _ => None) s.

  Lemma Es_app : forall u v j k, Es (u ++ v) j k = Es u j k ++ Es v (j + tsizes u) (k + tlens u).
  Proof.
    induction u as [|y u IH]; intros v j k.
    - unfold tsizes, tlens. cbn. now rewrite !Nat.add_0_r.
    - cbn [app]. unfold Es in *. cbn [editeds]. rewrite IH, tsizes_cons, tlens_cons, !Nat.add_assoc, app_assoc. reflexivity.
  Qed.

  Lemma Es_none : forall u j k, (forall y, j <= y < j + tsizes u -> rep y = None) -> k + tlens u <= length s ->
    Es u j k = sub k (k + tlens u) s.
  Proof.
    induction u as [|y u IH]; intros j k H1 H2.
    - unfold tlens. cbn. rewrite Nat.add_0_r. now rewrite sub_empty.
    - rewrite tsizes_cons in H1. rewrite tlens_cons in *. unfold Es in *. cbn [editeds]. rewrite edited_none, IH.
      + rewrite sub_app by lia. now rewrite Nat.add_assoc.
      + intros z Z. apply H1. lia.
      + lia.
      + intros z Z. split; [reflexivity|]. split; [|reflexivity]. apply H1. lia.
      + lia.
  Qed.

  (** Changes inside one subtree leave the rest alone. *)
  Lemma edited_inside : forall c t i p q pc qc tc, AtG t i p q c pc qc tc -> p + tlen t <= length s ->
    (forall j, ~ (c <= j < c + tsize tc) -> rep j = None) ->
    E t i p = sub p pc s ++ E tc c pc ++ sub (pc + tlen tc) (p + tlen t) s.
  Proof.
    intros c. apply (tree_ind' (fun t => forall i p q pc qc tc, AtG t i p q c pc qc tc -> p + tlen t <= length s ->
      (forall j, ~ (c <= j < c + tsize tc) -> rep j = None) ->
      E t i p = sub p pc s ++ E tc c pc ++ sub (pc + tlen tc) (p + tlen t) s)).
    - intros ty n i p q pc qc tc G L R. apply AtG_inv in G as [(-> & -> & -> & ->)|(? & ? & ? & ? & X & _)]; [|discriminate].
      rewrite !sub_empty. now rewrite app_nil_r.
    - intros ty ts F i p q pc qc tc G L R.
      apply AtG_inv in G as [(-> & -> & -> & ->)|(ty' & a & x & b & X & G)].
      + rewrite !sub_empty, app_nil_r. reflexivity.
      + injection X as <- ->. pose proof (AtG_bounds _ _ _ _ _ _ _ _ G) as BD. pose proof (tsize_pos tc).
        unfold E at 1. rewrite edited_node. rewrite (R i) by lia. rewrite app_nil_r.
        cbn [tlen] in *. fold (tlens (a ++ x :: b)) in *. rewrite tlens_app, tlens_cons in *.
        fold Es. rewrite Es_app. rewrite Es_none; [|intros y Y; apply R; lia|lia].
        unfold Es at 1. cbn [editeds]. fold E Es.
        rewrite Forall_forall in F. rewrite (F x ltac:(apply in_or_app; right; left; reflexivity) _ _ _ _ _ _ G) by (try lia; exact R).
        rewrite Es_none; [|intros y Y; apply R; lia|lia].
        rewrite <- !app_assoc. rewrite app_assoc, sub_app by lia. f_equal. f_equal.
        rewrite sub_app by lia. f_equal. lia.
  Qed.

  (** Two children of a node replaced. *)
  Lemma edited_two : forall ty a x m y b i p n1 n2, let l := S i + tsizes a in let r := l + tsize x + tsizes m in
    p + tlen (Node ty (a ++ x :: m ++ y :: b)) <= length s ->
    rep l = Some n1 -> rep r = Some n2 -> (forall j, j <> l -> j <> r -> rep j = None) ->
    E (Node ty (a ++ x :: m ++ y :: b)) i p
    = sub p (p + tlens a) s ++ n1 ++ sub (p + tlens a + tlen x) (p + tlens a + tlen x + tlens m) s ++ n2
      ++ sub (p + tlens a + tlen x + tlens m + tlen y) (p + tlen (Node ty (a ++ x :: m ++ y :: b))) s.
  Proof.
    intros ty a x m y b i p n1 n2 l r L R1 R2 RN. pose proof (tsize_pos x). pose proof (tsize_pos y).
    cbn [tlen] in *. fold (tlens (a ++ x :: m ++ y :: b)) in *.
    rewrite tlens_app, tlens_cons, tlens_app, tlens_cons in *.
    unfold E. rewrite edited_node. rewrite (RN i) by lia. rewrite app_nil_r. fold Es.
    rewrite Es_app. rewrite Es_none; [|intros z Z; apply RN; lia|lia].
    unfold Es at 1. cbn [editeds]. fold Es.
    assert (EX : forall t j k n, rep j = Some n -> edited (fun _ => false) rep (fun _ => None) s t j k = n).
    { intros t j k n RJ. destruct t; cbn; now rewrite RJ. }
    rewrite (EX x (S i + tsizes a) _ n1 R1). rewrite Es_app. rewrite Es_none; [|intros z Z; apply RN; lia|lia].
    unfold Es at 1. cbn [editeds]. fold Es. rewrite (EX y _ _ n2 R2).
    rewrite Es_none; [|intros z Z; apply RN; lia|lia]. f_equal. f_equal. f_equal. f_equal. f_equal. lia.
  Qed.
End EditedTwo.

Section Swap.
  Variable f : file.
  Variable T : tree.
  Variable ws : nat -> bool.
  Hypothesis W : wf_file f T.
  Hypothesis CT : char_tree (f_text f) T.

  Let ST : stores (f_nodes f) T := proj1 W.
  Let LT : tlen T = length (f_text f) := proj2 W.

  Lemma spells_fun : forall n a b, spells f T n a -> spells f T n b -> a = b.
  Proof.
    intros n a b (p & q & t & A & ->) (p' & q' & t' & A' & ->).
    destruct (At_unique _ _ _ _ _ _ _ _ A A') as (-> & -> & ->). reflexivity.
  Qed.

  Lemma is_comma_ok : forall n p q t, At T n p q t ->
    exists b, is_comma f n = Ok b /\ (b = true <-> spells f T n [44]).
  Proof.
    intros n p q t A. unfold is_comma. destruct (node_str f T W CT n p q t A) as (x & -> & S). cbn [bind]. rewrite S. cbn [bind].
    eexists. split; [reflexivity|]. rewrite bytes_eqb_spec. split.
    - intros E. exists p, q, t. auto.
    - intros (p' & q' & t' & A' & E). destruct (At_unique _ _ _ _ _ _ _ _ A A') as (-> & -> & ->). auto.
  Qed.

  Lemma find_comma_ok : forall off, off <= length (f_text f) ->
    exists o, find_comma f off = Ok o /\
      match o with Some c => comma_at f T off c | None => forall c, ~ comma_at f T off c end.
  Proof.
    intros off IN. unfold find_comma.
    destruct (find_leaf_spec (f_nodes f) T ST off root 0 None T (At_root T)) as (lf & El & Il & Nl & Bl); [lia|].
    rewrite El. cbn [bind].
    assert (TI : forall m, In m (leaves_list lf) <-> touches T off m).
    { intros m. rewrite Il. split; [tauto|]. intros H. split; [|exact H]. destruct (touches_At _ _ _ H) as (p & q & t & A).
      eapply Below_root; eauto. }
    destruct lf as [|x|x y].
    - exists None. split; [reflexivity|]. intros c [H _]. now apply TI in H.
    - assert (TX : touches T off x) by (apply TI; left; reflexivity).
      destruct (touches_At _ _ _ TX) as (p & q & t & A). destruct (is_comma_ok _ _ _ _ A) as (b & -> & B). cbn [bind].
      eexists. split; [reflexivity|]. destruct b.
      + split; [exact TX|]. split; [now apply B|]. intros m TM _. apply TI in TM as [<-|[]]. lia.
      + intros c (TC & SC & _). apply TI in TC as [<-|[]]. apply B in SC. discriminate.
    - assert (TX : touches T off x) by (apply TI; left; reflexivity).
      assert (TY : touches T off y) by (apply TI; right; left; reflexivity). destruct (Bl x y eq_refl) as [L _].
      destruct (touches_At _ _ _ TX) as (p & q & t & A). destruct (is_comma_ok _ _ _ _ A) as (b & -> & B). cbn [bind].
      destruct (touches_At _ _ _ TY) as (p' & q' & t' & A'). destruct (is_comma_ok _ _ _ _ A') as (b' & -> & B'). cbn [bind].
      eexists. split; [reflexivity|]. destruct b.
      + split; [exact TX|]. split; [now apply B|]. intros m TM _. apply TI in TM as [<-|[<-|[]]]; lia.
      + destruct b'.
        * split; [exact TY|]. split; [now apply B'|]. intros m TM SM. apply TI in TM as [<-|[<-|[]]]; [apply B in SM; discriminate|lia].
        * intros c (TC & SC & _). apply TI in TC as [<-|[<-|[]]]; [apply B in SC|apply B' in SC]; discriminate.
  Qed.

  Lemma comma_at_fun : forall off a b, comma_at f T off a -> comma_at f T off b -> a = b.
  Proof.
    intros off a b (TA & SA & MA) (TB & SB & MB). pose proof (MA b TB SB). pose proof (MB a TA SA). lia.
  Qed.

  (** Children of a node are nodes of the tree. *)
  Lemma child_known : forall q cs k n, node_children (f_nodes f) q = Ok cs -> nth_error cs k = Some n ->
    exists pq qq ty a x b, At T q pq qq (Node ty (a ++ x :: b)) /\ cs = child_ids (S q) (a ++ x :: b)
      /\ k = length a /\ n = S q + tsizes a /\ At T n (pq + tlens a) (Some q) x.
  Proof.
    intros q cs k n HC HN. unfold node_children, node_get, index in HC.
    destruct (nth_error (f_nodes f) q) as [d|] eqn:E; [|discriminate]. cbn in HC. injection HC as <-.
    destruct (stored_at _ _ _ _ ST E) as (p & par & t & A & ->). unfold data_of in *. cbn [n_children] in *.
    destruct t as [ty len|ty ts]; [destruct k; discriminate|]. cbn [t_children] in *.
    assert (G : forall ts i k n, nth_error (child_ids i ts) k = Some n -> exists a x b, ts = a ++ x :: b /\ k = length a /\ n = i + tsizes a).
    { clear. induction ts as [|x ts IH]; intros i k n H; [destruct k; discriminate|]. destruct k as [|k]; cbn in H.
      - injection H as <-. exists [], x, ts. unfold tsizes. cbn. auto.
      - apply IH in H as (a & y & b & -> & -> & ->). exists (x :: a), y, b. rewrite tsizes_cons. cbn. split; [reflexivity|]. split; [reflexivity|lia]. }
    destruct (G ts (S q) k n HN) as (a & x & b & -> & -> & ->).
    exists p, par, ty, a, x, b. repeat (split; [solve [auto]|]). eapply At_child; eauto.
  Qed.

  Lemma child_valid : forall q cs k n, node_children (f_nodes f) q = Ok cs -> nth_error cs k = Some n -> exists p par t, At T n p par t.
  Proof. intros q cs k n H1 H2. destruct (child_known q cs k n H1 H2) as (pq & qq & ty & a & x & b & _ & _ & _ & _ & A). eauto. Qed.

  Lemma child_ids_length : forall ts i, length (child_ids i ts) = length ts.
  Proof. induction ts as [|x ts IH]; intros i; cbn; auto. Qed.

  Lemma children_few : forall q cs k n, node_children (f_nodes f) q = Ok cs -> nth_error cs k = Some n ->
    length cs < length (f_nodes f).
  Proof.
    intros q cs k n H1 H2. destruct (child_known q cs k n H1 H2) as (pq & qq & ty & a & x & b & A & -> & _).
    rewrite child_ids_length. destruct ST as [L _]. rewrite L. apply At_bound in A. cbn [tsize] in A.
    fold (tsizes (a ++ x :: b)) in A. assert (G : forall ts, length ts <= tsizes ts).
    { induction ts as [|z ts IH]; [cbn; lia|]. rewrite tsizes_cons. pose proof (tsize_pos z). cbn. lia. }
    pose proof (G (a ++ x :: b)). lia.
  Qed.

  Lemma skip_ws_right : forall q cs, node_children (f_nodes f) q = Ok cs -> forall fuel k n, nth_error cs k = Some n ->
    length cs - k <= fuel ->
    (exists j m, k <= j /\ nth_error cs j = Some m /\ solid_node T ws m /\ skip_ws f ws fuel n DRight = Ok (Some m)
       /\ forall i x, k <= i < j -> nth_error cs i = Some x -> ws_node T ws x)
    \/ (skip_ws f ws fuel n DRight = Ok None /\ forall i x, k <= i -> nth_error cs i = Some x -> ws_node T ws x).
  Proof.
    intros q cs HC. induction fuel as [|fuel IH]; intros k n HN LF.
    { assert (k < length cs) by (apply nth_error_Some; congruence). lia. }
    cbn [skip_ws]. destruct (child_valid q cs k n HC HN) as (p & par & t & A).
    destruct (is_ws_cases f T ws W _ _ _ _ A) as [[-> SN]|[-> SN]]; cbn [bind].
    - destruct (sibling_ok (f_nodes f) T ST q cs k n HC HN) as [-> _]. cbn [bind].
      destruct (nth_error cs (S k)) as [m|] eqn:E.
      + destruct (IH (S k) m E ltac:(lia)) as [(j & y & K & Y & SY & EY & AL)|[EN AL]].
        * left. exists j, y. split; [lia|]. repeat (split; [solve [auto]|]). intros i x I X.
          destruct (Nat.eq_dec i k) as [->|NE]; [congruence|]. apply (AL i x); [lia|exact X].
        * right. split; [exact EN|]. intros i x I X. destruct (Nat.eq_dec i k) as [->|NE]; [congruence|]. apply (AL i x); [lia|exact X].
      + right. split; [reflexivity|]. intros i x I X. destruct (Nat.eq_dec i k) as [->|NE]; [congruence|].
        apply nth_error_None in E. assert (i < length cs) by (apply nth_error_Some; congruence). lia.
    - left. exists k, n. split; [lia|]. repeat (split; [solve [auto]|]). lia.
  Qed.

  Lemma skip_ws_left : forall q cs, node_children (f_nodes f) q = Ok cs -> forall fuel k n, nth_error cs k = Some n ->
    k < fuel ->
    (exists j m, j <= k /\ nth_error cs j = Some m /\ solid_node T ws m /\ skip_ws f ws fuel n DLeft = Ok (Some m)
       /\ forall i x, j < i <= k -> nth_error cs i = Some x -> ws_node T ws x)
    \/ (skip_ws f ws fuel n DLeft = Ok None /\ forall i x, i <= k -> nth_error cs i = Some x -> ws_node T ws x).
  Proof.
    intros q cs HC. induction fuel as [|fuel IH]; intros k n HN LF; [lia|].
    cbn [skip_ws]. destruct (child_valid q cs k n HC HN) as (p & par & t & A).
    destruct (is_ws_cases f T ws W _ _ _ _ A) as [[-> SN]|[-> SN]]; cbn [bind].
    - destruct (sibling_ok (f_nodes f) T ST q cs k n HC HN) as [_ ->]. cbn [bind]. destruct k as [|k].
      + right. split; [reflexivity|]. intros i x I X. replace i with 0 in X by lia. congruence.
      + destruct (nth_error cs k) as [m|] eqn:E.
        * destruct (IH k m E ltac:(lia)) as [(j & y & K & Y & SY & EY & AL)|[EN AL]].
          -- left. exists j, y. split; [lia|]. repeat (split; [solve [auto]|]). intros i x I X.
             destruct (Nat.eq_dec i (S k)) as [->|NE]; [congruence|]. apply (AL i x); [lia|exact X].
          -- right. split; [exact EN|]. intros i x I X. destruct (Nat.eq_dec i (S k)) as [->|NE]; [congruence|]. apply (AL i x); [lia|exact X].
        * exfalso. apply nth_error_None in E. assert (S k < length cs) by (apply nth_error_Some; congruence). lia.
    - left. exists k, n. split; [lia|]. repeat (split; [solve [auto]|]). lia.
  Qed.

  Lemma nonws_right : forall q cs k n, node_children (f_nodes f) q = Ok cs -> nth_error cs k = Some n ->
    (exists j m, k < j /\ nth_error cs j = Some m /\ solid_node T ws m /\ nonws_sibling f ws n DRight = Ok (Some m)
       /\ forall i x, k < i < j -> nth_error cs i = Some x -> ws_node T ws x)
    \/ (nonws_sibling f ws n DRight = Ok None /\ forall i x, k < i -> nth_error cs i = Some x -> ws_node T ws x).
  Proof.
    intros q cs k n HC HN. unfold nonws_sibling. destruct (sibling_ok (f_nodes f) T ST q cs k n HC HN) as [-> _]. cbn [bind].
    pose proof (children_few q cs k n HC HN) as LC.
    destruct (nth_error cs (S k)) as [m|] eqn:E.
    - destruct (skip_ws_right q cs HC (length (f_nodes f)) (S k) m E ltac:(lia)) as [(j & y & K & Y & SY & EY & AL)|[EN AL]].
      + left. exists j, y. split; [lia|]. repeat (split; [solve [auto]|]). intros i x I X. apply (AL i x); [lia|exact X].
      + right. split; [exact EN|]. intros i x I X. apply (AL i x); [lia|exact X].
    - right. split; [reflexivity|]. intros i x I X. apply nth_error_None in E.
      assert (i < length cs) by (apply nth_error_Some; congruence). lia.
  Qed.

  Lemma nonws_left : forall q cs k n, node_children (f_nodes f) q = Ok cs -> nth_error cs k = Some n ->
    (exists j m, j < k /\ nth_error cs j = Some m /\ solid_node T ws m /\ nonws_sibling f ws n DLeft = Ok (Some m)
       /\ forall i x, j < i < k -> nth_error cs i = Some x -> ws_node T ws x)
    \/ (nonws_sibling f ws n DLeft = Ok None /\ forall i x, i < k -> nth_error cs i = Some x -> ws_node T ws x).
  Proof.
    intros q cs k n HC HN. unfold nonws_sibling. destruct (sibling_ok (f_nodes f) T ST q cs k n HC HN) as [_ ->]. cbn [bind].
    pose proof (children_few q cs k n HC HN) as LC. assert (KL : k < length cs) by (apply nth_error_Some; congruence).
    destruct k as [|k]; [right; split; [reflexivity|lia]|].
    destruct (nth_error cs k) as [m|] eqn:E; [|apply nth_error_None in E; lia].
    destruct (skip_ws_left q cs HC (length (f_nodes f)) k m E ltac:(lia)) as [(j & y & K & Y & SY & EY & AL)|[EN AL]].
    - left. exists j, y. split; [lia|]. repeat (split; [solve [auto]|]). intros i x I X. apply (AL i x); [lia|exact X].
    - right. split; [exact EN|]. intros i x I X. apply (AL i x); [lia|exact X].
  Qed.

  Lemma type_of : forall n p q t, At T n p q t -> has_type T n (t_ty t).
  Proof. intros n p q t A. exists p, q, t. auto. Qed.

  Lemma has_type_fun : forall n a b, has_type T n a -> has_type T n b -> a = b.
  Proof.
    intros n a b (p & q & t & A & <-) (p' & q' & t' & A' & <-).
    destruct (At_unique _ _ _ _ _ _ _ _ A A') as (-> & -> & ->). reflexivity.
  Qed.

  (** What applying the edit gives for two siblings. *)
  Lemma swap_text : forall q cs i j l r, node_children (f_nodes f) q = Ok cs -> i < j ->
    nth_error cs i = Some l -> nth_error cs j = Some r ->
    exists l1 l2 r1 r2 ops, has_range T l (mkRange l1 l2) /\ has_range T r (mkRange r1 r2)
      /\ l1 <= l2 /\ l2 <= r1 /\ r1 <= r2 /\ r2 <= length (f_text f)
      /\ (e1 <- fe_replace f fe_new l r ;; e2 <- fe_replace f e1 r l ;; te <- into_text_edit f e2 ;; Ok (Some (Applied te)))
         = Ok (Some (Applied ops))
      /\ apply ops (as_text (f_text f))
         = Ok (sub 0 l1 (f_text f) ++ sub r1 r2 (f_text f) ++ sub l2 r1 (f_text f) ++ sub l1 l2 (f_text f)
               ++ sub r2 (length (f_text f)) (f_text f)).
  Proof.
    intros q cs i j l r HC IJ HL HR.
    destruct (child_known q cs j r HC HR) as (pq & qq & ty & a0 & y & b & Aq & -> & -> & -> & Ay).
    assert (SPL : exists a x m, a0 = a ++ x :: m /\ i = length a).
    { destruct (nth_error a0 i) as [x|] eqn:E; [|apply nth_error_None in E; lia].
      apply nth_error_split in E as (a & m & -> & <-). exists a, x, m. auto. }
    destruct SPL as (a & x & m & -> & ->). rewrite <- app_assoc in *. cbn [app] in *.
    assert (EL : l = S q + tsizes a).
    { rewrite child_ids_app, nth_error_app2, child_ids_length, Nat.sub_diag in HL by (rewrite child_ids_length; lia).
      cbn [child_ids nth_error] in HL. injection HL as <-. reflexivity. }
    subst l. pose proof (At_child T _ _ _ _ _ _ _ Aq) as Ax.
    rewrite tsizes_app, tsizes_cons, tlens_app, tlens_cons in *.
    set (l := S q + tsizes a) in *. set (r := S q + (tsizes a + (tsize x + tsizes m))) in *.
    set (l1 := pq + tlens a) in *. set (l2 := l1 + tlen x). set (r1 := pq + (tlens a + (tlen x + tlens m))) in *. set (r2 := r1 + tlen y).
    pose proof (At_within f T W _ _ _ _ Ay) as WY. pose proof (tsize_pos x).
    exists l1, l2, r1, r2.
    destruct (node_str f T W CT _ _ _ _ Ax) as (tx & Ex & Sx). destruct (node_str f T W CT _ _ _ _ Ay) as (ty' & Ey & Sy).
    unfold fe_replace. rewrite Ex, Ey. cbn [bind]. rewrite Sx, Sy. cbn [bind].
    fold l2. fold r2. set (e := mkFE [] [(l, sub r1 r2 (f_text f)); (r, sub l1 l2 (f_text f))] []).
    change (fe_replace_with_text (fe_replace_with_text fe_new l (sub r1 r2 (f_text f))) r (sub l1 l2 (f_text f))) with e.
    destruct (file_edit_ok f T e W CT) as (ops & Eo & Ao & _). rewrite Eo. cbn [bind].
    exists ops. split; [exists l1, (Some q), x; auto|]. split; [exists r1, (Some q), y; auto|].
    split; [unfold l2; lia|]. split; [unfold l2, r1, l1; lia|]. split; [unfold r2; lia|]. split; [exact WY|].
    split; [reflexivity|]. rewrite Ao. f_equal. unfold edit_result, e. cbn [fe_deleted fe_replaced fe_inserted first_for].
    set (rep := fun j : nat => if l =? j then Some (sub r1 r2 (f_text f)) else if r =? j then Some (sub l1 l2 (f_text f)) else None).
    rewrite (edited_ext (f_text f) _ _ _ (fun _ => false) rep (fun _ => None));
      [|reflexivity|reflexivity|reflexivity].
    assert (NLR : l <> r) by (unfold l, r; lia).
    assert (RL : rep l = Some (sub r1 r2 (f_text f))) by (unfold rep; now rewrite Nat.eqb_refl).
    assert (RR : rep r = Some (sub l1 l2 (f_text f))).
    { unfold rep. replace (l =? r) with false by (symmetry; apply Nat.eqb_neq; exact NLR). now rewrite Nat.eqb_refl. }
    assert (RN : forall z, z <> l -> z <> r -> rep z = None).
    { intros z Z1 Z2. unfold rep. replace (l =? z) with false by (symmetry; apply Nat.eqb_neq; auto).
      replace (r =? z) with false by (symmetry; apply Nat.eqb_neq; auto). reflexivity. }
    pose proof (At_within f T W _ _ _ _ Aq) as WQ.
    rewrite (edited_inside (f_text f) rep q T 0 0 None pq qq _ (proj2 (AtG_At _ _ _ _ _) Aq)); [|cbn; lia|].
    - rewrite (edited_two (f_text f) rep ty a x m y b q pq (sub r1 r2 (f_text f)) (sub l1 l2 (f_text f))).
      + fold l1. fold l2. replace (l2 + tlens m) with r1 by (unfold r1, l2, l1; lia). fold r2.
        cbn [plus]. rewrite LT. rewrite <- !app_assoc.
        rewrite (app_assoc (sub 0 pq _)), sub_app by (unfold l1; lia). f_equal. f_equal. f_equal. f_equal.
        apply sub_app; [|exact WQ]. unfold r2, r1. cbn [tlen]. fold (tlens (a ++ x :: m ++ y :: b)).
        rewrite tlens_app, tlens_cons, tlens_app, tlens_cons. lia.
      + exact WQ.
      + exact RL.
      + replace (S q + tsizes a + tsize x + tsizes m) with r by (unfold r; lia). exact RR.
      + intros z Z1 Z2. apply RN; [exact Z1|]. unfold r. lia.
    - intros z Z. cbn [tsize] in Z. fold (tsizes (a ++ x :: m ++ y :: b)) in Z.
      rewrite tsizes_app, tsizes_cons, tsizes_app, tsizes_cons in Z. pose proof (tsize_pos y).
      apply RN; unfold l, r; lia.
  Qed.

  (** The action at an offset of the file: offered, applicable, and with the promised effect, exactly when
      there are nodes to exchange; it never panics. *)
  Lemma swap_ok : forall off, off <= length (f_text f) ->
    (exists comma l r l1 l2 r1 r2 ops, swaps f T ws off comma l r
        /\ swap f ws off false = Ok (Some Available) /\ swap f ws off true = Ok (Some (Applied ops))
        /\ has_range T l (mkRange l1 l2) /\ has_range T r (mkRange r1 r2)
        /\ l1 <= l2 /\ l2 <= r1 /\ r1 <= r2 /\ r2 <= length (f_text f)
        /\ apply ops (as_text (f_text f))
           = Ok (sub 0 l1 (f_text f) ++ sub r1 r2 (f_text f) ++ sub l2 r1 (f_text f) ++ sub l1 l2 (f_text f)
                 ++ sub r2 (length (f_text f)) (f_text f)))
    \/ ((forall comma l r, ~ swaps f T ws off comma l r)
        /\ swap f ws off false = Ok None /\ swap f ws off true = Ok None).
  Proof.
    intros off IN. unfold swap. destruct (find_comma_ok off IN) as ([c|] & -> & FC); cbn [bind].
    2:{ right. split; [|auto]. intros c l r [H _]. exact (FC c H). }
    pose proof FC as (TC & _ & _). destruct (touches_At _ _ _ TC) as (p & par & t & A).
    assert (UNIQ : forall q cs k l r, node_children (f_nodes f) q = Ok cs -> nth_error cs k = Some c -> around T ws cs k l r ->
       nonws_sibling f ws c DLeft = Ok (Some l) /\ nonws_sibling f ws c DRight = Ok (Some r)).
    { intros q cs k l r HC HN (i & j & IJ & HL & HR & SL & SR & AL). split.
      - destruct (nonws_left q cs k c HC HN) as [(i' & m & K & Y & SY & EY & AL')|[EN AL']].
        + destruct (Nat.lt_trichotomy i i') as [LT'|[->|GT']].
          * exfalso. eapply ws_or_solid; [|exact SY]. apply (AL i' m); [lia|lia|exact Y].
          * congruence.
          * exfalso. eapply ws_or_solid; [|exact SL]. apply (AL' i l); [lia|exact HL].
        + exfalso. eapply ws_or_solid; [|exact SL]. apply (AL' i l); [lia|exact HL].
      - destruct (nonws_right q cs k c HC HN) as [(i' & m & K & Y & SY & EY & AL')|[EN AL']].
        + destruct (Nat.lt_trichotomy j i') as [LT'|[->|GT']].
          * exfalso. eapply ws_or_solid; [|exact SR]. apply (AL' j r); [lia|exact HR].
          * congruence.
          * exfalso. eapply ws_or_solid; [|exact SY]. apply (AL i' m); [lia|lia|exact Y].
        + exfalso. eapply ws_or_solid; [|exact SR]. apply (AL' j r); [lia|exact HR]. }
    assert (NOSW : (nonws_sibling f ws c DLeft = Ok None \/ nonws_sibling f ws c DRight = Ok None) ->
       forall comma l r, ~ swaps f T ws off comma l r).
    { intros NN comma l r (CA & q & cs & k & HC & HN & AR & _). rewrite (comma_at_fun _ _ _ CA FC) in HN.
      destruct (UNIQ q cs k l r HC HN AR). destruct NN; congruence. }
    destruct (Nat.eq_dec c 0) as [->|NZ].
    { right. unfold nonws_sibling in *. rewrite (sibling_root (f_nodes f) T ST) in *. cbn [bind] in *.
      split; [|auto]. apply NOSW. left. reflexivity. }
    destruct (is_child (f_nodes f) T ST c p par t A NZ) as (q & cs & k & _ & HC & HN).
    destruct (nonws_left q cs k c HC HN) as [(i & l & K1 & HL & SL & EL & AL)|[EL AL]]; rewrite EL; cbn [bind].
    2:{ right. split; [|auto]. apply NOSW. auto. }
    destruct (nonws_right q cs k c HC HN) as [(j & r & K2 & HR & SR & ER & AR)|[ER AR]]; rewrite ER; cbn [bind].
    2:{ right. split; [|auto]. apply NOSW. auto. }
    destruct (child_valid q cs i l HC HL) as (pl & ql & tl & Al). destruct (child_valid q cs j r HC HR) as (pr & qr & tr & Ar).
    rewrite (ty_ok _ _ ST _ _ _ _ Al), (ty_ok _ _ ST _ _ _ _ Ar). cbn [bind].
    assert (AROUND : around T ws cs k l r).
    { exists i, j. split; [lia|]. repeat (split; [solve [auto]|]). intros m x M1 M2 X.
      destruct (Nat.lt_ge_cases m k); [apply (AL m x); [lia|exact X]|apply (AR m x); [lia|exact X]]. }
    destruct (t_ty tl =? t_ty tr) eqn:ET; cbn [negb].
    - left. apply Nat.eqb_eq in ET.
      destruct (swap_text q cs i j l r HC ltac:(lia) HL HR) as (l1 & l2 & r1 & r2 & ops & RL & RR & O1 & O2 & O3 & O4 & EE & EA).
      exists c, l, r, l1, l2, r1, r2, ops. split.
      { split; [exact FC|]. exists q, cs, k. repeat (split; [solve [auto]|]). exists (t_ty tl). split; [eapply type_of; eauto|].
        rewrite ET. eapply type_of; eauto. }
      split; [reflexivity|]. split; [exact EE|]. repeat (split; [solve [auto]|]). exact EA.
    - right. split; [|auto]. intros comma l' r' (CA & q' & cs' & k' & HC' & HN' & AR' & ty' & T1 & T2).
      rewrite (comma_at_fun _ _ _ CA FC) in HN'. destruct (UNIQ q' cs' k' l' r' HC' HN' AR') as [U1 U2].
      rewrite EL in U1. rewrite ER in U2. injection U1 as <-. injection U2 as <-.
      apply Nat.eqb_neq in ET. apply ET. rewrite (has_type_fun _ _ _ (type_of _ _ _ _ Al) T1).
      rewrite (has_type_fun _ _ _ (type_of _ _ _ _ Ar) T2). reflexivity.
  Qed.
End Swap.

(** ** Highlighting *)

Section HighlightProofs.
  Variable nodes : table.
  Variable T : tree.
  Hypothesis ST : stores nodes T.
  Variable tag : Type.
  Variable err : tag.
  Variable error_ty : nat.
  Variable mapping : list (tag * list nat).
  Variable callbacks : list (list nat * (nat -> list (list nat * tag))).

  Lemma lists_ty : forall ty tys, existsb (Nat.eqb ty) tys = true <-> In ty tys.
  Proof.
    intros ty tys. rewrite existsb_exists. split.
    - intros (x & I & E). apply Nat.eqb_eq in E. now subst.
    - intros I. exists ty. split; [exact I|apply Nat.eqb_refl].
  Qed.

  Lemma tag_of_ok : forall ty, match tag_of tag mapping ty with
    | Some g => mapped mapping ty g
    | None => forall g, ~ mapped mapping ty g
    end.
  Proof.
    intros ty. unfold tag_of. pose proof (find_first_spec _ (fun x : tag * list nat => existsb (Nat.eqb ty) (snd x)) mapping) as F.
    destruct (find_first _ mapping) as [[g tys]|]; cbn [option_map fst].
    - destruct F as (pre & post & -> & P & N). exists pre, tys, post. split; [reflexivity|].
      split; [now apply lists_ty|]. intros e I H. apply N in I. apply lists_ty in H. congruence.
    - intros g (pre & tys & post & -> & I & _). specialize (F (g, tys) ltac:(apply in_or_app; right; left; reflexivity)).
      cbn in F. apply lists_ty in I. congruence.
  Qed.

  Lemma hl_visit_ok : forall n p q t ctx, At T n p q t ->
    exists own, own_mark T err error_ty mapping n own /\ hl_visit nodes tag err error_ty mapping n ctx = Ok (ctx ++ own).
  Proof.
    intros n p q t ctx A. unfold hl_visit. rewrite (ty_ok _ _ ST _ _ _ _ A). cbn [bind].
    destruct (t_ty t =? error_ty) eqn:E.
    - apply Nat.eqb_eq in E. rewrite (range_ok _ _ ST _ _ _ _ A). cbn [bind]. unfold range_is_empty. cbn [rstart rend].
      destruct (p =? p + tlen t) eqn:Z.
      + apply Nat.eqb_eq in Z. rewrite from_len_ok. cbn [bind]. eexists. split; [|reflexivity]. eapply own_empty_error; eauto. lia.
      + apply Nat.eqb_neq in Z. cbn [bind]. eexists. split; [|reflexivity]. eapply own_error; eauto. lia.
    - apply Nat.eqb_neq in E. pose proof (tag_of_ok (t_ty t)) as TG. destruct (tag_of tag mapping (t_ty t)) as [g|].
      + unfold hl. rewrite (range_ok _ _ ST _ _ _ _ A). cbn [bind]. eexists. split; [|reflexivity]. eapply own_tag; eauto.
      + exists []. split; [eapply own_none; eauto|]. now rewrite app_nil_r.
  Qed.

  Lemma child_of_type_ok : forall n p q t ty, At T n p q t ->
    exists o, child_of_type nodes n ty = Ok o /\
      match o with
      | Some c => first_child nodes T n ty c
      | None => forall c, ~ first_child nodes T n ty c
      end.
  Proof.
    intros n p q t ty A. unfold child_of_type. pose proof (children_ok _ _ ST _ _ _ _ A) as C. rewrite C. cbn [bind].
    set (cs := child_ids (S n) (t_children t)) in *.
    assert (V : forall m, In m cs -> exists p q t, At T m p q t).
    { intros m I. apply child_ids_in in I as (a & x & b & E & ->). destruct t as [ty' n'|ty' ts]; [destruct a; discriminate|].
      cbn in E. subst ts. exists (p + tlens a), (Some n), x. eapply At_child; eauto. }
    destruct (filter_ty_ok nodes T ST (fun x => x =? ty) cs V) as (r & -> & g & G & ->). cbn [bind].
    assert (G' : forall m, In m cs -> (g m = true <-> has_type T m ty)).
    { intros m I. rewrite (G m I). split.
      - intros (ty' & H & E). apply Nat.eqb_eq in E. now subst.
      - intros H. exists ty. split; [exact H|apply Nat.eqb_refl]. }
    eexists. split; [reflexivity|].
    assert (FF : hd_error (filter g cs) = find_first g cs).
    { clear. induction cs as [|x l IH]; [reflexivity|]. cbn. destruct (g x); auto. }
    rewrite FF. pose proof (find_first_spec _ g cs) as F. destruct (find_first g cs) as [c|].
    - destruct F as (pre & post & E & P & N). exists cs, pre, post. split; [exact C|]. split; [exact E|].
      split; [apply G'; [rewrite E; apply in_or_app; right; left; reflexivity|exact P]|].
      intros x I H. apply G' in H; [apply N in I; congruence|]. rewrite E. apply in_or_app. auto.
    - intros c (cs' & pre & post & C' & E & H & _). rewrite C in C'. injection C' as <-.
      assert (I : In c cs) by (rewrite E; apply in_or_app; right; left; reflexivity).
      pose proof (F c I). apply G' in H; [congruence|exact I].
  Qed.

  Lemma first_child_fun : forall n ty a b, first_child nodes T n ty a -> first_child nodes T n ty b -> a = b.
  Proof.
    intros n ty a b (cs & pre & post & C & E & H & N) (cs' & pre' & post' & C' & E' & H' & N').
    rewrite C in C'. injection C' as <-. rewrite E in E'. clear E C. revert pre' E' N'.
    induction pre as [|x pre IH]; intros [|x' pre'] E' N'; cbn in E'; injection E' as E0 E'.
    - exact E0.
    - exfalso. subst x'. apply (N' a (or_introl eq_refl)). exact H.
    - exfalso. subst x. apply (N b (or_introl eq_refl)). exact H'.
    - apply (IH ltac:(intros z I; apply N; right; exact I) pre' E'). intros z I; apply N'; right; exact I.
  Qed.

  Lemma first_child_valid : forall n ty c, first_child nodes T n ty c -> exists p q t, At T c p q t.
  Proof. intros n ty c (cs & pre & post & _ & _ & (p & q & t & A & _) & _). eauto. Qed.

  Lemma follow_ok : forall path n p q t, At T n p q t ->
    exists o, follow nodes n path = Ok o /\
      match o with
      | Some m => path_to nodes T n path m /\ exists p q t, At T m p q t
      | None => forall m, ~ path_to nodes T n path m
      end.
  Proof.
    induction path as [|ty rest IH]; intros n p q t A; cbn [follow].
    - exists (Some n). split; [reflexivity|]. split; [constructor|eauto].
    - destruct (child_of_type_ok n p q t ty A) as ([c|] & -> & FC); cbn [bind].
      + destruct (first_child_valid _ _ _ FC) as (pc & qc & tc & Ac).
        destruct (IH c pc qc tc Ac) as (o & E & H). exists o. split; [exact E|]. destruct o as [m|].
        * destruct H as [P V]. split; [|exact V]. econstructor; eauto.
        * intros m P. inversion P as [|? ? c' ? ? FC' P']. subst. rewrite (first_child_fun _ _ _ _ FC' FC) in P'. exact (H m P').
      + exists None. split; [reflexivity|]. intros m P. inversion P as [|? ? c' ? ? FC' P']. subst. exact (FC c' FC').
  Qed.

  Lemma colorize_ok : forall n p q t x ctx, At T n p q t ->
    exists ms, asked_mark nodes T n x ms /\ colorize nodes tag n x ctx = Ok (ctx ++ ms).
  Proof.
    intros n p q t x ctx A. unfold colorize. destruct (follow_ok (fst x) n p q t A) as ([m|] & -> & H); cbn [bind].
    - destruct H as [P (pm & qm & tm & Am)]. unfold hl. rewrite (range_ok _ _ ST _ _ _ _ Am). cbn [bind].
      eexists. split; [|reflexivity]. left. exists m, (mkRange pm (pm + tlen tm)). split; [exact P|]. split; [|reflexivity].
      exists pm, qm, tm. auto.
    - exists []. split; [right; auto|]. now rewrite app_nil_r.
  Qed.

  Lemma colorize_all : forall n p q t xs ctx, At T n p q t ->
    exists mss, Forall2 (asked_mark nodes T n) xs mss /\ fold_res (fun c x => colorize nodes tag n x c) ctx xs = Ok (ctx ++ concat mss).
  Proof.
    intros n p q t. induction xs as [|x xs IH]; intros ctx A.
    - exists []. split; [constructor|]. cbn. now rewrite app_nil_r.
    - cbn [fold_res]. destruct (colorize_ok n p q t x ctx A) as (ms & M & ->). cbn [bind].
      destruct (IH (ctx ++ ms) A) as (mss & F & ->). exists (ms :: mss). split; [constructor; auto|]. cbn. now rewrite app_assoc.
  Qed.

  Lemma callbacks_ok : forall n p q t ctx, At T n p q t ->
    exists mss, Forall2 (callback_marks nodes T n) callbacks mss /\ run_callbacks nodes tag callbacks n ctx = Ok (ctx ++ concat mss).
  Proof.
    intros n p q t ctx A. unfold run_callbacks. rewrite (ty_ok _ _ ST _ _ _ _ A). cbn [bind]. revert ctx.
    assert (TY : has_type T n (t_ty t)) by (exists p, q, t; auto).
    induction callbacks as [|cb cbs IH]; intros ctx.
    - exists []. split; [constructor|]. cbn. now rewrite app_nil_r.
    - cbn [fold_res]. destruct (existsb (Nat.eqb (t_ty t)) (fst cb)) eqn:E.
      + destruct (colorize_all n p q t (snd cb n) ctx A) as (ms & M & ->). cbn [bind].
        destruct (IH (ctx ++ concat ms)) as (mss & F & ->). exists (concat ms :: mss). split.
        * constructor; [|exact F]. left. exists (t_ty t), ms. split; [exact TY|]. split; [now apply lists_ty|]. auto.
        * cbn. now rewrite app_assoc.
      + cbn [bind]. destruct (IH ctx) as (mss & F & ->). exists ([] :: mss). split; [|reflexivity].
        constructor; [|exact F]. right. exists (t_ty t). split; [exact TY|]. split; [|reflexivity].
        intros H. apply lists_ty in H. congruence.
  Qed.

  Lemma highlight_ok : exists l mss, subtree nodes root = Ok l
    /\ Forall2 (node_marks nodes T err error_ty mapping callbacks) l mss
    /\ highlight nodes tag err error_ty mapping callbacks = Ok (concat mss).
  Proof.
    exists (post T 0).
    assert (G : forall l ctx, (forall m, In m l -> exists p q t, At T m p q t) ->
      exists mss, Forall2 (node_marks nodes T err error_ty mapping callbacks) l mss
        /\ fold_res (fun ctx n => c <- hl_visit nodes tag err error_ty mapping n ctx ;; run_callbacks nodes tag callbacks n c) ctx l
           = Ok (ctx ++ concat mss)).
    { induction l as [|n l IH]; intros ctx V.
      - exists []. split; [constructor|]. cbn. now rewrite app_nil_r.
      - destruct (V n (or_introl eq_refl)) as (p & q & t & A). cbn [fold_res].
        destruct (hl_visit_ok n p q t ctx A) as (own & O & ->). cbn [bind].
        destruct (callbacks_ok n p q t (ctx ++ own) A) as (cm & C & ->). cbn [bind].
        destruct (IH ((ctx ++ own) ++ concat cm)) as (mss & F & ->); [intros; apply V; right; auto|].
        exists ((own ++ concat cm) :: mss). split.
        + constructor; [|exact F]. exists own, cm. auto.
        + cbn [concat]. now rewrite !app_assoc. }
    destruct (G (post T 0) []) as (mss & F & E).
    - intros m I. apply post_in in I. apply At_total. lia.
    - exists mss. split; [exact (subtree_ok _ _ ST _ _ _ _ (At_root T))|]. split; [exact F|].
      unfold highlight. etransitivity; [exact (bottom_up_ok nodes T ST (highlights tag) _ T root 0 None [] (At_root T))|exact E].
  Qed.

  (** Where the marks lie. *)
  Lemma own_mark_range : forall n own r g, own_mark T err error_ty mapping n own -> In (r, g) own ->
    has_range T n r \/ (g = err /\ exists p q t, At T n p q t /\ t_ty t = error_ty /\ tlen t = 0 /\ r = mkRange p (p + 1)).
  Proof.
    intros n own r g O I. inversion O as [p q t A E L|p q t A E L|p q t g' A E M|p q t A E M]; subst own; [destruct I as [I|[]]|destruct I as [I|[]]|destruct I as [I|[]]|destruct I].
    - left. exists p, q, t. split; [exact A|]. congruence.
    - right. injection I as <- <-. split; [reflexivity|]. exists p, q, t. auto.
    - left. exists p, q, t. split; [exact A|]. congruence.
  Qed.

  Lemma Forall2_In : forall A B (P : A -> B -> Prop) l m b, Forall2 P l m -> In b m -> exists a, In a l /\ P a b.
  Proof. intros A B P l m b F. induction F as [|x y l m H F IH]; intros I; [easy|]. destruct I as [<-|I]; [eexists; split; [left; reflexivity|exact H]|].
    destruct (IH I) as (a & I' & Pa). exists a. split; [right; exact I'|exact Pa]. Qed.

  Lemma path_below : forall n path m p q t, path_to nodes T n path m -> At T n p q t -> Below T n m.
  Proof.
    intros n path m p q t P. revert p q t. induction P as [n|n ty c rest m FC P IH]; intros p q t A; [eapply Below_refl; eauto|].
    destruct FC as (cs & pre & post & C & E & _). rewrite (children_ok _ _ ST _ _ _ _ A) in C. injection C as <-.
    assert (I : In c (child_ids (S n) (t_children t))) by (rewrite E; apply in_or_app; right; left; reflexivity).
    apply child_ids_in in I as (a & x & b & E' & ->). destruct t as [ty' n'|ty' ts]; [destruct a; discriminate|]. cbn in E'. subst ts.
    pose proof (At_child T _ _ _ _ _ _ _ A) as AC. eapply Below_trans; [|eapply IH; exact AC].
    eapply Below_child; [eapply Below_refl; eauto|exact AC].
  Qed.

  Lemma node_marks_range : forall n ms r g, node_marks nodes T err error_ty mapping callbacks n ms -> In (r, g) ms ->
    (exists m, Below T n m /\ has_range T m r)
    \/ (g = err /\ exists p q t, At T n p q t /\ t_ty t = error_ty /\ tlen t = 0 /\ r = mkRange p (p + 1)).
  Proof.
    intros n ms r g (own & mss & O & F & ->) I. apply in_app_or in I as [I|I].
    - destruct (own_mark_range _ _ _ _ O I) as [H|H]; [left|right; exact H]. exists n. split; [|exact H].
      destruct H as (p & q & t & A & _). eapply Below_refl; eauto.
    - left. apply in_concat in I as (ms & I1 & I2). destruct (Forall2_In _ _ _ _ _ _ F I1) as (cb & _ & [(ty & xs & TY & _ & F' & ->)|(ty & _ & _ & ->)]); [|easy].
      apply in_concat in I2 as (y & I3 & I4). destruct (Forall2_In _ _ _ _ _ _ F' I3) as (x & _ & [(m & r' & P & HR & ->)|[_ ->]]); [|easy].
      destruct I4 as [E|[]]. injection E as -> <-. destruct TY as (p & q & t & A & _). exists m. split; [eapply path_below; eauto|exact HR].
  Qed.
End HighlightProofs.
