(** Where cached segments sit in a forest and in its events, and the runs that made them. *)
From Coq Require Import List Arith Bool Lia.
From Verif Require Import Base BaseFacts LexModel GrammarModel ParserModel ForestSpec SemSpec PegSpec PegProofs.
Import ListNotations.

(** [occs i F k G]: in the forest [F], after [i] tokens, there is a segment of the cached rule [k] with trees [G]. *)
Inductive occ : nat -> ptree -> nat -> list ptree -> Prop :=
| oc_here : forall k F, occ 0 (PCached k F) k F
| oc_in : forall k0 F i k G, occs i F k G -> occ i (PCached k0 F) k G
| oc_node : forall ty pre b i k G, occs i (pre ++ b) k G -> occ i (PNode ty pre b) k G
with occs : nat -> list ptree -> nat -> list ptree -> Prop :=
| os_head : forall i t F k G, occ i t k G -> occs i (t :: F) k G
| os_tail : forall i t F k G, occs i F k G -> occs (ntoks t + i) (t :: F) k G.

Lemma ntokss_cons : forall t F, ntokss (t :: F) = ntoks t + ntokss F.
Proof. reflexivity. Qed.
Lemma ntokss_app : forall F G, ntokss (F ++ G) = ntokss F + ntokss G.
Proof. induction F as [|t F IH]; intros G; [reflexivity|]. cbn [app]. rewrite !ntokss_cons, IH. lia. Qed.

Lemma occs_app : forall F H i k G, occs i (F ++ H) k G <-> occs i F k G \/ exists j, i = ntokss F + j /\ occs j H k G.
Proof.
  induction F as [|t F IH]; intros H i k G; cbn [app].
  - split; [intro O; right; exists i; auto|]. intros [O|(j & -> & O)]; [inversion O|exact O].
  - split.
    + intros O. inversion O; subst; [left; constructor; assumption|]. match goal with X : occs _ (F ++ H) _ _ |- _ => apply IH in X; destruct X as [X|(j & -> & X)] end.
      * left. apply os_tail. assumption.
      * right. exists j. rewrite ntokss_cons. split; [lia|assumption].
    + intros [O|(j & -> & O)].
      * inversion O; subst; [apply os_head; assumption|]. apply os_tail. apply IH. left. assumption.
      * rewrite ntokss_cons. rewrite <- Nat.add_assoc. apply os_tail. apply IH. right. exists j. auto.
Qed.

Lemma occs_app1 : forall F H i k G, occs i (F ++ H) k G -> occs i F k G \/ exists j, i = ntokss F + j /\ occs j H k G.
Proof. intros. apply occs_app. assumption. Qed.
Lemma occ_node1 : forall i ty pre b k G, occ i (PNode ty pre b) k G -> occs i (pre ++ b) k G.
Proof. intros i ty pre b k G O. inversion O; subst; assumption. Qed.
Lemma occs_cons1 : forall i t F k G, occs i (t :: F) k G -> occ i t k G \/ exists j, i = ntoks t + j /\ occs j F k G.
Proof. intros i t F k G O. inversion O; subst; eauto. Qed.
Lemma occs_one : forall i t k G, occs i [t] k G -> occ i t k G.
Proof. intros i t k G O. apply occs_cons1 in O. destruct O as [O|(j & _ & O)]; [exact O|inversion O]. Qed.

Lemma ntoks_node : forall ty pre b, ntoks (PNode ty pre b) = ntokss (pre ++ b).
Proof. intros. rewrite ntokss_app. reflexivity. Qed.

Lemma graft_ntoks : forall F t t', graft F t = Some t' -> ntoks t' = ntokss F + ntoks t.
Proof.
  intros F. fix IH 1. intros [ty pre b|ty n|k b] t' H; try discriminate. destruct pre as [|x xs]; cbn [graft] in H.
  - injection H as <-. reflexivity.
  - destruct (graft F x) as [x'|] eqn:GX; [|discriminate]. injection H as <-. cbn [ntoks map sum fold_right]. rewrite (IH x x' GX). lia.
Qed.

Lemma graft_occ : forall F t t', graft F t = Some t' -> forall i k G, occ i t' k G -> occs i (F ++ [t]) k G.
Proof.
  intros F. fix IH 1. intros [ty pre b|ty n|k b] t' H i k' G O; try discriminate. destruct pre as [|x xs]; cbn [graft] in H.
  - injection H as <-. apply occ_node1 in O. apply occs_app1 in O. apply occs_app. destruct O as [O|(j & -> & O)]; [auto|].
    right. exists j. split; [reflexivity|]. apply os_head. apply oc_node. exact O.
  - destruct (graft F x) as [x'|] eqn:GX; [|discriminate]. injection H as <-. apply occ_node1 in O. cbn [app] in O. apply occs_cons1 in O.
    apply occs_app. destruct O as [O|(j & -> & O)].
    + apply (IH x x' GX) in O. apply occs_app1 in O. destruct O as [O|(j & -> & O)]; [auto|].
      right. exists j. split; [reflexivity|]. apply os_head. apply oc_node. cbn [app]. apply os_head. apply occs_one. exact O.
    + right. exists (ntoks x + j). split; [rewrite (graft_ntoks _ _ _ GX); lia|]. apply os_head. apply oc_node. cbn [app]. apply os_tail. exact O.
Qed.

Lemma grafts_occs : forall F G FG, grafts F G = Some FG -> ntokss FG = ntokss (F ++ G) /\ forall i k H, occs i FG k H -> occs i (F ++ G) k H.
Proof.
  intros F [|t G] FG H; [discriminate|]. cbn [grafts] in H. destruct (graft F t) as [t'|] eqn:GT; [|discriminate]. injection H as <-.
  rewrite ntokss_app, !ntokss_cons, (graft_ntoks _ _ _ GT). split; [lia|]. intros i k H O. apply occs_app. apply occs_cons1 in O. destruct O as [O|(j & -> & O)].
  - apply (graft_occ _ _ _ GT) in O. apply occs_app1 in O. destruct O as [O|(j & -> & O)]; [auto|].
    right. exists j. split; [reflexivity|]. apply os_head. apply occs_one. exact O.
  - right. rewrite (graft_ntoks _ _ _ GT). exists (ntoks t + j). split; [lia|]. apply os_tail. exact O.
Qed.

Section Runs.
  Variable E : env.

  (** From token [a] to token [b] by the trees [F], each cached segment of which is a run of its rule. If [a] is inside the
      window that ends at [w0], so is [b], and the runs are inside windows. *)
  Definition runs (rd : reader) (w0 a b : nat) (F : list ptree) : Prop :=
    b = a + ntokss F
    /\ (a <= w0 -> b <= w0)
    /\ (r_pred rd = false -> forall i k G, occs i F k G -> exists rd' w h h', r_pred rd' = false /\ length (r_args rd') = length (r_args rd)
          /\ (exists e, nth_error (g_rules (e_g E)) e = Some (ECached k))
          /\ (a <= w0 -> w0 <= length (e_idx E) -> a + i <= w /\ w <= length (e_idx E))
          /\ peg E rd' k (mkPos (a + i) w) h (Some (mkPos (a + i + ntokss G) w, G)) h').

  Lemma runs_nil : forall rd w0 a, runs rd w0 a a [].
  Proof. intros. split; [cbn; lia|]. split; [auto|]. intros _ i k G O. inversion O. Qed.

  Lemma runs_app : forall rd w0 w1 p q r F G, runs rd w0 p q F -> runs rd w1 q r G -> w1 = w0 -> runs rd w0 p r (F ++ G).
  Proof.
    intros rd w0 w1 p q r F G (A & B & C) (A' & B' & C') ->. split; [rewrite ntokss_app; lia|]. split; [auto|].
    intros P i k H O. apply occs_app in O. destruct O as [O|(j & -> & O)]; [exact (C P _ _ _ O)|].
    destruct (C' P _ _ _ O) as (rd' & w & h & h' & X & X1 & Z & W & Y). exists rd', w, h, h'. split; [exact X|]. split; [exact X1|]. split; [exact Z|].
    replace (p + (ntokss F + j)) with (q + j) by lia. split; [auto|exact Y].
  Qed.

  Lemma runs_node : forall rd w0 p q ty pre b, runs rd w0 p q (pre ++ b) -> runs rd w0 p q [PNode ty pre b].
  Proof.
    intros rd w0 p q ty pre b (A & B & C). split; [rewrite ntokss_cons, ntoks_node; cbn; lia|]. split; [exact B|].
    intros P i k H O. apply (C P). apply occ_node1 with (ty := ty). apply occs_one. exact O.
  Qed.

  Lemma runs_node0 : forall rd w0 p q ty b, runs rd w0 p q b -> runs rd w0 p q [PNode ty [] b].
  Proof. intros. apply runs_node. assumption. Qed.

  Lemma runs_tok : forall rd w0 p q t n, q = p + n -> (p <= w0 -> q <= w0) -> runs rd w0 p q [PTok t n].
  Proof.
    intros rd w0 p q t n A B. split; [cbn; lia|]. split; [exact B|]. intros P i k H O. apply occs_one in O. inversion O.
  Qed.

  Lemma runs_cached : forall rd p q k F h h' e, nth_error (g_rules (e_g E)) e = Some (ECached k) -> runs rd (p_end p) (p_cur p) (p_cur q) F -> p_end q = p_end p -> peg E rd k p h (Some (q, F)) h' ->
    runs rd (p_end p) (p_cur p) (p_cur q) [PCached k F].
  Proof.
    intros rd p q k F h h' e RE (A & A1 & C) B R. split; [rewrite A; unfold ntokss; cbn; lia|]. split; [exact A1|].
    intros P i k' G O. apply occs_one in O. inversion O; subst; [|auto].
    exists rd, (p_end p), h, h'. split; [exact P|]. split; [reflexivity|]. split; [exists e; exact RE|]. split; [lia|]. rewrite Nat.add_0_r, <- A. destruct p, q; cbn in *. rewrite B in *. exact R.
  Qed.

  Lemma runs_no_rhs : forall rd w0 p q F, runs rd w0 p q F -> runs rd w0 p q (F ++ [error_node []]).
  Proof. intros. eapply runs_app; [eassumption| |reflexivity]. apply runs_node0. apply runs_nil. Qed.

  Lemma runs_eat : forall rd p t q, eat E p t q -> runs rd (p_end p) (p_cur p) (p_cur q) [PTok t 1] /\ p_end q = p_end p.
  Proof. intros rd p t q (N & _ & ->). split; [apply runs_tok; unfold at_end in N; cbn; lia|reflexivity]. Qed.

  Lemma runs_eats : forall rd p T, eats E p T -> runs rd (p_end p) (p_cur p) (p_end p) T.
  Proof.
    intros rd. induction 1 as [p A|p t q F A B IH].
    - unfold at_end in A. rewrite <- A. apply runs_nil.
    - destruct (runs_eat rd _ _ _ A) as [X Y]. rewrite Y in IH. change (PTok t 1 :: F) with ([PTok t 1] ++ F). eapply runs_app; [eassumption|eassumption|reflexivity].
  Qed.

  Lemma runs_whole : forall p len n q, whole E p len n q -> p_cur q = p_cur p + n /\ p_end q = p_end p /\ (p_cur p <= p_end p -> p_cur q <= p_end p).
  Proof.
    induction 1 as [p|p t len n q A B C D IH|p t A B C]; cbn in *; [lia| |unfold at_end in A; lia]. destruct IH as (X & Y & Z). unfold at_end in A. repeat split; lia.
  Qed.

  Lemma runs_graft : forall rd w0 w1 p q r F G FG, runs rd w0 p q F -> runs rd w1 q r G -> w1 = w0 -> grafts F G = Some FG -> runs rd w0 p r FG.
  Proof.
    intros rd w0 w1 p q r F G FG RF RG W GR. destruct (runs_app _ _ _ _ _ _ _ _ RF RG W) as (A & B & C). destruct (grafts_occs _ _ _ GR) as [N O].
    split; [rewrite N; exact A|]. split; [exact B|]. intros P i k H X. apply (C P). apply O. exact X.
  Qed.

  (** A window inside another one. *)
  Lemma runs_wider : forall rd w w0 a F, runs rd w a w F -> (a <= w0 -> w <= w0) -> runs rd w0 a w F.
  Proof.
    intros rd w w0 a F (A & B & C) L. split; [exact A|]. split; [exact L|]. intros P i k G O. destruct (C P _ _ _ O) as (rd' & x & h & h' & X & X1 & Z & W & Y).
    exists rd', x, h, h'. split; [exact X|]. split; [exact X1|]. split; [exact Z|]. split; [|exact Y]. intros L1 L2. apply W; [lia|]. specialize (L L1). lia.
  Qed.

  Lemma binds_length : forall l a b, binds E l a b -> length b = length a.
  Proof. induction 1 as [a|i e rest a b x R N LI BR IH|i e rest a b j v R N LI BR IH]; [reflexivity| |]; rewrite IH; apply set_nth_length. Qed.

  Lemma runs_args : forall rd a w0 p q F, length a = length (r_args rd) -> runs (with_args rd a) w0 p q F -> runs rd w0 p q F.
  Proof.
    intros rd a w0 p q F LA (A & B & C). split; [exact A|]. split; [exact B|]. intros P i k G O. destruct (C P _ _ _ O) as (rd' & x & h & h' & X & X1 & Z & W & Y).
    exists rd', x, h, h'. cbn [with_args r_args] in X1. rewrite X1, LA. auto.
  Qed.

  Definition good (rd : reader) (p : pos) (r : option (pos * list ptree)) : Prop :=
    match r with Some (q, F) => runs rd (p_end p) (p_cur p) (p_cur q) F /\ p_end q = p_end p | None => True end.

  Ltac fin := repeat match goal with H : _ /\ _ |- _ => destruct H end; split; auto using runs_nil, runs_node, runs_node0, runs_no_rhs; try congruence;
    try (eapply runs_app; [eassumption|eassumption|congruence]).

  Lemma good_all :
    (forall rd e p h r h', peg E rd e p h r h' -> good rd p r)
    /\ (forall l t b, among E l t b -> True)
    /\ (forall rd l p h r h', first_of E rd l p h r h' -> good rd p r)
    /\ (forall rd l p h n q F h', in_order E rd l p h n q F h' -> good rd p (Some (q, F)))
    /\ (forall rd b p h q F h', greedy E rd b p h q F h' -> good rd p (Some (q, F)))
    /\ (forall rd a b sk p h r h', skipping E rd a b sk p h r h' -> forall p0, runs rd (p_end p0) (p_cur p0) (p_cur p) sk -> p_end p = p_end p0 -> good rd p0 r)
    /\ (forall rd t m p h r h', climbing E rd t m p h r h' -> good rd p r)
    /\ (forall rd t l p h r h', prefixed E rd t l p h r h' -> good rd p r)
    /\ (forall rd t m fresh lhs p h r h', chain E rd t m fresh lhs p h r h' -> forall p0, runs rd (p_end p0) (p_cur p0) (p_cur p) lhs -> p_end p = p_end p0 -> good rd p0 (Some r))
    /\ (forall rd t l fresh lhs p h r h', infixed E rd t l fresh lhs p h r h' -> forall p0, runs rd (p_end p0) (p_cur p0) (p_cur p) lhs -> p_end p = p_end p0 -> good rd p0 r).
  Proof.
    apply peg_all; intros; try exact I; try assumption; cbn [good] in *; try (eapply runs_eat; eassumption); try (fin; fail).
    - destruct (runs_whole _ _ _ _ H3) as (X & Y & Z). split; [apply runs_tok; assumption|assumption].
    - apply H1; [apply runs_nil|reflexivity].
    - (* layer *) destruct H1 as [H1 H1e]. split; [|exact H1e].
      assert (RF : runs rd (p_cur c) (p_cur p) (p_cur left_) F /\ p_end left_ = p_cur c).
      { destruct r as [[x y]|]; [injection H4 as -> ->; exact H3|destruct H4 as [-> ->]; split; [apply runs_nil|reflexivity]]. }
      destruct RF as [RF RE]. pose proof (runs_eats rd _ _ H5) as RT. rewrite RE in RT. destruct H1 as (_ & H1 & _). apply runs_wider; [|exact H1]. destruct T as [|x T].
      + destruct RT as [RT _]. cbn in RT. rewrite Nat.add_0_r in RT. rewrite RT. rewrite RT in RF at 1. exact RF.
      + eapply runs_app; [exact RF| |reflexivity]. apply runs_node0. exact RT.
    - (* call *) destruct r as [[q F]|]; [|exact I]. destruct H2 as [H2 H2e]. split; [|exact H2e]. eapply runs_args; [eapply binds_length; eassumption|exact H2].
    - (* inject *) destruct H1 as [H1 H1e], H4 as [H4 H4e]. split; [eapply runs_graft; [eassumption|eassumption|congruence|eassumption]|congruence].
    - (* cached *) destruct H1 as [H1 H1e]. split; [eapply runs_cached; eassumption|exact H1e].
    - (* skip *) destruct H2 as [H2 H2e]. split; [|congruence]. destruct sk; [|change (runs rd (p_end p0) (p_cur p0) (p_cur q) ([error_node (p1 :: sk)] ++ F)); eapply runs_app; [|exact H2|congruence]; apply runs_node0; assumption].
      destruct H3 as [RT _]. cbn in RT. rewrite Nat.add_0_r in RT. rewrite <- RT, <- H4. exact H2.
    - destruct (runs_eat rd _ _ _ H1) as [X Y]. apply H3; [eapply runs_app; [eassumption|eassumption|congruence]|congruence].
    - destruct (runs_eat rd _ _ _ H3) as [X Y]. apply H5; [eapply runs_app; [eassumption|eassumption|congruence]|congruence].
    - destruct r as [q G]. apply H2; apply H0.
    - destruct r as [q G]. apply H4; apply H2.
    - (* prefix *) destruct H1 as [H1 H1e], H3 as [H3 H3e]. split; [|congruence]. apply runs_node0. eapply runs_app; [eassumption|eassumption|congruence].
    - destruct r as [q1 G]. specialize (H0 p0 H3 H4). apply H2; apply H0.
    - apply H3; assumption.
    - (* infix *) destruct H1 as [H1 H1e]. split; [|congruence]. apply runs_node. eapply runs_app; [eassumption|eassumption|congruence].
    - destruct H1 as [H1 H1e], H5 as [H5 H5e]. split; [|congruence]. apply runs_node. eapply runs_app; [eassumption| |reflexivity]. rewrite <- H7. eapply runs_app; [eassumption|eassumption|congruence].
    - destruct H1 as [H1 H1e]. split; [|congruence]. apply runs_node. eapply runs_app; [eassumption| |]; [apply runs_no_rhs; eassumption|congruence].
  Qed.

  Lemma file_runs : forall t, peg_file E t -> runs (mkRd false (repeat false 16) (repeat None 16)) (length (e_idx E)) 0 (length (e_idx E)) [t].
  Proof.
    intros t [q t' h H A|q ty pre body h T H _ EA]; apply (proj1 good_all) in H; cbn [good] in H; destruct H as [H HE].
    - unfold at_end in A. cbn in *. rewrite HE in A. rewrite A in H. exact H.
    - apply (runs_eats (mkRd false (repeat false 16) (repeat None 16))) in EA. cbn in *. rewrite HE in EA. apply runs_node. rewrite app_assoc. eapply runs_app; [|apply runs_node0; exact EA|reflexivity].
      destruct H as (N & B & O). split; [rewrite N, ntokss_cons, ntoks_node; cbn; lia|]. split; [exact B|].
      intros P i k G X. apply (O P). apply os_head. apply oc_node. exact X.
  Qed.
End Runs.

(** ** Events *)

(** Tokens taken by a list of events. *)
Fixpoint evtoks (l : list event) : nat :=
  match l with [] => 0 | EvToken _ n :: r => n + evtoks r | _ :: r => evtoks r end.

Lemma evtoks_app : forall a b, evtoks (a ++ b) = evtoks a + evtoks b.
Proof. induction a as [|x a IH]; intros b; [reflexivity|]. cbn [app evtoks]. rewrite IH. destruct x; lia. Qed.

Section Induction.
  Variable P : ptree -> Prop.
  Hypothesis HN : forall ty pre b, Forall P pre -> Forall P b -> P (PNode ty pre b).
  Hypothesis HT : forall ty n, P (PTok ty n).
  Hypothesis HC : forall k b, Forall P b -> P (PCached k b).
  Fixpoint ptree_nest (t : ptree) : P t :=
    let fix go (l : list ptree) : Forall P l :=
      match l with [] => Forall_nil P | x :: r => Forall_cons x (ptree_nest x) (go r) end in
    match t with
    | PNode ty pre b => HN ty pre b (go pre) (go b)
    | PTok ty n => HT ty n
    | PCached k b => HC k b (go b)
    end.
End Induction.

Lemma enc_node : forall fp ty pre b, exists P, enc fp (PNode ty pre b) = P ++ EvStart ty fp :: encs b ++ [EvEnd]
  /\ match pre with [] => P = [] | x :: rest => exists d, P = enc (Some d) x ++ encs rest end.
Proof.
  intros. cbn [enc]. eexists. split; [reflexivity|]. destruct pre as [|x rest]; [reflexivity|]. eexists. reflexivity.
Qed.

Lemma split_at : forall A (a b l1 l2 : list A) c, a ++ b = l1 ++ c :: l2 ->
  (exists m, a = l1 ++ c :: m /\ l2 = m ++ b) \/ (exists m, l1 = a ++ m /\ b = m ++ c :: l2).
Proof.
  induction a as [|x a IH]; intros b l1 l2 c H; cbn [app] in *.
  - right. exists l1. auto.
  - destruct l1 as [|y l1]; cbn [app] in H; injection H as -> H.
    + left. exists a. auto.
    + apply IH in H. destruct H as [(m & -> & ->)|(m & -> & ->)]; [left; exists m; auto|right; exists m; auto].
Qed.

Lemma enc_toks : forall t fp, evtoks (enc fp t) = ntoks t.
Proof.
  assert (L : forall F, Forall (fun t => forall fp, evtoks (enc fp t) = ntoks t) F -> evtoks (encs F) = ntokss F).
  { induction 1 as [|t F H HF IH]; [reflexivity|]. unfold encs in *. cbn [flat_map]. rewrite evtoks_app, ntokss_cons, H, IH. reflexivity. }
  apply (ptree_nest (fun t => forall fp, evtoks (enc fp t) = ntoks t)).
  - intros ty pre b HP HB fp. destruct (enc_node fp ty pre b) as (P & -> & X). rewrite ntoks_node, ntokss_app, evtoks_app. cbn [evtoks].
    rewrite evtoks_app, (L b HB). cbn [evtoks]. rewrite Nat.add_0_r. f_equal. destruct pre as [|x rest]; [subst; reflexivity|]. destruct X as (d & ->).
    inversion HP as [|? ? HX HR]; subst. rewrite evtoks_app, ntokss_cons, HX, (L rest HR). reflexivity.
  - intros ty n fp. cbn. lia.
  - intros k b HB fp. exact (L b HB).
Qed.

Lemma encs_toks : forall F, evtoks (encs F) = ntokss F.
Proof. induction F as [|t F IH]; [reflexivity|]. unfold encs in *. cbn [flat_map]. rewrite evtoks_app, ntokss_cons, enc_toks, IH. reflexivity. Qed.

Lemma enc_cached : forall t fp k n l1 l2, enc fp t = l1 ++ EvCached k n :: l2 ->
  exists G l3, l2 = encs G ++ l3 /\ n = length (encs G) /\ occ (evtoks l1) t k G.
Proof.
  assert (L : forall F, Forall (fun t => forall fp k n l1 l2, enc fp t = l1 ++ EvCached k n :: l2 ->
    exists G l3, l2 = encs G ++ l3 /\ n = length (encs G) /\ occ (evtoks l1) t k G) F ->
    forall k n l1 l2, encs F = l1 ++ EvCached k n :: l2 -> exists G l3, l2 = encs G ++ l3 /\ n = length (encs G) /\ occs (evtoks l1) F k G).
  { induction 1 as [|t F H HF IH]; intros k n l1 l2 X; [destruct l1; discriminate|]. unfold encs in X. cbn [flat_map] in X.
    apply split_at in X. destruct X as [(m & X & ->)|(m & -> & X)].
    - apply H in X. destruct X as (G & l3 & -> & -> & O). exists G, (l3 ++ flat_map (enc None) F). rewrite app_assoc. split; [reflexivity|]. split; [reflexivity|].
      apply os_head. exact O.
    - apply IH in X. destruct X as (G & l3 & -> & -> & O). exists G, l3. split; [reflexivity|]. split; [reflexivity|].
      rewrite evtoks_app, enc_toks. apply os_tail. exact O. }
  apply (ptree_nest (fun t => forall fp k n l1 l2, enc fp t = l1 ++ EvCached k n :: l2 ->
    exists G l3, l2 = encs G ++ l3 /\ n = length (encs G) /\ occ (evtoks l1) t k G)).
  - intros ty pre b HP HB fp k n l1 l2 X. destruct (enc_node fp ty pre b) as (P & EQ & Y). rewrite EQ in X. clear EQ.
    apply split_at in X. destruct X as [(m & X & ->)|(m & -> & X)].
    + destruct pre as [|x rest]; [subst; destruct l1; discriminate|]. destruct Y as (d & ->). inversion HP as [|? ? HX HR]; subst.
      apply split_at in X. destruct X as [(m' & X & ->)|(m' & -> & X)].
      * apply HX in X. destruct X as (G & l3 & -> & -> & O). exists G. eexists. rewrite <- !app_assoc. split; [reflexivity|]. split; [reflexivity|].
        apply oc_node. cbn [app]. apply os_head. exact O.
      * apply (L rest HR) in X. destruct X as (G & l3 & -> & -> & O). exists G. eexists. rewrite <- !app_assoc. split; [reflexivity|]. split; [reflexivity|].
        apply oc_node. cbn [app]. rewrite evtoks_app, enc_toks. apply os_tail. apply occs_app. left. exact O.
    + destruct m as [|y m]; cbn [app] in X; [discriminate|]. injection X as <- X.
      apply split_at in X. destruct X as [(m' & X & ->)|(m' & -> & X)].
      * apply (L b HB) in X. destruct X as (G & l3 & -> & -> & O). exists G. eexists. rewrite <- !app_assoc. split; [reflexivity|]. split; [reflexivity|].
        apply oc_node. rewrite evtoks_app. cbn [evtoks]. apply occs_app. right. exists (evtoks m). split; [|exact O]. f_equal.
        destruct pre as [|x rest]; [subst; reflexivity|]. destruct Y as (d & ->). rewrite evtoks_app, enc_toks, encs_toks, ntokss_cons. reflexivity.
      * destruct m' as [|y m']; [discriminate|]. destruct m'; discriminate.
  - intros ty n fp k n' l1 l2 X. destruct l1 as [|y l1]; [discriminate|]. destruct l1; discriminate.
  - intros k0 b HB fp k n l1 l2 X. cbn [enc] in X. fold (encs b) in X. destruct l1 as [|y l1]; cbn [app] in X.
    + injection X as <- <- <-. exists b, []. rewrite app_nil_r. split; [reflexivity|]. split; [reflexivity|]. apply oc_here.
    + injection X as <- X. apply (L b HB) in X. destruct X as (G & l3 & -> & -> & O). exists G, l3. split; [reflexivity|]. split; [reflexivity|].
      cbn [evtoks]. apply oc_in. exact O.
Qed.
