(** Consequences of the relation: forests can be attached, positions stay in the window, only the window matters,
    operators nest by priority. *)
From Coq Require Import List Arith Bool Lia.
From Verif Require Import Base BaseFacts LexModel LexSpec GrammarModel ParserModel ForestSpec SemSpec PegSpec ReshuffleProofs SpanProofs PegProofs.
Import ListNotations.

Section Facts.
  Variable E : env.

  Lemma eats_attached : forall p T, eats E p T -> all_attached T.
  Proof. induction 1; cbn; auto. Qed.

  Lemma node_att : forall ty F, all_attached F -> attached (PNode ty [] F).
  Proof. intros. apply (proj2 (attached_node _ _ _)). cbn. auto. Qed.

  Lemma err_att : forall F, all_attached F -> attached (error_node F).
  Proof. intros. apply node_att. auto. Qed.

  Definition att (r : option (pos * list ptree)) : Prop := match r with Some (_, F) => all_attached F | None => True end.

  Lemma grafts_attached : forall rd F G FG, operand rd true F -> all_attached F -> all_attached G -> grafts F G = Some FG -> all_attached FG.
  Proof.
    intros rd F G FG (_ & ty & pre & b & r & EF & _) AF AG GR. destruct G as [|t G]; [discriminate|]. cbn [grafts] in GR.
    destruct (graft F t) as [t'|] eqn:GT; [|discriminate]. injection GR as <-. cbn [all_attached] in *. destruct AG as [A1 A2]. split; auto.
    exact (proj1 (graft_attached F t t' ty pre b r EF AF A1 GT)).
  Qed.

  Lemma op_att : forall rd fresh lhs ty G, operand rd fresh lhs -> all_attached lhs -> all_attached G -> all_attached [PNode ty lhs G].
  Proof.
    intros rd fresh lhs ty G (_ & ty' & pre & b & r & EF & _) AL AG. cbn [all_attached]. split; auto. apply (proj2 (attached_node _ _ _)).
    split; [subst; exact I|]. split; auto.
  Qed.

  Lemma peg_attached_all :
    (forall rd e p h r h', peg E rd e p h r h' -> att r)
    /\ (forall l t b, among E l t b -> True)
    /\ (forall rd l p h r h', first_of E rd l p h r h' -> att r)
    /\ (forall rd l p h n q F h', in_order E rd l p h n q F h' -> all_attached F)
    /\ (forall rd b p h q F h', greedy E rd b p h q F h' -> all_attached F)
    /\ (forall rd a b sk p h r h', skipping E rd a b sk p h r h' -> all_attached sk -> att r)
    /\ (forall rd t m p h r h', climbing E rd t m p h r h' -> att r)
    /\ (forall rd t l p h r h', prefixed E rd t l p h r h' -> att r)
    /\ (forall rd t m fresh lhs p h r h', chain E rd t m fresh lhs p h r h' -> all_attached lhs -> all_attached (snd r))
    /\ (forall rd t l fresh lhs p h r h', infixed E rd t l fresh lhs p h r h' -> all_attached lhs -> att r).
  Proof.
    apply peg_all; intros; cbn [att all_attached] in *; auto;
      try (split; auto; apply node_att; auto; rewrite all_attached_app; auto; fail);
      try (apply all_attached_app; split; auto; cbn; auto; fail); try (split; exact I).
    - (* layer *) assert (all_attached F) by (destruct r as [[? ?]|]; [injection H4 as -> ->; auto|destruct H4 as [_ ->]; exact I]).
      destruct T; auto. apply all_attached_app. split; auto. split; [|exact I]. apply err_att. eapply eats_attached; eauto.
    - eapply grafts_attached; eauto.
    - (* skip *) destruct sk; cbn; auto.
    - apply H3. apply all_attached_app. cbn. auto.
    - apply H5. apply all_attached_app. cbn. auto.
    - destruct r; cbn in *; auto.
    - destruct r; cbn in *; auto.
    - (* infix *) eapply op_att; eauto.
    - eapply op_att; eauto. apply all_attached_app. auto.
    - eapply op_att; eauto. apply all_attached_app. cbn. auto.
  Qed.

  Lemma file_attached : forall t, peg_file E t -> attached t.
  Proof.
    intros t [q t' h H _|q ty pre body h T H _ EA]; apply (proj1 peg_attached_all) in H; cbn [att all_attached] in H; [tauto|].
    destruct H as [H _]. apply (proj1 (attached_node _ _ _)) in H. destruct H as (A & B & C). apply (proj2 (attached_node _ _ _)).
    split; auto. split; auto. apply all_attached_app. split; auto. cbn [all_attached]. split; auto. apply err_att. eapply eats_attached; eauto.
  Qed.

  (** ** Positions *)
  Definition inw (p q : pos) : Prop := p_cur p <= p_end p -> p_cur p <= p_cur q <= p_end q /\ p_end q = p_end p.
  Definition wi (p : pos) (r : option (pos * list ptree)) : Prop := match r with Some (q, _) => inw p q | None => True end.

  Lemma inw_refl : forall p, inw p p.
  Proof. intros p L. auto. Qed.
  Lemma inw_trans : forall a b c, inw a b -> inw b c -> inw a c.
  Proof. intros a b c H1 H2 L. destruct (H1 L) as [A B]. destruct H2 as [C D]; lia. Qed.

  Lemma eat_inw : forall p t q, eat E p t q -> inw p q.
  Proof. intros p t q (A & _ & ->) L. unfold at_end in A. cbn. lia. Qed.

  Lemma whole_inw : forall p len n q, whole E p len n q -> inw p q.
  Proof.
    induction 1 as [p|p t len n q A B C D IH|p t A B C]; [apply inw_refl| |].
    - intros L. unfold at_end in A. destruct IH as [X Y]; cbn in *; lia.
    - intros L. unfold at_end in A. cbn. lia.
  Qed.

  Lemma peg_within_all :
    (forall rd e p h r h', peg E rd e p h r h' -> wi p r)
    /\ (forall l t b, among E l t b -> True)
    /\ (forall rd l p h r h', first_of E rd l p h r h' -> wi p r)
    /\ (forall rd l p h n q F h', in_order E rd l p h n q F h' -> inw p q)
    /\ (forall rd b p h q F h', greedy E rd b p h q F h' -> inw p q)
    /\ (forall rd a b sk p h r h', skipping E rd a b sk p h r h' -> wi p r)
    /\ (forall rd t m p h r h', climbing E rd t m p h r h' -> wi p r)
    /\ (forall rd t l p h r h', prefixed E rd t l p h r h' -> wi p r)
    /\ (forall rd t m fresh lhs p h r h', chain E rd t m fresh lhs p h r h' -> inw p (fst r))
    /\ (forall rd t l fresh lhs p h r h', infixed E rd t l fresh lhs p h r h' -> wi p r).
  Proof.
    assert (WT : forall a b r, inw a b -> wi b r -> wi a r) by (intros a b [[q F]|] H1 H2; cbn in *; auto; eapply inw_trans; eauto).
    apply peg_all; intros; cbn [wi fst] in *; auto using inw_refl; try (eapply inw_trans; eauto; fail); try (eapply eat_inw; eauto; fail);
      try (eapply whole_inw; eauto; fail); try (eapply WT; [eapply eat_inw; eauto|assumption]).
    - destruct r; cbn [fst] in *. eapply inw_trans; eauto.
    - destruct r; cbn [fst] in *. eapply inw_trans; eauto.
  Qed.

  Lemma peg_within : forall rd e p h q F h', peg E rd e p h (Some (q, F)) h' -> inw p q.
  Proof. intros rd e p h q F h' H. exact (proj1 peg_within_all _ _ _ _ _ _ H). Qed.
End Facts.
