(** Precedence climbing builds trees that respect priorities. *)
From Coq Require Import List Arith Bool Lia.
From Verif Require Import Base BaseFacts LexModel GrammarModel ParserModel ForestSpec SemSpec PegSpec PegProofs PrattSpec.
Import ListNotations.

Lemma groups_top : forall E rd t m p x q, groups E rd t (S m) p x q -> top_tighter m x.
Proof. intros E rd t m p x q H. inversion H; subst; cbn; auto; lia. Qed.

Section Pratt.
  Variable E : env.

  (** All operators of priority [b] and more fail at [p]. *)
  Definition stops rd t b p := forall x, In x (pt_infixes t) -> b <= ix_prio x -> exists h h', peg E rd (ix_op x) p h None h'.
  Definition closed rd t p x :=
    match x with
    | OInfix y _ _ (Some _) => stops rd t (S (ix_prio y)) p
    | OPrefix y _ _ => stops rd t (px_prio y) p
    | _ => True
    end.
  Definition lt_if rd t x := memoryless E rd t -> left_tight x.

  Lemma closed_top : forall rd t p x y F q, memoryless E rd t -> closed rd t p x -> In y (pt_infixes t) -> matches E rd (ix_op y) p q F -> top_at_least (ix_prio y) x.
  Proof.
    intros rd t p x y F q ML C IY (h & h' & M). 
    assert (G : forall b, stops rd t b p -> ix_prio y < b).
    { intros b S. destruct (Nat.lt_ge_cases (ix_prio y) b) as [H|H]; auto. exfalso. destruct (S y IY H) as (h1 & h1' & N).
      pose proof (ML y IY _ _ _ _ _ _ _ N M eq_refl). discriminate. }
    destruct x as [|z op a| |z l op [r|]]; cbn in *; auto.
    apply G in C. lia.
  Qed.

  Lemma pratt_all :
    (forall rd e p h r h', peg E rd e p h r h' -> True)
    /\ (forall l t b, among E l t b -> True)
    /\ (forall rd l p h r h', first_of E rd l p h r h' -> match r with Some (q, F) => exists a, In a l /\ matches E rd a p q F | None => True end)
    /\ (forall rd l p h n q F h', in_order E rd l p h n q F h' -> True)
    /\ (forall rd b p h q F h', greedy E rd b p h q F h' -> True)
    /\ (forall rd a b sk p h r h', skipping E rd a b sk p h r h' -> True)
    /\ (forall rd t m p h r h', climbing E rd t m p h r h' ->
          match r with Some (q, F) => exists x, shape E x F /\ groups E rd t m p x q /\ lt_if rd t x /\ stops rd t m q | None => True end)
    /\ (forall rd t l p h r h', prefixed E rd t l p h r h' -> incl l (pt_prefixes t) ->
          match r with Some (q, F) => exists x, shape E x F /\ (forall m, groups E rd t m p x q) /\ lt_if rd t x /\ closed rd t q x | None => True end)
    /\ (forall rd t m fresh lhs p h r h', chain E rd t m fresh lhs p h r h' ->
          forall p0 y, shape E y lhs -> groups E rd t m p0 y p -> lt_if rd t y -> closed rd t p y ->
          exists x, shape E x (snd r) /\ groups E rd t m p0 x (fst r) /\ lt_if rd t x /\ stops rd t m (fst r))
    /\ (forall rd t l fresh lhs p h r h', infixed E rd t l fresh lhs p h r h' -> incl l (pt_infixes t) ->
          match r with
          | Some (q, F) => forall m p0 y, Forall (fun x => m <= ix_prio x) l -> shape E y lhs -> groups E rd t m p0 y p -> lt_if rd t y -> closed rd t p y ->
              exists x, shape E x F /\ groups E rd t m p0 x q /\ lt_if rd t x /\ closed rd t q x
          | None => forall x, In x l -> exists h h', peg E rd (ix_op x) p h None h'
          end).
  Proof.
    apply peg_all; intros; try exact I; auto.
    - (* fo_here *) destruct x as [q F]. exists a. split; [left; auto|]. exists h, h1. auto.
    - destruct r as [[q F]|]; auto. destruct H2 as (b & B & M). exists b. split; [right; auto|auto].
    - (* cl_atom *) destruct r as [q G]. destruct H0 as (a & IA & M).
      apply (H2 p (OAtom F)); [constructor|econstructor; eauto|intros _; constructor|exact I].
    - destruct r as [q G]. destruct (H2 (incl_refl _)) as (x & S & Gr & L & C). apply (H4 p x S (Gr m) L C).
    - (* px_here *) destruct H3 as (a & S & Gr & L & St). exists (OPrefix x F a). split; [constructor; auto|].
      split; [|split].
      + intros m. econstructor; eauto; [apply H4; left; auto|]. exists h, h1. auto.
      + intros ML. constructor. auto.
      + cbn. exact St.
    - (* px_no_operand *) apply H5. intros z Z. apply H6. right. auto.
    - apply H3. intros z Z. apply H4. right. auto.
    - (* ch_stop *) cbn [fst snd]. exists y. split; auto. split; auto. split; auto. intros x IX LE.
      apply (H0 ltac:(intros z Z; apply filter_In in Z; tauto)). apply filter_In. split; auto. apply Nat.leb_le. auto.
    - assert (I1 : incl (infixes t m) (pt_infixes t)) by (intros z Z; apply filter_In in Z; tauto).
      assert (I2 : Forall (fun x => m <= ix_prio x) (infixes t m)) by (apply Forall_forall; intros z Z; apply filter_In in Z; apply Nat.leb_le; tauto).
      destruct (H0 I1 m p0 y I2 H3 H4 H5 H6) as (x & A & B & C & D). apply (H2 p0 x A B C D).
    - destruct H0.
    - (* ix_later *) assert (I1 : incl l (pt_infixes t)) by (intros z Z; apply H4; right; auto). specialize (H3 I1). destruct r as [[q F]|].
      + intros m p0 y FA. inversion FA; subst. apply H3. auto.
      + intros z [<-|Z]; eauto.
    - (* postfix *) inversion H5; subst. exists (OPostfix x y F). assert (IX : In x (pt_infixes t)) by (apply H4; left; auto).
      assert (MM : matches E rd (ix_op x) p p1 F) by (exists h, h1; auto).
      split; [constructor; auto|]. split; [eapply gp_postfix; eauto|]. split; [|exact I].
      intros ML. constructor; auto. eapply closed_top; eauto.
    - (* binary *) inversion H7; subst. destruct H5 as (b & S & Gr & L & St). exists (OInfix x y F (Some b)).
      assert (IX : In x (pt_infixes t)) by (apply H6; left; auto).
      assert (MM : matches E rd (ix_op x) p p1 F) by (exists h, h1; auto).
      split; [constructor; auto|]. split; [eapply gp_infix; eauto|]. split; [|exact St].
      intros ML. constructor; auto. eapply closed_top; eauto.
    - (* missing *) inversion H7; subst. exists (OInfix x y F None).
      assert (IX : In x (pt_infixes t)) by (apply H6; left; auto).
      assert (MM : matches E rd (ix_op x) p p1 F) by (exists h, h1; auto).
      split; [constructor; auto|]. split; [eapply gp_missing; eauto|]. split; [|exact I].
      intros ML. constructor; auto. eapply closed_top; eauto.
  Qed.

  Lemma pratt_ok : forall rd e t p h q F h', rule E e (EPratt t) -> peg E rd e p h (Some (q, F)) h' ->
    exists x, shape E x F /\ groups E rd t 0 p x q /\ (memoryless E rd t -> left_tight x)
      /\ forall y, In y (pt_infixes t) -> exists h h', peg E rd (ix_op y) q h None h'.
  Proof.
    intros rd e t p h q F h' R H. inversion H; subst; match goal with H1 : rule E e _ |- _ => unfold rule in *; rewrite R in H1; try discriminate H1 end.
    match goal with H1 : Some _ = Some _ |- _ => injection H1 as -> end. 
    match goal with H1 : climbing _ _ _ _ _ _ _ _ |- _ => apply (proj1 (proj2 (proj2 (proj2 (proj2 (proj2 (proj2 pratt_all))))))) in H1; destruct H1 as (x & A & B & C & D) end.
    exists x. split; auto. split; auto. split; auto. intros y IY. apply D; auto. lia.
  Qed.
End Pratt.
