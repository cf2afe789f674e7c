(** Proofs about what nodes always have. *)
From Coq Require Import List Arith Bool Lia.
From Verif Require Import Base BaseFacts TextModel TreeModel TreeSpec TreeProofs LexModel GrammarModel DeriveSpec DeriveProofs AlwaysSpec AnalysisSpec ViewProofs
  FallEditProofs CompleteProofs.
Import ListNotations.

Section Always.
  Variable g : grammar.
  Variables t k : nat.
  Hypothesis GA : guaranteed g t k.

  Definition meets (ty : nat) (cs : list dtree) : Prop := ty = t -> In (DLeaf k) cs.
  Inductive met : dtree -> Prop :=
  | mt_leaf : forall ty, met (DLeaf ty)
  | mt_node : forall ty cs, meets ty cs -> Forall met cs -> met (DNode ty cs).

  Lemma sequence_in : forall s a l F x, sequence g s a l F -> In x l -> exists G, derives g s a x G /\ incl G F.
  Proof.
    intros s a l. induction l as [|y l IH]; intros F x H J; [destruct J|]. inversion H as [|? ? ? F1 G1 D S]; subst. destruct J as [->|J].
    - exists F1. split; [exact D|apply incl_appl, incl_refl].
    - destruct (IH _ _ S J) as (G' & D' & I). exists G'. split; [exact D'|apply incl_appr; exact I].
  Qed.
  Lemma firstn_mono : forall (l : list nat) c n x, c <= n -> In x (firstn c l) -> In x (firstn n l).
  Proof.
    intros l c n x LE J. rewrite <- (firstn_skipn c (firstn n l)), firstn_firstn, Nat.min_l by exact LE. apply in_or_app. left. exact J.
  Qed.

  Lemma certain_in : forall e j, certain g e j -> forall s a F, derives g s a e F -> In (DLeaf j) F.
  Proof.
    intros e j C. induction C as [e ty j R T|e ty text j R T|e l x j R J C IH|e l c x j R J C IH|e l j R C IH]; intros s a F D;
      assert (RU : forall y z, grule g e y -> grule g e z -> y = z) by (intros y z Y Z; unfold grule in Y, Z; congruence);
      inversion D; subst; try (match goal with Y : grule g e _ |- _ => pose proof (RU _ _ R Y) as Q; discriminate Q end).
    - match goal with Y : grule g e (EToken _) |- _ => pose proof (RU _ _ R Y) as Q; injection Q as <- end. match goal with Y : gtype g ty ?u |- In (DLeaf j) [DLeaf ?u] => unfold gtype in *; replace u with j by congruence end.
      left. reflexivity.
    - match goal with Y : grule g e (EContextual _ _) |- _ => pose proof (RU _ _ R Y) as Q; injection Q as <- <- end. match goal with Y : gtype g ty ?u |- In (DLeaf j) [DLeaf ?u] => unfold gtype in *; replace u with j by congruence end.
      left. reflexivity.
    - match goal with Y : grule g e (EAnd _ _) |- _ => pose proof (RU _ _ R Y) as Q; injection Q as <- <- end.
      match goal with Q : sequence _ _ _ _ _ |- _ => destruct (sequence_in _ _ _ _ x Q J) as (G & DG & I) end. apply I. eapply IH; eauto.
    - match goal with Y : grule g e (EAnd _ _) |- _ => pose proof (RU _ _ R Y) as Q; injection Q as <- <- end.
      assert (J' : In x l) by (rewrite <- (firstn_skipn c l); apply in_or_app; left; exact J).
      match goal with Q : sequence _ _ _ _ _ |- _ => destruct (sequence_in _ _ _ _ x Q J') as (G & DG & I) end. apply I. eapply IH; eauto.
    - match goal with Y : grule g e (EAnd _ _) |- _ => pose proof (RU _ _ R Y) as Q; injection Q as <- <- end.
      match goal with LE : _ <= _, Q : sequence _ _ _ _ _ |- _ => destruct (sequence_in _ _ _ _ x Q (firstn_mono _ _ _ _ LE J)) as (G & DG & I) end.
      apply in_or_app. left. apply I. eapply IH; eauto.
    - match goal with Y : grule g e (EOr _) |- _ => pose proof (RU _ _ R Y) as Q; injection Q as <- end. eapply IH; eauto.
  Qed.

  Lemma not_it : forall ty u cs, gtype g ty u -> ~ gtype g ty t -> meets u cs.
  Proof. intros ty u cs T N E. subst u. contradiction. Qed.
  Lemma error_meets : forall cs, meets ERROR cs.
  Proof. intros cs E. destruct (ga_error g t k GA). symmetry. exact E. Qed.
  Lemma met_leaves : forall tys, Forall met (map DLeaf tys).
  Proof. intros tys. apply Forall_forall. intros x J. apply in_map_iff in J. destruct J as (u & <- & _). constructor. Qed.
  Lemma met_error : forall tys, Forall met [DNode ERROR (map DLeaf tys)].
  Proof. intros tys. constructor; [|constructor]. constructor; [apply error_meets|apply met_leaves]. Qed.
  Lemma met_skipped : forall F, skipped F -> Forall met F.
  Proof. intros F [->|(tys & ->)]; [constructor|apply met_error]. Qed.
  Lemma met_grafted : forall F x x', grafted F x x' -> Forall met F -> met x -> met x'.
  Proof.
    intros F x x' G MF. induction G as [ty cs|ty x y cs G IH]; intros M; inversion M as [|? ? A B]; subst.
    - constructor; [intros J; apply in_or_app; right; exact (A J)|apply Forall_app; auto].
    - inversion B as [|? ? B1 B2]; subst. constructor; [|constructor; auto]. intros J. destruct (A J) as [E|E]; [|right; exact E]. subst x. inversion G.
  Qed.

  Definition holds1 (s : bool) (a : list (option nat)) (e : nat) (F : list dtree) : Prop := Forall met F.
  Definition holds2 (s : bool) (a : list (option nat)) (l : list nat) (F : list dtree) : Prop := Forall met F.
  Definition holds3 (s : bool) (a : list (option nat)) (tb : pratt_table) (F : list dtree) : Prop := (exists e, grule g e (EPratt tb)) -> Forall met F.

  Lemma always_all : forall s,
    (forall a e F, derives g s a e F -> holds1 s a e F)
    /\ (forall a l F, sequence g s a l F -> holds2 s a l F)
    /\ (forall a b F, DeriveSpec.repeated g s a b F -> holds1 s a b F)
    /\ (forall a tb F, operand g s a tb F -> holds3 s a tb F).
  Proof.
    apply (derives_all g holds1 holds2 holds1 holds3); unfold holds1, holds2, holds3; intros; auto;
      repeat match goal with |- Forall met (_ ++ _) => apply Forall_app; split; auto end; auto using met_skipped, met_error;
      try (constructor; [constructor|constructor]; fail); try exact (met_error []).
    - (* a node of a rule *) constructor; [|constructor]. constructor; [|assumption]. intros ->.
      match goal with R : grule g e _, T : gtype g _ _, D : derives _ _ _ body _ |- _ => exact (certain_in _ _ (ga_rule g t k GA _ _ _ _ R T) _ _ _ D) end.
    - (* replaced *) constructor; [|constructor]. constructor; [|assumption]. eapply not_it; [eassumption|]. eapply (ga_replace g t k GA); eassumption.
    - (* injected *) match goal with H : Forall met (_ :: _) |- _ => inversion H as [|? ? A B]; subst end. constructor; [eapply met_grafted; eauto|assumption].
    - (* operators *) match goal with R : grule g e _, H : (exists _, _) -> _ |- _ => exact (H (ex_intro _ e R)) end.
    - match goal with R : exists _, _ |- _ => pose proof R as (e0 & RE) end. constructor; [|constructor]. constructor; [eapply not_it; [eassumption|eapply (ga_prefix g t k GA); eassumption]|]. apply Forall_app. auto.
    - match goal with R : exists _, _ |- _ => pose proof R as (e0 & RE) end. constructor; [|constructor]. constructor; [eapply not_it; [eassumption|eapply (ga_infix g t k GA); eassumption]|]. apply Forall_app. auto.
    - match goal with R : exists _, _ |- _ => pose proof R as (e0 & RE) end. constructor; [|constructor]. constructor; [eapply not_it; [eassumption|eapply (ga_infix g t k GA); eassumption]|].
      repeat (apply Forall_app; split); auto.
    - match goal with R : exists _, _ |- _ => pose proof R as (e0 & RE) end. constructor; [|constructor]. constructor; [eapply not_it; [eassumption|eapply (ga_infix g t k GA); eassumption]|].
      repeat (apply Forall_app; split); auto. exact (met_error []).
  Qed.

  Lemma always_tree : forall s d, derivation g s d -> met d.
  Proof.
    intros s d D. destruct D as [u H|ty cs tys E H]; pose proof (proj1 (always_all s) _ _ _ H) as M; unfold holds1 in M; inversion M as [|? ? X _]; subst; [exact X|].
    inversion X as [|? ? A B]; subst. constructor; [intros J; apply in_or_app; left; exact (A J)|]. apply Forall_app. split; [exact B|apply met_error].
  Qed.

  (** From trees to nodes: every node of type [t] that is not a token has a child of type [k]. *)
  Lemma met_at : forall ws T n p pa x, Forall met (bare ws T) -> At T n p pa x -> Forall met (bare ws x).
  Proof.
    intros ws T n p pa x M A. induction A as [|i q qa u pre c post A IH]; [exact M|]. cbn [bare] in IH.
    remember (flat_map (bare ws) (pre ++ c :: post)) as W eqn:EW. inversion IH as [|? ? X _]; subst. inversion X as [|? ? _ B]; subst.
    rewrite flat_map_app in B. cbn [flat_map] in B. apply Forall_app in B. destruct B as (_ & B). apply Forall_app in B. tauto.
  Qed.

  Lemma always_child : forall f T ws d n, wf_file f T -> bare ws T = [d] -> met d -> is_a f t n -> (forall l, ~ In (t, l) (leaves T)) ->
    exists c, In c (kids f n) /\ ty f c = k.
  Proof.
    intros f T ws d n WF B M (V & TY) NL. destruct (valid_at f T WF n V) as (p & q & x & A & _). destruct (view_at f T WF _ _ _ _ A) as (_ & ET & _ & _ & EK).
    assert (MT : Forall met (bare ws T)) by (rewrite B; constructor; [exact M|constructor]). pose proof (met_at ws T n p q x MT A) as MX. rewrite TY in ET.
    destruct x as [u l|u cs]; cbn [t_ty t_children] in *; subst u.
    - destruct (At_leaves _ _ _ _ _ A) as (l1 & l2 & EL & _). cbn [leaves app] in EL. exfalso. apply (NL l). rewrite EL. apply in_or_app. right. left. reflexivity.
    - cbn [bare] in MX. remember (flat_map (bare ws) cs) as W eqn:EW. inversion MX as [|? ? X _]; subst. inversion X as [|? ? A' _]; subst. specialize (A' eq_refl).
      apply in_flat_map in A'. destruct A' as (c & JC & JB). assert (EC : t_ty c = k).
      { destruct c as [u l|u l]; cbn [bare] in JB; [destruct (ws u); [destruct JB|]; destruct JB as [E|[]]; injection E as <-; reflexivity|destruct JB as [E|[]]; discriminate E]. }
      apply in_split in JC. destruct JC as (pre & post & ->). rewrite EK. exists (S n + tsizes pre). split.
      + clear. revert n. induction pre as [|y pre IH]; intros n; cbn [app child_ids].
        * left. unfold tsizes. cbn. lia.
        * right. rewrite tsizes_cons. destruct (tsize y) as [|m] eqn:E; [pose proof (tsize_pos y); lia|]. specialize (IH (n + S m)). replace (S n + S m) with (S (n + S m)) by lia.
          replace (S n + (S m + tsizes pre)) with (S (n + S m) + tsizes pre) by lia. exact IH.
      + pose proof (At_child _ _ _ _ _ _ _ _ A) as AC. destruct (view_at f T WF _ _ _ _ AC) as (_ & EC' & _). congruence.
  Qed.
End Always.

(** ** A check for concrete grammars *)
Section Check.
  Variable g : grammar.

  Fixpoint surely (fuel e k : nat) : bool :=
    match fuel with
    | 0 => false
    | S n =>
        match nth_error (g_rules g) e with
        | Some (EToken ty) | Some (EContextual ty _) => match nth_error (g_types g) ty with Some t => t =? k | None => false end
        | Some (EAnd l None) => existsb (fun x => surely n x k) l
        | Some (EAnd l (Some c)) => existsb (fun x => surely n x k) (firstn c l)
        | Some (EOr l) => forallb (fun x => surely n x k) l
        | _ => false
        end
    end.
  Definition makes (ty t : nat) : bool := match nth_error (g_types g) ty with Some u => u =? t | None => false end.
  Definition rule_ok (t k : nat) (x : expr) : bool :=
    match x with
    | EPub ty b _ => negb (makes ty t) || surely 5 b k
    | EPubReplace ty _ => negb (makes ty t)
    | EPratt tb => forallb (fun x => negb (makes (px_ty x) t)) (pt_prefixes tb) && forallb (fun x => negb (makes (ix_ty x) t)) (pt_infixes tb)
    | _ => true
    end.
  Definition guaranteed_b (t k : nat) : bool := forallb (rule_ok t k) (g_rules g) && negb (t =? ERROR).

  Lemma surely_certain : forall n e k, surely n e k = true -> certain g e k.
  Proof.
    induction n as [|n IH]; intros e k H; [discriminate H|]. cbn [surely] in H. destruct (nth_error (g_rules g) e) as [x|] eqn:R; [|discriminate H].
    destruct x as [| |l|l c|ty|ty text| | | | | | | | | | | | | | | |]; try discriminate H.
    - rewrite forallb_forall in H. eapply ce_choice; [exact R|]. auto.
    - destruct c as [c|]; apply existsb_exists in H; destruct H as (y & J & S); [eapply ce_committed|eapply ce_sequence]; eauto.
    - destruct (nth_error (g_types g) ty) as [u|] eqn:T; [|discriminate H]. apply Nat.eqb_eq in H. subst u. eapply ce_token; eauto.
    - destruct (nth_error (g_types g) ty) as [u|] eqn:T; [|discriminate H]. apply Nat.eqb_eq in H. subst u. eapply ce_contextual; eauto.
  Qed.
  Lemma makes_true : forall ty t, gtype g ty t -> makes ty t = true.
  Proof. intros ty t T. unfold makes. unfold gtype in T. rewrite T. apply Nat.eqb_refl. Qed.

  Lemma guaranteed_check : forall t k, guaranteed_b t k = true -> guaranteed g t k.
  Proof.
    intros t k H. apply andb_true_iff in H. destruct H as (A & B). rewrite forallb_forall in A.
    assert (R : forall e x, grule g e x -> rule_ok t k x = true) by (intros e x X; apply A; eapply nth_error_In; exact X). constructor.
    - intros e ty b rp X T. pose proof (R _ _ X) as C. cbn [rule_ok] in C. rewrite (makes_true _ _ T) in C. exact (surely_certain _ _ _ C).
    - intros e ty b X T. pose proof (R _ _ X) as C. cbn [rule_ok] in C. rewrite (makes_true _ _ T) in C. discriminate C.
    - intros e tb x X J T. pose proof (R _ _ X) as C. cbn [rule_ok] in C. apply andb_true_iff in C. destruct C as (C & _). rewrite forallb_forall in C. specialize (C _ J). rewrite (makes_true _ _ T) in C. discriminate C.
    - intros e tb x X J T. pose proof (R _ _ X) as C. cbn [rule_ok] in C. apply andb_true_iff in C. destruct C as (_ & C). rewrite forallb_forall in C. specialize (C _ J). rewrite (makes_true _ _ T) in C. discriminate C.
    - intros ->. discriminate B.
  Qed.
End Check.
