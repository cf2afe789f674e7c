(** What nodes have whatever the text is: a child of one of several types, a token or a node. *)
From Coq Require Import List Arith Bool Lia.
From Verif Require Import Base BaseFacts TextModel TreeModel TreeSpec TreeProofs LexModel GrammarModel DeriveSpec DeriveProofs AnalysisSpec ViewProofs
  FallEditProofs CompleteProofs ShapeCheck AlwaysProofs.
Import ListNotations.

Section Owns.
  Variable g : grammar.
  Variable t : nat.
  Variable S : list nat.
  Definition typed (ty : nat) : bool := match nth_error (g_types g) ty with Some u => existsb (Nat.eqb u) S | None => false end.

  (** The expression cannot match without a tree of one of the types, not even with an error. *)
  Fixpoint sure (n e : nat) : bool :=
    match n with
    | 0 => false
    | Datatypes.S n =>
        match nth_error (g_rules g) e with
        | Some (EToken ty) | Some (EContextual ty _) | Some (EPub ty _ false) => typed ty
        | Some (EAnd l None) => existsb (sure n) l
        | Some (EAnd l (Some c)) => existsb (sure n) (firstn c l)
        | Some (EOr l) => forallb (sure n) l
        | Some (ECached b) => sure n b
        | Some (EPratt tb) => forallb (sure n) (pt_atoms tb) && forallb (fun x => typed (px_ty x)) (pt_prefixes tb) && forallb (fun x => typed (ix_ty x)) (pt_infixes tb)
        | _ => false
        end
    end.
  Definition operand_sure (n : nat) (tb : pratt_table) : bool :=
    forallb (sure n) (pt_atoms tb) && forallb (fun x => typed (px_ty x)) (pt_prefixes tb) && forallb (fun x => typed (ix_ty x)) (pt_infixes tb).
  Definition other (ty : nat) : bool := negb (makes g ty t).
  Definition owner_ok (n : nat) (x : expr) : bool :=
    match x with
    | EPub ty b _ => other ty || sure n b
    | EPubReplace ty _ => other ty
    | EPratt tb => forallb (fun x => other (px_ty x)) (pt_prefixes tb) && forallb (fun x => other (ix_ty x) || operand_sure n tb) (pt_infixes tb)
    | _ => true
    end.
  Definition owns_b (n : nat) : bool := forallb (owner_ok n) (g_rules g) && negb (t =? ERROR).
  Variable N : nat.
  Hypothesis OK : owns_b N = true.

  Definition owned (ty : nat) (cs : list dtree) : Prop := ty = t -> has S cs.
  Inductive kept : dtree -> Prop :=
  | kp_leaf : forall ty, kept (DLeaf ty)
  | kp_node : forall ty cs, owned ty cs -> Forall kept cs -> kept (DNode ty cs).

  Lemma rule_owner : forall e x, grule g e x -> owner_ok N x = true.
  Proof. intros e x R. pose proof OK as O. apply andb_true_iff in O. destruct O as (O & _). rewrite forallb_forall in O. apply O. eapply nth_error_In. exact R. Qed.
  Lemma not_error : t <> ERROR.
  Proof. pose proof OK as O. apply andb_true_iff in O. destruct O as (_ & O). apply negb_true_iff in O. apply Nat.eqb_neq. exact O. Qed.
  Lemma other_owned : forall ty u cs, gtype g ty u -> other ty = true -> owned u cs.
  Proof. intros ty u cs T O E. subst u. unfold other in O. rewrite (makes_true g ty t T) in O. discriminate O. Qed.
  Lemma typed_in : forall ty u, gtype g ty u -> typed ty = true -> In u S.
  Proof. intros ty u T O. unfold typed in O. unfold gtype in T. rewrite T in O. apply existsb_exists in O. destruct O as (v & J & E). apply Nat.eqb_eq in E. subst v. exact J. Qed.
  Lemma has_one : forall x, In (dtype x) S -> has S [x].
  Proof. intros x J. exists x. split; [left; reflexivity|exact J]. Qed.
  Lemma error_owned : forall cs, owned ERROR cs.
  Proof. intros cs E. destruct not_error. symmetry. exact E. Qed.
  Lemma kept_error : forall tys, Forall kept [DNode ERROR (map DLeaf tys)].
  Proof.
    intros tys. constructor; [|constructor]. constructor; [apply error_owned|]. apply Forall_forall. intros x J. apply in_map_iff in J. destruct J as (u & <- & _). constructor.
  Qed.
  Lemma kept_skipped : forall F, skipped F -> Forall kept F.
  Proof. intros F [->|(tys & ->)]; [constructor|apply kept_error]. Qed.
  Lemma grafted_type : forall F x x', grafted F x x' -> dtype x' = dtype x.
  Proof. intros F x x' G. destruct G; reflexivity. Qed.
  Lemma kept_grafted : forall F x x', grafted F x x' -> Forall kept F -> kept x -> kept x'.
  Proof.
    intros F x x' G KF. induction G as [ty cs|ty x y cs G IH]; intros M; inversion M as [|? ? A B]; subst.
    - constructor; [intros J; apply has_app_r; exact (A J)|apply Forall_app; auto].
    - inversion B as [|? ? B1 B2]; subst. constructor; [|constructor; auto]. intros J. destruct (A J) as (u & [<-|I] & TU); [exists y; split; [left; reflexivity|rewrite (grafted_type _ _ _ G); exact TU]|exists u; split; [right; exact I|exact TU]].
  Qed.
  Lemma sure_prefix : forall n l c m, existsb (sure n) (firstn c l) = true -> c <= m -> existsb (sure n) (firstn m l) = true.
  Proof.
    intros n l c m H LE. apply existsb_exists in H. destruct H as (x & J & E). apply existsb_exists. exists x. split; [|exact E]. rewrite <- (firstn_skipn c (firstn m l)), firstn_firstn, Nat.min_l by exact LE. apply in_or_app. left. exact J.
  Qed.
  Lemma sure_firstn : forall n l c, existsb (sure n) (firstn c l) = true -> existsb (sure n) l = true.
  Proof.
    intros n l c H. apply existsb_exists in H. destruct H as (x & J & E). apply existsb_exists. exists x. split; [|exact E]. rewrite <- (firstn_skipn c l). apply in_or_app. left. exact J.
  Qed.

  Definition own1 (s : bool) (a : list (option nat)) (e : nat) (F : list dtree) : Prop := Forall kept F /\ forall n, sure n e = true -> has S F.
  Definition own2 (s : bool) (a : list (option nat)) (l : list nat) (F : list dtree) : Prop := Forall kept F /\ forall n, existsb (sure n) l = true -> has S F.
  Definition own3 (s : bool) (a : list (option nat)) (e : nat) (F : list dtree) : Prop := Forall kept F.
  Definition own4 (s : bool) (a : list (option nat)) (tb : pratt_table) (F : list dtree) : Prop :=
    ((exists e, grule g e (EPratt tb)) -> Forall kept F) /\ forall n, operand_sure n tb = true -> has S F.

  Lemma owns_all : forall s,
    (forall a e F, derives g s a e F -> own1 s a e F)
    /\ (forall a l F, sequence g s a l F -> own2 s a l F)
    /\ (forall a b F, DeriveSpec.repeated g s a b F -> own3 s a b F)
    /\ (forall a tb F, operand g s a tb F -> own4 s a tb F).
  Proof.
    Local Ltac rule R := let n := fresh "n" in let H := fresh "H" in intros [|n] H; [discriminate H|]; cbn [sure] in H; unfold grule in R; rewrite R in H; try discriminate H.
    Local Ltac split_all := repeat match goal with H : own1 _ _ _ _ |- _ => destruct H | H : own2 _ _ _ _ |- _ => destruct H | H : own4 _ _ _ _ |- _ => destruct H end; unfold own3 in *.
    apply (derives_all g own1 own2 own3 own4); intros; split_all.
    - (* a public rule *) split.
      + constructor; [|constructor]. constructor; [|assumption]. intros ->. match goal with R : grule g e _, T : gtype g _ _ |- _ => pose proof (rule_owner _ _ R) as O; cbn [owner_ok] in O; unfold other in O; rewrite (makes_true g _ _ T) in O; cbn [negb orb] in O end. eauto.
      + match goal with R : grule g e _ |- _ => rule R end. destruct rp; [match goal with Q : false = true |- _ => discriminate Q end|]. apply has_one. eapply typed_in; eassumption.
    - (* replaced *) split.
      + constructor; [|constructor]. constructor; [|assumption]. match goal with R : grule g e' _, T : gtype g _ _ |- _ => pose proof (rule_owner _ _ R) as O; cbn [owner_ok] in O; exact (other_owned _ _ _ T O) end.
      + match goal with R : grule g e _ |- _ => rule R end.
    - split; [assumption|]. match goal with R : grule g e _ |- _ => rule R end.
    - (* a choice *) split; [assumption|]. match goal with R : grule g e _ |- _ => rule R end. match goal with Q : forallb _ _ = true |- _ => rewrite forallb_forall in Q; match goal with J : In x l |- _ => specialize (Q _ J) end end. eauto.
    - (* a sequence *) split; [assumption|]. match goal with R : grule g e _ |- _ => rule R end. destruct c as [c|]; [match goal with Q : existsb _ (firstn _ _) = true |- _ => apply sure_firstn in Q end|]; eauto.
    - (* cut short *) split; [apply Forall_app; split; [assumption|exact (kept_error [])]|]. match goal with R : grule g e _ |- _ => rule R end. apply has_app_l. match goal with LE : c <= n, Q : existsb _ (firstn _ _) = true |- _ => pose proof (sure_prefix _ _ _ _ Q LE) end. eauto.
    - split; [constructor; [constructor|constructor]|]. match goal with R : grule g e _ |- _ => rule R end. apply has_one. eapply typed_in; eassumption.
    - split; [constructor; [constructor|constructor]|]. match goal with R : grule g e _ |- _ => rule R end. apply has_one. eapply typed_in; eassumption.
    - split; [constructor; [constructor|constructor]|]. match goal with R : grule g e _ |- _ => rule R end.
    - split; [constructor|]. match goal with R : grule g e _ |- _ => rule R end.
    - split; [constructor|]. match goal with R : grule g e _ |- _ => rule R end.
    - split; [constructor|]. match goal with R : grule g e _ |- _ => rule R end.
    - split; [constructor|]. match goal with R : grule g e _ |- _ => rule R end.
    - split; [assumption|]. match goal with R : grule g e _ |- _ => rule R end.
    - split; [constructor|]. match goal with R : grule g e _ |- _ => rule R end.
    - split; [assumption|]. match goal with R : grule g e _ |- _ => rule R end.
    - split; [apply Forall_app; split; [apply kept_skipped; assumption|assumption]|]. match goal with R : grule g e _ |- _ => rule R end.
    - split; [apply Forall_app; split; [assumption|apply kept_skipped; assumption]|]. match goal with R : grule g e _ |- _ => rule R end.
    - split; [constructor|]. match goal with R : grule g e _ |- _ => rule R end.
    - split; [apply kept_error|]. match goal with R : grule g e _ |- _ => rule R end.
    - split; [assumption|]. match goal with R : grule g e _ |- _ => rule R end.
    - split; [assumption|]. match goal with R : grule g e _ |- _ => rule R end.
    - split; [assumption|]. match goal with R : grule g e _ |- _ => rule R end.
    - split; [assumption|]. match goal with R : grule g e _ |- _ => rule R end.
    - (* injected *) split; [|match goal with R : grule g e _ |- _ => rule R end].
      match goal with Q : Forall kept (_ :: _) |- _ => inversion Q as [|? ? A B]; subst end. constructor; [eapply kept_grafted; eauto|assumption].
    - split; [apply Forall_app; auto|]. match goal with R : grule g e _ |- _ => rule R end.
    - (* cached *) split; [assumption|]. match goal with R : grule g e _ |- _ => rule R end. eauto.
    - (* operators *) split; [match goal with R : grule g e _, Q : (exists _, _) -> _ |- _ => exact (Q (ex_intro _ e R)) end|]. match goal with R : grule g e _ |- _ => rule R end.
      match goal with Q : forall n, operand_sure n _ = true -> _ |- _ => eapply Q; eassumption end.
    - split; [constructor|]. intros nn HH. discriminate HH.
    - split; [apply Forall_app; auto|]. intros nn HH. cbn [existsb] in HH. apply orb_true_iff in HH. destruct HH; [apply has_app_l|apply has_app_r]; eauto.
    - constructor.
    - apply Forall_app; auto.
    - (* an atom *) split; [auto|]. intros nn HH. unfold operand_sure in HH. rewrite !andb_true_iff in HH. destruct HH as ((HH & _) & _). rewrite forallb_forall in HH. match goal with J : In x _ |- _ => specialize (HH _ J) end. eauto.
    - (* a prefix *) split.
      + intros RR. pose proof RR as (e0 & R). pose proof (rule_owner _ _ R) as O. cbn [owner_ok] in O. apply andb_true_iff in O. destruct O as (O & _). rewrite forallb_forall in O. match goal with J : In x _ |- _ => specialize (O _ J) end.
        constructor; [|constructor]. constructor; [eapply other_owned; eassumption|]. apply Forall_app. auto.
      + intros nn HH. unfold operand_sure in HH. rewrite !andb_true_iff in HH. destruct HH as ((_ & HH) & _). rewrite forallb_forall in HH. match goal with J : In x _ |- _ => specialize (HH _ J) end. apply has_one. eapply typed_in; eassumption.
    - (* a suffix *) split.
      + intros RR. pose proof RR as (e0 & R). pose proof (rule_owner _ _ R) as O. cbn [owner_ok] in O. apply andb_true_iff in O. destruct O as (_ & O). rewrite forallb_forall in O. match goal with J : In x _ |- _ => specialize (O _ J) end.
        constructor; [|constructor]. constructor; [|apply Forall_app; auto]. apply orb_true_iff in O. destruct O as [O|O]; [eapply other_owned; eassumption|]. intros _. apply has_app_l. eauto.
      + intros nn HH. unfold operand_sure in HH. rewrite !andb_true_iff in HH. destruct HH as (_ & HH). rewrite forallb_forall in HH. match goal with J : In x _ |- _ => specialize (HH _ J) end. apply has_one. eapply typed_in; eassumption.
    - split.
      + intros RR. pose proof RR as (e0 & R). pose proof (rule_owner _ _ R) as O. cbn [owner_ok] in O. apply andb_true_iff in O. destruct O as (_ & O). rewrite forallb_forall in O. match goal with J : In x _ |- _ => specialize (O _ J) end.
        constructor; [|constructor]. constructor; [|repeat (apply Forall_app; split); auto]. apply orb_true_iff in O. destruct O as [O|O]; [eapply other_owned; eassumption|]. intros _. apply has_app_l. eauto.
      + intros nn HH. unfold operand_sure in HH. rewrite !andb_true_iff in HH. destruct HH as (_ & HH). rewrite forallb_forall in HH. match goal with J : In x _ |- _ => specialize (HH _ J) end. apply has_one. eapply typed_in; eassumption.
    - split.
      + intros RR. pose proof RR as (e0 & R). pose proof (rule_owner _ _ R) as O. cbn [owner_ok] in O. apply andb_true_iff in O. destruct O as (_ & O). rewrite forallb_forall in O. match goal with J : In x _ |- _ => specialize (O _ J) end.
        constructor; [|constructor]. constructor; [|repeat (apply Forall_app; split); auto; exact (kept_error [])]. apply orb_true_iff in O. destruct O as [O|O]; [eapply other_owned; eassumption|]. intros _. apply has_app_l. eauto.
      + intros nn HH. unfold operand_sure in HH. rewrite !andb_true_iff in HH. destruct HH as (_ & HH). rewrite forallb_forall in HH. match goal with J : In x _ |- _ => specialize (HH _ J) end. apply has_one. eapply typed_in; eassumption.
  Qed.

  Lemma owns_tree : forall s d, derivation g s d -> kept d.
  Proof.
    intros s d D. destruct D as [u H|ty cs tys E H]; pose proof (proj1 (owns_all s) _ _ _ H) as (M & _); inversion M as [|? ? X _]; subst; [exact X|].
    inversion X as [|? ? A B]; subst. constructor; [intros J; apply has_app_l; exact (A J)|]. apply Forall_app. split; [exact B|apply kept_error].
  Qed.
  Lemma kept_at : forall ws T n p pa x, Forall kept (bare ws T) -> At T n p pa x -> Forall kept (bare ws x).
  Proof.
    intros ws T n p pa x M A. induction A as [|i q qa u pre c post A IH]; [exact M|]. cbn [bare] in IH.
    remember (flat_map (bare ws) (pre ++ c :: post)) as W eqn:EW. inversion IH as [|? ? X _]; subst. inversion X as [|? ? _ B]; subst.
    rewrite flat_map_app in B. cbn [flat_map] in B. apply Forall_app in B. destruct B as (_ & B). apply Forall_app in B. tauto.
  Qed.
  Lemma owns_child : forall f T ws d n, wf_file f T -> bare ws T = [d] -> derivation g false d -> is_a f t n -> (forall l, ~ In (t, l) (leaves T)) ->
    exists c, In c (kids f n) /\ In (ty f c) S.
  Proof.
    intros f T ws d n WF B DV (V & TY) NL. destruct (valid_at f T WF n V) as (p & q & x & A & _). pose proof (node_kids f T WF _ _ _ _ A) as NK. pose proof (CompleteProofs.node_ty f T WF _ _ _ _ A) as ET.
    assert (MT : Forall kept (bare ws T)) by (rewrite B; constructor; [exact (owns_tree _ _ DV)|constructor]). pose proof (kept_at ws T n p q x MT A) as MX. rewrite TY in ET.
    destruct x as [u l|u cs]; cbn [t_ty t_children] in *; subst u.
    - destruct (At_leaves _ _ _ _ _ A) as (l1 & l2 & EL & _). cbn [leaves app] in EL. exfalso. apply (NL l). rewrite EL. apply in_or_app. right. left. reflexivity.
    - cbn [bare] in MX. inversion MX as [|? ? X _]; subst. inversion X as [|? ? A' _]; subst. destruct (has_child ws S cs (A' eq_refl)) as (c & J & I).
      apply (in_map t_ty) in J. rewrite <- NK in J. apply in_map_iff in J. destruct J as (m & E & J). exists m. split; [exact J|rewrite E; exact I].
  Qed.
End Owns.
