(** A check on grammars from which it follows which nodes are found inside which, in every tree of the grammar, errors or
    not.  The table it takes is a certificate: one entry for each pair of an expression and parameters that can occur, with
    the types of the nodes the expression may stand for. *)
From Coq Require Import List Arith Bool Lia.
From Verif Require Import Base BaseFacts LexModel GrammarModel DeriveSpec DeriveProofs ShapeCheck.
Import ListNotations.

(** Which nodes may be children of which: a list of pairs of a type and the types of the nodes among its children. *)
Definition nesting : Type := list (nat * list nat).
Definition may_hold (A : nesting) (parent child : nat) : Prop := exists l, In (parent, l) A /\ In child l.

(** Leaves may be anywhere; in an error node there are only leaves; the other nodes are inside each other as [A] says, or
    are errors. *)
Inductive nested (A : nesting) : dtree -> Prop :=
| ns_leaf : forall ty, nested A (DLeaf ty)
| ns_error : forall tys, nested A (DNode ERROR (map DLeaf tys))
| ns_node : forall ty cs, ty <> ERROR -> (forall c ks, In (DNode c ks) cs -> c = ERROR \/ may_hold A ty c) -> Forall (nested A) cs ->
    nested A (DNode ty cs).

Section Nest.
  Variable A : nesting.
  Variable g : grammar.
  Variable tab : list (list (list (option nat) * list nat)).

  Fixpoint lookup (a : list (option nat)) (l : list (list (option nat) * list nat)) : option (list nat) :=
    match l with [] => None | (b, i) :: r => if args_eqb a b then Some i else lookup a r end.
  Lemma lookup_In : forall a l i, lookup a l = Some i -> In (a, i) l.
  Proof.
    induction l as [|(b & j) l IH]; intros i H; [discriminate H|]. cbn in H. destruct (args_eqb a b) eqn:E; [|right; exact (IH i H)].
    apply args_eqb_eq in E. injection H as ->. subst. left. reflexivity.
  Qed.
  Definition known (e : nat) (a : list (option nat)) : option (list nat) := match nth_error tab e with Some l => lookup a l | None => None end.
  Definition join (x y : option (list nat)) : option (list nat) := match x, y with Some a, Some b => Some (a ++ b) | _, _ => None end.
  Definition joins (l : list (option (list nat))) : option (list nat) := fold_right join (Some []) l.

  Definition may_hold_b (parent child : nat) : bool := existsb (fun x => (fst x =? parent) && listed child (snd x)) A.
  (** A node of type number [ty] around nodes of the types [x]. *)
  Definition around (ty : nat) (x : option (list nat)) : option (list nat) :=
    match nth_error (g_types g) ty, x with
    | Some t, Some l => if negb (t =? ERROR) && forallb (may_hold_b t) l then Some [t] else None
    | _, _ => None
    end.

  Definition nstep (e : nat) (a : list (option nat)) : option (list nat) :=
    match nth_error (g_rules g) e with
    | Some (EPub ty b false) => around ty (known b a)
    | Some (EOr l) | Some (EAnd l _) => joins (map (fun x => known x a) l)
    | Some (EToken _) | Some (EContextual _ _) | Some EAny | Some EEof | Some (ENot _) | Some (EIsIn _) | Some (EPrevIs _) => Some []
    | Some (EOpt b) | Some (ERep b) | Some (EWithSkip _ b) | Some (EEnter _ b) | Some (EExit _ b) | Some (ECached b) | Some (ELayer _ b) => known b a
    | Some (ECall b l) => match bound g l a with Some a' => known b a' | None => None end
    | Some (EVar i) => match nth_error a i with Some (Some x) => known x a | _ => None end
    | Some (EPratt t) =>
        joins (map (fun x => known x a) (pt_atoms t)
              ++ map (fun x => around (px_ty x) (join (known (px_op x) a) (known e a))) (pt_prefixes t)
              ++ map (fun x => around (ix_ty x) (join (known e a) (known (ix_op x) a))) (pt_infixes t))
    | _ => None
    end.
  Definition nentry_ok (e : nat) (x : list (option nat) * list nat) : bool :=
    match nstep e (fst x) with Some l => forallb (fun t => listed t (snd x)) l | None => false end.
  Fixpoint nest_ok_from (e : nat) (t : list (list (list (option nat) * list nat))) : bool :=
    match t with [] => true | l :: r => forallb (nentry_ok e) l && nest_ok_from (S e) r end.
  Definition nest_ok : bool := nest_ok_from 0 tab.

  (** What an entry says about a forest. *)
  Definition among (l : list nat) (F : list dtree) : Prop :=
    (forall c ks, In (DNode c ks) F -> c = ERROR \/ In c l) /\ Forall (nested A) F.

  Lemma among_nil : forall l, among l [].
  Proof. intros l. split; [intros c ks []|constructor]. Qed.
  Lemma among_leaf : forall l t, among l [DLeaf t].
  Proof. intros l t. split; [intros c ks [X|[]]; discriminate X|constructor; [constructor|constructor]]. Qed.
  Lemma among_app : forall l F G, among l F -> among l G -> among l (F ++ G).
  Proof.
    intros l F G (A1 & A2) (B1 & B2). split; [|apply Forall_app; auto]. intros c ks J. apply in_app_or in J. destruct J as [J|J]; [exact (A1 c ks J)|exact (B1 c ks J)].
  Qed.
  Lemma among_sub : forall l l' F, incl l l' -> among l F -> among l' F.
  Proof. intros l l' F I (A1 & A2). split; [|exact A2]. intros c ks J. destruct (A1 c ks J) as [E|E]; [left; exact E|right; exact (I c E)]. Qed.
  Lemma among_error : forall l tys, among l [DNode ERROR (map DLeaf tys)].
  Proof. intros l tys. split; [intros c ks [X|[]]; injection X as <- _; left; reflexivity|constructor; [apply ns_error|constructor]]. Qed.
  Lemma among_skipped : forall l F, skipped F -> among l F.
  Proof. intros l F [->|(tys & ->)]; [apply among_nil|apply among_error]. Qed.
  Lemma may_hold_spec : forall p c, may_hold_b p c = true -> may_hold A p c.
  Proof.
    intros p c H. unfold may_hold_b in H. apply existsb_exists in H. destruct H as ((q & l) & J & H). cbn [fst snd] in H. apply andb_true_iff in H. destruct H as (E & L).
    apply Nat.eqb_eq in E. subst q. exists l. split; [exact J|apply listed_In; exact L].
  Qed.
  Lemma around_among : forall ty t x l F, gtype g ty t -> around ty x = Some l -> (forall k, x = Some k -> among k F) -> among l [DNode t F].
  Proof.
    intros ty t x l F T W S. unfold around in W. unfold gtype in T. rewrite T in W. destruct x as [k|]; [|discriminate W].
    destruct (negb (t =? ERROR) && forallb (may_hold_b t) k) eqn:C; [|discriminate W]. injection W as <-. apply andb_true_iff in C. destruct C as (NE & C).
    apply negb_true_iff, Nat.eqb_neq in NE. destruct (S k eq_refl) as (S1 & S2). split.
    - intros c ks [X|[]]. injection X as <- _. right. left. reflexivity.
    - constructor; [|constructor]. apply ns_node; [exact NE| |exact S2]. intros c ks J. destruct (S1 c ks J) as [E|E]; [left; exact E|right].
      rewrite forallb_forall in C. apply may_hold_spec. exact (C c E).
  Qed.
  Lemma joins_In : forall xs l x k, joins xs = Some l -> In x xs -> x = Some k -> incl k l.
  Proof.
    induction xs as [|y xs IH]; intros l x k H J E; [destruct J|]. unfold joins in H. cbn [fold_right] in H. fold (joins xs) in H.
    destruct y as [y|]; [|discriminate H]. destruct (joins xs) as [r|] eqn:R; [|discriminate H]. injection H as <-.
    destruct J as [<-|J]; [injection E as ->; apply incl_appl, incl_refl|apply incl_appr; exact (IH r x k eq_refl J E)].
  Qed.
  Lemma joins_some : forall xs l x, joins xs = Some l -> In x xs -> exists k, x = Some k.
  Proof.
    induction xs as [|y xs IH]; intros l x H J; [destruct J|]. unfold joins in H. cbn [fold_right] in H. fold (joins xs) in H.
    destruct y as [y|]; [|discriminate H]. destruct (joins xs) as [r|] eqn:R; [|discriminate H]. destruct J as [<-|J]; [exists y; reflexivity|exact (IH r x eq_refl J)].
  Qed.
  Lemma joins_among : forall xs l x F, joins xs = Some l -> In x xs -> (forall k, x = Some k -> among k F) -> among l F.
  Proof.
    intros xs l x F H J S. destruct (joins_some xs l x H J) as (k & E). exact (among_sub k l F (joins_In xs l x k H J E) (S k E)).
  Qed.
  Lemma join_among : forall x y l F G, join x y = Some l -> (forall k, x = Some k -> among k F) -> (forall k, y = Some k -> among k G) -> among l (F ++ G).
  Proof.
    intros [x|] [y|] l F G E P Q; try discriminate E. injection E as <-. apply among_app.
    - exact (among_sub x _ F (incl_appl _ (incl_refl _)) (P x eq_refl)).
    - exact (among_sub y _ G (incl_appr _ (incl_refl _)) (Q y eq_refl)).
  Qed.

  Hypothesis OK : nest_ok = true.
  Lemma nest_from : forall t e k l x, nest_ok_from e t = true -> nth_error t k = Some l -> In x l -> nentry_ok (e + k) x = true.
  Proof.
    induction t as [|l0 t IH]; intros e [|k] l x T N J; cbn in N; try discriminate; cbn [nest_ok_from] in T; apply andb_true_iff in T; destruct T as (T1 & T2).
    - injection N as ->. rewrite Nat.add_0_r. rewrite forallb_forall in T1. exact (T1 x J).
    - replace (e + S k) with (S e + k) by lia. exact (IH (S e) k l x T2 N J).
  Qed.
  Lemma known_step : forall e a l, known e a = Some l -> exists k, nstep e a = Some k /\ incl k l.
  Proof.
    intros e a l H. unfold known in H. destruct (nth_error tab e) as [r|] eqn:N; [|discriminate H]. apply lookup_In in H.
    pose proof (nest_from tab 0 e r (a, l) OK N H) as E. unfold nentry_ok in E. cbn [fst snd Nat.add] in E. destruct (nstep e a) as [k|]; [|discriminate E].
    exists k. split; [reflexivity|]. intros x J. rewrite forallb_forall in E. apply listed_In. exact (E x J).
  Qed.

  Definition nholds (s : bool) (a : list (option nat)) (e : nat) (F : list dtree) : Prop := forall l, known e a = Some l -> among l F.
  Definition nseq_holds (s : bool) (a : list (option nat)) (xs : list nat) (F : list dtree) : Prop :=
    forall l, (forall x, In x xs -> exists k, known x a = Some k /\ incl k l) -> among l F.
  Definition nrep_holds (s : bool) (a : list (option nat)) (b : nat) (F : list dtree) : Prop := forall l, known b a = Some l -> among l F.
  Definition nop_holds (s : bool) (a : list (option nat)) (t : pratt_table) (F : list dtree) : Prop :=
    forall e l, grule g e (EPratt t) -> known e a = Some l -> among l F.

  Ltac nrule := match goal with G : known ?e ?a = Some ?i, R : grule g ?e _ |- _ =>
    let j := fresh "j" in let LE := fresh "LE" in let ST := fresh "ST" in
    destruct (known_step e a i G) as (j & ST & LE); apply (among_sub _ _ _ LE); unfold nstep in ST; unfold grule in R; rewrite R in ST end.
  Lemma joins_known : forall a xs l, joins (map (fun x => known x a) xs) = Some l -> forall x, In x xs -> exists k, known x a = Some k /\ incl k l.
  Proof.
    intros a xs l H x J. destruct (joins_some _ l (known x a) H (in_map (fun x => known x a) _ _ J)) as (k & E). exists k. split; [exact E|].
    exact (joins_In _ l (known x a) k H (in_map (fun x => known x a) _ _ J) E).
  Qed.
  Lemma in_firstn : forall (x : nat) n l, In x (firstn n l) -> In x l.
  Proof. intros x n l J. rewrite <- (firstn_skipn n l). apply in_or_app. left. exact J. Qed.

  Lemma nest_holds_all : forall s,
    (forall a e F, derives g s a e F -> nholds s a e F)
    /\ (forall a l F, sequence g s a l F -> nseq_holds s a l F)
    /\ (forall a b F, repeated g s a b F -> nrep_holds s a b F)
    /\ (forall a t F, operand g s a t F -> nop_holds s a t F).
  Proof.
    apply (derives_all g nholds nseq_holds nrep_holds nop_holds); unfold nholds, nseq_holds, nrep_holds, nop_holds.
    - intros s a e ty t body rp F R T _ IH l G. nrule. destruct rp; [discriminate ST|]. exact (around_among _ _ _ _ _ T ST IH).
    - intros s a e ty body ty' body' e' t F R R' T _ IH l G. nrule. discriminate ST.
    - intros s a e ty body F R _ IH l G. nrule. discriminate ST.
    - intros s a e l x F R J _ IH i G. nrule. exact (joins_among _ _ (known x a) _ ST (in_map (fun x => known x a) _ _ J) IH).
    - intros s a e l c F R _ IH i G. nrule. exact (IH _ (joins_known _ _ _ ST)).
    - intros s a e l c n F _ R _ _ _ IH i G. nrule. apply among_app; [|exact (among_error j [])]. apply IH. intros x J. exact (joins_known _ _ _ ST x (in_firstn _ _ _ J)).
    - intros s a e ty t R T i G. apply among_leaf.
    - intros s a e ty text t R T i G. apply among_leaf.
    - intros s a e t R i G. apply among_leaf.
    - intros s a e R i G. apply among_nil.
    - intros s a e b R i G. apply among_nil.
    - intros s a e c R i G. apply among_nil.
    - intros s a e l R i G. apply among_nil.
    - intros s a e b F R _ IH i G. nrule. exact (IH _ ST).
    - intros s a e b R i G. apply among_nil.
    - intros s a e b F R _ IH i G. nrule. exact (IH _ ST).
    - intros s a e f b S F R AL SK _ IH i G. nrule. apply among_app; [apply among_skipped; exact SK|exact (IH _ ST)].
    - intros s a e l b F S R _ IH AL SK i G. nrule. apply among_app; [exact (IH _ ST)|apply among_skipped; exact SK].
    - intros s a e l b H R _ _ _ i G. apply among_nil.
    - intros s a e l b tys _ R i G. apply among_error.
    - intros s a e c b F R _ IH i G. nrule. exact (IH _ ST).
    - intros s a e c b F R _ IH i G. nrule. exact (IH _ ST).
    - intros s a e b l a' F R B _ IH i G. nrule. rewrite (bound_ok _ _ _ _ B) in ST. exact (IH _ ST).
    - intros s a e k x F R B _ IH i G. nrule. rewrite B in ST. exact (IH _ ST).
    - intros s a e x y F t t' G R _ _ _ _ _ i GE. nrule. discriminate ST.
    - intros s a e x y F G R _ _ _ _ i GE. nrule. discriminate ST.
    - intros s a e b F R _ IH i G. nrule. exact (IH _ ST).
    - intros s a e t F R _ IH i G. exact (IH e i R G).
    - intros s a i _. apply among_nil.
    - intros s a x l F G _ IX _ IL i K. apply among_app.
      + destruct (K x (or_introl eq_refl)) as (k & E & I). exact (among_sub k i F I (IX k E)).
      + apply IL. intros y J. exact (K y (or_intror J)).
    - intros s a b i _. apply among_nil.
    - intros s a b F G _ IX _ IL i GB. exact (among_app _ _ _ (IX i GB) (IL i GB)).
    - intros s a t x F J _ IH e i R G. nrule. exact (joins_among _ _ (known x a) _ ST (in_or_app _ _ _ (or_introl (in_map (fun x => known x a) _ _ J))) IH).
    - intros s a t x ty F H J T _ IF _ IH e i R G. pose proof (IH e i R G) as SI. nrule.
      refine (joins_among _ _ _ _ ST (in_or_app _ _ _ (or_intror (in_or_app _ _ _ (or_introl (in_map _ _ _ J))))) _). intros k K. apply (around_among _ _ _ _ _ T K). intros m M.
      apply (join_among _ _ _ _ _ M IF). intros n N. rewrite G in N. injection N as <-. exact SI.
    - intros s a t x ty L F J RH T _ IL _ IF e i R G. pose proof (IL e i R G) as SI. nrule.
      refine (joins_among _ _ _ _ ST (in_or_app _ _ _ (or_intror (in_or_app _ _ _ (or_intror (in_map _ _ _ J))))) _). intros k K. apply (around_among _ _ _ _ _ T K). intros m M.
      refine (join_among _ _ _ _ _ M _ IF). intros n N. rewrite G in N. injection N as <-. exact SI.
    - intros s a t x ty L F H J RH T _ IL _ IF _ IH e i R G. pose proof (IL e i R G) as SI. pose proof (IH e i R G) as SH. nrule.
      refine (joins_among _ _ _ _ ST (in_or_app _ _ _ (or_intror (in_or_app _ _ _ (or_intror (in_map _ _ _ J))))) _). intros k K. apply (around_among _ _ _ _ _ T K). intros m M.
      rewrite app_assoc. apply among_app.
      + refine (join_among _ _ _ _ _ M _ IF). intros n N. rewrite G in N. injection N as <-. exact SI.
      + unfold join in M. rewrite G in M. destruct (known (ix_op x) a) as [q|]; [|discriminate M]. injection M as <-. exact (among_sub _ _ _ (incl_appl _ (incl_refl _)) SH).
    - intros s a t x ty L F _ J RH T _ IL _ IF e i R G. pose proof (IL e i R G) as SI. nrule.
      refine (joins_among _ _ _ _ ST (in_or_app _ _ _ (or_intror (in_or_app _ _ _ (or_intror (in_map _ _ _ J))))) _). intros k K. apply (around_among _ _ _ _ _ T K). intros m M.
      rewrite app_assoc. apply among_app; [|exact (among_error m [])].
      refine (join_among _ _ _ _ _ M _ IF). intros n N. rewrite G in N. injection N as <-. exact SI.
  Qed.

  (** A table that is closed and knows the start rule speaks about every tree. *)
  Lemma nest_tree : forall s d l ty body t, grule g 0 (EPub ty body false) -> gtype g ty t -> known 0 no_args = Some l -> derivation g s d ->
    nested A d /\ exists cs, d = DNode t cs.
  Proof.
    intros s d l ty body t R T G D.
    assert (NE : t <> ERROR).
    { destruct (known_step 0 no_args l G) as (k & ST & _). unfold nstep, around in ST. unfold grule in R. unfold gtype in T. rewrite R, T in ST.
      destruct (known body no_args) as [q|]; [|discriminate ST]. destruct (t =? ERROR) eqn:E; [discriminate ST|]. apply Nat.eqb_neq. exact E. }
    assert (ROOT : forall x, derives g s no_args 0 [x] -> exists cs, x = DNode t cs).
    { intros x H. inversion H; subst; try (match goal with R' : grule g 0 _ |- _ => unfold grule in R, R'; rewrite R in R'; discriminate R' end).
      match goal with R' : grule g 0 (EPub _ _ _) |- _ => unfold grule in R, R'; rewrite R in R'; injection R' as <- <- <- end.
      match goal with T' : gtype g _ _ |- _ => unfold gtype in T, T'; rewrite T in T'; injection T' as <- end. exists F. reflexivity. }
    destruct D as [x H|ty' cs tys E H]; pose proof (proj1 (nest_holds_all s) _ _ _ H l G) as (_ & B); destruct (ROOT _ H) as (ks & X).
    - subst x. inversion B; subst. split; [assumption|]. exists ks. reflexivity.
    - injection X as -> ->. inversion B as [|? ? B3 _]; subst. split; [|eexists; reflexivity]. inversion B3; subst; [contradiction NE; reflexivity|].
      apply ns_node; [assumption| |].
      + intros c l' J. apply in_app_or in J. destruct J as [J|[J|[]]]; [eauto|injection J as <- _; left; reflexivity].
      + apply Forall_app. split; [assumption|]. constructor; [apply ns_error|constructor].
  Qed.
End Nest.
