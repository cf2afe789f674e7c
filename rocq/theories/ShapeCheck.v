(** A check on grammars from which it follows what every node of an error-free tree contains.  The table it takes is a
    certificate: one entry for each pair of an expression and parameters that can occur. *)
From Coq Require Import List Arith Bool Lia.
From Verif Require Import Base BaseFacts LexModel GrammarModel DeriveSpec DeriveProofs.
Import ListNotations.

Definition dtype (t : dtree) : nat := match t with DLeaf ty => ty | DNode ty _ => ty end.
Definition dkids (t : dtree) : list dtree := match t with DLeaf _ => [] | DNode _ cs => cs end.

(** What a node must contain: of each of these sets some type, and none of [avoided]. *)
Definition listed (x : nat) (l : list nat) : bool := existsb (Nat.eqb x) l.

Record demands : Type := mkDemands {
  dm_sets : list (list nat);
  dm_needs : list (nat * nat);       (* a node type, and the number of the set it needs *)
  dm_avoided : list nat;
  dm_avoiding : nat;                 (* the node type that must avoid them *)
  dm_inner : nat; dm_outer : nat;    (* nodes of the first type are found only inside nodes of the second *)
  dm_leaf : nat }.                   (* a type of leaves only *)

Definition has (S : list nat) (F : list dtree) : Prop := exists t, In t F /\ In (dtype t) S.
Definition lacks (S : list nat) (F : list dtree) : Prop := forall t, In t F -> ~ In (dtype t) S.

Section Demands.
  Variable D : demands.
  Definition fulfils (ty : nat) (cs : list dtree) : Prop :=
    (forall k S, In (ty, k) (dm_needs D) -> nth_error (dm_sets D) k = Some S -> has S cs)
    /\ (ty = dm_avoiding D -> lacks (dm_avoided D) cs).
  (** Everywhere in a tree. *)
  Inductive fulfilled : dtree -> Prop :=
  | fu_leaf : forall ty, fulfils ty [] -> fulfilled (DLeaf ty)
  | fu_node : forall ty cs, ty <> dm_leaf D -> fulfils ty cs -> Forall fulfilled cs -> fulfilled (DNode ty cs).
  (** No inner type outside of an outer node. *)
  Inductive confined : dtree -> Prop :=
  | cf_leaf : forall ty, ty <> dm_inner D -> confined (DLeaf ty)
  | cf_outer : forall cs, confined (DNode (dm_outer D) cs)
  | cf_node : forall ty cs, ty <> dm_inner D -> Forall confined cs -> confined (DNode ty cs).

  Record info : Type := mkInfo { i_has : list bool; i_lacks : bool; i_conf : bool }.
  Definition i_empty : info := mkInfo (map (fun _ => false) (dm_sets D)) true true.
  Definition i_node (ty : nat) (conf : bool) : info := mkInfo (map (listed ty) (dm_sets D)) (negb (listed ty (dm_avoided D))) conf.
  Fixpoint zip (op : bool -> bool -> bool) (a b : list bool) : list bool :=
    match a, b with x :: a', y :: b' => op x y :: zip op a' b' | _, _ => [] end.
  Definition i_seq (a b : info) : info := mkInfo (zip orb (i_has a) (i_has b)) (i_lacks a && i_lacks b) (i_conf a && i_conf b).
  Definition i_alt (a b : info) : info := mkInfo (zip andb (i_has a) (i_has b)) (i_lacks a && i_lacks b) (i_conf a && i_conf b).
  Fixpoint leq (a b : list bool) : bool :=
    match a, b with [], _ => true | x :: a', y :: b' => implb x y && leq a' b' | x :: a', [] => negb x && leq a' [] end.
  Definition i_le (a b : info) : bool := leq (i_has a) (i_has b) && implb (i_lacks a) (i_lacks b) && implb (i_conf a) (i_conf b).
  Definition ok_node (ty : nat) (i : info) : bool :=
    forallb (fun x => negb (fst x =? ty) || nth (snd x) (i_has i) false) (dm_needs D) && (negb (ty =? dm_avoiding D) || i_lacks i).

  Definition leaf_of (ty : nat) : option info :=
    if ok_node ty i_empty then Some (i_node ty (negb (ty =? dm_inner D))) else None.
  Definition node_of (ty : nat) (i : info) : option info :=
    if ok_node ty i && negb (ty =? dm_leaf D) then Some (i_node ty ((ty =? dm_outer D) || (negb (ty =? dm_inner D) && i_conf i))) else None.

  (** [sat i F]: what the information says about a forest. *)
  Definition sat (i : info) (F : list dtree) : Prop :=
    (forall k S, nth_error (dm_sets D) k = Some S -> nth k (i_has i) false = true -> has S F)
    /\ (i_lacks i = true -> lacks (dm_avoided D) F)
    /\ (i_conf i = true -> Forall confined F)
    /\ Forall fulfilled F.

  Lemma listed_In : forall x l, listed x l = true <-> In x l.
  Proof.
    intros x l. unfold listed. rewrite existsb_exists. split; [intros (y & J & E); apply Nat.eqb_eq in E; subst; exact J|intros J; exists x; split; [exact J|apply Nat.eqb_refl]].
  Qed.
  Lemma nth_map_false : forall (l : list (list nat)) k, nth k (map (fun _ => false) l) false = false.
  Proof. induction l as [|x l IH]; intros [|k]; cbn; auto. Qed.
  Lemma sat_empty : sat i_empty [].
  Proof.
    split; [|split; [|split]]; cbn [i_empty i_has i_lacks i_conf].
    - intros k S _ X. rewrite nth_map_false in X. discriminate X.
    - intros _ t [].
    - constructor.
    - constructor.
  Qed.
  Lemma has_app_l : forall S F G, has S F -> has S (F ++ G).
  Proof. intros S F G (t & J & X). exists t. split; [apply in_or_app; auto|exact X]. Qed.
  Lemma has_app_r : forall S F G, has S G -> has S (F ++ G).
  Proof. intros S F G (t & J & X). exists t. split; [apply in_or_app; auto|exact X]. Qed.
  Lemma lacks_app : forall S F G, lacks S F -> lacks S G -> lacks S (F ++ G).
  Proof. intros S F G A B t J. apply in_app_or in J. destruct J; auto. Qed.
  Lemma nth_zip_or : forall a b k, nth k (zip orb a b) false = true -> nth k a false = true \/ nth k b false = true.
  Proof.
    induction a as [|x a IH]; intros [|y b] [|k] H; cbn in *; try discriminate; auto. destruct x; auto.
  Qed.
  Lemma nth_zip_and : forall a b k, nth k (zip andb a b) false = true -> nth k a false = true /\ nth k b false = true.
  Proof.
    induction a as [|x a IH]; intros [|y b] [|k] H; cbn in *; try discriminate; auto. apply andb_true_iff in H. exact H.
  Qed.
  Lemma sat_seq : forall a b F G, sat a F -> sat b G -> sat (i_seq a b) (F ++ G).
  Proof.
    intros a b F G (A1 & A2 & A3 & A4) (B1 & B2 & B3 & B4). split; [|split; [|split]]; cbn [i_seq i_has i_lacks i_conf].
    - intros k S N X. apply nth_zip_or in X. destruct X as [X|X]; [apply has_app_l; exact (A1 k S N X)|apply has_app_r; exact (B1 k S N X)].
    - intros X. apply andb_true_iff in X. apply lacks_app; tauto.
    - intros X. apply andb_true_iff in X. apply Forall_app. tauto.
    - apply Forall_app. tauto.
  Qed.
  Lemma sat_alt_l : forall a b F, sat a F -> sat (i_alt a b) F.
  Proof.
    intros a b F (A1 & A2 & A3 & A4). split; [|split; [|split]]; cbn [i_alt i_has i_lacks i_conf]; [| | |exact A4].
    - intros k S N X. apply nth_zip_and in X. exact (A1 k S N (proj1 X)).
    - intros X. apply andb_true_iff in X. tauto.
    - intros X. apply andb_true_iff in X. tauto.
  Qed.
  Lemma sat_alt_r : forall a b F, sat b F -> sat (i_alt a b) F.
  Proof.
    intros a b F (A1 & A2 & A3 & A4). split; [|split; [|split]]; cbn [i_alt i_has i_lacks i_conf]; [| | |exact A4].
    - intros k S N X. apply nth_zip_and in X. exact (A1 k S N (proj2 X)).
    - intros X. apply andb_true_iff in X. tauto.
    - intros X. apply andb_true_iff in X. tauto.
  Qed.
  Lemma leq_nth : forall a b k, leq a b = true -> nth k a false = true -> nth k b false = true.
  Proof.
    induction a as [|x a IH]; intros b k L N; [destruct k; discriminate N|]. destruct b as [|y b].
    - cbn [leq] in L. apply andb_true_iff in L. destruct k as [|k]; cbn in N; [subst; destruct L; discriminate|]. exfalso. specialize (IH [] k (proj2 L) N). destruct k; discriminate IH.
    - cbn [leq] in L. apply andb_true_iff in L. destruct L as (L1 & L2). destruct k as [|k]; cbn in *; [subst; exact L1|exact (IH b k L2 N)].
  Qed.
  Lemma sat_le : forall a b F, i_le a b = true -> sat b F -> sat a F.
  Proof.
    intros a b F L (B1 & B2 & B3 & B4). unfold i_le in L. rewrite !andb_true_iff in L. destruct L as ((L1 & L2) & L3). split; [|split; [|split]]; [| | |exact B4].
    - intros k S N X. exact (B1 k S N (leq_nth _ _ _ L1 X)).
    - intros X. rewrite X in L2. exact (B2 L2).
    - intros X. rewrite X in L3. exact (B3 L3).
  Qed.
  Lemma ok_fulfils : forall ty i F, ok_node ty i = true -> sat i F -> fulfils ty F.
  Proof.
    intros ty i F O (A1 & A2 & _). unfold ok_node in O. apply andb_true_iff in O. destruct O as (O1 & O2). split.
    - intros k S J N. rewrite forallb_forall in O1. specialize (O1 _ J). cbn [fst snd] in O1. rewrite Nat.eqb_refl in O1. exact (A1 k S N O1).
    - intros ->. rewrite Nat.eqb_refl in O2. exact (A2 O2).
  Qed.
  Lemma nth_map_listed : forall ty (l : list (list nat)) k S, nth_error l k = Some S -> nth k (map (listed ty) l) false = true -> In ty S.
  Proof. induction l as [|x l IH]; intros [|k] S N X; cbn in *; try discriminate; [injection N as ->; apply listed_In; exact X|exact (IH k S N X)]. Qed.
  Lemma sat_one : forall t conf, fulfilled t -> (conf = true -> confined t) -> sat (i_node (dtype t) conf) [t].
  Proof.
    intros t conf FU CF. split; [|split; [|split]]; cbn [i_node i_has i_lacks i_conf].
    - intros k S N X. exists t. split; [left; reflexivity|]. exact (nth_map_listed _ _ _ _ N X).
    - intros X u [<-|[]] J. apply listed_In in J. rewrite J in X. discriminate X.
    - intros X. constructor; [exact (CF X)|constructor].
    - constructor; [exact FU|constructor].
  Qed.
  Lemma sat_leaf : forall ty i, leaf_of ty = Some i -> sat i [DLeaf ty].
  Proof.
    intros ty i E. unfold leaf_of in E. destruct (ok_node ty i_empty) eqn:O; [|discriminate E]. injection E as <-. apply (sat_one (DLeaf ty)).
    - constructor. exact (ok_fulfils _ _ _ O sat_empty).
    - intros X. constructor. apply negb_true_iff, Nat.eqb_neq in X. exact X.
  Qed.
  Lemma sat_node : forall ty i j F, node_of ty i = Some j -> sat i F -> sat j [DNode ty F].
  Proof.
    intros ty i j F E S. unfold node_of in E. destruct (ok_node ty i) eqn:O; [|discriminate E]. destruct (ty =? dm_leaf D) eqn:NL; [discriminate E|]. injection E as <-. pose proof S as (_ & _ & S3 & S4). apply (sat_one (DNode ty F)).
    - constructor; [apply Nat.eqb_neq; exact NL|exact (ok_fulfils _ _ _ O S)|exact S4].
    - intros X. apply orb_true_iff in X. destruct X as [X|X]; [apply Nat.eqb_eq in X; subst; apply cf_outer|]. apply andb_true_iff in X. destruct X as (X1 & X2).
      apply cf_node; [apply negb_true_iff, Nat.eqb_neq in X1; exact X1|exact (S3 X2)].
  Qed.

  (** ** The check *)
  Variable g : grammar.

  (** Arguments bound by a call. *)
  Fixpoint bound (l : list (nat * nat)) (a : list (option nat)) : option (list (option nat)) :=
    match l with
    | [] => Some a
    | (i, e) :: rest =>
        match nth_error (g_rules g) e with
        | Some (EVar j) => match nth_error a j with Some (Some v) => bound rest (set_nth i (Some v) a) | _ => None end
        | Some _ => bound rest (set_nth i (Some e) a)
        | None => None
        end
    end.
  Lemma bound_ok : forall l a b, gbinds g l a b -> bound l a = Some b.
  Proof.
    induction 1 as [a|i e rest a b x R NV _ IH|i e rest a b j v R N _ IH]; [reflexivity| |]; cbn [bound]; unfold grule in R; rewrite R.
    - destruct x; try exact IH. destruct (NV i0 eq_refl).
    - rewrite N. exact IH.
  Qed.

  (** Whatever [e] stands for, there is a token in it. *)
  Fixpoint tokened (fuel e : nat) : bool :=
    match fuel with
    | 0 => false
    | S f =>
        match nth_error (g_rules g) e with
        | Some (EPub _ b _) | Some (EPubReplace _ b) | Some (EEnter _ b) | Some (EExit _ b) | Some (ECall b _) | Some (ECached b) | Some (EWithSkip _ b) => tokened f b
        | Some (EOr l) => forallb (tokened f) l
        | Some (EAnd l None) => existsb (tokened f) l
        | Some (EAnd l (Some c)) => existsb (tokened f) (firstn c l)
        | Some (EToken _) | Some (EContextual _ _) | Some EAny => true
        | None => true
        | _ => false
        end
    end.
  Lemma leafless_sequence : forall s a l F, sequence g s a l F -> Forall leafless F -> Forall (fun x => exists G, derives g s a x G /\ Forall leafless G) l.
  Proof.
    induction 1 as [s a|s a x l F G DX DL IH]; intros L; [constructor|]. apply Forall_app in L. constructor; [exists F; tauto|apply IH; tauto].
  Qed.
  Lemma tokened_ok : forall fuel e, tokened fuel e = true -> forall s a F, derives g s a e F -> ~ Forall leafless F.
  Proof.
    induction fuel as [|f IH]; intros e T s a F H L; [discriminate T|]. cbn [tokened] in T.
    assert (NL : forall t G, ~ Forall leafless (DLeaf t :: G)) by (intros t G X; inversion X as [|? ? Y _]; inversion Y).
    destruct H; try (match goal with R : grule _ _ _ |- _ => unfold grule in R; rewrite R in T end); try discriminate T.
    - inversion L as [|? ? Y _]; subst. inversion Y; subst. eapply IH; eassumption.
    - inversion L as [|? ? Y _]; subst. inversion Y; subst. eapply IH; eassumption.
    - eapply IH; eassumption.
    - rewrite forallb_forall in T. eapply IH; [apply T; eassumption|eassumption|exact L].
    - match goal with S : sequence _ _ _ _ _ |- _ => apply leafless_sequence in S; [|exact L]; rename S into Q end. rewrite Forall_forall in Q.
      assert (X : exists x, In x l /\ tokened f x = true).
      { destruct c as [c|]; apply existsb_exists in T; destruct T as (x & J & T); exists x; split; auto. rewrite <- (firstn_skipn c l). apply in_or_app. left. exact J. }
      destruct X as (x & J & TX). destruct (Q x J) as (G & DG & LG). exact (IH x TX _ _ _ DG LG).
    - apply Forall_app in L. match goal with S : sequence _ _ _ _ _ |- _ => apply leafless_sequence in S; [|exact (proj1 L)]; rename S into Q end. rewrite Forall_forall in Q.
      apply existsb_exists in T. destruct T as (x & J & TX).
      assert (J' : In x (firstn n l)).
      { replace c with (Nat.min c n) in J by lia. rewrite <- firstn_firstn in J. rewrite <- (firstn_skipn c (firstn n l)). apply in_or_app. left. exact J. }
      destruct (Q x J') as (G & DG & LG). exact (IH x TX _ _ _ DG LG).
    - exact (NL _ _ L).
    - exact (NL _ _ L).
    - exact (NL _ _ L).
    - apply Forall_app in L. eapply IH; [eassumption|eassumption|exact (proj2 L)].
    - eapply IH; eassumption.
    - eapply IH; eassumption.
    - eapply IH; eassumption.
    - eapply IH; eassumption.
  Qed.

  (** The certificate: for each expression, parameters and what is known with them. *)
  Definition table : Type := list (list (list (option nat) * info)).
  Definition opt_eqb (a b : option nat) : bool := match a, b with Some x, Some y => x =? y | None, None => true | _, _ => false end.
  Fixpoint args_eqb (a b : list (option nat)) : bool :=
    match a, b with [], [] => true | x :: a', y :: b' => opt_eqb x y && args_eqb a' b' | _, _ => false end.
  Lemma args_eqb_eq : forall a b, args_eqb a b = true -> a = b.
  Proof.
    induction a as [|x a IH]; intros [|y b] H; cbn in H; try discriminate; [reflexivity|]. apply andb_true_iff in H. destruct H as (A & B). rewrite (IH _ B). f_equal.
    destruct x, y; cbn in A; try discriminate; [apply Nat.eqb_eq in A; subst|]; reflexivity.
  Qed.
  Fixpoint assoc (a : list (option nat)) (l : list (list (option nat) * info)) : option info :=
    match l with [] => None | (b, i) :: r => if args_eqb a b then Some i else assoc a r end.
  Lemma assoc_In : forall a l i, assoc a l = Some i -> In (a, i) l.
  Proof.
    induction l as [|(b & j) l IH]; intros i H; [discriminate H|]. cbn in H. destruct (args_eqb a b) eqn:E; [|right; exact (IH i H)].
    apply args_eqb_eq in E. injection H as ->. subst. left. reflexivity.
  Qed.

  Variable tab : table.
  Definition get (e : nat) (a : list (option nat)) : option info := match nth_error tab e with Some l => assoc a l | None => None end.
  Definition both (f : info -> info -> info) (x y : option info) : option info :=
    match x, y with Some a, Some b => Some (f a b) | _, _ => None end.
  Fixpoint alts (l : list (option info)) : option info :=
    match l with [] => None | [x] => x | x :: r => both i_alt x (alts r) end.
  Fixpoint seqs (l : list (option info)) : option info :=
    match l with [] => Some i_empty | x :: r => both i_seq x (seqs r) end.
  Definition within (ty : nat) (x : option info) : option info :=
    match nth_error (g_types g) ty, x with Some t, Some i => node_of t i | _, _ => None end.

  Definition step (e : nat) (a : list (option nat)) : option info :=
    match nth_error (g_rules g) e with
    | Some (EPub ty b false) => within ty (get b a)
    | Some (EOr l) => alts (map (fun x => get x a) l)
    | Some (EAnd l _) => seqs (map (fun x => get x a) l)
    | Some (EToken ty) | Some (EContextual ty _) => match nth_error (g_types g) ty with Some t => leaf_of t | None => None end
    | Some EEof | Some (ENot _) | Some (EIsIn _) | Some (EPrevIs _) => Some i_empty
    | Some (EOpt b) | Some (ERep b) => both i_alt (Some i_empty) (get b a)
    | Some (EWithSkip _ b) | Some (EEnter _ b) | Some (EExit _ b) | Some (ECached b) => get b a
    | Some (ELayer l b) => if tokened 10 l then get b a else both i_alt (Some i_empty) (get b a)
    | Some (ECall b l) => match bound l a with Some a' => get b a' | None => None end
    | Some (EVar i) => match nth_error a i with Some (Some x) => get x a | _ => None end
    | Some (EPratt t) =>
        alts (map (fun x => get x a) (pt_atoms t)
              ++ map (fun x => within (px_ty x) (both i_seq (get (px_op x) a) (get e a))) (pt_prefixes t)
              ++ map (fun x => if ix_rhs x then within (ix_ty x) (both i_seq (get e a) (both i_seq (get (ix_op x) a) (get e a)))
                               else within (ix_ty x) (both i_seq (get e a) (get (ix_op x) a))) (pt_infixes t))
    | _ => None
    end.
  Definition entry_ok (e : nat) (x : list (option nat) * info) : bool :=
    match step e (fst x) with Some j => i_le (snd x) j | None => false end.
  Fixpoint table_ok_from (e : nat) (t : table) : bool :=
    match t with [] => true | l :: r => forallb (entry_ok e) l && table_ok_from (S e) r end.
  Definition table_ok : bool := table_ok_from 0 tab.

  Hypothesis OK : table_ok = true.
  Lemma table_from : forall t e k l x, table_ok_from e t = true -> nth_error t k = Some l -> In x l -> entry_ok (e + k) x = true.
  Proof.
    induction t as [|l0 t IH]; intros e [|k] l x T N J; cbn in N; try discriminate; cbn [table_ok_from] in T; apply andb_true_iff in T; destruct T as (T1 & T2).
    - injection N as ->. rewrite Nat.add_0_r. rewrite forallb_forall in T1. exact (T1 x J).
    - replace (e + S k) with (S e + k) by lia. exact (IH (S e) k l x T2 N J).
  Qed.
  Lemma get_step : forall e a i, get e a = Some i -> exists j, step e a = Some j /\ i_le i j = true.
  Proof.
    intros e a i H. unfold get in H. destruct (nth_error tab e) as [l|] eqn:N; [|discriminate H]. apply assoc_In in H.
    pose proof (table_from tab 0 e l (a, i) OK N H) as E. unfold entry_ok in E. cbn [fst snd Nat.add] in E. destruct (step e a) as [j|]; [exists j; auto|discriminate E].
  Qed.

  Lemma alts_sat : forall F l i x, alts l = Some i -> In x l -> (forall j, x = Some j -> sat j F) -> sat i F.
  Proof.
    intros F. induction l as [|y l IH]; intros i x H J S; [destruct J|]. cbn [alts] in H. destruct l as [|z l].
    - destruct J as [<-|[]]. exact (S i H).
    - destruct y as [y|]; [|discriminate H]. destruct (alts (z :: l)) as [r|] eqn:R; [|discriminate H]. injection H as <-.
      destruct J as [<-|J]; [apply sat_alt_l; exact (S y eq_refl)|apply sat_alt_r; exact (IH r x eq_refl J S)].
  Qed.

  Definition holds (s : bool) (a : list (option nat)) (e : nat) (F : list dtree) : Prop := s = true -> forall i, get e a = Some i -> sat i F.
  Definition seq_holds (s : bool) (a : list (option nat)) (l : list nat) (F : list dtree) : Prop :=
    s = true -> forall i, seqs (map (fun x => get x a) l) = Some i -> sat i F.
  Definition rep_holds (s : bool) (a : list (option nat)) (b : nat) (F : list dtree) : Prop :=
    s = true -> forall i, get b a = Some i -> sat (i_alt i_empty i) F.
  Definition op_holds (s : bool) (a : list (option nat)) (t : pratt_table) (F : list dtree) : Prop :=
    s = true -> forall e i, grule g e (EPratt t) -> get e a = Some i -> sat i F.

  Lemma nth_zip_false : forall (l : list (list nat)) b k, nth k (zip andb (map (fun _ => false) l) b) false = false.
  Proof. induction l as [|x l IH]; intros [|y b] [|k]; cbn; auto. Qed.
  Lemma sat_more : forall i F G, sat i F -> sat (i_alt i_empty i) G -> sat (i_alt i_empty i) (F ++ G).
  Proof.
    intros i F G (A1 & A2 & A3 & A4) (B1 & B2 & B3 & B4). split; [|split; [|split]]; cbn [i_alt i_empty i_has i_lacks i_conf andb] in *.
    - intros k S _ X. rewrite nth_zip_false in X. discriminate X.
    - intros X. apply lacks_app; auto.
    - intros X. apply Forall_app. auto.
    - apply Forall_app. auto.
  Qed.

  Lemma within_sat : forall ty t x i F, gtype g ty t -> within ty x = Some i -> (forall j, x = Some j -> sat j F) -> sat i [DNode t F].
  Proof.
    intros ty t x i F T W S. unfold within in W. unfold gtype in T. rewrite T in W. destruct x as [j|]; [|discriminate W]. exact (sat_node _ _ _ _ W (S j eq_refl)).
  Qed.
  Lemma both_seq_sat : forall x y i F G, both i_seq x y = Some i -> (forall j, x = Some j -> sat j F) -> (forall j, y = Some j -> sat j G) -> sat i (F ++ G).
  Proof. intros [x|] [y|] i F G E A B; try discriminate E. injection E as <-. apply sat_seq; auto. Qed.

  Ltac rule := match goal with G : get ?e ?a = Some ?i, R : grule g ?e _ |- _ =>
    let j := fresh "j" in let LE := fresh "LE" in let ST := fresh "ST" in
    destruct (get_step e a i G) as (j & ST & LE); apply (sat_le _ _ _ LE); unfold step in ST; unfold grule in R; rewrite R in ST end.

  Lemma table_holds_all : forall s,
    (forall a e F, derives g s a e F -> holds s a e F)
    /\ (forall a l F, sequence g s a l F -> seq_holds s a l F)
    /\ (forall a b F, repeated g s a b F -> rep_holds s a b F)
    /\ (forall a t F, operand g s a t F -> op_holds s a t F).
  Proof.
    apply (derives_all g holds seq_holds rep_holds op_holds); unfold holds, seq_holds, rep_holds, op_holds.
    - intros s a e ty t body rp F R T _ IH E i G. rule. destruct rp; [discriminate ST|]. exact (within_sat _ _ _ _ _ T ST (fun j => IH E j)).
    - intros s a e ty body ty' body' e' t F R R' T _ IH E i G. destruct (get_step e a i G) as (j & ST & LE). unfold step in ST. unfold grule in R. rewrite R in ST. discriminate ST.
    - intros s a e ty body F R _ IH E i G. rule. discriminate ST.
    - intros s a e l x F R J _ IH E i G. rule. exact (alts_sat _ _ _ (get x a) ST (in_map (fun x => get x a) _ _ J) (IH E)).
    - intros s a e l c F R _ IH E i G. rule. exact (IH E _ ST).
    - intros s a e l c n F E0 _ _ _ _ _ E. congruence.
    - intros s a e ty t R T E i G. rule. unfold gtype in T. rewrite T in ST. exact (sat_leaf _ _ ST).
    - intros s a e ty text t R T E i G. rule. unfold gtype in T. rewrite T in ST. exact (sat_leaf _ _ ST).
    - intros s a e t R E i G. rule. discriminate ST.
    - intros s a e R E i G. rule. injection ST as <-. apply sat_empty.
    - intros s a e b R E i G. rule. injection ST as <-. apply sat_empty.
    - intros s a e c R E i G. rule. injection ST as <-. apply sat_empty.
    - intros s a e l R E i G. rule. injection ST as <-. apply sat_empty.
    - intros s a e b F R _ IH E i G. rule. destruct (get b a) as [k|] eqn:GB; [|discriminate ST]. injection ST as <-. apply sat_alt_r. exact (IH E k eq_refl).
    - intros s a e b R E i G. rule. destruct (get b a) as [k|] eqn:GB; [|discriminate ST]. injection ST as <-. apply sat_alt_l. apply sat_empty.
    - intros s a e b F R _ IH E i G. rule. destruct (get b a) as [k|] eqn:GB; [|discriminate ST]. injection ST as <-. exact (IH E k eq_refl).
    - intros s a e f b S F R AL _ _ IH E i G. rewrite (AL E). cbn [app]. rule. exact (IH E _ ST).
    - intros s a e l b F S R _ IH AL _ E i G. rewrite (AL E), app_nil_r. rule. destruct (tokened 10 l); [exact (IH E _ ST)|].
      destruct (get b a) as [k|] eqn:GB; [|discriminate ST]. injection ST as <-. apply sat_alt_r. exact (IH E k eq_refl).
    - intros s a e l b H R DL _ LL E i G. rule. destruct (tokened 10 l) eqn:TK; [destruct (tokened_ok 10 l TK _ _ _ DL LL)|].
      destruct (get b a) as [k|] eqn:GB; [|discriminate ST]. injection ST as <-. apply sat_alt_l. apply sat_empty.
    - intros s a e l b tys E0 _ E. congruence.
    - intros s a e c b F R _ IH E i G. rule. exact (IH E _ ST).
    - intros s a e c b F R _ IH E i G. rule. exact (IH E _ ST).
    - intros s a e b l a' F R B _ IH E i G. rule. rewrite (bound_ok _ _ _ B) in ST. exact (IH E _ ST).
    - intros s a e k x F R B _ IH E i G. rule. rewrite B in ST. exact (IH E _ ST).
    - intros s a e x y F t t' G R _ _ _ _ _ E i GE. rule. discriminate ST.
    - intros s a e x y F G R _ _ _ _ E i GE. rule. discriminate ST.
    - intros s a e b F R _ IH E i G. rule. exact (IH E _ ST).
    - intros s a e t F R _ IH E i G. exact (IH E e i R G).
    - intros s a E i ST. injection ST as <-. apply sat_empty.
    - intros s a x l F G _ IX _ IL E i ST. cbn [map seqs] in ST. exact (both_seq_sat _ _ _ _ _ ST (IX E) (IL E)).
    - intros s a b E i G. apply sat_alt_l. apply sat_empty.
    - intros s a b F G _ IX _ IL E i GB. exact (sat_more _ _ _ (IX E i GB) (IL E i GB)).
    - intros s a t x F J _ IH E e i R G. rule. exact (alts_sat _ _ _ (get x a) ST (in_or_app _ _ _ (or_introl (in_map (fun x => get x a) _ _ J))) (IH E)).
    - intros s a t x ty F H J T _ IF _ IH E e i R G. pose proof (IH E e i R G) as SI. rule.
      refine (alts_sat _ _ _ _ ST (in_or_app _ _ _ (or_intror (in_or_app _ _ _ (or_introl (in_map _ _ _ J))))) _). intros k K. apply (within_sat _ _ _ _ _ T K). intros m M.
      apply (both_seq_sat _ _ _ _ _ M (IF E)). intros n N. rewrite G in N. injection N as <-. exact SI.
    - intros s a t x ty L F J RH T _ IL _ IF E e i R G. pose proof (IL E e i R G) as SI. rule.
      refine (alts_sat _ _ _ _ ST (in_or_app _ _ _ (or_intror (in_or_app _ _ _ (or_intror (in_map _ _ _ J))))) _). cbn beta. rewrite RH. intros k K. apply (within_sat _ _ _ _ _ T K). intros m M.
      refine (both_seq_sat _ _ _ _ _ M _ (IF E)). intros n N. rewrite G in N. injection N as <-. exact SI.
    - intros s a t x ty L F H J RH T _ IL _ IF _ IH E e i R G. pose proof (IL E e i R G) as SI. pose proof (IH E e i R G) as SH. rule.
      refine (alts_sat _ _ _ _ ST (in_or_app _ _ _ (or_intror (in_or_app _ _ _ (or_intror (in_map _ _ _ J))))) _). cbn beta. rewrite RH. intros k K. apply (within_sat _ _ _ _ _ T K). intros m M.
      refine (both_seq_sat _ _ _ _ _ M _ _). { intros n N. rewrite G in N. injection N as <-. exact SI. }
      intros m' M'. apply (both_seq_sat _ _ _ _ _ M' (IF E)). intros n N. rewrite G in N. injection N as <-. exact SH.
    - intros s a t x ty L F E0 _ _ _ _ _ _ _ E. congruence.
  Qed.

  (** A table that is closed and knows the start rule speaks about every error-free tree. *)
  Lemma table_tree : forall d i, derivation g true d -> get 0 no_args = Some i -> fulfilled d /\ (i_conf i = true -> confined d).
  Proof.
    intros d i [t H|ty cs tys E _] G; [|discriminate E]. pose proof (proj1 (table_holds_all true) _ _ _ H eq_refl i G) as (_ & _ & A & B).
    split; [inversion B; assumption|]. intros C. specialize (A C). inversion A; assumption.
  Qed.
End Demands.
